(** C33, C35, C36, C39 over Base_Model.v. *)
From Coq Require Import ZArith List String Bool Lia Sorting.Sorted Arith.
From Verif Require Import Base_Model Base_Proofs.
Import ListNotations.
Open Scope Z_scope.

(** * C39: the intersection test on sorted sets is disjointness. *)
Theorem C39_empty_intersection : forall a b : list Z,
  StronglySorted Z.lt a -> StronglySorted Z.lt b ->
  (empty_intersection a b = true <-> forall x, In x a -> In x b -> False).
Proof. exact empty_intersection_spec. Qed.
Print Assumptions C39_empty_intersection.
Example C39_example :
  StronglySorted Z.lt [1; 4; 9] /\ StronglySorted Z.lt [2; 4] /\
  empty_intersection [1; 4; 9] [2; 4] = false /\ empty_intersection [1; 4; 9] [2; 5; 10] = true.
Proof. repeat split; repeat constructor; lia. Qed.

(** * C35: symbols.  [nc_run os] is the context after any history of insertions. *)
(** insert_unique returns an id and a name that nothing had before, keeps every
    older symbol, and the new name is the prefix, possibly followed by #number. *)
Theorem C35_insert_unique_fresh : forall os prefix c' v,
  nc_insert_unique (nc_run os) prefix = (c', v) ->
  exists name,
    nc_name c' (Some v) = name /\ nc_lookup c' name = Some v /\
    (name = prefix \/ exists i, name = (prefix ++ "#" ++ to_string i)%string) /\
    nc_lookup (nc_run os) name = None /\
    (forall n, nc_lookup (nc_run os) n <> Some v) /\
    (forall n w, nc_lookup (nc_run os) n = Some w -> nc_lookup c' n = Some w /\ nc_name c' (Some w) = n).
Proof.
  intros os prefix c' v H. pose proof (nc_run_ok os) as OK. set (c := nc_run os) in *.
  unfold nc_insert_unique in H. destruct (unique_fresh c prefix OK) as (j & E & L).
  rewrite E in H. unfold nc_insert in H. rewrite L in H. injection H as <- <-.
  assert (nc_ok (fst (nc_insert c (cand prefix j)))) as OK' by (apply nc_insert_ok; exact OK).
  unfold nc_insert in OK'. rewrite L in OK'. cbn [fst] in OK'.
  set (c' := {| sym_to_name := _; name_to_sym := _ |}) in *.
  assert (nth_error (sym_to_name c') (List.length (sym_to_name c)) = Some (cand prefix j)) as NE.
  { cbn. rewrite nth_error_app2, Nat.sub_diag by lia. reflexivity. }
  exists (cand prefix j). split. { cbn [nc_name]. rewrite NE. reflexivity. }
  split. { apply (ok_find _ OK'). exact NE. }
  split. { destruct j as [|i]; cbn [cand]; eauto. }
  split. { exact L. }
  split.
  { intros n Hn. apply (ok_find _ OK) in Hn.
    assert (List.length (sym_to_name c) < List.length (sym_to_name c))%nat by (apply nth_error_Some; congruence). lia. }
  intros n w Hw. apply (ok_find _ OK) in Hw.
  assert (nth_error (sym_to_name c') w = Some n) as Hw'.
  { cbn. rewrite nth_error_app1; [exact Hw|]. apply nth_error_Some. congruence. }
  split; [apply (ok_find _ OK'); exact Hw'|]. cbn [nc_name]. rewrite Hw'. reflexivity.
Qed.
Print Assumptions C35_insert_unique_fresh.

(** insert returns the existing symbol of a known name and a new one otherwise;
    afterwards lookup and name are inverse to each other on every symbol. *)
Theorem C35_insert_lookup_name : forall os n c' v,
  nc_insert (nc_run os) n = (c', v) ->
  nc_lookup c' n = Some v /\ nc_name c' (Some v) = n /\
  (forall w, nc_lookup (nc_run os) n = Some w -> c' = nc_run os /\ v = w) /\
  (nc_lookup (nc_run os) n = None -> forall m, nc_lookup (nc_run os) m <> Some v) /\
  (forall m w, nc_lookup (nc_run os) m = Some w -> nc_lookup c' m = Some w) /\
  (forall m m' w, nc_lookup c' m = Some w -> nc_lookup c' m' = Some w -> m = m') /\
  (forall m w, nc_lookup c' m = Some w -> nc_name c' (Some w) = m).
Proof.
  intros os n c' v H. pose proof (nc_run_ok os) as OK. set (c := nc_run os) in *.
  pose proof (nc_insert_ok c n OK) as OK'. rewrite H in OK'. cbn [fst] in OK'.
  assert (forall m w, nc_lookup c' m = Some w -> nc_name c' (Some w) = m) as NL.
  { intros m w L. apply (ok_find _ OK') in L. cbn [nc_name]. rewrite L. reflexivity. }
  assert (nc_lookup c' n = Some v) as L.
  { unfold nc_insert in H. destruct (nc_lookup c n) as [w|] eqn:E; injection H as <- <-; [exact E|].
    unfold nc_lookup. cbn. rewrite String.eqb_refl. reflexivity. }
  split; [exact L|]. split; [exact (NL _ _ L)|].
  split. { intros w E. unfold nc_insert in H. rewrite E in H. injection H as <- <-. auto. }
  split.
  { intros E m Hm. unfold nc_insert in H. rewrite E in H. injection H as <- <-.
    apply (ok_find _ OK) in Hm.
    assert (List.length (sym_to_name c) < List.length (sym_to_name c))%nat by (apply nth_error_Some; congruence). lia. }
  split.
  { intros m w E. unfold nc_insert in H. destruct (nc_lookup c n) as [x|] eqn:En; injection H as <- <-; [exact E|].
    unfold nc_lookup. cbn [name_to_sym find_name]. destruct (String.eqb_spec n m) as [->|]; [congruence|exact E]. }
  split; [|exact NL].
  intros m m' w A B. rewrite <- (NL _ _ A), <- (NL _ _ B). reflexivity.
Qed.
Print Assumptions C35_insert_lookup_name.
Example C35_example :
  let c := nc_run [NInsert "x"; NUnique "x"; NInsert "x#1"; NUnique "x"] in
  sym_to_name c = ["x"; "x#0"; "x#1"; "x#2"]%string /\
  nc_name (fst (nc_insert_unique c "x")) (Some 4%nat) = "x#3"%string.
Proof. split; vm_compute; reflexivity. Qed.

(** * C36: a symbol_map is an environment, and a scope shadows for its lifetime.
    The specification: environments are functions. *)
Section C36.
  Variable T : Type.
  Definition env := nat -> option T.
  Definition bind_env (e : env) (id : nat) (v : option T) : env := fun q => if (q =? id)%nat then v else e q.
  Fixpoint spec_prog (p : prog T) (e : env) : env * list (obs T) :=
    match p with
    | PLookup id => (e, [OValue (e id)])
    | PContains id => (e, [OBool (match e id with Some _ => true | None => false end)])
    | PSet id v => (bind_env e id v, [])
    | PErase id => (bind_env e id None, [])
    | PScope id v body =>
        let '(e2, o) :=
          (fix go (ps : list (prog T)) (e : env) : env * list (obs T) :=
             match ps with
             | [] => (e, [])
             | q :: ps' => let '(e', o) := spec_prog q e in
                           let '(e'', o') := go ps' e' in (e'', o ++ o')
             end) body (bind_env e id v) in
        (bind_env e2 id (e id), o)
    end.
  Fixpoint spec_progs (ps : list (prog T)) (e : env) : env * list (obs T) :=
    match ps with
    | [] => (e, [])
    | q :: ps' => let '(e', o) := spec_prog q e in
                  let '(e'', o') := spec_progs ps' e' in (e'', o ++ o')
    end.

  Definition rel (m : symbol_map T) (e : env) : Prop := forall q, sm_lookup m q = e q.

  Fixpoint psize (p : prog T) : nat :=
    match p with PScope _ _ body => S (list_sum (map psize body)) | _ => 1%nat end.

  Lemma rel_put_grow : forall m e id v, rel m e -> rel (sm_put (sm_grow m id) id v) (bind_env e id v).
  Proof.
    intros m e id v R q. rewrite sm_put_lookup by apply sm_grow_length. unfold bind_env.
    destruct (q =? id)%nat; [reflexivity|]. rewrite sm_grow_lookup. apply R.
  Qed.

  Definition good (p : prog T) : Prop := forall m e, rel m e ->
    snd (run_prog p m) = snd (spec_prog p e) /\
    (forall q, sm_lookup (fst (run_prog p m)) q = fst (spec_prog p e) q) /\
    (List.length m <= List.length (fst (run_prog p m)))%nat.

  Lemma progs_good : forall ps, Forall good ps -> forall m e, rel m e ->
    snd (run_progs ps m) = snd (spec_progs ps e) /\
    (forall q, sm_lookup (fst (run_progs ps m)) q = fst (spec_progs ps e) q) /\
    (List.length m <= List.length (fst (run_progs ps m)))%nat.
  Proof.
    induction 1 as [|p ps G F IH]; intros m e R; cbn [run_progs spec_progs].
    - split; [reflexivity|]. split; [exact R|]. cbn. lia.
    - destruct (G m e R) as (E1 & L1 & S1).
      destruct (run_prog p m) as [m1 o1], (spec_prog p e) as [e1 o1']. cbn [fst snd] in *. subst o1'.
      destruct (IH m1 e1 L1) as (E2 & L2 & S2).
      destruct (run_progs ps m1) as [m2 o2], (spec_progs ps e1) as [e2 o2']. cbn [fst snd] in *. subst o2'.
      split; [reflexivity|]. split; [exact L2|]. lia.
  Qed.

  Lemma run_scope : forall id v body (m : symbol_map T),
    run_prog (PScope id v body) m =
    (let '(m2, o) := run_progs body (sm_put (sm_grow m id) id v) in
     (sm_put m2 id (sm_lookup (sm_grow m id) id), o)).
  Proof.
    intros. cbn [run_prog scope_enter scope_exit].
    match goal with |- (let '(a, b) := ?f body ?m0 in _) = _ =>
      assert (forall ps m, f ps m = run_progs ps m) as E end.
    { induction ps as [|q ps IH]; intros m0; cbn [run_progs]; [reflexivity|].
      destruct (run_prog q m0) as [m1 o1]. rewrite IH. reflexivity. }
    rewrite E. reflexivity.
  Qed.
  Lemma spec_scope : forall id v body (e : env),
    spec_prog (PScope id v body) e =
    (let '(e2, o) := spec_progs body (bind_env e id v) in (bind_env e2 id (e id), o)).
  Proof.
    intros. cbn [spec_prog].
    match goal with |- (let '(a, b) := ?f body ?e0 in _) = _ =>
      assert (forall ps e, f ps e = spec_progs ps e) as E end.
    { induction ps as [|q ps IH]; intros e0; cbn [spec_progs]; [reflexivity|].
      destruct (spec_prog q e0) as [e1 o1]. rewrite IH. reflexivity. }
    rewrite E. reflexivity.
  Qed.

  Lemma all_good : forall k p, (psize p <= k)%nat -> good p.
  Proof.
    induction k as [|k IH]; intros p S; [destruct p; cbn in S; lia|].
    destruct p as [id|id|id v|id|id v body]; intros m e R.
    - cbn. rewrite (R id). auto.
    - cbn. unfold sm_contains. rewrite (R id). auto.
    - cbn. split; [reflexivity|]. split; [apply rel_put_grow; exact R|]. unfold sm_set.
      rewrite sm_put_length. apply sm_grow_length.
    - cbn. split; [reflexivity|]. unfold sm_erase. destruct (Nat.ltb_spec id (List.length m)) as [L|L].
      + split; [|rewrite sm_put_length; lia]. intros q. rewrite sm_put_lookup by exact L. unfold bind_env.
        destruct (q =? id)%nat; [reflexivity|apply R].
      + split; [|lia]. intros q. unfold bind_env. destruct (Nat.eqb_spec q id) as [->|]; [|apply R].
        unfold sm_lookup. rewrite (proj2 (nth_error_None m id)) by lia. reflexivity.
    - rewrite run_scope, spec_scope.
      assert (Forall good body) as F.
      { cbn [psize] in S. apply Forall_forall. intros q Iq. apply IH.
        assert (psize q <= list_sum (map psize body))%nat; [|lia].
        clear - Iq. induction body as [|b body IHb]; [destruct Iq|].
        change (list_sum (map psize (b :: body))) with (psize b + list_sum (map psize body))%nat.
        destruct Iq as [->|Iq]; [lia|]. specialize (IHb Iq). lia. }
      destruct (progs_good body F _ _ (rel_put_grow m e id v R)) as (E2 & L2 & S2).
      rewrite sm_put_length in S2. destruct (sm_grow_length T m id) as [G1 G2].
      destruct (run_progs body _) as [m2 o2], (spec_progs body _) as [e2 o2']. cbn [fst snd] in *. subst o2'.
      split; [reflexivity|]. split; [|rewrite sm_put_length; lia].
      intros q. rewrite sm_put_lookup by lia. unfold bind_env. destruct (q =? id)%nat; [|apply L2].
      rewrite sm_grow_lookup. apply R.
  Qed.

  (** Every client of an initially empty map, with scopes nested in any way,
      observes exactly what it would observe with functional environments, in
      which leaving a scope restores the value (or absence) from before. *)
  Lemma c36 : forall ps,
    snd (run_progs ps []) = snd (spec_progs ps (fun _ => None)) /\
    (forall q, sm_lookup (fst (run_progs ps [])) q = fst (spec_progs ps (fun _ => None)) q).
  Proof.
    intros ps. assert (Forall good ps) as F
      by (apply Forall_forall; intros p _; apply (all_good (psize p)); lia).
    assert (rel [] (fun _ => None)) as R by (intros [|q]; reflexivity).
    destruct (progs_good ps F [] _ R) as (A & B & _). auto.
  Qed.
End C36.
Theorem C36_scopes_refine_environments : forall (T : Type) (ps : list (prog T)),
  snd (run_progs ps []) = snd (spec_progs T ps (fun _ => None)) /\
  (forall q, sm_lookup (fst (run_progs ps [])) q = fst (spec_progs T ps (fun _ => None)) q).
Proof. exact c36. Qed.
Print Assumptions C36_scopes_refine_environments.

(** The same, said directly: from any map, a scope's body sees the new value, and
    when the scope ends its symbol is back to what it was whatever the body did;
    the other symbols keep what the body left. *)
Theorem C36_scope_restores : forall (T : Type) (m : symbol_map T) id v body,
  sm_lookup (fst (scope_enter m id v)) id = v /\
  (forall q, q <> id -> sm_lookup (fst (scope_enter m id v)) q = sm_lookup m q) /\
  sm_lookup (fst (run_prog (PScope id v body) m)) id = sm_lookup m id /\
  (forall q, q <> id ->
     sm_lookup (fst (run_prog (PScope id v body) m)) q =
     sm_lookup (fst (run_progs body (fst (scope_enter m id v)))) q).
Proof.
  intros T m id v body. cbn [scope_enter fst].
  assert (Forall (good T) body) as F
    by (apply Forall_forall; intros p _; apply (all_good T (psize T p)); lia).
  destruct (sm_grow_length T m id) as [G1 G2].
  assert (rel T m (fun q => sm_lookup m q)) as R by (intros q; reflexivity).
  destruct (progs_good T body F _ _ (rel_put_grow T m _ id v R)) as (_ & _ & S2).
  rewrite sm_put_length in S2.
  split. { rewrite sm_put_lookup, Nat.eqb_refl by exact G1. reflexivity. }
  split. { intros q N. rewrite sm_put_lookup by exact G1. destruct (Nat.eqb_spec q id); [contradiction|].
           apply sm_grow_lookup. }
  rewrite run_scope. destruct (run_progs body _) as [m2 o2]. cbn [fst snd] in *. split.
  - rewrite sm_put_lookup, Nat.eqb_refl by lia. apply sm_grow_lookup.
  - intros q N. rewrite sm_put_lookup by lia. destruct (Nat.eqb_spec q id); [contradiction|reflexivity].
Qed.
Print Assumptions C36_scope_restores.
Example C36_example :
  snd (run_progs [PSet 3 (Some 7); PScope 3 (Some 8) [PLookup 3; PScope 5 None [PSet 3 None; PLookup 3]; PSet 1 (Some 2)];
                  PLookup 3; PLookup 1; PContains 5] [])
  = [OValue (Some 8); OValue None; OValue (Some 7); OValue (Some 2); OBool false].
Proof. reflexivity. Qed.

(** * C33: semaphores *)
(** What an operation may name: counts are not negative; a wait names each
    semaphore once. *)
Definition sem_ok (o : sem_op) : Prop :=
  match o with
  | SInit _ c => 0 <= c
  | SSignal l => forall p c, In (p, c) l -> 0 <= c
  | SWait l => (forall p c, In (p, c) l -> 0 <= c) /\ NoDup (map fst l)
  end.

(** A wait takes all its permits or none, and takes them exactly when all are there. *)
Theorem C33_wait_all_or_nothing : forall m l m' ok,
  NoDup (map fst l) -> sem_step m (SWait l) = (m', ok) ->
  (ok = true <-> forall p c, In (p, c) l -> c <= m p) /\
  (ok = true -> forall p c, In (p, c) l -> m' p = m p - c) /\
  (ok = true -> forall p, ~ In p (map fst l) -> m' p = m p) /\
  (ok = false -> m' = m).
Proof.
  intros m l m' ok ND H. cbn in H. pose proof (can_acquire_spec l m) as C.
  destruct (can_acquire m l); injection H as <- <-.
  - split; [exact C|]. split; [|split; [|discriminate]].
    + intros _ p c I. rewrite acquire_all_spec, (total_distinct l ND p c I). reflexivity.
    + intros _ p N. rewrite acquire_all_spec, total_absent by exact N. lia.
  - split; [exact C|]. split; [discriminate|]. split; [discriminate|]. reflexivity.
Qed.
Print Assumptions C33_wait_all_or_nothing.

(** No count ever becomes negative, in any interleaving. *)
Lemma c33_nonneg : forall os m, Forall sem_ok os -> (forall p, 0 <= m p) -> forall p, 0 <= fst (sem_run m os) p.
Proof.
  induction os as [|o os IH]; intros m F N p; cbn [sem_run]; [exact (N p)|].
  inversion F as [|? ? O F']; subst.
  destruct (sem_step m o) as [m1 b] eqn:S.
  assert (forall p, 0 <= m1 p) as N1.
  { intros q. destruct o as [r c|l|l]; cbn in S, O.
    - injection S as <- <-. unfold store. destruct (q =? r); [exact O|apply N].
    - injection S as <- <-. rewrite signal_all_spec. pose proof (total_nonneg l q O). specialize (N q). lia.
    - destruct O as [O ND]. destruct (can_acquire m l) eqn:C; injection S as <- <-; [|apply N].
      rewrite acquire_all_spec. destruct (in_dec Z.eq_dec q (map fst l)) as [I|I].
      + apply in_map_iff in I. destruct I as ((q', c) & E & I). cbn in E. subst q'.
        rewrite (total_distinct l ND q c I). apply can_acquire_spec with (p := q) (c := c) in C; [lia|exact I].
      + rewrite (total_absent l q I). specialize (N q). lia. }
  specialize (IH m1 F' N1 p). destruct (sem_run m1 os). exact IH.
Qed.
Theorem C33_never_negative : forall os m, Forall sem_ok os -> (forall p, 0 <= m p) ->
  forall p, 0 <= fst (sem_run m os) p.
Proof. exact c33_nonneg. Qed.
Print Assumptions C33_never_negative.

(** Permits are conserved: the count of a semaphore that is not re-initialised is
    what it was, plus everything signalled, minus what successful waits took. *)
Fixpoint signalled (p : Z) (os : list sem_op) : Z :=
  match os with [] => 0 | SSignal l :: os' => total p l + signalled p os' | _ :: os' => signalled p os' end.
Fixpoint acquired (p : Z) (os : list sem_op) (oks : list bool) : Z :=
  match os, oks with
  | SWait l :: os', true :: oks' => total p l + acquired p os' oks'
  | _ :: os', _ :: oks' => acquired p os' oks'
  | _, _ => 0
  end.
Lemma c33_conserved : forall os m m' oks p,
  (forall c, ~ In (SInit p c) os) -> sem_run m os = (m', oks) ->
  m' p = m p + signalled p os - acquired p os oks.
Proof.
  induction os as [|o os IH]; intros m m' oks p NI H; cbn [sem_run] in H.
  { injection H as <- <-. cbn. lia. }
  destruct (sem_step m o) as [m1 b] eqn:S. destruct (sem_run m1 os) as [m2 bs] eqn:R. injection H as <- <-.
  assert (forall c, ~ In (SInit p c) os) as NI' by (intros c I; apply (NI c); right; exact I).
  rewrite (IH m1 m2 bs p NI' R). destruct o as [q c|l|l]; cbn in S; cbn [signalled acquired].
  - injection S as <- <-. rewrite store_other; [lia|]. intros ->. apply (NI c). left. reflexivity.
  - injection S as <- <-. rewrite signal_all_spec. lia.
  - destruct (can_acquire m l); injection S as <- <-; [rewrite acquire_all_spec|]; lia.
Qed.
Theorem C33_permits_conserved : forall os m m' oks p,
  (forall c, ~ In (SInit p c) os) -> sem_run m os = (m', oks) ->
  m' p = m p + signalled p os - acquired p os oks.
Proof. exact c33_conserved. Qed.
Print Assumptions C33_permits_conserved.

(** Naming one semaphore twice in a wait drives it negative. *)
Theorem C33_duplicate_semaphore_refuted :
  exists m l, (forall p, 0 <= m p) /\ (forall p c, In (p, c) l -> 0 <= c) /\
    snd (sem_step m (SWait l)) = true /\ fst (sem_step m (SWait l)) 0 < 0.
Proof.
  exists (fun _ => 1), [(0, 1); (0, 1)]. split; [lia|]. split; [|vm_compute; auto].
  intros p c [[= <- <-]|[[= <- <-]|[]]]; lia.
Qed.
Print Assumptions C33_duplicate_semaphore_refuted.

Example C33_example :
  let os := [SInit 8 0; SInit 16 2; SWait [(8, 1); (16, 2)]; SSignal [(8, 1)]; SWait [(8, 1); (16, 2)]; SSignal [(16, 5)]] in
  Forall sem_ok os /\ snd (sem_run (fun _ => 0) os) = [true; true; false; true; true; true] /\
  fst (sem_run (fun _ => 0) os) 8 = 0 /\ fst (sem_run (fun _ => 0) os) 16 = 5.
Proof.
  cbn zeta. split; [|vm_compute; auto].
  assert (NoDup (map fst [(8, 1); (16, 2)])) by (repeat constructor; cbn; intuition lia).
  repeat constructor; cbn; intuition (try match goal with H : (_, _) = (_, _) |- _ => injection H as <- <- end; lia).
Qed.
