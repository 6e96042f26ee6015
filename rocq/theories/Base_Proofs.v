(** Proofs about the small pieces of Base_Model.v. *)
From Coq Require Import ZArith List String DecimalString DecimalNat Bool Lia Sorting.Sorted Arith FinFun.
From Verif Require Import Base_Model.
Import ListNotations.
Open Scope Z_scope.

(** ** Sets *)
Lemma sorted_tail_gt : forall x l, StronglySorted Z.lt (x :: l) -> forall y, In y l -> x < y.
Proof.
  intros x l S y I. apply StronglySorted_inv in S. destruct S as [_ F].
  rewrite Forall_forall in F. exact (F y I).
Qed.
Lemma sorted_tail : forall x l, StronglySorted Z.lt (x :: l) -> StronglySorted Z.lt l.
Proof. intros x l S. apply StronglySorted_inv in S. tauto. Qed.

Lemma empty_intersection_spec : forall a b,
  StronglySorted Z.lt a -> StronglySorted Z.lt b ->
  (empty_intersection a b = true <-> forall x, In x a -> In x b -> False).
Proof.
  induction a as [|x a IHa]; intros b Sa Sb.
  { destruct b; cbn; split; auto. }
  induction b as [|y b IHb].
  { cbn. split; auto. }
  cbn [empty_intersection].
  destruct (x =? y) eqn:E1; [|destruct (x <? y) eqn:E2].
  - apply Z.eqb_eq in E1. subst y. split; [discriminate|]. intros H. exfalso. apply (H x); left; reflexivity.
  - apply Z.eqb_neq in E1. apply Z.ltb_lt in E2.
    rewrite (IHa (y :: b) (sorted_tail _ _ Sa) Sb). split.
    + intros H z [<-|Iz] Ib; [|exact (H z Iz Ib)].
      destruct Ib as [->|Ib]; [congruence|]. pose proof (sorted_tail_gt _ _ Sb _ Ib). lia.
    + intros H z Iz Ib. apply (H z); [right; exact Iz|exact Ib].
  - apply Z.eqb_neq in E1. apply Z.ltb_ge in E2.
    change ((fix inner (b : list Z) : bool := match b with [] => true | y :: b' => if x =? y then false else if x <? y then empty_intersection a b else inner b' end) b) with (empty_intersection (x :: a) b).
    rewrite (IHb (sorted_tail _ _ Sb)). split.
    + intros H z Iz [<-|Ib]; [|exact (H z Iz Ib)].
      destruct Iz as [->|Iz]; [congruence|]. pose proof (sorted_tail_gt _ _ Sa _ Iz). lia.
    + intros H z Iz Ib. apply (H z); [exact Iz|right; exact Ib].
Qed.

(** ** node_context *)
Record nc_ok (c : node_context) : Prop := {
  ok_nodup : NoDup (sym_to_name c);
  ok_find : forall n v, nc_lookup c n = Some v <-> nth_error (sym_to_name c) v = Some n
}.

Lemma nc_empty_ok : nc_ok nc_empty.
Proof.
  constructor; [constructor|]. intros n v. cbn. split; [discriminate|]. destruct v; discriminate.
Qed.

Lemma nth_error_snoc_str : forall (l : list string) x i,
  nth_error (l ++ [x]) i = if (i <? List.length l)%nat then nth_error l i
                           else if (i =? List.length l)%nat then Some x else None.
Proof.
  intros l x i. destruct (Nat.ltb_spec i (List.length l)).
  - apply nth_error_app1; auto.
  - rewrite nth_error_app2 by lia. destruct (Nat.eqb_spec i (List.length l)).
    + subst. rewrite Nat.sub_diag. reflexivity.
    + destruct (i - List.length l)%nat as [|k] eqn:E; [lia|]. cbn. destruct k; reflexivity.
Qed.

Lemma nc_none_notin : forall c n, nc_ok c -> nc_lookup c n = None -> ~ In n (sym_to_name c).
Proof.
  intros c n OK L I. apply In_nth_error in I. destruct I as [v Hv].
  apply (ok_find _ OK) in Hv. congruence.
Qed.

Lemma nc_insert_ok : forall c n, nc_ok c -> nc_ok (fst (nc_insert c n)).
Proof.
  intros c n OK. unfold nc_insert. destruct (nc_lookup c n) as [v|] eqn:L; [exact OK|].
  cbn [fst]. pose proof (nc_none_notin _ _ OK L) as NI. constructor; cbn [sym_to_name].
  - pose proof (NoDup_rev (ok_nodup _ OK)) as ND. rewrite <- (rev_involutive (sym_to_name c ++ [n])).
    apply NoDup_rev. rewrite rev_app_distr. cbn. constructor; [|exact ND].
    rewrite <- in_rev. exact NI.
  - intros m v. unfold nc_lookup. cbn [name_to_sym find_name].
    rewrite nth_error_snoc_str. destruct (String.eqb_spec n m) as [->|NE].
    + split.
      * intros [= <-]. rewrite Nat.ltb_irrefl, Nat.eqb_refl. reflexivity.
      * destruct (Nat.ltb_spec v (List.length (sym_to_name c))) as [Hv|Hv].
        -- intros H. apply nth_error_In in H. contradiction.
        -- destruct (Nat.eqb_spec v (List.length (sym_to_name c))); [subst; reflexivity|discriminate].
    + fold (nc_lookup c m). rewrite (ok_find _ OK). split.
      * intros H. assert (v < List.length (sym_to_name c))%nat by (apply nth_error_Some; congruence).
        destruct (Nat.ltb_spec v (List.length (sym_to_name c))); [exact H|lia].
      * destruct (Nat.ltb_spec v (List.length (sym_to_name c))); [auto|].
        destruct (Nat.eqb_spec v (List.length (sym_to_name c))); [intros [= <-]; congruence|discriminate].
Qed.

Inductive nc_op := NInsert (n : string) | NUnique (p : string).
Definition nc_do (c : node_context) (o : nc_op) : node_context :=
  match o with NInsert n => fst (nc_insert c n) | NUnique p => fst (nc_insert_unique c p) end.
Definition nc_run (os : list nc_op) : node_context := fold_left nc_do os nc_empty.

Lemma nc_do_ok : forall c o, nc_ok c -> nc_ok (nc_do c o).
Proof. intros c [n|p] OK; cbn; apply nc_insert_ok; exact OK. Qed.
Lemma nc_run_ok : forall os, nc_ok (nc_run os).
Proof.
  intros os. unfold nc_run. generalize nc_empty_ok. generalize nc_empty.
  induction os as [|o os IH]; cbn; intros c OK; [exact OK|]. apply IH. apply nc_do_ok. exact OK.
Qed.

Lemma to_string_inj : forall i j, to_string i = to_string j -> i = j.
Proof.
  intros i j H. unfold to_string in H.
  assert (Some (Nat.to_uint i) = Some (Nat.to_uint j)) as E
    by (rewrite <- (NilEmpty.usu (Nat.to_uint i)), <- (NilEmpty.usu (Nat.to_uint j)), H; reflexivity).
  injection E as E. rewrite <- (Unsigned.of_to i), <- (Unsigned.of_to j), E. reflexivity.
Qed.

Lemma str_app_inj : forall p a b : string, (p ++ a)%string = (p ++ b)%string -> a = b.
Proof. induction p as [|ch p IH]; cbn; intros a b H; [exact H|]. injection H as H. apply IH. exact H. Qed.
Lemma str_app_nil_neq : forall (p : string) ch (s : string), p <> (p ++ String ch s)%string.
Proof. induction p as [|c p IH]; cbn; intros ch s H; [discriminate|]. injection H as H. exact (IH _ _ H). Qed.

Definition cand (p : string) (k : nat) : string :=
  match k with O => p | S i => (p ++ "#" ++ to_string i)%string end.
Lemma cand_inj : forall p i j, cand p i = cand p j -> i = j.
Proof.
  intros p [|i] [|j]; cbn [cand]; intros H; auto.
  - exfalso. exact (str_app_nil_neq _ _ _ H).
  - exfalso. exact (str_app_nil_neq _ _ _ (eq_sym H)).
  - apply str_app_inj in H. cbn in H. injection H as H. f_equal. apply to_string_inj. exact H.
Qed.

(** The loop stops at a candidate; if it runs to the end all earlier candidates
    are taken. *)
Lemma unique_loop_spec : forall c p k i,
  exists j, (i <= j <= i + k)%nat /\
    unique_loop c p k i (cand p i) = cand p j /\
    ((j < i + k)%nat -> nc_lookup c (cand p j) = None) /\
    (forall q, (i <= q < j)%nat -> nc_lookup c (cand p q) <> None).
Proof.
  intros c p k. induction k as [|k IH]; intros i; cbn [unique_loop].
  - exists i. repeat split; auto; try lia. 
  - destruct (nc_lookup c (cand p i)) as [v|] eqn:L.
    + destruct (IH (S i)) as (j & B & E & N & A). exists j. split; [lia|]. split; [exact E|]. split.
      * intros ?. apply N. lia.
      * intros q Hq. destruct (Nat.eq_dec q i) as [->|]; [congruence|]. apply A. lia.
    + exists i. repeat split; auto; try lia.
Qed.

Lemma unique_fresh : forall c p, nc_ok c ->
  exists j, unique_loop c p (List.length (sym_to_name c)) 0 p = cand p j /\ nc_lookup c (cand p j) = None.
Proof.
  intros c p OK. destruct (unique_loop_spec c p (List.length (sym_to_name c)) 0) as (j & B & E & N & A).
  cbn [cand] in E. exists j. split; [exact E|].
  destruct (Nat.eq_dec j (0 + List.length (sym_to_name c))) as [J|J]; [|apply N; lia].
  (* the loop was exhausted: the first j candidates are all the names there are *)
  destruct (nc_lookup c (cand p j)) as [v|] eqn:L; [exfalso|reflexivity].
  assert (NoDup (map (cand p) (seq 0 (S j)))) as ND.
  { apply Injective_map_NoDup; [intros a b; apply cand_inj|apply seq_NoDup]. }
  assert (incl (map (cand p) (seq 0 (S j))) (sym_to_name c)) as IN.
  { intros n Hn. apply in_map_iff in Hn. destruct Hn as (q & <- & Hq). apply in_seq in Hq.
    destruct (nc_lookup c (cand p q)) as [w|] eqn:Lw.
    - apply (ok_find _ OK) in Lw. exact (nth_error_In _ _ Lw).
    - exfalso. destruct (Nat.eq_dec q j) as [->|]; [congruence|]. apply (A q); [lia|exact Lw]. }
  pose proof (NoDup_incl_length ND IN) as LE. rewrite map_length, seq_length in LE. lia.
Qed.

(** ** symbol_map *)
Section SM.
  Variable T : Type.
  Implicit Types m : symbol_map T.

  Lemma sm_grow_length : forall m id, (id < List.length (sm_grow m id))%nat /\ (List.length m <= List.length (sm_grow m id))%nat.
  Proof.
    intros m id. unfold sm_grow. destruct (Nat.leb_spec (List.length m) id); [|lia].
    rewrite app_length, repeat_length. lia.
  Qed.
  Lemma nth_error_repeat_none : forall k i, match nth_error (repeat (@None T) k) i with Some v => v | None => None end = None.
  Proof. induction k as [|k IH]; intros [|i]; cbn; auto. Qed.
  Lemma sm_grow_lookup : forall m id q, sm_lookup (sm_grow m id) q = sm_lookup m q.
  Proof.
    intros m id q. unfold sm_grow, sm_lookup. destruct (Nat.leb_spec (List.length m) id); [|reflexivity].
    destruct (Nat.ltb_spec q (List.length m)).
    - rewrite nth_error_app1 by auto. reflexivity.
    - rewrite nth_error_app2 by lia. rewrite nth_error_repeat_none.
      rewrite (proj2 (nth_error_None m q)) by lia. reflexivity.
  Qed.
  Lemma sm_put_length : forall m id v, List.length (sm_put m id v) = List.length m.
  Proof. induction m as [|x m IH]; intros [|id] v; cbn; auto. Qed.
  Lemma sm_put_lookup : forall m id v q, (id < List.length m)%nat ->
    sm_lookup (sm_put m id v) q = if (q =? id)%nat then v else sm_lookup m q.
  Proof.
    induction m as [|x m IH]; intros id v q L; [cbn in L; lia|].
    destruct id as [|id], q as [|q]; cbn in *; auto. apply IH. lia.
  Qed.
  Lemma sm_put_out : forall m id v, (List.length m <= id)%nat -> sm_put m id v = m.
  Proof. induction m as [|x m IH]; intros [|id] v L; cbn in *; auto; [lia|]. rewrite IH by lia. reflexivity. Qed.
End SM.

(** ** Semaphores *)
Lemma store_same : forall m p v, store m p v p = v.
Proof. intros. unfold store. rewrite Z.eqb_refl. reflexivity. Qed.
Lemma store_other : forall m p v q, q <> p -> store m p v q = m q.
Proof. intros. unfold store. destruct (Z.eqb_spec q p); [contradiction|reflexivity]. Qed.

(** Sum of the counts listed for semaphore [p]. *)
Fixpoint total (p : Z) (l : list (Z * Z)) : Z :=
  match l with [] => 0 | (q, c) :: l' => (if p =? q then c else 0) + total p l' end.

Lemma signal_all_spec : forall l m p, signal_all m l p = m p + total p l.
Proof.
  induction l as [|(q, c) l IH]; intros m p; cbn [signal_all total]; [lia|].
  rewrite IH. unfold store. destruct (p =? q) eqn:E; [apply Z.eqb_eq in E; subst|]; lia.
Qed.
Lemma acquire_all_spec : forall l m p, acquire_all m l p = m p - total p l.
Proof.
  induction l as [|(q, c) l IH]; intros m p; cbn [acquire_all total]; [lia|].
  rewrite IH. unfold store. destruct (p =? q) eqn:E; [apply Z.eqb_eq in E; subst|]; lia.
Qed.
Lemma can_acquire_spec : forall l m, can_acquire m l = true <-> (forall p c, In (p, c) l -> c <= m p).
Proof.
  induction l as [|(q, c) l IH]; intros m; cbn [can_acquire].
  - split; auto. intros _ p c [].
  - destruct (m q <? c) eqn:E.
    + apply Z.ltb_lt in E. split; [discriminate|]. intros H. specialize (H q c (or_introl eq_refl)). lia.
    + apply Z.ltb_ge in E. rewrite IH. split.
      * intros H p c' [[= <- <-]|I]; [lia|exact (H p c' I)].
      * intros H p c' I. apply H. right. exact I.
Qed.
Lemma total_distinct : forall l, NoDup (map fst l) -> forall p c, In (p, c) l -> total p l = c.
Proof.
  assert (forall l p, ~ In p (map fst l) -> total p l = 0) as Z0.
  { induction l as [|(q, d) l IH]; intros p N; cbn in *; [reflexivity|].
    destruct (Z.eqb_spec p q); [subst; tauto|]. rewrite IH by tauto. lia. }
  induction l as [|(q, d) l IH]; intros ND p c I; [destruct I|].
  cbn [map fst] in ND. inversion ND as [|? ? N1 N2]; subst. cbn [total].
  destruct I as [[= -> ->]|I].
  - rewrite Z.eqb_refl, (Z0 l p N1). lia.
  - destruct (Z.eqb_spec p q) as [->|].
    + exfalso. apply N1. apply (in_map fst) in I. exact I.
    + rewrite (IH N2 p c I). lia.
Qed.
Lemma total_absent : forall l p, ~ In p (map fst l) -> total p l = 0.
Proof.
  induction l as [|(q, d) l IH]; intros p N; cbn in *; [reflexivity|].
  destruct (Z.eqb_spec p q); [subst; tauto|]. rewrite IH by tauto. lia.
Qed.
Lemma total_nonneg : forall l p, (forall q c, In (q, c) l -> 0 <= c) -> 0 <= total p l.
Proof.
  induction l as [|(q, d) l IH]; intros p H; cbn; [lia|].
  assert (0 <= total p l) by (apply IH; intros q' c' I; apply (H q' c'); right; exact I).
  specialize (H q d (or_introl eq_refl)). destruct (p =? q); lia.
Qed.
