(** C66: running independent statements at the same time. *)
From Coq Require Import List Bool Arith Permutation Lia.
From Verif Require Import Par_Model Par_Spec Par_Proofs Par2_Proofs Par3_Proofs.
Import ListNotations.

Lemma good_outer scope is : good (fun x => x) Outer scope is.
Proof.
  constructor; auto.
  - intros y H. exfalso. auto.
  - intros r q _ _ H. injection H as ->. auto.
  - intros y i it H. discriminate.
Qed.

(** However the tasks are interleaved, what happens is what the original statement can do,
    up to the order of actions that do not touch what the other one writes. *)
Theorem C66_same : forall steps count scope t, plain scope t -> NoDup (ids t) -> race_free steps count t [] Outer ->
  forall tr, runs steps count (parallelize_tasks t) [] Outer tr -> exists tr0, runs steps count t [] Outer tr0 /\ same tr tr0.
Proof.
  intros st ct scope t P N R. unfold parallelize_tasks.
  pose proof (mutate_right st ct t (fun x => x) Outer scope [] (State [] [] false) P N (good_outer _ _) R) as H.
  destruct (mutate (fun x => x) t (State [] [] false)) as (t' & s'). destruct H as (H & _). exact H.
Qed.

Lemma respects_ext {V} act (tr : list action) : respects (V := V) act -> forall m m', (forall o, m o = m' o) -> forall o, perform act tr m o = perform act tr m' o.
Proof.
  intros (E & _). induction tr as [|a tr IH]; intros m m' H o; cbn [perform fold_left]; auto.
  apply IH. intros p. apply E, H.
Qed.
Lemma obj_dec (a b : object) : {a = b} + {a <> b}.
Proof. decide equality; try apply Nat.eq_dec. apply list_eq_dec, Nat.eq_dec. Defined.

Lemma independent_commute {V} act a b (m : object -> V) : respects act -> independent a b -> forall o, act b (act a m) o = act a (act b m) o.
Proof.
  intros (_ & R) (Sa & Sb & D1 & D2 & D3) o. destruct (R a Sa) as (A1 & A2), (R b Sb) as (B1 & B2).
  destruct (in_dec obj_dec o (a_writes a)) as [Ha|Ha].
  - rewrite B1 by eauto. apply A2; auto. intros p Hp. symmetry. apply B1. intros K. apply in_app_iff in Hp as [Hp|Hp]; eauto.
  - rewrite (A1 (act b m)) by auto. destruct (in_dec obj_dec o (a_writes b)) as [Hb|Hb].
    + apply B2; auto. intros p Hp. apply A1. intros K. apply in_app_iff in Hp as [Hp|Hp]; eauto.
    + rewrite !B1, A1; auto.
Qed.

Lemma same_memory {V} act tr tr' : respects (V := V) act -> same tr tr' -> forall m o, perform act tr m o = perform act tr' m o.
Proof.
  intros R. induction 1 as [l|l a b r I|a b c _ IH1 _ IH2]; intros m o; auto.
  - unfold perform. rewrite !fold_left_app. cbn [fold_left]. apply (respects_ext act r R).
    intros p. apply independent_commute; auto.
  - rewrite IH1. apply IH2.
Qed.

(** The memory after any run of the result is the memory after some run of the original; if
    nothing in the original is run at the same time, there is only one. *)
Theorem C66_memory : forall steps count scope t V (act : action -> (object -> V) -> (object -> V)),
  plain scope t -> NoDup (ids t) -> race_free steps count t [] Outer -> respects act ->
  forall tr, runs steps count (parallelize_tasks t) [] Outer tr ->
  exists tr0, runs steps count t [] Outer tr0 /\ Permutation tr tr0 /\ forall m o, perform act tr m o = perform act tr0 m o.
Proof.
  intros st ct scope t V act P N R Ra tr Rt. destruct (C66_same st ct scope t P N R tr Rt) as (tr0 & R0 & S0).
  exists tr0. split; auto. split; [apply same_perm, S0|]. apply same_memory; auto.
Qed.

(** There is a run. *)
Theorem C66_runs : forall steps count t it env, exists tr, runs steps count t it env tr.
Proof.
  intros st ct. induction t as [id ins outs|id src dst pad|id f a sem|x src b IH|id x b IH|id par b IH|ts IH|a b IHa IHb] using tree_ind';
    intros it env; cbn [runs]; eauto.
  - destruct (list_choice [] (fun k u => runs st ct b (k :: it) env u) (ct id it)) as (us & L & U).
    { intros k _. apply IH. }
    exists (concat us), us. split; auto. split; [rewrite L; auto|]. destruct par; auto. apply shuffles_concat.
  - destruct (list_choice [] (fun k u => runs st ct (nth k ts (TBlock [])) it env u) (length ts)) as (us & L & U).
    { intros k K. apply IH, K. }
    exists (concat us). apply runs_block. eauto.
  - destruct (IHa it env) as (u & U), (IHb it env) as (v & W). exists (u ++ v), u, v. split; auto. split; auto. apply shuffle_app.
Qed.

(** ** Calls that have nothing to do with each other run in any order. *)

Fixpoint nest (l : list tree) : tree :=
  match l with
  | [] => TBlock []
  | [x] => TBlock [x]
  | x :: l => TAsync x (nest l)
  end.

Lemma ready_all g done ss : (forall s, In s ss -> ~ In s done /\ consumers (g s) = [] /\ should_async (body (g s)) = true) ->
  ready ss (g, done) = ([], ss, (g, done)).
Proof.
  induction ss as [|s ss IH]; intros H; cbn [ready fst snd]; auto.
  destruct (H s) as (H1 & H2 & H3); [left; auto|]. apply mem_not in H1. rewrite H1, H2, H3, IH; auto.
  intros q Hq. apply H. right; auto.
Qed.
Lemma ready_done gd ss : (forall s, In s ss -> In s (snd gd)) -> ready ss gd = ([], [], gd).
Proof.
  induction ss as [|s ss IH]; intros H; cbn [ready]; auto.
  assert (E : mem s (snd gd) = true) by (apply mem_in, H; left; auto). rewrite E. apply IH. intros q Hq. apply H. right; auto.
Qed.
Lemma produce_body s gd i : body (fst (produce s gd) i) = body (fst gd i).
Proof. unfold produce, each. cbn [fst]. destruct (mem i _); reflexivity. Qed.
Lemma asyncs_all : forall ss bodies tasks gd, (forall i, body (fst gd i) = bodies i) ->
  exists gd', asyncs ss tasks gd = (fold_left (fun t s => TAsync (bodies s) t) ss tasks, gd') /\ (forall x, In x (snd gd') <-> In x ss \/ In x (snd gd)).
Proof.
  induction ss as [|s ss IH]; intros bodies tasks gd H; cbn [asyncs fold_left].
  - exists gd. split; auto. cbn [In]. tauto.
  - rewrite H. destruct (IH bodies (TAsync (bodies s) tasks) (produce s gd)) as (gd' & E & F).
    { intros i. rewrite produce_body. apply H. }
    exists gd'. split; auto. intros x. rewrite F, produce_done. cbn [In]. intuition congruence.
Qed.
Lemma fold_nest (f : nat -> tree) : forall k a, k > 0 ->
  nest (map f (seq a k)) = fold_left (fun t s => TAsync (f s) t) (rev (seq a (k - 1))) (TBlock [f (a + (k - 1))]).
Proof.
  induction k as [|[|k] IH]; intros a K; [lia| |].
  - cbn. rewrite Nat.add_0_r. auto.
  - specialize (IH (S a) (Nat.lt_0_succ _)). cbn [Nat.sub] in *. rewrite Nat.sub_0_r in IH.
    change (nest (map f (seq a (S (S k))))) with (TAsync (f a) (nest (map f (seq (S a) (S k))))). rewrite IH.
    cbn [seq rev]. rewrite fold_left_app. cbn [fold_left]. f_equal. replace (S a + k) with (a + S k) by lia. auto.
Qed.
Lemma schedule_free l : l <> [] -> (forall i j, ~ D l i j) -> (forall x, In x l -> should_async (s_body x) = true) ->
  schedule l = TBlock [nest (map s_body l); TBlock []].
Proof.
  intros NE NC SA. unfold schedule.
  assert (Cn : forall i, consumers (stages_of l i) = [] \/ ~ i < length l).
  { intros i. destruct (Nat.lt_ge_cases i (length l)) as [L|L]; [left|right; lia].
    destruct (consumers (stages_of l i)) as [|j r] eqn:E; auto. exfalso. apply (NC i j). apply stages_of_consumers; auto. rewrite E. left; auto. }
  assert (Fu : forall ss, (forall s, In s ss -> s < length l) ->
    fold_left (fun gd p => fuse_one p gd) ss (stages_of l, []) = (stages_of l, [])).
  { induction ss as [|s ss IH]; intros H; cbn [fold_left]; auto. unfold fuse_one at 2.
    destruct (Cn s) as [->|K]; [|exfalso; apply K, H; left; auto]. apply IH. intros q Hq. apply H. right; auto. }
  rewrite Fu by (intros s Hs; apply in_seq in Hs; lia).
  destruct l as [|x0 l0] eqn:El; [congruence|]. rewrite <- El in *. clear NE.
  assert (Ln : length l = S (length l0)) by (rewrite El; auto).
  assert (F1 : exists gd', groups (S (length l)) (length l) (stages_of l, []) (TBlock []) = groups (length l) (length l) gd' (TBlock [nest (map s_body l); TBlock []]) /\
     forall x, x < length l -> In x (snd gd')).
  { cbn [groups]. rewrite ready_all.
    2:{ intros s Hs. apply in_seq in Hs. destruct (Cn s) as [E|K]; [|lia]. split; auto. split; auto.
        rewrite stages_of_body. apply SA, nth_In. lia. }
    assert (Er : rev (seq 0 (length l)) = length l0 :: rev (seq 0 (length l0))) by (rewrite Ln, seq_S, rev_app_distr; auto).
    rewrite Er. assert (Es : seq 0 (length l) = 0 :: seq 1 (length l0)) by (rewrite Ln; auto). rewrite Es.
    unfold group. cbn [app fst]. rewrite stages_of_body.
    destruct (asyncs_all (rev (seq 0 (length l0))) (fun i => s_body (nth i l no_stage)) (TBlock [s_body (nth (length l0) l no_stage)]) (produce (length l0) (stages_of l, []))) as (gd' & E & F).
    { intros i. rewrite produce_body. apply stages_of_body. }
    exists gd'. split.
    - refine (eq_trans (f_equal (fun p : tree * (stages * list nat) => let '(tasks, gd) := p in groups (length l) (length l) gd (TBlock [tasks; TBlock []])) E) _).
      cbv beta iota. f_equal. f_equal. f_equal.
      replace (map s_body l) with (map (fun i => s_body (nth i l no_stage)) (seq 0 (length l))).
      + rewrite fold_nest by lia. rewrite Ln. cbn [Nat.sub]. rewrite Nat.sub_0_r. reflexivity.
      + clear. induction l as [|y l IH]; cbn [length seq map nth]; auto. f_equal. rewrite <- seq_shift, map_map. exact IH.
    - intros x Hx. apply F. rewrite <- in_rev, in_seq, produce_done. lia. }
  destruct F1 as (gd' & -> & Dn). rewrite Ln. cbn [groups]. rewrite ready_done; auto.
  intros s Hs. apply in_seq in Hs. apply Dn. lia.
Qed.

Definition call := (nat * list sym * list sym)%type.
Definition call_tree (c : call) : tree := TCall (fst (fst c)) (snd (fst c)) (snd c).
Definition call_steps steps (c : call) : list action :=
  leaf steps (fst (fst c)) [] (map Outer (snd (fst c))) (map Outer (snd c)) false.
Definition unrelated (c d : call) : Prop :=
  forall s, (In s (snd c) -> ~ In s (snd (fst d)) /\ ~ In s (snd d)) /\ (In s (snd (fst c)) -> ~ In s (snd d)).

Definition call_stage (c : call) : tree * list sym * list sym := (call_tree c, adds (snd (fst c)) [], adds (snd c) []).
Lemma stage_list_calls (cs : list call) : stage_list (fun x => x) (map call_tree cs) false =
  (map call_stage cs, false).
Proof.
  induction cs as [|[[i a] b] cs IH]; cbn [map stage_list]; auto.
  cbn [call_tree fst snd mutate]. rewrite !map_id. cbn [st_consumed st_produced st_barrier]. rewrite IH. reflexivity.
Qed.

Lemma nest_runs steps count : forall cs tr, shuffles (map (call_steps steps) cs) tr -> runs steps count (nest (map call_tree cs)) [] Outer tr.
Proof.
  induction cs as [|c [|d cs] IH]; intros tr.
  - auto.
  - cbn [map shuffles nest]. intros (b & -> & Sh). apply shuffle_nil_r in Sh. subst.
    exists (call_steps steps c), []. split; [reflexivity|]. split; [reflexivity|]. rewrite app_nil_r. auto.
  - intros (b & Sb & Sh). exists (call_steps steps c), b. split; [reflexivity|]. split; auto.
Qed.

(** Calls of which none writes what another one uses can be interleaved in any way. *)
Theorem C66_at_once : forall steps count calls,
  (forall i j c d, i < j -> nth_error calls i = Some c -> nth_error calls j = Some d -> unrelated c d) ->
  forall tr, shuffles (map (call_steps steps) calls) tr ->
  runs steps count (parallelize_tasks (TBlock (map call_tree calls))) [] Outer tr.
Proof.
  intros steps count calls U tr Sh. destruct calls as [|c0 cs0] eqn:Ec.
  { cbn in Sh. subst. reflexivity. }
  rewrite <- Ec in *. assert (NE : calls <> []) by (rewrite Ec; discriminate).
  unfold parallelize_tasks. rewrite mutate_block. cbn [st_barrier]. rewrite stage_list_calls. cbn [fst].
  rewrite schedule_free.
  - rewrite map_map. change (map (fun x => s_body (call_stage x)) calls) with (map call_tree calls).
    exists tr, []. split; [apply nest_runs, Sh|]. split; [|rewrite app_nil_r; auto].
    exists [], []. repeat split.
  - destruct calls; [congruence|discriminate].
  - intros i j (Lt & L & s & H). rewrite map_length in L.
    assert (N : forall k, k < length calls -> exists c, nth_error calls k = Some c /\
       nth k (map call_stage calls) no_stage = call_stage c).
    { intros k K. destruct (nth_error calls k) as [c|] eqn:E.
      - exists c. split; auto. apply nth_error_nth. rewrite nth_error_map, E. auto.
      - apply nth_error_None in E. lia. }
    destruct (N i) as (c & C1 & C2); [lia|]. destruct (N j) as (d & D1 & D2); auto. rewrite C2, D2 in H.
    unfold s_prod, s_cons, call_stage in H. cbn [fst snd] in H. rewrite !in_adds in H. cbn [In] in H.
    destruct (U i j c d Lt C1 D1 s) as (U1 & U2). tauto.
  - intros x Hx. apply in_map_iff in Hx as (c & <- & _). auto.
Qed.

(** ** Examples *)

(** Two calls for an allocation that is made in a loop, a copy of it, a check *)
Definition c66_tree : tree :=
  TAlloc 0 10 (TBlock [
    TCheck 1 [0] [] false;
    TLoop 2 true (TAlias 11 10 (TCall 3 [0] [11]));
    TCall 4 [1] [2];
    TCall 5 [10; 2] [3];
    TCopy 6 10 4 None]).
Definition c66_steps (id : nat) (it : list nat) : nat := 1.
Definition c66_count (id : nat) (it : list nat) : nat := 1.

Lemma C66_ex :
  plain [0; 1; 2; 3; 4] c66_tree /\ NoDup (ids c66_tree) /\ race_free c66_steps c66_count c66_tree [] Outer /\
  parallelize_tasks c66_tree =
    TAlloc 0 10 (TBlock [
      TAsync (TBlock [TCheck 1 [0] [] false; TLoop 2 true (TAlias 11 10 (TCall 3 [0] [11]))])
             (TBlock [TCall 4 [1] [2]]);
      TBlock [TAsync (TCall 5 [10; 2] [3]) (TBlock [TCopy 6 10 4 None]); TBlock []]]).
Proof.
  split; [|split; [|split]].
  - cbn. repeat split; try (intuition congruence); intros x Hx; cbn in *; intuition.
  - cbn. repeat constructor; cbn; intuition congruence.
  - cbn. repeat split; auto; intros; unfold c66_count in *; lia.
  - vm_compute. reflexivity.
Qed.

(** ** Findings *)

Lemma act_dec (a b : action) : {a = b} + {a <> b}.
Proof. decide equality; try apply Bool.bool_dec; try apply Nat.eq_dec; apply list_eq_dec; try apply Nat.eq_dec; apply obj_dec. Defined.
Definition one_of (a b x : action) : bool := if act_dec x a then true else if act_dec x b then true else false.
Lemma same_order a b tr tr0 : ~ independent a b -> same tr tr0 -> filter (one_of a b) tr = filter (one_of a b) tr0.
Proof.
  intros N. induction 1 as [l|l x y r I|p q r _ IH1 _ IH2]; auto; [|congruence].
  rewrite !filter_app. f_equal. cbn [filter]. unfold one_of.
  assert (N' : ~ independent b a) by (intros K; apply N, independent_sym, K).
  destruct (act_dec x a), (act_dec y a), (act_dec x b), (act_dec y b); subst; auto; contradiction.
Qed.

(** The pass does not see that a copy reads its padding: the call that computes it and the copy
    run at the same time. *)
Definition c66_pad : tree := TBlock [TCall 0 [1] [2]; TCopy 1 3 4 (Some 2)].
Theorem C66_pad_refuted :
  NoDup (ids c66_pad) /\
  exists tr, runs c66_steps c66_count (parallelize_tasks c66_pad) [] Outer tr /\
  forall tr0, runs c66_steps c66_count c66_pad [] Outer tr0 -> ~ same tr tr0.
Proof.
  split; [repeat constructor; cbn; intuition congruence|].
  set (a := Action 0 [] 0 [Outer 1] [Outer 2] false). set (b := Action 1 [] 0 [Outer 3; Outer 2] [Outer 4] false).
  exists [b; a]. split.
  - exists [b; a], []. split; [|split; [exists [], []; repeat split|auto]].
    exists [a], [b]. split; [reflexivity|]. split.
    + exists [b], []. repeat split.
    + repeat constructor.
  - intros tr0 (x & y & -> & (z & w & -> & -> & ->) & ->) S0.
    assert (N : ~ independent a b) by (intros (_ & _ & K & _); apply (K (Outer 2)); cbn; auto).
    apply (same_order a b _ _ N) in S0. vm_compute in S0. discriminate.
Qed.

(** An allocation of a symbol that a view of another buffer is an alias of hides what the view
    is used for: here it is run at the same time as the call that computes the buffer. *)
Definition c66_shadow : tree :=
  TBlock [TCall 0 [1] [2]; TAlias 5 2 (TAlloc 1 2 (TCall 2 [5] [3]))].
Theorem C66_shadow_refuted :
  NoDup (ids c66_shadow) /\
  exists tr, runs c66_steps c66_count (parallelize_tasks c66_shadow) [] Outer tr /\
  forall tr0, runs c66_steps c66_count c66_shadow [] Outer tr0 -> ~ same tr tr0.
Proof.
  split; [repeat constructor; cbn; intuition congruence|].
  set (a := Action 0 [] 0 [Outer 1] [Outer 2] false). set (b := Action 2 [] 0 [Outer 2] [Outer 3] false).
  exists [b; a]. split.
  - exists [b; a], []. split; [|split; [exists [], []; repeat split|auto]].
    exists [a], [b]. split; [reflexivity|]. split.
    + exists [b], []. repeat split.
    + repeat constructor.
  - intros tr0 (x & y & -> & (z & w & -> & -> & ->) & ->) S0.
    assert (N : ~ independent a b) by (intros (_ & _ & K & _); apply (K (Outer 2)); cbn; auto).
    apply (same_order a b _ _ N) in S0. vm_compute in S0. discriminate.
Qed.

(** A block forgets what was seen before it in the same statement: with an async in it already,
    the call that uses what the async's task computes is run at the same time. *)
Definition c66_async : tree :=
  TBlock [TAsync (TCall 0 [1] [2]) (TBlock [TCall 1 [5] [6]]); TCall 2 [2] [3]].
Theorem C66_async_refuted :
  NoDup (ids c66_async) /\
  exists tr, runs c66_steps c66_count (parallelize_tasks c66_async) [] Outer tr /\
  forall tr0, runs c66_steps c66_count c66_async [] Outer tr0 -> ~ same tr tr0.
Proof.
  split; [repeat constructor; cbn; intuition congruence|].
  set (a := Action 0 [] 0 [Outer 1] [Outer 2] false). set (b := Action 2 [] 0 [Outer 2] [Outer 3] false).
  set (c := Action 1 [] 0 [Outer 5] [Outer 6] false).
  exists [b; a; c]. split.
  - exists [b; a; c], []. split; [|split; [exists [], []; repeat split|auto]].
    exists [a; c], [b]. split; [|split].
    + exists [a], [c]. split; [reflexivity|]. split; [|repeat constructor].
      exists [c], []. split; [|split; [exists [], []; repeat split|auto]].
      exists [c], []. repeat split.
    + exists [b], []. repeat split.
    + repeat constructor.
  - intros tr0 (x & y & (ta & tb & -> & (u & v & -> & -> & ->) & Sh) & (z & w & -> & -> & ->) & ->) S0.
    assert (N : ~ independent a b) by (intros (_ & _ & K & _); apply (K (Outer 2)); cbn; auto).
    apply (same_order a b _ _ N) in S0. rewrite filter_app in S0.
    apply (shuffle_filter (one_of a b)) in Sh.
    assert (E : filter (one_of a b) x = [a]).
    { revert Sh. vm_compute. intros Sh. inversion Sh as [|? ? ? ? K|]; subst. inversion K; auto. }
    rewrite E in S0. vm_compute in S0. discriminate.
Qed.
