(** C34: reference counting. *)
From Coq Require Import ZArith List Bool Arith Lia.
From Verif Require Import RefCount_Model RefCount_Spec RefCount_Proofs.
Import ListNotations.

Lemma reach_inv : forall n l st, run (init n) l = Next st -> Inv None st.
Proof.
  intros n l st H. destruct (run_inv l (init n) (init_inv n)) as [E|(st' & E & I)]; [congruence|].
  assert (st' = st) by congruence. subst. exact I.
Qed.
Lemma refers_value : forall st h o, refers st h o <-> value st h = Some o.
Proof.
  intros st h o. unfold refers, value. split; [intros (x & -> & E); exact E|].
  destruct (nth_error (slots st) h) as [x|]; [eauto | discriminate].
Qed.
Lemma nslots_refers : forall st o, 1 <= nslots st o <-> exists h, refers st h o.
Proof.
  intros st o. split.
  - intros H. apply count_pos in H. destruct H as (x & I & Hx). apply In_nth_error in I. destruct I as (h & E). exists h, x. split; [exact E | apply has_true; exact Hx].
  - intros (h & H). apply refers_value in H. apply (nslots_has _ _ _ H).
Qed.
Lemma nraw_in : forall st o, 1 <= nraw st o <-> In o (raw st).
Proof.
  intros st o. split.
  - intros H. apply count_pos in H. destruct H as (x & I & Hx). apply Nat.eqb_eq in Hx. subst. exact I.
  - intros I. eapply count_in; [exact I | apply Nat.eqb_refl].
Qed.
Lemma pending_counts : forall st o, pending st o <-> 1 <= nadd st o + nrel st o.
Proof.
  intros st o. split.
  - intros (stk & m & I1 & I2 & M). assert (In m (pend st)) as J by (apply in_concat; eauto).
    destruct M as [->|(h & g & ->)].
    + pose proof (count_in _ (is_rel o) _ _ J (Nat.eqb_refl o)). unfold nrel. lia.
    + pose proof (count_in _ (is_add o) _ _ J (Nat.eqb_refl o)). unfold nadd. lia.
  - intros H. destruct (Nat.eq_dec (nrel st o) 0) as [Z|Z].
    + destruct (count_pos _ (is_add o) (pend st)) as (m & J & Hm); [unfold nadd in *; lia|]. apply in_concat in J. destruct J as (stk & J1 & J2).
      exists stk, m. split; [exact J1|]. split; [exact J2|]. right. destruct m; cbn [is_add] in Hm; try discriminate. apply Nat.eqb_eq in Hm. subst. eauto.
    + destruct (count_pos _ (is_rel o) (pend st)) as (m & J & Hm); [unfold nrel in *; lia|]. apply in_concat in J. destruct J as (stk & J1 & J2).
      exists stk, m. split; [exact J1|]. split; [exact J2|]. left. destruct m; cbn [is_rel] in Hm; try discriminate. apply Nat.eqb_eq in Hm. subst. reflexivity.
Qed.
Lemma quiescent_pend : forall st, quiescent st -> pend st = [].
Proof. intros st Q. unfold pend. induction Q as [|stk l E Q IH]; [reflexivity|]. cbn [concat]. rewrite E, IH. reflexivity. Qed.

(** No schedule of handle operations on any number of threads makes an access to a
    reference count of an object that was destroyed. *)
Theorem C34_no_access_after_destruction : forall n l, run (init n) l <> Fault.
Proof. intros n l H. destruct (run_inv l (init n) (init_inv n)) as [E|(st' & E & I)]; congruence. Qed.

(** A handle never refers to an object that was destroyed, at any moment. *)
Theorem C34_handles_are_valid : forall n l st h o,
  run (init n) l = Next st -> refers st h o -> made st o /\ ~ In o (destroyed st).
Proof.
  intros n l st h o R V. pose proof (reach_inv _ _ _ R) as I. apply refers_value in V. split; [apply (i_bound_slot _ _ I h o V)|].
  intros D. apply (i_destroyed _ _ I) in D. destruct D as (p & P & N). destruct (i_dead _ _ I o p P N) as (Z & _).
  pose proof (nslots_has _ _ _ V). lia.
Qed.

(** No object is destroyed twice. *)
Theorem C34_destroyed_once : forall n l st, run (init n) l = Next st -> NoDup (destroyed st).
Proof. intros n l st R. apply (i_once _ _ (reach_inv _ _ _ R)). Qed.

(** At every moment an object has been destroyed if and only if there is no reference to
    it: no handle, no value taken out of a handle, no call about to add or drop one. *)
Theorem C34_destroyed_exactly : forall n l st o, run (init n) l = Next st -> made st o ->
  (In o (destroyed st) <-> (forall h, ~ refers st h o) /\ ~ In o (raw st) /\ ~ pending st o).
Proof.
  intros n l st o R M. pose proof (reach_inv _ _ _ R) as I.
  rewrite <- nraw_in, pending_counts. split.
  - intros D. apply (i_destroyed _ _ I) in D. destruct D as (p & P & N). destruct (i_dead _ _ I o p P N) as (Z1 & Z2 & Z3 & Z4).
    split; [intros h H; assert (1 <= nslots st o) by (apply nslots_refers; eauto); lia | lia].
  - intros (H1 & H2 & H3). apply (i_destroyed _ _ I). apply nth_error_Some in M.
    destruct (nth_error (objects st) o) as [[c p]|] eqn:E; [|congruence].
    assert (phase_of st o = Some p) as P by (unfold phase_of; rewrite E; reflexivity).
    assert (count_of st o = Some c) as C by (unfold count_of; rewrite E; reflexivity).
    exists p. split; [exact P|]. intros ->. pose proof (i_count _ _ I o c C) as Ec.
    assert (nslots st o = 0) as Z.
    { destruct (nslots st o) eqn:Z; [reflexivity|]. exfalso. destruct (proj1 (nslots_refers st o)) as (h & H); [lia|]. exact (H1 h H). }
    destruct (i_live _ _ I o c C P ltac:(discriminate)) as [G|(h & J)]; [lia|].
    pose proof (count_in _ (is_add o) _ _ J (Nat.eqb_refl o)). unfold nadd in *. lia.
Qed.

(** When no call is in progress, an object has been destroyed if and only if no handle
    refers to it. *)
Corollary C34_destroyed_iff_unreferenced : forall n l st o,
  run (init n) l = Next st -> quiescent st -> made st o ->
  (In o (destroyed st) <-> (forall h, ~ refers st h o) /\ ~ In o (raw st)).
Proof.
  intros n l st o R Q M. rewrite (C34_destroyed_exactly n l st o R M). split; [tauto|]. intros (A & B). split; [exact A|]. split; [exact B|].
  rewrite pending_counts. unfold nadd, nrel. rewrite (quiescent_pend st Q). cbn. lia.
Qed.

(** The members of an object that has been destroyed no longer refer to anything. *)
Theorem C34_members_dropped : forall n l st o h x, run (init n) l = Next st -> quiescent st -> In o (destroyed st) ->
  nth_error (slots st) h = Some x -> s_owner x = Some o -> s_value x = None.
Proof.
  intros n l st o h x R Q D E W. pose proof (reach_inv _ _ _ R) as I. apply (i_destroyed _ _ I) in D. destruct D as (p & P & N).
  pose proof (i_free _ _ I o p P) as F. unfold nfree in F. rewrite (quiescent_pend st Q), count_nil in F. destruct p; [congruence | discriminate F|].
  assert (owner_of st h = Some o) as Ow by (unfold owner_of; rewrite E; exact W).
  pose proof (i_freed _ _ I h o Ow P) as V. unfold value in V. rewrite E in V. exact V.
Qed.

(** What the operations do to the handles. *)
Lemma assign_value : forall st t h v g s, h < length (slots st) ->
  value (assign st t h v g) s = if s =? h then v else value st s.
Proof.
  intros st t h v g s L. unfold assign. destruct (eq_value (value st h) v) eqn:E.
  - apply eq_value_true in E. destruct (Nat.eqb_spec s h); [subst; reflexivity | reflexivity].
  - change (value (set_thread (set_value st h v) t _) s) with (value (set_value st h v) s). apply value_set. exact L.
Qed.
Theorem C34_assign : forall st t h g st', step st t (OAssign h g) = Next st' ->
  value st' h = value st g /\ (forall s, s <> h -> value st' s = value st s).
Proof.
  intros st t h g st' H. unfold step in H. destruct (nth_error (threads st) t) as [[|]|]; try discriminate.
  destruct (can_write st h) eqn:CW; cbn [andb] in H; [|discriminate]. destruct (can_read st g); [|discriminate]. injection H as <-.
  destruct (can_write_inv _ _ CW) as (L & _). split; [|intros s N]; rewrite assign_value by exact L.
  - rewrite Nat.eqb_refl. reflexivity.
  - apply Nat.eqb_neq in N. rewrite N. reflexivity.
Qed.
Theorem C34_move : forall st t h g st', step st t (OMove h g) = Next st' -> h <> g ->
  value st' h = value st g /\ value st' g = None /\ (forall s, s <> h -> s <> g -> value st' s = value st s).
Proof.
  intros st t h g st' H N. unfold step in H. destruct (nth_error (threads st) t) as [[|]|]; try discriminate.
  destruct (can_write st h) eqn:CW; cbn [andb] in H; [|discriminate]. destruct (can_write st g) eqn:CG; [|discriminate].
  cbv zeta in H. injection H as <-.
  destruct (can_write_inv _ _ CW) as (L & _). destruct (can_write_inv _ _ CG) as (Lg & _).
  destruct (set_value_same st h (value st g)) as (_ & _ & _ & _ & S5).
  destruct (set_value_same (set_value st h (value st g)) g (value st h)) as (_ & _ & _ & _ & S6).
  assert (forall s, value (assign (set_value (set_value st h (value st g)) g (value st h)) t g None None) s
                    = if s =? g then None else if s =? h then value st g else value st s) as V.
  { intros s. rewrite assign_value by (rewrite S6, S5; exact Lg). destruct (s =? g) eqn:E; [reflexivity|].
    rewrite value_set, E, value_set by (rewrite ?S5; auto). reflexivity. }
  rewrite !V, !Nat.eqb_refl. apply Nat.eqb_neq in N. rewrite N. split; [reflexivity|]. split; [reflexivity|].
  intros s N1 N2. rewrite V. apply Nat.eqb_neq in N1. apply Nat.eqb_neq in N2. rewrite N1, N2. reflexivity.
Qed.

(** ** One thread: every call completes *)
Definition head_adds (stk : list micro) : Prop := Forall (fun m => match m with MAdd _ _ _ => False | _ => True end) (tl stk).
Definition weight (st : state) (stk : list micro) : nat :=
  fold_right (fun m w => w + match m with MDrop _ => 2 | _ => 1 end) 0 stk +
  fold_right (fun o w => w + match phase_of st o with Some Alive => 2 * length (members st o) + 2 | _ => 0 end) 0 (seq 0 (length (objects st))).

Lemma weight_sum : forall (f g : nat -> nat) l o, (forall x, x <> o -> g x = f x) -> NoDup l -> In o l ->
  fold_right (fun x w => w + g x) 0 l + f o = fold_right (fun x w => w + f x) 0 l + g o.
Proof.
  intros f g l o E N I. induction l as [|x l IH]; [contradiction I|]. cbn [fold_right]. inversion N; subst.
  destruct I as [->|I].
  - assert (fold_right (fun x w => w + g x) 0 l = fold_right (fun x w => w + f x) 0 l) as ->; [|lia].
    clear IH N H2. induction l as [|y l IH]; [reflexivity|]. cbn [fold_right]. rewrite IH by (intros Q; apply H1; right; exact Q). rewrite E; [reflexivity|].
    intros ->. apply H1. left; reflexivity.
  - rewrite (E x) by (intros ->; contradiction). specialize (IH H2 I). lia.
Qed.
Lemma weight_ext : forall (f g : nat -> nat) l, (forall x, g x = f x) -> fold_right (fun x w => w + g x) 0 l = fold_right (fun x w => w + f x) 0 l.
Proof. intros f g l E. induction l as [|y l IH]; [reflexivity|]. cbn [fold_right]. rewrite IH, E. reflexivity. Qed.
Lemma weight_app : forall (f : micro -> nat) l l', fold_right (fun m w => w + f m) 0 (l ++ l') = fold_right (fun m w => w + f m) 0 l + fold_right (fun m w => w + f m) 0 l'.
Proof. induction l; intros; cbn [app fold_right]; [lia | rewrite IHl; lia]. Qed.

Lemma members_ext : forall st st' o, slots st' = slots st -> members st' o = members st o.
Proof. intros. unfold members. rewrite H. reflexivity. Qed.
Lemma members_owner : forall st o, members st o = filter (fun s => match owner_of st s with Some o' => o' =? o | None => false end) (seq 0 (length (slots st))).
Proof. intros. unfold members. apply filter_ext. intros s. unfold owner_of. destruct (nth_error (slots st) s); reflexivity. Qed.

(** draining one step: progress, and the weight goes down *)
Lemma drain_step : forall st m rest, Inv None st -> threads st = [m :: rest] -> head_adds (m :: rest) ->
  exists st' stk', step st 0 OStep = Next st' /\ Inv None st' /\ threads st' = [stk'] /\ head_adds stk' /\ weight st' stk' < weight st (m :: rest).
Proof.
  intros st m rest I T HA. unfold head_adds in HA. cbn [tl] in HA.
  assert (nth_error (threads st) 0 = Some (m :: rest)) as T0 by (rewrite T; reflexivity).
  assert (Forall (fun m => match m with MAdd _ _ _ => False | _ => True end) (tl rest)) as HT by (destruct rest; [constructor | inversion HA; auto]).
  unfold step. rewrite T0. unfold weight.
  destruct m as [o h g|o|s|o].
  - destruct (add_inv st 0 o h g rest I T0) as (st' & E & I'). exists st', rest. split; [exact E|]. split; [exact I'|].
    cbn [micro_step] in E. destruct (nth_error (objects st) o) as [[c [| |]]|] eqn:Eo; try discriminate E. injection E as <-.
    split; [unfold set_thread; cbn [threads set_object]; rewrite T; reflexivity|]. split; [exact HT|].
    assert (o < length (objects st)) as L by (eapply nth_len; eauto).
    match goal with |- context[length (objects (set_thread (set_object st o ?X) 0 rest))] => replace (length (objects (set_thread (set_object st o X) 0 rest))) with (length (objects st)) by (symmetry; apply upd_length) end. cbn [fold_right].
    match goal with |- _ + ?a < _ + ?b => assert (a = b) as ->; [|lia] end.
    apply weight_ext. intros x.
    match goal with |- match phase_of ?s x with _ => _ end = _ => change (phase_of s x) with (phase_of (set_object st o (Object (c + 1) Alive)) x) end.
    rewrite phase_of_upd by exact L. destruct (Nat.eqb_spec x o); [subst; unfold phase_of; rewrite Eo; reflexivity | reflexivity].
  - destruct (rel_inv st 0 o rest I T0) as (st' & E & I').
    cbn [micro_step] in E. destruct (nth_error (objects st) o) as [[c [| |]]|] eqn:Eo; try discriminate E.
    assert (o < length (objects st)) as L by (eapply nth_len; eauto).
    assert (phase_of st o = Some Alive) as Po by (unfold phase_of; rewrite Eo; reflexivity).
    destruct (c =? 1)%Z eqn:C1.
    + cbv zeta in E. exists st', (map MDrop (members st o) ++ MFree o :: rest). split; [cbn [micro_step]; rewrite Eo, C1; exact E|]. split; [exact I'|].
      injection E as <-. split; [cbn [threads set_object]; rewrite T; reflexivity|].
      split.
      { unfold head_adds. assert (forall l, Forall (fun m => match m with MAdd _ _ _ => False | _ => True end) (map MDrop l ++ MFree o :: rest)) as G.
        { induction l as [|x l IH]; cbn [map app]; constructor; auto. }
        specialize (G (members st o)). destruct (map MDrop (members st o) ++ MFree o :: rest); [constructor | inversion G; auto]. }
      rewrite weight_app. cbn [fold_right objects set_object].
      rewrite upd_length.
      assert (fold_right (fun m w => w + match m with MDrop _ => 2 | _ => 1 end) 0 (map MDrop (members st o)) = 2 * length (members st o)) as ->.
      { clear. induction (members st o) as [|x l IH]; [reflexivity|]. cbn [map fold_right length]. lia. }
      set (f := fun x => match phase_of st x with Some Alive => 2 * length (members st x) + 2 | _ => 0 end).
      match goal with |- _ + fold_right ?k 0 ?l < _ => assert (fold_right k 0 l + f o = fold_right (fun x w => w + f x) 0 l + 0) as Q end.
      { set (g := fun x => if x =? o then 0 else f x).
        transitivity (fold_right (fun x w => w + g x) 0 (seq 0 (length (objects st))) + f o).
        - f_equal. apply weight_ext. intros x. unfold g, f.
          match goal with |- match phase_of ?s x with _ => _ end = _ => change (phase_of s x) with (phase_of (set_object st o (Object (c - 1) Dying)) x) end.
          rewrite phase_of_upd by exact L. destruct (x =? o); reflexivity.
        - assert (g o = 0) as G0 by (unfold g; rewrite Nat.eqb_refl; reflexivity). enough (fold_right (fun x w => w + g x) 0 (seq 0 (length (objects st))) + f o = fold_right (fun x w => w + f x) 0 (seq 0 (length (objects st))) + g o) as W by (rewrite W, G0; reflexivity).
          apply (weight_sum f g); [|apply seq_NoDup | apply in_seq; lia]. intros x N. unfold g. apply Nat.eqb_neq in N. rewrite N. reflexivity. }
      assert (f o = 2 * length (members st o) + 2) as Fo by (unfold f; rewrite Po; reflexivity).
      change (fold_right (fun (o0 : nat) (w : nat) => w + match phase_of st o0 with Some Alive => 2 * length (members st o0) + 2 | _ => 0 end) 0 (seq 0 (length (objects st))))
        with (fold_right (fun x w => w + f x) 0 (seq 0 (length (objects st)))).
      lia.
    + exists st', rest. split; [cbn [micro_step]; rewrite Eo, C1; exact E|]. split; [exact I'|]. injection E as <-.
      split; [unfold set_thread; cbn [threads set_object]; rewrite T; reflexivity|]. split; [exact HT|].
      match goal with |- context[length (objects (set_thread (set_object st o ?X) 0 rest))] => replace (length (objects (set_thread (set_object st o X) 0 rest))) with (length (objects st)) by (symmetry; apply upd_length) end. cbn [fold_right].
      match goal with |- _ + ?a < _ + ?b => assert (a = b) as ->; [|lia] end.
      apply weight_ext. intros x.
      match goal with |- match phase_of ?s x with _ => _ end = _ => change (phase_of s x) with (phase_of (set_object st o (Object (c - 1) Alive)) x) end.
      rewrite phase_of_upd by exact L. destruct (Nat.eqb_spec x o); [subst; rewrite Po; reflexivity | reflexivity].
  - destruct (drop_inv st 0 s rest I T0) as [E|(st' & E & I')].
    { exfalso. cbn [micro_step] in E. destruct (in_use st s) eqn:U; [|discriminate E]. unfold in_use in U. rewrite T in U. cbn [concat app existsb uses] in U.
      rewrite app_nil_r in U. apply existsb_exists in U. destruct U as (m & Im & Um). rewrite Forall_forall in HA. specialize (HA m Im). destruct m; try discriminate Um. contradiction. }
    cbn [micro_step] in E. destruct (in_use st s) eqn:U; [discriminate E|].
    exists st', (opt MRel (value st s) ++ rest). split; [cbn [micro_step]; rewrite U; exact E|]. split; [exact I'|]. injection E as <-.
    destruct (set_value_same st s None) as (S1 & S2 & S3 & S4 & S5).
    split; [unfold set_thread; cbn [threads]; rewrite S2, T; reflexivity|]. split.
    { unfold head_adds. destruct (value st s); cbn [opt app tl]; [exact HA | exact HT]. }
    replace (length (objects (set_thread (set_value st s None) 0 (opt MRel (value st s) ++ rest)))) with (length (objects st))
      by (unfold set_thread; cbn [objects]; rewrite S1; reflexivity).
    cbn [fold_right]. rewrite weight_app.
    match goal with |- _ + ?a < _ + ?b => assert (a = b) as -> end.
    { apply weight_ext. intros x.
      assert (phase_of (set_thread (set_value st s None) 0 (opt MRel (value st s) ++ rest)) x = phase_of st x) as -> by (unfold phase_of, set_thread; cbn [objects]; rewrite S1; reflexivity).
      assert (members (set_thread (set_value st s None) 0 (opt MRel (value st s) ++ rest)) x = members st x) as ->; [|reflexivity].
      rewrite !members_owner. unfold set_thread at 2. cbn [slots]. rewrite S5. apply filter_ext. intros y.
      change (owner_of (set_thread (set_value st s None) 0 (opt MRel (value st s) ++ rest)) y) with (owner_of (set_value st s None) y).
      rewrite owner_set. reflexivity. }
    destruct (value st s); cbn [opt fold_right]; lia.
  - destruct (free_inv st 0 o rest I T0) as (st' & E & I'). exists st', rest. split; [exact E|]. split; [exact I'|].
    cbn [micro_step] in E. destruct (nth_error (objects st) o) as [[c [| |]]|] eqn:Eo; try discriminate E. injection E as <-.
    split; [unfold set_thread; cbn [threads set_object]; rewrite T; reflexivity|]. split; [exact HT|].
    assert (o < length (objects st)) as L by (eapply nth_len; eauto).
    match goal with |- context[length (objects (set_thread (set_object st o ?X) 0 rest))] => replace (length (objects (set_thread (set_object st o X) 0 rest))) with (length (objects st)) by (symmetry; apply upd_length) end. cbn [fold_right].
    match goal with |- _ + ?a < _ + ?b => assert (a = b) as ->; [|lia] end.
    apply weight_ext. intros x.
    match goal with |- match phase_of ?s x with _ => _ end = _ => change (phase_of s x) with (phase_of (set_object st o (Object c Freed)) x) end.
    rewrite phase_of_upd by exact L. destruct (Nat.eqb_spec x o); [subst; unfold phase_of; rewrite Eo; reflexivity | reflexivity].
Qed.

Lemma drain : forall n st stk, Inv None st -> threads st = [stk] -> head_adds stk -> weight st stk <= n ->
  exists k st', run st (repeat (0, OStep) k) = Next st' /\ Inv None st' /\ quiescent st'.
Proof.
  induction n as [|n IH]; intros st stk I T HA W; destruct stk as [|m rest].
  - exists 0, st. split; [reflexivity|]. split; [exact I|]. unfold quiescent. rewrite T. repeat constructor.
  - unfold weight in W. cbn [fold_right] in W. destruct m; lia.
  - exists 0, st. split; [reflexivity|]. split; [exact I|]. unfold quiescent. rewrite T. repeat constructor.
  - destruct (drain_step st m rest I T HA) as (st1 & stk1 & E & I1 & T1 & HA1 & W1).
    destruct (IH st1 stk1 I1 T1 HA1 ltac:(lia)) as (k & st' & R & I' & Q).
    exists (S k), st'. split; [cbn [repeat run]; rewrite E; exact R|]. auto.
Qed.

(** With one thread, from a state in which no call is in progress, every call that the
    program may make completes: the destructors it triggers, in cascade, terminate. *)
Theorem C34_calls_complete : forall l st a st1,
  run (init 1) l = Next st -> quiescent st -> step st 0 a = Next st1 ->
  exists k st', run st1 (repeat (0, OStep) k) = Next st' /\ quiescent st'.
Proof.
  intros l st a st1 R Q E.
  assert (length (threads st) = 1) as Len.
  { assert (forall l s s', run s l = Next s' -> length (threads s') = length (threads s)) as G.
    { clear. induction l as [|(t, b) l IH]; intros s s' H; cbn [run] in H; [injection H as <-; reflexivity|].
      destruct (step s t b) as [s1| |] eqn:S1; try discriminate H. rewrite (IH _ _ H). clear IH H.
      assert (forall s h v, threads (set_value s h v) = threads s) as SV by (intros; apply set_value_same).
      assert (forall s t h v g, length (threads (assign s t h v g)) = length (threads s)) as AV.
      { intros. unfold assign. destruct (eq_value _ _); [reflexivity|]. unfold set_thread. cbn [threads]. rewrite upd_length, SV. reflexivity. }
      unfold step in S1. destruct (nth_error (threads s) t) as [[|m rest]|]; try discriminate S1.
      - destruct b; try discriminate S1;
          repeat match goal with
          | H : (if ?c then _ else _) = _ |- _ => destruct c; try discriminate H
          | H : match ?c with _ => _ end = _ |- _ => destruct c; try discriminate H
          end; cbv zeta in S1; injection S1 as <-; rewrite ?AV, ?SV; cbn [threads]; rewrite ?SV; reflexivity.
      - destruct b; try discriminate S1. destruct m; cbn [micro_step] in S1;
          repeat match goal with
          | H : (if ?c then _ else _) = _ |- _ => destruct c; try discriminate H
          | H : match ?c with _ => _ end = _ |- _ => destruct c; try discriminate H
          end; cbv zeta in S1; injection S1 as <-; unfold set_thread, set_object; cbn [threads]; rewrite ?upd_length, ?SV; reflexivity. }
    rewrite (G _ _ _ R). reflexivity. }
  pose proof (reach_inv _ _ _ R) as I.
  destruct (step_inv st 0 a I) as [X|(s2 & X & I1)]; [congruence|]. assert (s2 = st1) by congruence. subst s2.
  destruct (threads st) as [|stk [|]] eqn:T; try discriminate Len.
  assert (stk = []) as -> by (unfold quiescent in Q; rewrite T in Q; inversion Q; auto).
  assert (exists stk1, threads st1 = [stk1] /\ head_adds stk1) as (stk1 & T1 & HA).
  { assert (forall s h v, threads (set_value s h v) = threads s) as SV by (intros; apply set_value_same).
    assert (forall s h v g, threads s = [[]] -> exists stk1, threads (assign s 0 h v g) = [stk1] /\ head_adds stk1) as AV.
    { intros s h v g Ts. unfold assign. destruct (eq_value _ _); [exists []; split; [exact Ts | constructor]|].
      unfold set_thread. cbn [threads]. rewrite SV, Ts. cbn [upd]. eexists. split; [reflexivity|]. unfold head_adds.
      destruct v, (value s h); cbn [opt app tl]; repeat constructor. }
    unfold step in E. rewrite T in E. cbn [nth_error] in E. destruct a; try discriminate E;
      repeat match goal with
      | H : (if ?c then _ else _) = _ |- _ => destruct c; try discriminate H
      | H : match ?c with _ => _ end = _ |- _ => destruct c; try discriminate H
      end; cbv zeta in E; injection E as <-; try (apply AV; cbn [threads]; rewrite ?SV; rewrite ?T; reflexivity);
      try (exists []; cbn [threads]; split; [reflexivity | constructor]). }
  destruct (drain _ st1 stk1 I1 T1 HA (le_n _)) as (k & st' & R' & _ & Q'). exists k, st'. auto.
Qed.

(** Beside the theorems: two threads, a chain of two objects, assignment from a member of
    the object that the assignment destroys (e = e->child). *)
Definition ex_sched : list (nat * op) :=
  [(0, OSlot); (0, OSlot); (0, ONew 0 1); (0, OStep);      (* a = new A, with one member, slot 2 *)
   (1, ONew 2 0); (1, OStep);                              (* a->child = new B *)
   (0, OAssign 1 0); (0, OStep);                           (* b = a *)
   (0, ONull 1); (0, OStep);                               (* b = nullptr *)
   (0, OAssign 0 2); (0, OStep); (0, OStep); (0, OStep); (0, OStep); (0, OStep)].   (* a = a->child *)
Lemma C34_example : exists st, run (init 2) ex_sched = Next st /\ quiescent st /\ destroyed st = [0] /\
  refers st 0 1 /\ nth_error (objects st) 1 = Some (Object 1 Alive).
Proof.
  eexists. split; [vm_compute; reflexivity|]. split; [unfold quiescent; cbn [threads]; repeat constructor|]. split; [reflexivity|].
  split; [exists (Slot None (Some 1)); split; reflexivity | reflexivity].
Qed.

(** A finding: assigning a handle to itself with std::move makes it null, and the object
    is destroyed if it was the last reference. *)
Theorem C34_self_move_refuted : exists l st, run (init 1) l = Next st /\ quiescent st /\
  l = [(0, OSlot); (0, ONew 0 0); (0, OStep); (0, OMove 0 0); (0, OStep); (0, OStep)] /\
  value st 0 = None /\ destroyed st = [0].
Proof.
  eexists. eexists. split; [|split; [|split; [reflexivity|]]]; [vm_compute; reflexivity | unfold quiescent; cbn [threads]; repeat constructor | split; reflexivity].
Qed.
