(** What remove_pure_dims knows of buffers is so, and slicing the buffers of a call. *)
From Coq Require Import ZArith List Bool Lia.
From Verif Require Import Arith_Model Arith_Proofs Buf_Model Buf_Proofs Alloc_Model Expr_Model Expr_Proofs Stmt_Model Stmt_Spec Deps_Spec Match_Model Match_Proofs StmtSubst_Spec StmtSubst2_Proofs
  VSem_Spec VExec_Proofs VRef_Proofs VFrame_Proofs OptSym_Model OptSym_Spec OptSym_Proofs FuseSib_Model FuseSib_Spec FuseSib_Proofs FuseSib2_Proofs PureDims_Model PureDims_Spec.
Import ListNotations.
Open Scope Z_scope.

Definition bounded (sd : dimset) : Prop := forall k, (64 <= k)%nat -> sd k = false.
Definition thin (d : dim) : Prop := d_max d <= d_min d.
Definition ones (sd : dimset) (ds : list dim) : Prop := forall k, sd k = true -> thin (nth k ds broadcast).
Lemma thin_broadcast : thin broadcast. Proof. unfold thin. cbn. lia. Qed.
Lemma thin_is_broadcast d : is_broadcast d = true -> thin d.
Proof. unfold is_broadcast, thin. rewrite !andb_true_iff, !Z.eqb_eq. lia. Qed.
Lemma nth_past {A} (l : list A) k x : (length l <= k)%nat -> nth k l x = x. Proof. apply nth_overflow. Qed.
Lemma bounded_none : bounded no_dims. Proof. intros k _. reflexivity. Qed.
Lemma set_dim_inv sd d sd' : set_dim sd d = Val sd' -> (d < 64)%nat /\ sd' = fun k => (k =? d)%nat || sd k.
Proof. unfold set_dim. destruct (Nat.ltb_spec d 64); [|discriminate]. intro Q. injection Q as <-. auto. Qed.
Lemma set_dim_bounded sd d sd' : set_dim sd d = Val sd' -> bounded sd -> bounded sd'.
Proof. intros Q B k L. apply set_dim_inv in Q as (L' & ->). rewrite (B k L), orb_false_r. apply Nat.eqb_neq. lia. Qed.
Lemma extent_one i : is_extent_one i = true -> fst i = snd i /\ defined (fst i) = true.
Proof. unfold is_extent_one. rewrite !andb_true_iff. intros ((A & _) & M). apply match_eq in M. auto. Qed.

Lemma find_bounded l : forall i sd, find_sliceable i l = Val sd -> bounded sd.
Proof.
  induction l as [|x l IH]; intros i sd Q; cbn [find_sliceable] in Q; [injection Q as <-; apply bounded_none|]. apply bind_inv in Q as (sd1 & Q1 & Q). destruct (is_extent_one x); [|injection Q as <-; exact (IH _ _ Q1)].
  exact (set_dim_bounded _ _ _ Q (IH _ _ Q1)).
Qed.
Lemma find_true l : forall i sd k, find_sliceable i l = Val sd -> sd k = true -> exists j x, k = (i + j)%nat /\ nth_error l j = Some x /\ is_extent_one x = true.
Proof.
  induction l as [|x l IH]; intros i sd k Q T; cbn [find_sliceable] in Q; [injection Q as <-; discriminate|]. apply bind_inv in Q as (sd1 & Q1 & Q).
  assert (K : sd1 k = true -> exists j x0, k = (i + j)%nat /\ nth_error (x :: l) j = Some x0 /\ is_extent_one x0 = true).
  { intro T1. destruct (IH _ _ _ Q1 T1) as (j & y & -> & N & O). exists (S j), y. split; [lia|]. auto. }
  destruct (is_extent_one x) eqn:O; [|injection Q as <-; auto]. apply set_dim_inv in Q as (_ & ->). apply orb_true_iff in T as [T|T]; [|auto]. apply Nat.eqb_eq in T. subst k.
  exists 0%nat, x. split; [lia|]. auto.
Qed.
Lemma constant_bounded l : forall i sd, find_constant i l = Val sd -> bounded sd.
Proof.
  induction l as [|x l IH]; intros i sd Q; cbn [find_constant] in Q; [injection Q as <-; apply bounded_none|]. apply bind_inv in Q as (sd1 & Q1 & Q). destruct (_ =? 1); [|injection Q as <-; exact (IH _ _ Q1)].
  exact (set_dim_bounded _ _ _ Q (IH _ _ Q1)).
Qed.
Lemma constant_ones l : forall i sd k, find_constant i l = Val sd -> sd (i + k)%nat = true -> thin (nth k l broadcast).
Proof.
  induction l as [|x l IH]; intros i sd k Q T; cbn [find_constant] in Q; [injection Q as <-; discriminate|]. apply bind_inv in Q as (sd1 & Q1 & Q).
  assert (K : sd1 (i + k)%nat = true -> thin (nth k (x :: l) broadcast)).
  { intro T1. destruct k as [|k]; [|cbn [nth]; apply (IH (S i) sd1 k Q1); replace (S i + k)%nat with (i + S k)%nat by lia; exact T1].
    exfalso. clear - Q1 T1. assert (G : forall l i sd k, find_constant i l = Val sd -> (k < i)%nat -> sd k = false).
    { clear. induction l as [|x l IH]; intros i sd k Q L; cbn [find_constant] in Q; [injection Q as <-; reflexivity|]. apply bind_inv in Q as (sd1 & Q1 & Q).
      assert (Z1 : sd1 k = false) by (apply (IH _ _ _ Q1); lia). destruct (_ =? 1); [|injection Q as <-; exact Z1]. apply set_dim_inv in Q as (_ & ->). rewrite Z1, orb_false_r. apply Nat.eqb_neq. lia. }
    rewrite (G _ _ _ _ Q1) in T1 by lia. discriminate. }
  destruct (Z.eqb_spec (d_max x - d_min x + 1) 1) as [O|_]; [|injection Q as <-; auto]. apply set_dim_inv in Q as (_ & ->). apply orb_true_iff in T as [T|T]; [|auto].
  apply Nat.eqb_eq in T. assert (k = 0%nat) by lia. subst k. cbn [nth]. unfold thin. lia.
Qed.

(** ** Slices *)
Definition tail (sd : dimset) : dimset := fun k => sd (S k).
Definition push (b : bool) (sd : dimset) : dimset := fun k => match k with O => b | S k' => sd k' end.
Fixpoint without (l : list expr) (sd : dimset) : dimset :=
  match l with [] => sd | x :: l' => if defined x then without l' (tail sd) else push (sd O) (without l' (tail sd)) end.
Lemma without_none l : forall sd, (forall k, sd k = false) -> forall k, without l sd k = false.
Proof. induction l as [|x l IH]; intros sd Z k; cbn [without]; [apply Z|]. assert (T : forall k, tail sd k = false) by (intro; apply Z). destruct (defined x); [apply IH, T|]. destruct k; cbn [push]; [apply Z|apply IH, T]. Qed.
Lemma without_ext l : forall sd sd', (forall k, sd k = sd' k) -> forall k, without l sd k = without l sd' k.
Proof. induction l as [|x l IH]; intros sd sd' Q k; cbn [without]; [apply Q|]. assert (T : forall k, tail sd k = tail sd' k) by (intro; apply Q). destruct (defined x); [apply IH, T|]. destruct k; cbn [push]; [apply Q|apply IH, T]. Qed.
Lemma erase_inv sd d sd' : erase_dim sd d = Val sd' -> bounded sd -> bounded sd' /\ forall k, sd' k = if (k <? d)%nat then sd k else sd (S k).
Proof.
  unfold erase_dim. destruct (Nat.ltb_spec 64 d); [discriminate|]. intros Q B. injection Q as <-. split.
  - intros k L. destruct (Nat.ltb_spec k d); [apply B; exact L|]. destruct (Nat.ltb_spec (S k) 64); [apply B; lia|reflexivity].
  - intro k. destruct (Nat.ltb_spec k d); [reflexivity|]. destruct (Nat.ltb_spec (S k) 64); [reflexivity|]. symmetry. apply B. lia.
Qed.
Lemma erase_at_inv l : forall i sd sd', erase_at i (firstn (64 - i) l) sd = Val sd' -> bounded sd ->
  bounded sd' /\ forall k, sd' k = if (k <? i)%nat then sd k else without l (fun j => sd (i + j)%nat) (k - i)%nat.
Proof.
  induction l as [|x l IH]; intros i sd sd' Q B.
  - rewrite firstn_nil in Q. cbn [erase_at without] in *. injection Q as <-. split; [exact B|]. intro k. destruct (Nat.ltb_spec k i); [reflexivity|]. f_equal. lia.
  - destruct (64 - i)%nat as [|n] eqn:N.
    + cbn [firstn erase_at] in Q. injection Q as <-. split; [exact B|]. intro k. destruct (Nat.ltb_spec k i); [reflexivity|]. rewrite without_none; [apply B; lia|]. intro j. apply B. lia.
    + cbn [firstn erase_at] in Q. apply bind_inv in Q as (sd1 & Q1 & Q). replace n with (64 - S i)%nat in Q1 by lia. destruct (IH _ _ _ Q1 B) as (B1 & V1).
      assert (V : forall k, without l (fun j => sd (S i + j)%nat) k = without l (tail (fun j => sd (i + j)%nat)) k).
      { apply without_ext. intro j. unfold tail. f_equal. lia. }
      destruct (defined x) eqn:D; cbn [without]; rewrite D.
      * destruct (erase_inv _ _ _ Q B1) as (B2 & V2). split; [exact B2|]. intro k. rewrite V2. destruct (Nat.ltb_spec k i).
        -- rewrite V1. destruct (Nat.ltb_spec k (S i)); [reflexivity|lia].
        -- rewrite V1. destruct (Nat.ltb_spec (S k) (S i)); [lia|]. rewrite V. reflexivity.
      * injection Q as <-. split; [exact B1|]. intro k. rewrite V1. destruct (Nat.ltb_spec k i), (Nat.ltb_spec k (S i)); try lia; [reflexivity| |].
        -- replace k with i by lia. rewrite Nat.sub_diag. cbn [push]. f_equal. lia.
        -- rewrite V. destruct (k - i)%nat as [|j] eqn:J; [lia|]. cbn [push]. f_equal. lia.
Qed.
Lemma ones_tail sd d ds : ones sd (d :: ds) -> ones (tail sd) ds. Proof. intros O k T. exact (O (S k) T). Qed.
Lemma ones_nil sd : ones sd []. Proof. intros k _. destruct k; exact thin_broadcast. Qed.

Section Eval.
  Variable X : Type.
  Variable H : host X.
  Notation veval := (veval X H).
  Lemma slice_ones E ds : forall l p sd p' ds', ones sd ds -> vslice X H E p ds l = Val (p', ds') -> ones (without l sd) ds'.
  Proof.
    induction ds as [|d ds IH]; intros l p sd p' ds' O V; cbn [vslice] in V; [injection V as <- <-; apply ones_nil|]. destruct l as [|x l]; [injection V as <- <-; exact O|]. cbn [without].
    pose proof (ones_tail _ _ _ O) as Ot. destruct (defined x).
    - destruct p as [q|]; [|exact (IH _ _ _ _ _ Ot V)]. apply bind_inv in V as (y & _ & V). exact (IH _ _ _ _ _ Ot V).
    - apply bind_inv in V as ((p1, ds1) & V1 & V). cbn [fst snd] in V. injection V as <- <-. intros [|k] T; cbn [push nth] in *; [exact (O 0%nat T)|exact (IH _ _ _ _ _ Ot V1 k T)].
  Qed.
  Lemma remove_ones sd sd' ds d : ones sd ds -> (forall k, sd' k = if (k <? d)%nat then sd k else sd (S k)) -> ones sd' (remove_nth ds d).
  Proof. intros O V k T. rewrite V in T. rewrite nth_remove_nth. destruct (k <? d)%nat; apply O, T. Qed.
  Lemma slice_dim_ones E sd sd' b b' d e : ones sd (dims b) -> (forall k, sd' k = if (k <? d)%nat then sd k else sd (S k)) -> vslice_dim X H E b d e = Val b' -> ones sd' (dims b').
  Proof.
    intros O V Q. unfold vslice_dim in Q. destruct (Nat.leb_spec (rank b) d).
    - injection Q as <-. intros k T. rewrite V in T. destruct (Nat.ltb_spec k d); [apply O, T|]. rewrite nth_past by (unfold rank in *; lia). exact thin_broadcast.
    - apply bind_inv in Q as (p & _ & Q). injection Q as <-. cbn [dims]. exact (remove_ones _ _ _ _ O V).
  Qed.
  Lemma interval_def_one E i a b r : is_extent_one i = true -> vinterval_def X H E i a b = Val r -> snd r = fst r.
  Proof.
    intros O V. apply extent_one in O as (Q & D). unfold vinterval_def, veval_def in V. rewrite <- Q, D in V. apply bind_inv in V as (lo & V1 & V). apply bind_inv in V as (hi & V2 & V). injection V as <-. cbn. congruence.
  Qed.
  Lemma crop_thin b d lo hi k : thin (dim_at b k) -> thin (dim_at (crop b d lo hi) k).
  Proof.
    intro T. unfold crop. destruct (Nat.leb_spec (rank b) d); [exact T|]. unfold dim_at. cbn [dims]. rewrite nth_set_nth by exact H0. destruct (Nat.eqb_spec k d) as [->|]; [|exact T].
    unfold thin in *. cbn [set_bounds d_min d_max]. unfold dim_at in *. lia.
  Qed.
  Lemma crop_one b d x : thin (dim_at (crop b d x x) d).
  Proof.
    unfold crop. destruct (Nat.leb_spec (rank b) d); [unfold dim_at; rewrite nth_past by (unfold rank in *; lia); exact thin_broadcast|].
    unfold dim_at. cbn [dims]. rewrite nth_set_nth by exact H0. rewrite Nat.eqb_refl. unfold thin. cbn [set_bounds d_min d_max]. lia.
  Qed.
  Lemma crop_rank b d lo hi : rank (crop b d lo hi) = rank b.
  Proof. unfold crop. destruct (Nat.leb_spec (rank b) d); [reflexivity|]. unfold rank. cbn [dims]. apply set_nth_length. Qed.
  Lemma vcrop_thin E l : forall b d b' k, vcrop X H E b d l = Val b' -> thin (dim_at b k) -> thin (dim_at b' k).
  Proof.
    induction l as [|i l IH]; intros b d b' k V T; cbn [vcrop] in V; [injection V as <-; exact T|]. destruct (rank b <=? d)%nat; [injection V as <-; exact T|].
    apply bind_inv in V as (r & _ & V). exact (IH _ _ _ _ V (crop_thin _ _ _ _ _ T)).
  Qed.
  Lemma vcrop_one E l : forall b d b' j i, vcrop X H E b d l = Val b' -> nth_error l j = Some i -> is_extent_one i = true -> thin (dim_at b' (d + j)).
  Proof.
    induction l as [|x l IH]; intros b d b' j i V N O; [destruct j; discriminate|]. cbn [vcrop] in V. destruct (Nat.leb_spec (rank b) d) as [L|L].
    - injection V as <-. unfold dim_at. rewrite nth_past by (unfold rank in L; lia). exact thin_broadcast.
    - apply bind_inv in V as (r & V1 & V). destruct j as [|j]; cbn [nth_error] in N.
      + injection N as ->. pose proof (interval_def_one _ _ _ _ _ O V1) as Q. rewrite Q in V. rewrite Nat.add_0_r. exact (vcrop_thin _ _ _ _ _ _ V (crop_one _ _ _)).
      + replace (d + S j)%nat with (S d + j)%nat by lia. exact (IH _ _ _ _ _ V N O).
  Qed.
  Lemma crop_buffer_ones E l b b' sd sd' : ones sd (dims b) -> find_sliceable 0 l = Val sd' -> vcrop X H E b 0 l = Val b' -> ones (or_dims sd sd') (dims b').
  Proof.
    intros O F V k T. unfold or_dims in T. apply orb_true_iff in T as [T|T]; [exact (vcrop_thin _ _ _ _ _ k V (O k T))|]. destruct (find_true _ _ _ _ F T) as (j & i & -> & N & Q). exact (vcrop_one _ _ _ _ _ _ _ V N Q).
  Qed.
  Lemma dims_one E au l : forall ds j d, vdims X H E au l = Val ds -> nth_error l j = Some d -> is_extent_one (de_bounds d) = true -> thin (nth j ds broadcast).
  Proof.
    induction l as [|x l IH]; intros ds j d V N O; [destruct j; discriminate|]. cbn [vdims] in V. apply bind_inv in V as (ds1 & V1 & V). apply bind_inv in V as (y & V2 & V).
    destruct j as [|j]; cbn [nth_error] in N.
    - injection N as ->. assert (T : thin y).
      { unfold vdim in V2. apply bind_inv in V2 as (i & I & V2). apply bind_inv in V2 as (st & _ & V2). apply bind_inv in V2 as (fo & _ & V2). injection V2 as <-.
        destruct (extent_one _ O) as (Q & _). unfold vinterval in I. rewrite <- Q in I. apply bind_inv in I as (lo & I1 & I). apply bind_inv in I as (hi & I2 & I). injection I as <-.
        unfold thin. cbn. assert (hi = lo) by congruence. lia. }
      destruct ds1; [destruct (is_broadcast y)|]; injection V as <-; cbn [nth]; [exact thin_broadcast|exact T|exact T].
    - pose proof (IH _ _ _ V1 N O) as T. destruct ds1; [destruct (is_broadcast y)|]; injection V as <-; cbn [nth] in *; [exact thin_broadcast| |]; exact T.
  Qed.
  Lemma dims_ones E au l ds sd : vdims X H E au l = Val ds -> find_sliceable 0 (map de_bounds l) = Val sd -> ones sd ds.
  Proof.
    intros V F k T. destruct (find_true _ _ _ _ F T) as (j & i & -> & N & O). cbn [Nat.add]. rewrite nth_error_map in N. destruct (nth_error l j) as [d|] eqn:Nd; [|discriminate]. injection N as <-.
    exact (dims_one _ _ _ _ _ _ V Nd O).
  Qed.
End Eval.

(** ** Transposes *)
Lemma rtb_thin l k : thin (nth k l broadcast) -> thin (nth k (remove_trailing_broadcasts l) broadcast).
Proof.
  intro T. unfold remove_trailing_broadcasts. set (go := fix go (l : list dim) := match l with [] => [] | d :: l' => if is_broadcast d then go l' else l end).
  assert (G : exists n, rev (go (rev l)) = firstn n l).
  { assert (G : forall r, exists n, go r = skipn n r).
    { clear. induction r as [|d r (n & IH)]; cbn; [exists O; reflexivity|]. destruct (is_broadcast d); [exists (S n); exact IH|exists O; reflexivity]. }
    destruct (G (rev l)) as (n & ->). exists (length l - n)%nat. rewrite skipn_rev, rev_involutive. reflexivity. }
  destruct G as (n & ->). destruct (Nat.ltb_spec k n) as [L|L].
  - rewrite <- (firstn_skipn n l) in T. destruct (Nat.ltb_spec k (length (firstn n l))); [rewrite app_nth1 in T by assumption; exact T|]. rewrite nth_past by assumption. exact thin_broadcast.
  - rewrite nth_past by (rewrite firstn_length; lia). exact thin_broadcast.
Qed.
Lemma transpose_inv sd p sd' : transpose_dims sd p = Val sd' -> bounded sd' /\ forall k, sd' k = true -> (k < length p)%nat /\ sd (nth k p O) = true.
Proof.
  unfold transpose_dims. destruct (Nat.ltb_spec 64 (length p)); [discriminate|]. cbn [orb]. destruct (existsb _ p); [discriminate|]. intro Q. injection Q as <-. split.
  - intros k L. destruct (Nat.ltb_spec k (length p)); [lia|reflexivity].
  - intros k. destruct (Nat.ltb_spec k (length p)); [auto|discriminate].
Qed.
Lemma transpose_ones sd sd' b p : ones sd (dims b) -> (forall k, sd' k = true -> (k < length p)%nat /\ sd (nth k p O) = true) -> ones sd' (dims (transpose b p)).
Proof.
  intros O V k T. destruct (V k T) as (L & T'). unfold transpose. cbn [dims]. apply rtb_thin. rewrite (nth_indep _ broadcast (dim_at b 0)) by (rewrite map_length; exact L). rewrite map_nth. exact (O _ T').
Qed.
Lemma truncate_nth p : is_truncate p = true -> forall k, (k < length p)%nat -> nth k p O = k.
Proof.
  unfold is_truncate. assert (G : forall p i, forallb (fun x => Nat.eqb (fst x) (snd x)) (combine p (seq i (length p))) = true -> forall k, (k < length p)%nat -> nth k p O = (i + k)%nat).
  { clear. induction p as [|x p IH]; intros i F k L; cbn [length] in *; [lia|]. cbn [seq combine forallb] in F. apply andb_true_iff in F as (F1 & F2). apply Nat.eqb_eq in F1. cbn [fst snd] in F1.
    destruct k as [|k]; cbn [nth]; [lia|]. rewrite (IH _ F2) by lia. lia. }
  exact (G p O).
Qed.
Lemma truncate_ones sd sd' b p : ones sd (dims b) -> (forall k, sd' k = true -> (k < length p)%nat /\ sd (nth k p O) = true) -> is_truncate p = true -> ones sd' (firstn (length p) (dims b)).
Proof.
  intros O V Tr k T. destruct (V k T) as (L & T'). rewrite (truncate_nth _ Tr k L) in T'. pose proof (O k T') as Q. rewrite <- (firstn_skipn (length p) (dims b)) in Q.
  destruct (Nat.ltb_spec k (length (firstn (length p) (dims b)))); [rewrite app_nth1 in Q by assumption; exact Q|]. rewrite nth_past by assumption. exact thin_broadcast.
Qed.

(** ** Allocations keep bounds *)
Lemma bounds_refl l : Forall2 same_bounds l l. Proof. induction l; constructor; auto. split; reflexivity. Qed.
Lemma bounds_trans a : forall b c, Forall2 same_bounds a b -> Forall2 same_bounds b c -> Forall2 same_bounds a c.
Proof.
  intros b c F. revert c. induction F as [|x y a b (A1 & A2) F IH]; intros c G; inversion G as [|? z ? c' (B1 & B2) G']; subst; constructor; [split; congruence|exact (IH _ G')].
Qed.
Lemma bounds_ones sd ds ds' : Forall2 same_bounds ds ds' -> ones sd ds -> ones sd ds'.
Proof.
  intros F O k T. specialize (O k T). clear T. revert k O. induction F as [|d d' ds ds' (A & B) F IH]; intros k O; [exact O|]. destruct k as [|k]; cbn [nth] in *; [unfold thin in *; lia|auto].
Qed.
Lemma learn_bounds es ds : forall st r, learn_known es ds st = Val r -> Forall2 same_bounds ds (fst r).
Proof.
  induction ds as [|d ds IH]; intros st r Q; cbn [learn_known] in Q; [injection Q as <-; constructor|].
  destruct (d_stride d =? 0); [apply bind_inv in Q as ((l, st1) & Q1 & Q); injection Q as <-; constructor; [split; reflexivity|exact (IH _ _ Q1)]|].
  destruct (alloc_extent d <=? 1).
  - apply bind_inv in Q as ((l, st1) & Q1 & Q). injection Q as <-. constructor; [destruct (d_stride d =? auto_stride); split; reflexivity|exact (IH _ _ Q1)].
  - destruct (negb _).
    + destruct (if d_stride d =? imin 64 then _ else _) as (st1, y). apply bind_inv in Q as (st2 & _ & Q). apply bind_inv in Q as ((l, st3) & Q1 & Q). injection Q as <-. constructor; [split; reflexivity|exact (IH _ _ Q1)].
    + apply bind_inv in Q as ((l, st1) & Q1 & Q). injection Q as <-. constructor; [split; reflexivity|exact (IH _ _ Q1)].
Qed.
Lemma assign_bounds es al ds : forall st r, assign_unknown es al ds st = Val r -> Forall2 same_bounds ds (fst r).
Proof.
  induction ds as [|d ds IH]; intros st r Q; cbn [assign_unknown] in Q; [injection Q as <-; constructor|].
  destruct (negb _); [apply bind_inv in Q as ((l, st1) & Q1 & Q); injection Q as <-; constructor; [split; reflexivity|exact (IH _ _ Q1)]|].
  destruct (is_stride_ok es _ _ _) as (ok, o). cbv zeta in Q. destruct ok.
  - apply bind_inv in Q as (st1 & Q1 & Q). apply bind_inv in Q as ((l, st2) & Q2 & Q). injection Q as <-. constructor; [split; reflexivity|exact (IH _ _ Q2)].
  - destruct (find_candidate _ _ _ _ _) as (c, o2). destruct c as [c|].
    + apply bind_inv in Q as (st1 & Q1 & Q). apply bind_inv in Q as ((l, st2) & Q2 & Q). injection Q as <-. constructor; [split; reflexivity|exact (IH _ _ Q2)].
    + apply bind_inv in Q as ((l, st2) & Q2 & Q). injection Q as <-. constructor; [split; reflexivity|exact (IH _ _ Q2)].
Qed.
Lemma impl_bounds b al r : init_strides_impl b al = Val r -> Forall2 same_bounds (dims b) (dims (fst r)).
Proof.
  unfold init_strides_impl. intro Q. apply bind_inv in Q as ((l1, st1) & Q1 & Q). apply bind_inv in Q as ((l2, st2) & Q2 & Q). injection Q as <-. cbn [fst dims].
  exact (bounds_trans _ _ _ (learn_bounds _ _ _ _ Q1) (assign_bounds _ _ _ _ _ Q2)).
Qed.
Lemma strides_bounds b al r : init_strides b al = Val r -> Forall2 same_bounds (dims b) (dims (fst r)).
Proof.
  unfold init_strides. destruct (dims b) as [|d [|d2 ds]] eqn:D.
  - intro Q. injection Q as <-. cbn [fst]. rewrite D. constructor.
  - destruct (_ && _).
    + destruct (ov _ _ _) as (o, s). destruct (ov _ _ _) as (o2, s2). intro Q. injection Q as <-. cbn [fst dims]. constructor; [|constructor]. destruct (d_stride d =? auto_stride); split; reflexivity.
    + rewrite <- D. apply impl_bounds.
  - rewrite <- D. apply impl_bounds.
Qed.
