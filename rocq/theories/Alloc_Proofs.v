(** Proofs about Alloc_Model.v. *)
From Coq Require Import ZArith List Bool Lia Permutation Sorted.
From Verif Require Import Arith_Model Arith_Proofs Buf_Model Buf_Spec Buf_Proofs Alloc_Model.
Import ListNotations.
Open Scope Z_scope.

Definition pow2 (a : Z) : Prop := exists k, 0 <= k /\ a = 2 ^ k.

Lemma align_mask_div : forall x a, pow2 a -> align_mask x a = x / a * a.
Proof.
  intros x a (k & K & ->). unfold align_mask. rewrite <- Z.ldiff_land.
  replace (2 ^ k - 1) with (Z.ones k) by (rewrite Z.ones_equiv; lia).
  rewrite Z.ldiff_ones_r by exact K. rewrite Z.shiftl_mul_pow2, Z.shiftr_div_pow2 by exact K. reflexivity.
Qed.
Lemma pow2_pos : forall a, pow2 a -> 0 < a.
Proof. intros a (k & K & ->). apply Z.pow_pos_nonneg; lia. Qed.
Lemma align_mask_bounds : forall x a, pow2 a -> align_mask x a <= x < align_mask x a + a /\ (a | align_mask x a).
Proof.
  intros x a P. rewrite align_mask_div by exact P. pose proof (pow2_pos a P).
  pose proof (Z.div_mod x a ltac:(lia)). pose proof (Z.mod_pos_bound x a ltac:(lia)).
  split; [lia|]. exists (x / a). reflexivity.
Qed.

(** ** The disjointness of nested strides *)
Definition nested (a b : known) : Prop := k_dim_stride a <= k_stride b \/ k_dim_stride b <= k_stride a.
Lemma nested_sym : forall a b, nested a b -> nested b a.
Proof. unfold nested. tauto. Qed.
Definition good (es : Z) (k : known) : Prop := es <= k_stride k < k_dim_stride k.

Lemma FOP_perm : forall A (R : A -> A -> Prop), (forall a b, R a b -> R b a) ->
  forall l1 l2, Permutation l1 l2 -> ForallOrdPairs R l1 -> ForallOrdPairs R l2.
Proof.
  intros A R S l1 l2 P. induction P; intros H; auto.
  - inversion H; subst. constructor; [|auto]. eapply Permutation_Forall; eauto.
  - inversion H as [|? ? F1 H1]; subst. inversion H1 as [|? ? F2 H2]; subst. inversion F1; subst.
    constructor; [constructor; auto|]. constructor; auto.
Qed.

(** An item is a known dimension with the difference of two offsets along it. *)
Definition item_ok (es : Z) (p : known * Z) : Prop :=
  good es (fst p) /\ Z.abs (snd p) <= k_dim_stride (fst p) - k_stride (fst p) /\ (snd p <> 0 -> k_stride (fst p) <= Z.abs (snd p)).
Definition sumZ (l : list Z) : Z := fold_right Z.add 0 l.
Lemma sumZ_perm : forall l1 l2, Permutation l1 l2 -> sumZ l1 = sumZ l2.
Proof. intros l1 l2 P. induction P; cbn [sumZ fold_right] in *; fold sumZ in *; try unfold sumZ in *; cbn [fold_right] in *; lia. Qed.
Lemma sumZ_app : forall l1 l2, sumZ (l1 ++ l2) = sumZ l1 + sumZ l2.
Proof. induction l1 as [|x l1 IH]; intros l2; [reflexivity|]. unfold sumZ in *. cbn [app fold_right]. rewrite IH. lia. Qed.

Lemma max_extract : forall (l : list (known * Z)), l <> [] ->
  exists m l', Permutation l (m :: l') /\ forall p, In p l' -> k_dim_stride (fst p) <= k_dim_stride (fst m).
Proof.
  induction l as [|x l IH]; [congruence|]. intros _. destruct l as [|y l].
  - exists x, []. split; [apply Permutation_refl|intros p []].
  - destruct IH as (m & l' & P & M); [discriminate|].
    destruct (Z_le_dec (k_dim_stride (fst m)) (k_dim_stride (fst x))) as [L|L].
    + exists x, (m :: l'). split; [constructor; exact P|]. intros p [->|I]; [exact L|]. specialize (M p I). lia.
    + exists m, (x :: l'). split.
      * eapply Permutation_trans; [constructor; exact P|]. apply perm_swap.
      * intros p [->|I]; [lia|auto].
Qed.

Lemma nested_sum : forall n es l, length l = n -> 0 < es ->
  Forall (item_ok es) l -> ForallOrdPairs nested (map fst l) ->
  (forall B, es <= B -> (forall p, In p l -> k_dim_stride (fst p) <= B) -> Z.abs (sumZ (map snd l)) <= B - es) /\
  ((exists p, In p l /\ snd p <> 0) -> es <= Z.abs (sumZ (map snd l))).
Proof.
  induction n as [|n IH]; intros es l LEN ES OK NE.
  - destruct l; [|discriminate]. split; [intros; cbn; lia|]. intros (p & [] & _).
  - destruct (max_extract l) as (m & l' & P & M); [destruct l; discriminate|].
    assert (length l' = n) as LEN' by (apply Permutation_length in P; cbn in P; lia).
    assert (Forall (item_ok es) (m :: l')) as OK' by (eapply Permutation_Forall; eauto).
    assert (ForallOrdPairs nested (map fst (m :: l'))) as NE'.
    { eapply FOP_perm; [exact nested_sym| |exact NE]. apply Permutation_map. exact P. }
    inversion OK' as [|? ? OKm OKl]; subst. cbn [map] in NE'. inversion NE' as [|? ? Fm NEl]; subst.
    destruct (IH es l' eq_refl ES OKl NEl) as [UB LB].
    destruct OKm as ([G1 G2] & D1 & D2).
    assert (Z.abs (sumZ (map snd l')) <= k_stride (fst m) - es) as UBm.
    { apply UB; [exact G1|]. intros p I. specialize (M p I).
      rewrite Forall_forall in Fm, OKl. specialize (Fm (fst p) (in_map fst _ _ I)). destruct (OKl p I) as ([H1 H2] & _).
      destruct Fm; lia. }
    assert (sumZ (map snd l) = snd m + sumZ (map snd l')) as E.
    { rewrite (sumZ_perm _ _ (Permutation_map snd P)). reflexivity. }
    split.
    + intros B HB HI. rewrite E. assert (k_dim_stride (fst m) <= B) by (apply HI; eapply Permutation_in; [apply Permutation_sym; exact P|left; reflexivity]). lia.
    + intros (p & I & N). rewrite E. destruct (Z.eq_dec (snd m) 0) as [Z0|Z0].
      * rewrite Z0. cbn [Z.add]. apply LB. exists p. split; [|exact N].
        assert (In p (m :: l')) as [->|J] by (eapply Permutation_in; eauto); [contradiction|exact J].
      * specialize (D2 Z0). lia.
Qed.

(** ** Overflow bookkeeping *)
Lemma ov_false : forall o r old r2, ov o r old = (false, r2) -> o = false /\ r = (false, r2).
Proof. intros [|] r old r2 H; cbn in H; [discriminate|]. auto. Qed.
Lemma add_ov : forall a b r, add_with_overflow 64 a b = (false, r) -> r = a + b.
Proof. intros a b r H. pose proof (add_with_overflow_ok 64 a b ltac:(lia)) as [_ A]. rewrite H in A. exact (A eq_refl). Qed.
Lemma sub_ov : forall a b r, sub_with_overflow 64 a b = (false, r) -> r = a - b.
Proof. intros a b r H. pose proof (sub_with_overflow_ok 64 a b ltac:(lia)) as [_ A]. rewrite H in A. exact (A eq_refl). Qed.
Lemma mul_ov : forall a b r, mul_with_overflow 64 a b = (false, r) -> r = a * b.
Proof. intros a b r H. pose proof (mul_with_overflow_ok 64 a b ltac:(lia)) as [_ A]. rewrite H in A. exact (A eq_refl). Qed.
Lemma mul_ov_repr : forall a b r, mul_with_overflow 64 a b = (false, r) -> - 2 ^ 63 <= a * b <= 2 ^ 63 - 1.
Proof.
  intros a b r H. pose proof (mul_with_overflow_ok 64 a b ltac:(lia)) as [A _]. rewrite H in A. cbn [fst] in A.
  destruct (Z_le_dec (- 2 ^ 63) (a * b)), (Z_le_dec (a * b) (2 ^ 63 - 1)); try lia;
    exfalso; assert (false = true) as X by (apply A; unfold imin, imax; intros [? ?]; cbn in *; lia); discriminate.
Qed.

(** ** learn_dim *)
Definition sorted_known := StronglySorted (fun a b => k_dim_stride a <= k_dim_stride b).
Lemma lower_bound_spec : forall ks x a b, sorted_known ks -> lower_bound ks x = (a, b) ->
  ks = a ++ b /\ Forall (fun k => k_dim_stride k < x) a /\ Forall (fun k => x <= k_dim_stride k) b.
Proof.
  induction ks as [|k ks IH]; intros x a b S H; cbn [lower_bound] in H.
  - injection H as <- <-. repeat split; constructor.
  - apply StronglySorted_inv in S. destruct S as [S F]. destruct (Z.ltb_spec (k_dim_stride k) x) as [L|L].
    + destruct (lower_bound ks x) as [a' b'] eqn:E. injection H as <- <-. destruct (IH x a' b' S E) as (-> & A & B).
      repeat split; [constructor; assumption|exact B].
    + injection H as <- <-. repeat split; [constructor|]. constructor; [exact L|].
      rewrite Forall_forall in *. intros y I. specialize (F y I). lia.
Qed.
Lemma sorted_insert : forall a b d, sorted_known (a ++ b) ->
  Forall (fun k => k_dim_stride k < k_dim_stride d) a -> Forall (fun k => k_dim_stride d <= k_dim_stride k) b ->
  sorted_known (a ++ d :: b).
Proof.
  induction a as [|x a IH]; intros b d S A B; cbn [app] in *.
  - constructor; assumption.
  - apply StronglySorted_inv in S. destruct S as [S F]. inversion A; subst. constructor; [apply IH; assumption|].
    rewrite Forall_forall in *. intros y I. apply in_app_or in I. destruct I as [I|[<-|I]].
    + apply F. apply in_or_app. auto.
    + lia.
    + apply F. apply in_or_app. auto.
Qed.

Lemma learn_dim_spec : forall st s e st', learn_dim st s e = Val st' -> sorted_known (s_known st) -> s_over st' = false ->
  s_over st = false /\ Permutation (s_known st') (Known s (s * e) :: s_known st) /\ sorted_known (s_known st') /\
  s_max st' = s_max st + (s * e - s) /\ - 2 ^ 63 <= s * e <= 2 ^ 63 - 1.
Proof.
  intros st s e st' H S O. unfold learn_dim in H.
  destruct (ov (s_over st) (mul_with_overflow 64 s e) 0) as [o ds] eqn:E1.
  destruct (lower_bound (s_known st) ds) as [a b] eqn:LB.
  unfold shift_insert in H. destruct (length b <=? 4)%nat; [|discriminate]. cbn [bind] in H.
  destruct (ov o (sub_with_overflow 64 ds s) 0) as [o2 diff] eqn:E2.
  destruct (ov o2 (add_with_overflow 64 (s_max st) diff) (s_max st)) as [o3 m] eqn:E3.
  injection H as <-. cbn [s_over s_known s_max] in *. subst o3.
  apply ov_false in E3. destruct E3 as [-> E3]. apply ov_false in E2. destruct E2 as [-> E2].
  apply ov_false in E1. destruct E1 as [O1 E1]. pose proof (mul_ov_repr _ _ _ E1) as RP. apply mul_ov in E1. apply sub_ov in E2. apply add_ov in E3. subst.
  destruct (lower_bound_spec _ _ _ _ S LB) as (EQ & A & B).
  split; [exact O1|]. split; [|split; [|split; [lia|exact RP]]].
  - rewrite EQ. apply Permutation_sym, Permutation_middle.
  - apply sorted_insert; [rewrite <- EQ; exact S|exact A|exact B].
Qed.
Lemma learn_dim_over : forall st s e st', learn_dim st s e = Val st' -> s_over st = true -> s_over st' = true.
Proof.
  intros st s e st' H O. unfold learn_dim in H. rewrite O in H. cbn [ov] in H.
  destruct (lower_bound _ _) as [a b]. unfold shift_insert in H. destruct (length b <=? 4)%nat; [|discriminate].
  cbn [bind] in H. injection H as <-. reflexivity.
Qed.
Lemma learn_dim_no_ub : forall st s e, (length (s_known st) <= 4)%nat ->
  exists st', learn_dim st s e = Val st' /\ length (s_known st') = S (length (s_known st)).
Proof.
  intros st s e L. unfold learn_dim. destruct (ov _ _ _) as [o ds].
  destruct (lower_bound (s_known st) ds) as [a b] eqn:LB.
  assert (s_known st = a ++ b) as E.
  { revert a b LB. generalize (s_known st). induction l as [|k l IH]; intros a b LB; cbn in LB; [injection LB as <- <-; reflexivity|].
    destruct (k_dim_stride k <? ds); [|injection LB as <- <-; reflexivity].
    destruct (lower_bound l ds) as [a' b']. injection LB as <- <-. cbn. f_equal. apply IH. reflexivity. }
  rewrite E, app_length in L. unfold shift_insert. destruct (Nat.leb_spec (length b) 4); [|lia].
  cbn [bind]. destruct (ov _ _ _) as [o2 diff]. destruct (ov _ _ _) as [o3 m]. eexists. split; [reflexivity|].
  cbn [s_known]. rewrite E, !app_length. cbn. lia.
Qed.

(** ** What the dims of a buffer look like *)
(** the dimensions that take part: non-zero known stride, more than one slot *)
Definition counts (d : dim) : bool := negb (d_stride d =? 0) && (1 <? alloc_extent d) && negb (d_stride d =? auto_stride).
Definition as_known (d : dim) : known := Known (Z.abs (d_stride d)) (Z.abs (d_stride d) * alloc_extent d).
Definition lk (ds : list dim) : list known := map as_known (filter counts ds).
Definition span_of (ks : list known) : Z := sumZ (map (fun k => k_dim_stride k - k_stride k) ks).
Definition fix_small (es : Z) (d : dim) : dim :=
  if negb (d_stride d =? 0) && (alloc_extent d <=? 1) && (d_stride d =? auto_stride) then set_stride d es else d.

Lemma span_of_perm : forall a b, Permutation a b -> span_of a = span_of b.
Proof. intros a b P. apply sumZ_perm, Permutation_map, P. Qed.
Lemma span_of_cons : forall k l, span_of (k :: l) = (k_dim_stride k - k_stride k) + span_of l.
Proof. reflexivity. Qed.
Lemma span_of_app : forall a b, span_of (a ++ b) = span_of a + span_of b.
Proof. intros a b. unfold span_of. rewrite map_app. apply sumZ_app. Qed.

Lemma lk_cons : forall d ds, lk (d :: ds) = if counts d then as_known d :: lk ds else lk ds.
Proof. intros d ds. unfold lk. cbn [filter]. destruct (counts d); reflexivity. Qed.
Lemma lk_app : forall a b, lk (a ++ b) = lk a ++ lk b.
Proof. induction a as [|d a IH]; intros b; [reflexivity|]. cbn [app]. rewrite !lk_cons, IH. destruct (counts d); reflexivity. Qed.

Lemma learn_known_spec : forall es ds st ds1 st1, learn_known es ds st = Val (ds1, st1) -> sorted_known (s_known st) ->
  s_over st1 = false ->
  s_over st = false /\ ds1 = map (fix_small es) ds /\ Permutation (s_known st1) (lk ds ++ s_known st) /\
  sorted_known (s_known st1) /\ s_max st1 = s_max st + span_of (lk ds).
Proof.
  induction ds as [|d ds IH]; intros st ds1 st1 H S O; cbn [learn_known] in H.
  - injection H as <- <-. repeat split; auto. unfold span_of. cbn. lia.
  - rewrite lk_cons. cbn [map]. unfold fix_small at 1, counts.
    destruct (Z.eqb_spec (d_stride d) 0) as [Z0|Z0]; cbn [negb andb] in *.
    { destruct (learn_known es ds st) as [[l st']|] eqn:E; [|discriminate]. cbn [bind] in H. injection H as <- <-.
      destruct (IH st l st' E S O) as (A & B & C & D & F). repeat split; auto. f_equal. exact B. }
    destruct (Z.leb_spec (alloc_extent d) 1) as [L1|L1].
    { destruct (learn_known es ds st) as [[l st']|] eqn:E; [|discriminate]. cbn [bind] in H. injection H as <- <-.
      destruct (IH st l st' E S O) as (A & B & C & D & F). destruct (Z.ltb_spec 1 (alloc_extent d)); [lia|]. cbn [andb].
      repeat split; auto. f_equal. exact B. }
    destruct (Z.ltb_spec 1 (alloc_extent d)) as [_|]; [|lia]. cbn [andb].
    destruct (Z.eqb_spec (d_stride d) auto_stride) as [AU|AU]; cbn [negb andb] in *.
    { destruct (learn_known es ds st) as [[l st']|] eqn:E; [|discriminate]. cbn [bind] in H. injection H as <- <-.
      destruct (IH st l st' E S O) as (A & B & C & D & F). repeat split; auto. f_equal. exact B. }
    destruct (Z.eqb_spec (d_stride d) (imin 64)) as [MI|MI].
    + destruct (learn_dim _ _ _) as [st2|] eqn:E2; [|discriminate]. cbn [bind] in H.
      destruct (learn_known es ds st2) as [[l st']|] eqn:E; [|discriminate]. cbn [bind] in H. injection H as <- <-.
      exfalso. apply learn_dim_over in E2; [|reflexivity].
      assert (forall ds st l st', learn_known es ds st = Val (l, st') -> s_over st = true -> s_over st' = true) as MONO.
      { clear. induction ds as [|d ds IH]; intros st l st' H O; cbn [learn_known] in H; [injection H as _ <-; exact O|].
        destruct (d_stride d =? 0). { destruct (learn_known es ds st) as [[l' s']|] eqn:E; [|discriminate]. injection H as _ <-. eauto. }
        destruct (alloc_extent d <=? 1). { destruct (learn_known es ds st) as [[l' s']|] eqn:E; [|discriminate]. injection H as _ <-. eauto. }
        destruct (negb _). 2:{ destruct (learn_known es ds st) as [[l' s']|] eqn:E; [|discriminate]. injection H as _ <-. eauto. }
        destruct (d_stride d =? imin 64).
        - destruct (learn_dim _ _ _) as [st2|] eqn:E2; [|discriminate]. cbn [bind] in H. apply learn_dim_over in E2; [|reflexivity].
          destruct (learn_known es ds st2) as [[l' s']|] eqn:E; [|discriminate]. injection H as _ <-. eauto.
        - destruct (learn_dim _ _ _) as [st2|] eqn:E2; [|discriminate]. cbn [bind] in H. apply learn_dim_over in E2; [|exact O].
          destruct (learn_known es ds st2) as [[l' s']|] eqn:E; [|discriminate]. injection H as _ <-. eauto. }
      rewrite (MONO _ _ _ _ E E2) in O. discriminate.
    + destruct (learn_dim _ _ _) as [st2|] eqn:E2; [|discriminate]. cbn [bind] in H.
      destruct (learn_known es ds st2) as [[l st']|] eqn:E; [|discriminate]. cbn [bind] in H. injection H as <- <-.
      assert (sorted_known (s_known st2)) as S2.
      { unfold learn_dim in E2. destruct (ov (s_over st) _ 0) as [o dd]. destruct (lower_bound (s_known st) dd) as [a b] eqn:LB.
        unfold shift_insert in E2. destruct (length b <=? 4)%nat; [|discriminate]. cbn [bind] in E2.
        destruct (ov o _ _) as [o2 df]. destruct (ov o2 _ _) as [o3 m]. injection E2 as <-. cbn [s_known].
        destruct (lower_bound_spec _ _ _ _ S LB) as (EQ & A & B). apply sorted_insert; cbn [k_dim_stride]; auto. rewrite <- EQ. exact S. }
      destruct (IH st2 l st' E S2 O) as (A & B & C & D & F).
      destruct (learn_dim_spec _ _ _ _ E2 S A) as (A' & P & S' & M & _).
      repeat split; auto.
      * f_equal. exact B.
      * cbn [app]. eapply Permutation_trans; [exact C|].
        eapply Permutation_trans; [apply Permutation_app_head; exact P|]. apply Permutation_sym, Permutation_middle.
      * rewrite span_of_cons. unfold as_known. cbn [k_dim_stride k_stride]. lia.
Qed.

(** ** The second loop *)
Lemma is_stride_ok_spec : forall s e ks o ok o', is_stride_ok s e ks o = (ok, o') -> o' = false ->
  o = false /\ (ok = true -> forall k, In k ks -> nested (Known s (s * e)) k) /\ (ks = [] -> ok = true).
Proof.
  intros s e ks o ok o' H O. unfold is_stride_ok in H. destruct (mul_with_overflow 64 s e) as [o1 ds] eqn:E.
  destruct o1; [injection H as <- <-; discriminate|]. apply mul_ov in E. injection H as H <-. subst ds.
  split; [exact O|]. split.
  - intros OK k I. rewrite <- H in OK. rewrite forallb_forall in OK. specialize (OK k I). unfold stride_fits in OK.
    apply orb_true_iff in OK. unfold nested. cbn [k_dim_stride k_stride]. destruct OK as [OK|OK]; apply Z.leb_le in OK; lia.
  - intros ->. rewrite <- H. reflexivity.
Qed.
Lemma find_candidate_spec : forall es e al all ks pre o c o', find_candidate e al all ks o = (c, o') -> o' = false ->
  pow2 al -> sorted_known all -> Forall (good es) all -> all = pre ++ ks ->
  o = false /\ (ks <> [] -> exists v, c = Some v /\ es <= v /\ forall k, In k all -> nested (Known v (v * e)) k).
Proof.
  intros es e al all. induction ks as [|k ks IH]; intros pre o c o' H O P S G E; cbn [find_candidate] in H.
  - injection H as <- <-. split; [exact O|congruence].
  - destruct (ov o (add_with_overflow 64 (k_dim_stride k) (al - 1)) 0) as [o1 padded] eqn:E1.
    assert (o1 = false -> o = false /\ k_dim_stride k <= align_mask padded al /\ es <= align_mask padded al) as CAND.
    { intros ->. apply ov_false in E1. destruct E1 as [-> E1]. apply add_ov in E1. subst padded. split; [reflexivity|].
      destruct (align_mask_bounds (k_dim_stride k + (al - 1)) al P) as [B _].
      assert (In k all) as I by (rewrite E; apply in_or_app; right; left; reflexivity).
      rewrite Forall_forall in G. specialize (G k I). unfold good in G. lia. }
    destruct ks as [|k2 ks].
    + injection H as <- <-. destruct (CAND O) as (A & B & C). split; [exact A|]. intros _. eexists. split; [reflexivity|].
      split; [exact C|]. intros q I. right. cbn [k_stride].
      enough (k_dim_stride q <= k_dim_stride k) by lia.
      rewrite E in I, S. clear - I S. induction pre as [|x pre IH]; cbn [app] in *.
      * destruct I as [->|[]]. lia.
      * apply StronglySorted_inv in S. destruct S as [S F]. destruct I as [->|I]; [|auto].
        rewrite Forall_forall in F. apply F. apply in_or_app. right. left. reflexivity.
    + destruct (is_stride_ok (align_mask padded al) e all o1) as [ok o2] eqn:E2. destruct ok.
      * injection H as <- <-. destruct (is_stride_ok_spec _ _ _ _ _ _ E2 O) as (A & B & _). destruct (CAND A) as (C & D & F).
        split; [exact C|]. intros _. eexists. split; [reflexivity|]. split; [exact F|]. exact (B eq_refl).
      * destruct (IH (pre ++ [k]) o2 c o' H O P S G) as [A B].
        { rewrite <- app_assoc. exact E. }
        destruct (is_stride_ok_spec _ _ _ _ _ _ E2 A) as (A' & _). destruct (CAND A') as (C & _).
        split; [exact C|]. intros _. apply B. discriminate.
Qed.

Lemma assign_unknown_over : forall es al ds st l st', assign_unknown es al ds st = Val (l, st') -> s_over st = true -> s_over st' = true.
Proof.
  intros es al. induction ds as [|d ds IH]; intros st l st' H O; cbn [assign_unknown] in H; [injection H as _ <-; exact O|].
  destruct (negb _). { destruct (assign_unknown es al ds st) as [[l' s']|] eqn:E; [|discriminate]. injection H as _ <-. eauto. }
  destruct (is_stride_ok _ _ _ _) as [ok o] eqn:E0.
  assert (o = true) as ->. { unfold is_stride_ok in E0. destruct (mul_with_overflow 64 es (alloc_extent d)) as [[|] dd]; injection E0 as _ <-; auto. }
  cbn [s_known s_max s_over] in H. destruct ok.
  - destruct (learn_dim _ _ _) as [st1|] eqn:E1; [|discriminate]. cbn [bind] in H. apply learn_dim_over in E1; [|reflexivity].
    destruct (assign_unknown es al ds st1) as [[l' s']|] eqn:E; [|discriminate]. injection H as _ <-. eauto.
  - destruct (find_candidate _ _ _ _ _) as [c o] eqn:E2.
    assert (o = true) as ->.
    { clear H. revert E2. generalize (s_known st) at 2. intros ks. revert c o. induction ks as [|k ks IHk]; intros c o E2; cbn [find_candidate] in E2; [injection E2 as _ <-; reflexivity|].
      cbn [ov] in E2. destruct ks as [|k2 ks]; [injection E2 as _ <-; reflexivity|].
      destruct (is_stride_ok _ _ _ true) as [ok o2] eqn:E3.
      assert (o2 = true) as ->. { unfold is_stride_ok in E3. destruct (mul_with_overflow _ _ _) as [[|] dd]; injection E3 as _ <-; auto. }
      destruct ok; [injection E2 as _ <-; reflexivity|]. eapply IHk. exact E2. }
    destruct c as [c|].
    + destruct (learn_dim _ _ _) as [st1|] eqn:E1; [|discriminate]. cbn [bind] in H. apply learn_dim_over in E1; [|reflexivity].
      destruct (assign_unknown es al ds st1) as [[l' s']|] eqn:E; [|discriminate]. injection H as _ <-. eauto.
    + destruct (assign_unknown es al ds _) as [[l' s']|] eqn:E; [|discriminate]. cbn [bind] in H. injection H as _ <-. eapply IH; [exact E|reflexivity].
Qed.

(** what changes in a dimension *)
Definition assigned (es : Z) (d d' : dim) : Prop :=
  d_min d' = d_min d /\ d_max d' = d_max d /\ d_fold d' = d_fold d /\
  (d_stride d <> auto_stride -> d_stride d' = d_stride d) /\
  (d_stride d = auto_stride -> es <= d_stride d' < auto_stride).

Lemma counts_set : forall d c, c <> 0 -> c <> auto_stride -> 1 < alloc_extent d -> counts (set_stride d c) = true /\ alloc_extent (set_stride d c) = alloc_extent d.
Proof.
  intros d c C0 CA L. assert (alloc_extent (set_stride d c) = alloc_extent d) as E by reflexivity.
  split; [|exact E]. unfold counts. rewrite E. cbn [set_stride d_stride].
  destruct (Z.eqb_spec c 0), (Z.eqb_spec c auto_stride), (Z.ltb_spec 1 (alloc_extent d)); try lia; reflexivity.
Qed.

Lemma assign_unknown_spec : forall es al ds st ds2 st2, assign_unknown es al ds st = Val (ds2, st2) ->
  s_over st2 = false -> sorted_known (s_known st) -> pow2 al -> 0 < es < auto_stride ->
  Forall (good es) (s_known st) -> ForallOrdPairs nested (s_known st) ->
  (forall d, In d ds -> d_stride d = auto_stride -> 1 < alloc_extent d) ->
  s_over st = false /\
  exists new, Permutation (s_known st2) (new ++ s_known st) /\ s_max st2 = s_max st + span_of new /\
    Forall (good es) (s_known st2) /\ ForallOrdPairs nested (s_known st2) /\
    Permutation (lk ds2) (new ++ lk ds) /\ Forall2 (assigned es) ds ds2.
Proof.
  intros es al. induction ds as [|d ds IH]; intros st ds2 st2 H O S P ES G N A; cbn [assign_unknown] in H.
  - injection H as <- <-. split; [exact O|]. exists []. cbn [app]. repeat split; auto. unfold span_of. cbn. lia.
  - assert (forall q, In q ds -> d_stride q = auto_stride -> 1 < alloc_extent q) as A' by (intros q I; apply A; right; exact I).
    destruct (Z.eqb_spec (d_stride d) auto_stride) as [AU|AU]; cbn [negb] in H.
    2:{ destruct (assign_unknown es al ds st) as [[l s']|] eqn:E; [|discriminate]. cbn [bind] in H. injection H as <- <-.
        destruct (IH st l s' E O S P ES G N A') as (B & new & C1 & C2 & C3 & C4 & C5 & C6).
        split; [exact B|]. exists new. repeat split; auto.
        - rewrite !lk_cons. destruct (counts d); [|exact C5].
          eapply Permutation_trans; [constructor; exact C5|]. apply Permutation_middle.
        - constructor; [|exact C6]. unfold assigned. repeat split; auto; contradiction. }
    specialize (A d (or_introl eq_refl) AU).
    assert (forall v st0 st1 l s', learn_dim st0 v (alloc_extent d) = Val st1 -> s_known st0 = s_known st -> s_max st0 = s_max st ->
              assign_unknown es al ds st1 = Val (l, s') -> s_over s' = false -> es <= v ->
              (forall k, In k (s_known st) -> nested (Known v (v * alloc_extent d)) k) ->
              s_over st0 = false /\
              exists new, Permutation (s_known s') (new ++ s_known st) /\ s_max s' = s_max st + span_of new /\
                Forall (good es) (s_known s') /\ ForallOrdPairs nested (s_known s') /\
                Permutation (lk (set_stride d v :: l)) (new ++ lk (d :: ds)) /\ Forall2 (assigned es) (d :: ds) (set_stride d v :: l)) as STEP.
    { clear H O. intros v st0 st1 l s' HL HK HM HA O HV HN.
      assert (s_over st1 = false) as O1.
      { destruct (s_over st1) eqn:X; [|reflexivity]. rewrite (assign_unknown_over _ _ _ _ _ _ HA X) in O. discriminate. }
      assert (sorted_known (s_known st0)) as S0 by (rewrite HK; exact S).
      destruct (learn_dim_spec _ _ _ _ HL S0 O1) as (B0 & B1 & B2 & B3 & B4). rewrite HK in B1. rewrite HM in B3.
      assert (Forall (good es) (s_known st1)) as G1.
      { eapply Permutation_Forall; [apply Permutation_sym; exact B1|]. constructor; [|exact G]. unfold good. cbn [k_stride k_dim_stride]. nia. }
      assert (ForallOrdPairs nested (s_known st1)) as N1.
      { eapply FOP_perm; [exact nested_sym|apply Permutation_sym; exact B1|]. constructor; [|exact N]. apply Forall_forall. exact HN. }
      destruct (IH st1 l s' HA O B2 P ES G1 N1 A') as (_ & new & C1 & C2 & C3 & C4 & C5 & C6).
      assert (v < auto_stride) as VA by (unfold auto_stride; nia).
      destruct (counts_set d v ltac:(lia) ltac:(lia) A) as [CS CE].
      split; [exact B0|]. exists (Known v (v * alloc_extent d) :: new). split; [|split; [|split; [|split; [|split]]]]; auto.
      - eapply Permutation_trans; [exact C1|]. eapply Permutation_trans; [apply Permutation_app_head; exact B1|].
        cbn [app]. apply Permutation_sym, Permutation_middle.
      - rewrite span_of_cons. cbn [k_dim_stride k_stride]. lia.
      - rewrite !lk_cons, CS. replace (counts d) with false.
        2:{ unfold counts. rewrite AU, Z.eqb_refl. rewrite andb_false_r. reflexivity. }
        cbn [app]. unfold as_known. rewrite CE. cbn [set_stride d_stride]. rewrite Z.abs_eq by lia. constructor. exact C5.
      - constructor; [|exact C6]. unfold assigned. cbn. repeat split; auto; try lia; try contradiction. }
    destruct (is_stride_ok es (alloc_extent d) (s_known st) (s_over st)) as [ok o] eqn:E0.
    cbn [s_known s_max s_over] in H. destruct ok.
    + destruct (learn_dim _ es _) as [st1|] eqn:E1; [|discriminate]. cbn [bind] in H.
      destruct (assign_unknown es al ds st1) as [[l s']|] eqn:E; [|discriminate]. cbn [bind] in H. injection H as <- <-.
      assert (o = false) as OF.
      { destruct o; [|reflexivity]. apply learn_dim_over in E1; [|reflexivity]. rewrite (assign_unknown_over _ _ _ _ _ _ E E1) in O. discriminate. }
      destruct (is_stride_ok_spec _ _ _ _ _ _ E0 OF) as (B & C & _).
      destruct (STEP es _ st1 l s' E1 eq_refl eq_refl E O ltac:(lia) (C eq_refl)) as (_ & R). split; [exact B|exact R].
    + destruct (find_candidate _ _ _ _ _) as [c o2] eqn:E2.
      assert (o2 = false) as OF.
      { destruct o2; [|reflexivity]. destruct c as [c|].
        - destruct (learn_dim _ _ _) as [st1|] eqn:E1; [|discriminate]. cbn [bind] in H. apply learn_dim_over in E1; [|reflexivity].
          destruct (assign_unknown es al ds st1) as [[l s']|] eqn:E; [|discriminate]. cbn [bind] in H. injection H as <- <-.
          rewrite (assign_unknown_over _ _ _ _ _ _ E E1) in O. discriminate.
        - destruct (assign_unknown es al ds _) as [[l s']|] eqn:E; [|discriminate]. cbn [bind] in H. injection H as <- <-.
          rewrite (assign_unknown_over _ _ _ _ _ _ E eq_refl) in O. discriminate. }
      destruct (find_candidate_spec es _ _ _ _ [] _ _ _ E2 OF P S G eq_refl) as (B & C).
      destruct (is_stride_ok_spec _ _ _ _ _ _ E0 B) as (B' & _ & D).
      destruct C as (v & -> & V1 & V2). { intros Q. specialize (D Q). discriminate. }
      destruct (learn_dim _ v _) as [st1|] eqn:E1; [|discriminate]. cbn [bind] in H.
      destruct (assign_unknown es al ds st1) as [[l s']|] eqn:E; [|discriminate]. cbn [bind] in H. injection H as <- <-.
      destruct (STEP v _ st1 l s' E1 eq_refl eq_refl E O V1 V2) as (_ & R). split; [exact B'|exact R].
Qed.

(** ** The whole of init_strides_impl *)
Lemma finish_size_spec : forall es al m o n, finish_size es al m o = Some n -> pow2 al ->
  o = false /\ m + es <= n < m + es + al /\ (al | n).
Proof.
  intros es al m o n H P. unfold finish_size in H. destruct (ov o _ m) as [o1 s1] eqn:E1. destruct (ov o1 _ s1) as [o2 s2] eqn:E2.
  destruct o2; [discriminate|]. apply ov_false in E2. destruct E2 as [-> E2]. apply ov_false in E1. destruct E1 as [-> E1].
  apply add_ov in E1. apply add_ov in E2. injection H as <-. destruct (align_mask_bounds s2 al P) as [B D].
  split; [reflexivity|]. split; [lia|exact D].
Qed.
Lemma as_index_small : forall x, 0 <= x < 2 ^ 63 -> as_index x = x.
Proof.
  intros x H. unfold as_index, wrap, imin. change (64 - 1) with 63. rewrite Z.mod_small by lia. lia.
Qed.
Lemma as_index_big : forall x, 2 ^ 63 <= x < 2 ^ 64 -> as_index x < 0.
Proof.
  intros x H. unfold as_index, wrap, imin. change (64 - 1) with 63.
  replace (x - - 2 ^ 63) with (x - 2 ^ 63 + 1 * 2 ^ 64) by lia. rewrite Z.mod_add by lia. rewrite Z.mod_small by lia. lia.
Qed.

Definition init_ok (es : Z) (ds ds2 : list dim) (size al : Z) : Prop :=
  exists m, m + es <= size < m + es + al /\ (al | size) /\ m = span_of (lk ds2) /\
  Forall (good es) (lk ds2) /\ ForallOrdPairs nested (lk ds2) /\ Forall2 (assigned es) ds ds2.

Lemma lk_fix_small : forall es ds, es <> 0 -> lk (map (fix_small es) ds) = lk ds.
Proof.
  intros es ds E0. induction ds as [|d ds IH]; [reflexivity|]. cbn [map]. rewrite !lk_cons, IH.
  assert (counts (fix_small es d) = counts d /\ (counts d = true -> fix_small es d = d)) as [-> E].
  { unfold fix_small, counts. destruct (Z.eqb_spec (d_stride d) 0) as [Z0|Z0]; cbn [negb andb].
    - rewrite Z0. cbn. split; [reflexivity|discriminate].
    - destruct (Z.leb_spec (alloc_extent d) 1) as [L|L]; cbn [andb].
      + destruct (Z.eqb_spec (d_stride d) auto_stride) as [A|A].
        * replace (alloc_extent (set_stride d es)) with (alloc_extent d) by reflexivity.
          destruct (Z.ltb_spec 1 (alloc_extent d)); [lia|]. cbn. rewrite !andb_false_r. cbn. split; [reflexivity|discriminate].
        * split; [|auto]. destruct (Z.eqb_spec (d_stride d) 0); [contradiction|]. destruct (Z.eqb_spec (d_stride d) auto_stride); [contradiction|]. reflexivity.
      + split; [|auto]. destruct (Z.eqb_spec (d_stride d) 0); [contradiction|]. reflexivity. }
  destruct (counts d) eqn:C; [|reflexivity]. rewrite E by reflexivity. reflexivity.
Qed.

Lemma init_strides_impl_spec : forall b al b' n, init_strides_impl b al = Val (b', Some n) -> pow2 al ->
  0 < elem_size b < 2 ^ 64 -> elem_size b <> auto_stride ->
  Forall (good (elem_size b)) (lk (dims b)) -> ForallOrdPairs nested (lk (dims b)) ->
  base b' = base b /\ elem_size b' = elem_size b /\ init_ok (elem_size b) (dims b) (dims b') n al.
Proof.
  intros b al b' n H P ES NA G N. unfold init_strides_impl in H.
  destruct (learn_known _ _ _) as [[ds1 st1]|] eqn:E1; [|discriminate]. cbn [bind] in H.
  destruct (assign_unknown _ _ _ _) as [[ds2 st2]|] eqn:E2; [|discriminate]. cbn [bind] in H.
  injection H as <- F. cbn [base elem_size dims]. split; [reflexivity|]. split; [reflexivity|].
  apply finish_size_spec in F; [|exact P]. destruct F as (O & SZ & DV).
  assert (s_over st1 = false) as O1.
  { destruct (s_over st1) eqn:X; [|reflexivity]. rewrite (assign_unknown_over _ _ _ _ _ _ E2 X) in O. discriminate. }
  destruct (learn_known_spec _ _ _ _ _ E1 ltac:(constructor) O1) as (A1 & A2 & A3 & A4 & A5).
  cbn [s_over s_known s_max] in *. rewrite app_nil_r in A3.
  assert (as_index (elem_size b) = elem_size b) as EI.
  { destruct (Z_lt_dec (elem_size b) (2 ^ 63)); [apply as_index_small; lia|].
    pose proof (as_index_big (elem_size b) ltac:(lia)). destruct (Z.ltb_spec (as_index (elem_size b)) 0); [discriminate|lia]. }
  rewrite EI in *.
  assert (0 < elem_size b < auto_stride) as ES2.
  { unfold auto_stride in *. destruct (Z_lt_dec (elem_size b) (2 ^ 63)); [lia|].
    pose proof (as_index_big (elem_size b) ltac:(lia)). lia. }
  destruct (assign_unknown_spec _ _ _ _ _ _ E2 O A4 P ES2) as (_ & new & C1 & C2 & C3 & C4 & C5 & C6).
  { eapply Permutation_Forall; [apply Permutation_sym; exact A3|exact G]. }
  { eapply FOP_perm; [exact nested_sym|apply Permutation_sym; exact A3|exact N]. }
  { subst ds1. intros d I AU. apply in_map_iff in I. destruct I as (d0 & <- & I). unfold fix_small in AU |- *.
    destruct (negb (d_stride d0 =? 0) && (alloc_extent d0 <=? 1) && (d_stride d0 =? auto_stride)) eqn:C.
    - cbn [set_stride d_stride] in AU. lia.
    - rewrite AU in C. rewrite Z.eqb_refl in C. change (auto_stride =? 0) with false in C. cbn [negb andb] in C.
      rewrite andb_true_r in C. apply Z.leb_gt in C. exact C. }
  assert (lk ds1 = lk (dims b)) as LK1 by (rewrite A2; apply lk_fix_small; lia).
  assert (Permutation (lk ds2) (s_known st2)) as PK.
  { eapply Permutation_trans; [exact C5|]. apply Permutation_sym. eapply Permutation_trans; [exact C1|].
    apply Permutation_app_head. rewrite LK1. exact A3. }
  exists (s_max st2). split; [exact SZ|]. split; [exact DV|]. split; [|split; [|split]].
  - rewrite (span_of_perm _ _ PK), (span_of_perm _ _ C1), span_of_app, C2, A5, (span_of_perm _ _ A3). lia.
  - eapply Permutation_Forall; [apply Permutation_sym; exact PK|exact C3].
  - eapply FOP_perm; [exact nested_sym|apply Permutation_sym; exact PK|exact C4].
  - rewrite A2 in C6. clear - C6 ES2. revert C6. generalize (dims b) as ds. intros ds. revert ds2.
    induction ds as [|d ds IH]; intros ds2 F; cbn [map] in F; inversion F as [|? ? ? ? R F']; subst; constructor; [|apply IH; exact F'].
    unfold assigned, fix_small in *.
    destruct (negb (d_stride d =? 0) && (alloc_extent d <=? 1) && (d_stride d =? auto_stride)) eqn:C; [|exact R].
    apply andb_true_iff in C. destruct C as [_ C]. apply Z.eqb_eq in C. cbn [set_stride d_min d_max d_stride d_fold] in R.
    destruct R as (R1 & R2 & R3 & R4 & R5). repeat split; auto; [congruence| |]; rewrite R4 by lia; lia.
Qed.
