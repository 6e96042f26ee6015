From Coq Require Import ZArith List Bool Lia Znumtheory.
From Verif Require Import Arith_Model Arith_Spec Arith_Proofs ModRem_Model.
Open Scope Z_scope.

(** [x] belongs to the set described by [m]. *)
Definition mr_in (m : modrem) (x : Z) : Prop := exists y, x = modulus m * y + remainder m.
Definition mr_repr (w : Z) (m : modrem) : Prop :=
  imin w <= modulus m <= imax w /\ imin w <= remainder m <= imax w.

Lemma mr_in_all x : mr_in mr_all x.
Proof. exists x. cbn [modulus remainder mr_all]. lia. Qed.
Lemma mr_in_1 r x : mr_in (MR 1 r) x.
Proof. exists (x - r). cbn [modulus remainder]; lia. Qed.

Lemma in_divide m r x : mr_in (MR m r) x <-> (m | x - r).
Proof.
  unfold mr_in; cbn [modulus remainder]. split.
  - intros [y ->]. exists y. lia.
  - intros [y E]. exists y. lia.
Qed.
Lemma mr_in_divide m x : mr_in m x <-> (modulus m | x - remainder m).
Proof. destruct m; apply in_divide. Qed.

Lemma gcd_inv_div w a b g : 0 < w -> imin w <= a <= imax w -> imin w <= b <= imax w ->
  gcd w a b = Val g -> (g | a) /\ (g | b) /\ imin w <= g <= imax w.
Proof.
  intros Hw Ha Hb H. pose proof (gcd_inv w a b g Hw Ha Hb H) as E.
  assert (D : forall x, (Z.gcd a b | x) -> (g | x)).
  { intros x Hx. apply Z.divide_abs_l. rewrite E. auto. }
  split; [apply D, Z.gcd_divide_l|]. split; [apply D, Z.gcd_divide_r|].
  pose proof (pow_w w Hw). assert (Hg : Z.gcd a b <= 2 ^ (w - 1)).
  { destruct (Z.eq_dec a 0) as [->|Ha0].
    - rewrite Z.gcd_0_l. unfold imin, imax in *; lia.
    - pose proof (Z.gcd_divide_l a b) as Hd. apply Z.divide_abs_r in Hd. apply Z.divide_pos_le in Hd; [|lia]. unfold imin, imax in *; lia. }
  (* g = 2^(w-1) is impossible as the loop's values are in range *)
  assert (R : forall fuel x y, imin w <= x <= imax w -> imin w <= y <= imax w ->
     gcd_loop fuel w x y = Val g -> imin w <= g <= imax w).
  { induction fuel as [|fuel IH]; intros x y Hx Hy HL; [discriminate|]. cbn [gcd_loop] in HL.
    destruct (Z.eqb_spec y 0); [inversion HL; subst; auto|].
    destruct (crem_cases w x y Hw Hx ltac:(auto)) as [(_ & _ & Eq)|(_ & Eq)]; rewrite Eq in HL; [discriminate|].
    cbn [bind] in HL. eapply IH; [| |exact HL]; auto. apply rem_in_range; auto. }
  unfold gcd in H. destruct (a <? b); eapply R; [| |exact H| | |exact H]; auto.
Qed.

Lemma euclidean_mod_inv w a b d v : 0 < w -> imin w <= a <= imax w -> imin w <= b <= imax w ->
  euclidean_mod w a b d = Val v -> (b = 0 /\ v = d) \/ (b <> 0 /\ v = emod a b).
Proof.
  intros Hw Ha Hb. destruct (Z.eq_dec b 0) as [->|Hb0].
  - rewrite euclidean_mod_zero. intros E; inversion E; auto.
  - right. split; auto. destruct (Z.eq_dec a (imin w)) as [->|].
    + destruct (Z.eq_dec b (-1)) as [->|].
      * rewrite euclidean_mod_ub in H by auto. discriminate.
      * rewrite euclidean_mod_ok in H by (auto; lia). congruence.
    + rewrite euclidean_mod_ok in H by (auto; lia). congruence.
Qed.

Lemma emod_divide a b : b <> 0 -> (b | a - emod a b).
Proof. intros Hb. destruct (euclid_ediv a b Hb) as [E _]. exists (ediv a b). lia. Qed.

(** reducing the remainder does not change the set *)
Lemma reduce_divide w r m r' : 0 < w -> imin w <= r <= imax w -> imin w <= m <= imax w ->
  euclidean_mod w r m r = Val r' -> (m | r - r').
Proof.
  intros Hw Hr Hm H. apply euclidean_mod_inv in H; auto. destruct H as [[-> ->]|[Hm0 ->]].
  - exists 0. lia.
  - apply emod_divide; auto.
Qed.

Lemma mr_add_sound w a b c : 0 < w -> mr_repr w a -> mr_repr w b -> mr_add w a b = Val c ->
  forall x y, mr_in a x -> mr_in b y -> mr_in c (x + y).
Proof.
  intros Hw [Ha1 Ha2] [Hb1 Hb2] H x y Hx Hy. unfold mr_add in H.
  pose proof (add_with_overflow_ok w (remainder a) (remainder b) Hw) as [O1 O2].
  destruct (add_with_overflow w (remainder a) (remainder b)) as [o r]. cbn [fst snd] in *.
  destruct o. { inversion H; subst. apply mr_in_1. }
  rewrite (O2 eq_refl) in *.
  apply bind_inv in H as (m & Hm & H). apply bind_inv in H as (r' & Hr & H). inversion H; subst; clear H.
  apply gcd_inv_div in Hm; auto. destruct Hm as (D1 & D2 & D3).
  assert (R : imin w <= remainder a + remainder b <= imax w).
  { destruct (Z_le_dec (imin w) (remainder a + remainder b)), (Z_le_dec (remainder a + remainder b) (imax w)); try lia;
    exfalso; destruct O1 as [_ O1]; discriminate O1; lia. }
  apply reduce_divide in Hr; auto.
  apply mr_in_divide in Hx, Hy. apply mr_in_divide; cbn [modulus remainder].
  replace (x + y - r') with ((x - remainder a) + (y - remainder b) + (remainder a + remainder b - r')) by ring.
  apply Z.divide_add_r; auto. apply Z.divide_add_r; [exact (Z.divide_trans _ _ _ D1 Hx)|exact (Z.divide_trans _ _ _ D2 Hy)].
Qed.

Lemma mr_sub_sound w a b c : 0 < w -> mr_repr w a -> mr_repr w b -> mr_sub w a b = Val c ->
  forall x y, mr_in a x -> mr_in b y -> mr_in c (x - y).
Proof.
  intros Hw [Ha1 Ha2] [Hb1 Hb2] H x y Hx Hy. unfold mr_sub in H.
  pose proof (sub_with_overflow_ok w (remainder a) (remainder b) Hw) as [O1 O2].
  destruct (sub_with_overflow w (remainder a) (remainder b)) as [o r]. cbn [fst snd] in *.
  destruct o. { inversion H; subst. apply mr_in_1. }
  rewrite (O2 eq_refl) in *.
  apply bind_inv in H as (m & Hm & H). apply bind_inv in H as (r' & Hr & H). inversion H; subst; clear H.
  apply gcd_inv_div in Hm; auto. destruct Hm as (D1 & D2 & D3).
  assert (R : imin w <= remainder a - remainder b <= imax w).
  { destruct (Z_le_dec (imin w) (remainder a - remainder b)), (Z_le_dec (remainder a - remainder b) (imax w)); try lia;
    exfalso; destruct O1 as [_ O1]; discriminate O1; lia. }
  apply reduce_divide in Hr; auto.
  apply mr_in_divide in Hx, Hy. apply mr_in_divide; cbn [modulus remainder].
  replace (x - y - r') with ((x - remainder a) - (y - remainder b) + (remainder a - remainder b - r')) by ring.
  apply Z.divide_add_r; auto. apply Z.divide_sub_r; [exact (Z.divide_trans _ _ _ D1 Hx)|exact (Z.divide_trans _ _ _ D2 Hy)].
Qed.

Lemma mr_mul_sound w a b c : 0 < w -> mr_repr w a -> mr_repr w b -> mr_mul w a b = Val c ->
  forall x y, mr_in a x -> mr_in b y -> mr_in c (x * y).
Proof.
  intros Hw [Ha1 Ha2] [Hb1 Hb2] H x y Hx Hy. unfold mr_mul in H.
  pose proof (mul_with_overflow_ok w) as O.
  destruct (Z.eqb_spec (modulus a) 0) as [Ea|Ea].
  { pose proof (O (remainder a) (modulus b) Hw) as [_ O1]. pose proof (O (remainder a) (remainder b) Hw) as [_ O2].
    destruct (mul_with_overflow w (remainder a) (modulus b)) as [o1 m].
    destruct (mul_with_overflow w (remainder a) (remainder b)) as [o2 r].
    cbn [fst snd] in *. destruct o1, o2; cbn [negb andb] in H; inversion H; subst; try apply mr_in_all.
    rewrite (O1 eq_refl), (O2 eq_refl). destruct Hx as [x' Ex], Hy as [y' Ey]. exists y'. cbn [modulus remainder]. rewrite Ex, Ey, Ea. ring. }
  destruct (Z.eqb_spec (modulus b) 0) as [Eb|Eb].
  { pose proof (O (modulus a) (remainder b) Hw) as [_ O1]. pose proof (O (remainder a) (remainder b) Hw) as [_ O2].
    destruct (mul_with_overflow w (modulus a) (remainder b)) as [o1 m].
    destruct (mul_with_overflow w (remainder a) (remainder b)) as [o2 r].
    cbn [fst snd] in *. destruct o1, o2; cbn [negb andb] in H; inversion H; subst; try apply mr_in_all.
    rewrite (O1 eq_refl), (O2 eq_refl). destruct Hx as [x' Ex], Hy as [y' Ey]. exists x'. cbn [modulus remainder]. rewrite Ex, Ey, Eb. ring. }
  destruct (Z.eqb_spec (remainder a) 0) as [Era|Era]; cbn [andb] in H.
  - destruct (Z.eqb_spec (remainder b) 0) as [Erb|Erb].
    + pose proof (O (modulus a) (modulus b) Hw) as [_ O1].
      destruct (mul_with_overflow w (modulus a) (modulus b)) as [o m]. cbn [fst snd] in *.
      destruct o; cbn [negb] in H; inversion H; subst; [apply mr_in_all|]. rewrite (O1 eq_refl).
      destruct Hx as [x' Ex], Hy as [y' Ey]. exists (x' * y'). cbn [modulus remainder]. rewrite Ex, Ey, Era, Erb. ring.
    + apply bind_inv in H as (g & Hg & H). apply gcd_inv_div in Hg; auto. destruct Hg as ([g1 G1] & [g2 G2] & _).
      pose proof (O (modulus a) g Hw) as [_ O1].
      destruct (mul_with_overflow w (modulus a) g) as [o m]. cbn [fst snd] in *.
      destruct o; cbn [negb] in H; inversion H; subst; [apply mr_in_all|]. rewrite (O1 eq_refl).
      destruct Hx as [x' Ex], Hy as [y' Ey]. exists (x' * (g1 * y' + g2)). cbn [modulus remainder]. rewrite Ex, Ey, Era, G1, G2. ring.
  - destruct (Z.eqb_spec (remainder b) 0) as [Erb|Erb].
    + apply bind_inv in H as (g & Hg & H). apply gcd_inv_div in Hg; auto. destruct Hg as ([g1 G1] & [g2 G2] & _).
      pose proof (O (modulus b) g Hw) as [_ O1].
      destruct (mul_with_overflow w (modulus b) g) as [o m]. cbn [fst snd] in *.
      destruct o; cbn [negb] in H; inversion H; subst; [apply mr_in_all|]. rewrite (O1 eq_refl).
      destruct Hx as [x' Ex], Hy as [y' Ey]. exists (y' * (g1 * x' + g2)). cbn [modulus remainder]. rewrite Ex, Ey, Erb, G1, G2. ring.
    + pose proof (O (remainder a) (remainder b) Hw) as [O2 O1].
      destruct (mul_with_overflow w (remainder a) (remainder b)) as [o r]. cbn [fst snd] in *.
      destruct o; cbn [negb] in H; [inversion H; subst; apply mr_in_all|]. rewrite (O1 eq_refl) in *.
      apply bind_inv in H as (m & Hm & H). apply bind_inv in H as (r' & Hr & H). inversion H; subst; clear H.
      apply gcd_inv_div in Hm; auto. destruct Hm as ([k1 K1] & [k2 K2] & D3).
      assert (R : imin w <= remainder a * remainder b <= imax w).
      { destruct (Z_le_dec (imin w) (remainder a * remainder b)), (Z_le_dec (remainder a * remainder b) (imax w)); try lia;
        exfalso; destruct O2 as [_ O2]; discriminate O2; lia. }
      apply reduce_divide in Hr; auto. destruct Hr as [k Hk].
      destruct Hx as [x' Ex], Hy as [y' Ey].
      exists (k1 * x' * (k2 * y' * m) + k1 * x' * remainder b + remainder a * k2 * y' + k). cbn [modulus remainder].
      rewrite Ex, Ey, K1, K2. replace r' with (remainder a * remainder b - k * m) by lia. ring.
Qed.

Lemma euclidean_div_range w a b v : b <> 0 -> euclidean_div w a b 0 = Val v -> imin w <= v <= imax w.
Proof.
  intros Hb H. unfold euclidean_div in H. destruct (Z.eqb_spec b 0); [contradiction|].
  apply bind_inv in H as (q & _ & H). apply bind_inv in H as (r & _ & H). cbv zeta in H.
  apply bind_inv in H as (t & _ & H). apply chk_inv in H as [-> H]; auto.
Qed.

Lemma mr_div_sound w a b c : 0 < w -> mr_repr w a -> mr_repr w b -> mr_div w a b = Val c ->
  forall x y, mr_in a x -> mr_in b y -> mr_in c (ediv x y).
Proof.
  intros Hw [Ha1 Ha2] [Hb1 Hb2] H x y Hx Hy. unfold mr_div in H.
  destruct (Z.eqb_spec (modulus b) 0) as [Eb|Eb]; cbn [andb] in H; [|inversion H; apply mr_in_all].
  destruct (Z.eqb_spec (remainder b) 0) as [Erb|Erb]; cbn [negb] in H; [inversion H; apply mr_in_all|].
  apply bind_inv in H as (t & Ht & H). apply euclidean_mod_inv in Ht; auto. destruct Ht as [[? _]|[_ ->]]; [contradiction|].
  destruct (Z.eqb_spec (emod (modulus a) (remainder b)) 0) as [E0|E0]; [|inversion H; apply mr_in_all].
  apply bind_inv in H as (m & Hm & H). apply bind_inv in H as (r & Hr & H). apply bind_inv in H as (r' & Hr' & H).
  inversion H; subst; clear H.
  destruct Hy as [y' Ey]. rewrite Eb in Ey. assert (y = remainder b) as -> by lia.
  unfold cdiv in Hm. destruct (Z.eqb_spec (remainder b) 0); [contradiction|]. apply chk_inv in Hm as [-> Rm].
  assert (Hd : (remainder b | modulus a)).
  { pose proof (emod_divide (modulus a) (remainder b) Erb) as D. rewrite E0, Z.sub_0_r in D. auto. }
  destruct Hd as [k Ek]. rewrite Ek, Z.quot_mul in * by auto.
  pose proof (euclidean_div_range w _ _ _ Erb Hr) as Rr.
  apply euclidean_div_inv in Hr; auto. subst r.
  destruct Hx as [x' Ex].
  assert (Ed : ediv x (remainder b) = ediv (remainder a) (remainder b) + k * x').
  { rewrite Ex, Ek. replace (k * remainder b * x' + remainder a) with (remainder a + remainder b * (k * x')) by ring.
    apply ediv_shift; auto. }
  rewrite Ed.
  assert (R : (k | ediv (remainder a) (remainder b) - r')).
  { apply euclidean_mod_inv in Hr'; auto.
    destruct Hr' as [[-> ->]|[Hk ->]]; [exists 0; lia|]. apply emod_divide; auto. }
  destruct R as [z Ez]. exists (x' + z). cbn [modulus remainder]. lia.
Qed.

Lemma mr_union_ordered_sound w a b c : 0 < w -> mr_repr w a -> mr_repr w b -> mr_union_ordered w a b = Val c ->
  forall x, mr_in a x \/ mr_in b x -> mr_in c x.
Proof.
  intros Hw [Ha1 Ha2] [Hb1 Hb2] H x Hx. unfold mr_union_ordered in H.
  apply bind_inv in H as (m & Hm & H). apply gcd_inv_div in Hm; auto. destruct Hm as (D1 & D2 & D3).
  destruct (sub_with_overflow w (remainder a) (remainder b)) as [[] r0]; [inversion H; apply mr_in_all|].
  apply bind_inv in H as (diff & Hd & H). apply chk_inv in Hd as [-> Hd].
  apply bind_inv in H as (m' & Hm & H). apply gcd_inv_div in Hm; auto. destruct Hm as (E1 & E2 & E3).
  apply bind_inv in H as (ra & Hr & H). inversion H; subst; clear H.
  apply reduce_divide in Hr; auto.
  apply mr_in_divide; cbn [modulus remainder].
  destruct Hx as [Hx|Hx]; apply mr_in_divide in Hx.
  - replace (x - ra) with ((x - remainder a) + (remainder a - ra)) by ring.
    apply Z.divide_add_r; auto. exact (Z.divide_trans _ _ _ (Z.divide_trans _ _ _ E2 D1) Hx).
  - replace (x - ra) with ((x - remainder b) - (remainder a - remainder b) + (remainder a - ra)) by ring.
    apply Z.divide_add_r; auto. apply Z.divide_sub_r; auto. exact (Z.divide_trans _ _ _ (Z.divide_trans _ _ _ E2 D2) Hx).
Qed.

Lemma mr_union_sound w a b c : 0 < w -> mr_repr w a -> mr_repr w b -> mr_union w a b = Val c ->
  forall x, mr_in a x \/ mr_in b x -> mr_in c x.
Proof.
  intros Hw Ha Hb H x Hx. unfold mr_union in H. destruct (remainder a <? remainder b).
  - eapply mr_union_ordered_sound; [| | |exact H|]; auto. tauto.
  - eapply mr_union_ordered_sound; [| | |exact H|]; auto.
Qed.

Lemma mr_inter_sound w a b c : 0 < w -> mr_repr w a -> mr_repr w b -> mr_inter w a b = Val c ->
  forall x, mr_in a x -> mr_in b x -> mr_in c x.
Proof.
  intros Hw [Ha1 Ha2] [Hb1 Hb2] H x Hx Hy. unfold mr_inter in H.
  destruct (modulus a =? 0); [inversion H; subst; auto|].
  destruct (modulus b =? 0); [inversion H; subst; auto|].
  destruct (Z.eqb_spec (remainder a) 0) as [E1|]; cbn [andb] in H.
  - destruct (Z.eqb_spec (remainder b) 0) as [E2|].
    + apply bind_inv in H as (l & Hl & H). inversion H; subst; clear H.
      apply lcm_inv in Hl; auto. apply mr_in_divide in Hx, Hy. rewrite E1, E2, Z.sub_0_r in *.
      apply mr_in_divide; cbn [modulus remainder]. rewrite Z.sub_0_r. apply Z.divide_abs_l. rewrite Hl. apply Z.lcm_least; auto.
    + destruct (modulus b <? modulus a); inversion H; subst; auto.
  - destruct (modulus b <? modulus a); inversion H; subst; auto.
Qed.

(** [%] needs to know from the remainder alone whether the divisor may be 0. *)
Definition mr_zero_visible (b : modrem) : Prop := mr_in b 0 -> remainder b = 0.

Lemma mr_mod_sound w a b c : 0 < w -> mr_repr w a -> mr_repr w b -> mr_zero_visible b -> mr_mod w a b = Val c ->
  forall x y, mr_in a x -> mr_in b y -> mr_in c (emod x y).
Proof.
  intros Hw [Ha1 Ha2] [Hb1 Hb2] Hz H x y Hx Hy. unfold mr_mod in H.
  apply bind_inv in H as (m0 & Hm0 & H). apply gcd_inv_div in Hm0; auto. destruct Hm0 as (D1 & D2 & D3).
  apply bind_inv in H as (m & Hm & H). pose proof (gcd_inv _ _ _ _ Hw D3 Hb2 Hm) as HG.
  apply gcd_inv_div in Hm; auto. destruct Hm as (E1 & E2 & E3).
  apply bind_inv in H as (r & Hr & H). pose proof Hr as Hr'. apply reduce_divide in Hr; auto.
  (* y is a multiple of m *)
  assert (My : (m | y)).
  { apply mr_in_divide in Hy. replace y with ((y - remainder b) + remainder b) by ring. apply Z.divide_add_r; auto.
    exact (Z.divide_trans _ _ _ (Z.divide_trans _ _ _ E1 D2) Hy). }
  assert (Mx : (m | x - r)).
  { apply mr_in_divide in Hx. replace (x - r) with ((x - remainder a) + (remainder a - r)) by ring. apply Z.divide_add_r; auto.
    exact (Z.divide_trans _ _ _ (Z.divide_trans _ _ _ E1 D1) Hx). }
  assert (Mxy : y <> 0 -> (m | emod x y - r)).
  { intros Hy0. pose proof (emod_divide x y Hy0) as D. replace (emod x y - r) with ((x - r) - (x - emod x y)) by ring.
    apply Z.divide_sub_r; auto. exact (Z.divide_trans _ _ _ My D). }
  destruct (Z.eqb_spec (remainder b) 0) as [Eb|Eb]; cbn [andb] in H.
  - destruct (Z.eqb_spec r 0) as [->|Hr0]; cbn [negb] in H.
    + inversion H; subst. apply mr_in_divide; cbn [modulus remainder].
      destruct (Z.eq_dec y 0) as [->|Hy0]; [rewrite emod_0; exists 0; lia|auto].
    + destruct (Z.eqb_spec m 0) as [->|Hm0]; inversion H; subst; [|apply mr_in_1].
      (* m = 0: both moduli are zero and b is the constant 0 *)
      destruct My as [k ->]. rewrite Z.mul_0_r, emod_0. exists 0; cbn [modulus remainder]; lia.
  - inversion H; subst. apply mr_in_divide; cbn [modulus remainder]. apply Mxy. intros ->. apply Eb, Hz, Hy.
Qed.

(** ** Results stay reduced *)
Definition mr_reduced (m : modrem) : Prop := Z.abs (remainder m) < Z.abs (modulus m) \/ modulus m = 0.

Lemma red_zero m : mr_reduced (MR m 0).
Proof. unfold mr_reduced; cbn [modulus remainder]. lia. Qed.
Lemma red_mod w r m r' : 0 < w -> imin w <= r <= imax w -> imin w <= m <= imax w ->
  euclidean_mod w r m r = Val r' -> mr_reduced (MR m r').
Proof.
  intros Hw Hr Hm H. apply euclidean_mod_inv in H; auto. unfold mr_reduced; cbn [modulus remainder].
  destruct H as [[-> _]|[Hm0 ->]]; [auto|]. destruct (euclid_ediv r m Hm0) as [_ E]. lia.
Qed.
Lemma with_overflow_range w (z : Z) (o : bool * Z) : (fst o = true <-> ~ (imin w <= z <= imax w)) -> fst o = false -> imin w <= z <= imax w.
Proof.
  intros [_ H] E. destruct (Z_le_dec (imin w) z), (Z_le_dec z (imax w)); try lia; rewrite H in E by lia; discriminate.
Qed.
Lemma red_scale c m r : mr_reduced (MR m r) -> mr_reduced (MR (c * m) (c * r)).
Proof.
  unfold mr_reduced; cbn [modulus remainder]. intros [H| ->]; [|lia].
  destruct (Z.eq_dec c 0) as [->|]; [lia|]. left. rewrite !Z.abs_mul. nia.
Qed.

Lemma mr_add_reduced w a b c : 0 < w -> mr_repr w a -> mr_repr w b -> mr_add w a b = Val c -> mr_reduced c.
Proof.
  intros Hw [Ha1 Ha2] [Hb1 Hb2] H. unfold mr_add in H.
  pose proof (add_with_overflow_ok w (remainder a) (remainder b) Hw) as [O1 O2].
  pose proof (with_overflow_range w _ _ O1) as O3.
  unfold add_with_overflow in *.
  destruct (builtin_add_overflow w (remainder a) (remainder b)) as [o r]. cbn [fst snd] in *.
  destruct o. { inversion H; subst. apply red_zero. }
  rewrite (O2 eq_refl) in *. specialize (O3 eq_refl).
  apply bind_inv in H as (m & Hm & H). apply bind_inv in H as (r' & Hr & H). inversion H; subst; clear H.
  apply gcd_inv_div in Hm; auto. eapply red_mod; eauto; tauto.
Qed.
Lemma mr_sub_reduced w a b c : 0 < w -> mr_repr w a -> mr_repr w b -> mr_sub w a b = Val c -> mr_reduced c.
Proof.
  intros Hw [Ha1 Ha2] [Hb1 Hb2] H. unfold mr_sub in H.
  pose proof (sub_with_overflow_ok w (remainder a) (remainder b) Hw) as [O1 O2].
  pose proof (with_overflow_range w _ _ O1) as O3.
  unfold sub_with_overflow in *.
  destruct (builtin_sub_overflow w (remainder a) (remainder b)) as [o r]. cbn [fst snd] in *.
  destruct o. { inversion H; subst. apply red_zero. }
  rewrite (O2 eq_refl) in *. specialize (O3 eq_refl).
  apply bind_inv in H as (m & Hm & H). apply bind_inv in H as (r' & Hr & H). inversion H; subst; clear H.
  apply gcd_inv_div in Hm; auto. eapply red_mod; eauto; tauto.
Qed.
Lemma mr_mul_reduced w a b c : 0 < w -> mr_repr w a -> mr_repr w b -> mr_reduced a -> mr_reduced b ->
  mr_mul w a b = Val c -> mr_reduced c.
Proof.
  intros Hw [Ha1 Ha2] [Hb1 Hb2] Ra Rb H. unfold mr_mul in H.
  pose proof (mul_with_overflow_ok w) as O.
  destruct (Z.eqb_spec (modulus a) 0) as [Ea|Ea].
  { pose proof (O (remainder a) (modulus b) Hw) as [_ O1]. pose proof (O (remainder a) (remainder b) Hw) as [_ O2].
    destruct (mul_with_overflow w (remainder a) (modulus b)) as [o1 m].
    destruct (mul_with_overflow w (remainder a) (remainder b)) as [o2 r].
    cbn [fst snd] in *. destruct o1, o2; cbn [negb andb] in H; inversion H; subst; try apply red_zero.
    rewrite (O1 eq_refl), (O2 eq_refl). apply red_scale. destruct b; auto. }
  destruct (Z.eqb_spec (modulus b) 0) as [Eb|Eb].
  { pose proof (O (modulus a) (remainder b) Hw) as [_ O1]. pose proof (O (remainder a) (remainder b) Hw) as [_ O2].
    destruct (mul_with_overflow w (modulus a) (remainder b)) as [o1 m].
    destruct (mul_with_overflow w (remainder a) (remainder b)) as [o2 r].
    cbn [fst snd] in *. destruct o1, o2; cbn [negb andb] in H; inversion H; subst; try apply red_zero.
    rewrite (O1 eq_refl), (O2 eq_refl). rewrite (Z.mul_comm (modulus a)), (Z.mul_comm (remainder a)). apply red_scale. destruct a; auto. }
  destruct ((remainder a =? 0) && (remainder b =? 0)) eqn:E.
  { destruct (mul_with_overflow w (modulus a) (modulus b)) as [[] m]; inversion H; subst; apply red_zero. }
  destruct (remainder a =? 0).
  { apply bind_inv in H as (g & _ & H). destruct (mul_with_overflow w (modulus a) g) as [[] m]; inversion H; subst; apply red_zero. }
  destruct (remainder b =? 0).
  { apply bind_inv in H as (g & _ & H). destruct (mul_with_overflow w (modulus b) g) as [[] m]; inversion H; subst; apply red_zero. }
  pose proof (O (remainder a) (remainder b) Hw) as [O1 O2].
  pose proof (with_overflow_range w _ _ O1) as O3.
  destruct (mul_with_overflow w (remainder a) (remainder b)) as [[] r]; cbn [fst snd negb] in *;
    [inversion H; subst; apply red_zero|].
  rewrite (O2 eq_refl) in *. specialize (O3 eq_refl).
  apply bind_inv in H as (m & Hm & H). apply bind_inv in H as (r' & Hr & H). inversion H; subst; clear H.
  apply gcd_inv_div in Hm; auto. eapply red_mod; eauto; tauto.
Qed.
Lemma mr_div_reduced w a b c : 0 < w -> mr_repr w a -> mr_repr w b -> mr_div w a b = Val c -> mr_reduced c.
Proof.
  intros Hw [Ha1 Ha2] [Hb1 Hb2] H. unfold mr_div in H.
  destruct (Z.eqb_spec (modulus b) 0) as [Eb|Eb]; cbn [andb] in H; [|inversion H; apply red_zero].
  destruct (Z.eqb_spec (remainder b) 0) as [Erb|Erb]; cbn [negb] in H; [inversion H; apply red_zero|].
  apply bind_inv in H as (t & Ht & H).
  destruct (Z.eqb_spec t 0) as [E0|E0]; [|inversion H; apply red_zero].
  apply bind_inv in H as (m & Hm & H). apply bind_inv in H as (r & Hr & H). apply bind_inv in H as (r' & Hr' & H).
  inversion H; subst; clear H.
  apply euclidean_div_range in Hr; auto.
  unfold cdiv in Hm. destruct (Z.eqb_spec (remainder b) 0); [contradiction|]. apply chk_inv in Hm as [-> Rm].
  eapply red_mod; eauto.
Qed.
Lemma mr_union_reduced w a b c : 0 < w -> mr_repr w a -> mr_repr w b -> mr_union w a b = Val c -> mr_reduced c.
Proof.
  assert (G : forall a b, 0 < w -> mr_repr w a -> mr_repr w b -> mr_union_ordered w a b = Val c -> mr_reduced c).
  { clear a b. intros a b Hw [Ha1 Ha2] [Hb1 Hb2] H. unfold mr_union_ordered in H.
    apply bind_inv in H as (m & Hm & H). apply gcd_inv_div in Hm; auto. destruct Hm as (D1 & D2 & D3).
    destruct (sub_with_overflow w (remainder a) (remainder b)) as [[] r0]; [inversion H; apply red_zero|].
    apply bind_inv in H as (diff & Hd & H). apply chk_inv in Hd as [-> Hd].
    apply bind_inv in H as (m' & Hm & H). apply gcd_inv_div in Hm; auto. destruct Hm as (_ & _ & Hm).
    apply bind_inv in H as (ra & Hr & H). inversion H; subst; clear H.
    eapply red_mod; [| | |exact Hr]; auto. }
  intros Hw Ha Hb H. unfold mr_union in H. destruct (remainder a <? remainder b).
  - exact (G b a Hw Hb Ha H).
  - exact (G a b Hw Ha Hb H).
Qed.
Lemma mr_inter_reduced w a b c : mr_reduced a -> mr_reduced b -> mr_inter w a b = Val c -> mr_reduced c.
Proof.
  intros Ra Rb H. unfold mr_inter in H.
  destruct (modulus a =? 0); [inversion H; subst; auto|].
  destruct (modulus b =? 0); [inversion H; subst; auto|].
  destruct ((remainder a =? 0) && (remainder b =? 0)).
  - apply bind_inv in H as (l & _ & H). inversion H; subst. apply red_zero.
  - destruct (modulus b <? modulus a); inversion H; subst; auto.
Qed.
Lemma mr_mod_reduced w a b c : 0 < w -> mr_repr w a -> mr_repr w b -> mr_mod w a b = Val c -> mr_reduced c.
Proof.
  intros Hw [Ha1 Ha2] [Hb1 Hb2] H. unfold mr_mod in H.
  apply bind_inv in H as (m0 & Hm0 & H). apply gcd_inv_div in Hm0; auto. destruct Hm0 as (_ & _ & D3).
  apply bind_inv in H as (m & Hm & H). apply gcd_inv_div in Hm; auto. destruct Hm as (_ & _ & E3).
  apply bind_inv in H as (r & Hr & H). apply red_mod in Hr; auto.
  destruct ((remainder b =? 0) && negb (r =? 0)).
  - destruct (m =? 0); inversion H; apply red_zero.
  - inversion H; subst; auto.
Qed.
