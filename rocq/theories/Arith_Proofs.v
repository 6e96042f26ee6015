From Coq Require Import ZArith List Bool Lia Zquot.
From Coq Require Import ZifyBool Znumtheory.
From Verif Require Import Arith_Model Arith_Spec.
Import ListNotations.
Open Scope Z_scope.
Ltac Zify.zify_post_hook ::= idtac.

(** ** Ranges *)

Lemma pow_w w : 0 < w -> 0 < 2 ^ (w - 1).
Proof. intros; apply Z.pow_pos_nonneg; lia. Qed.

Lemma in_range_iff w z : in_range w z = true <-> imin w <= z <= imax w.
Proof. unfold in_range; lia. Qed.

Lemma chk_ok w z : imin w <= z <= imax w -> chk w z = Val z.
Proof. intros; unfold chk. rewrite (proj2 (in_range_iff w z)); auto. Qed.

Lemma chk_inv w z v : chk w z = Val v -> v = z /\ imin w <= z <= imax w.
Proof. unfold chk. destruct (in_range w z) eqn:E; intros H; inversion H; subst. apply in_range_iff in E; auto. Qed.

Lemma bind_inv {A B} (r : res A) (f : A -> res B) v : bind r f = Val v -> exists a, r = Val a /\ f a = Val v.
Proof. destruct r; cbn; [eauto|discriminate]. Qed.

Lemma chk_ub w z : ~ (imin w <= z <= imax w) -> chk w z = UB.
Proof. intros; unfold chk. destruct (in_range w z) eqn:E; auto. apply in_range_iff in E; contradiction. Qed.

Lemma shiftr_sign w z : 0 < w -> imin w <= z <= imax w ->
  Z.shiftr z (w - 1) = if z <? 0 then -1 else 0.
Proof.
  intros Hw Hz. pose proof (pow_w w Hw) as Hp.
  rewrite Z.shiftr_div_pow2 by lia. unfold imin, imax in Hz.
  destruct (Z.ltb_spec z 0).
  - symmetry; apply Z.div_unique with (z + 2 ^ (w - 1)); lia.
  - apply Z.div_small; lia.
Qed.

(** ** Euclidean spec *)

Lemma euclid_unique a b q r q' r' : euclid a b q r -> euclid a b q' r' -> q = q' /\ r = r'.
Proof.
  unfold euclid; intros [H1 H2] [H3 H4].
  assert (b * (q - q') = r' - r) by lia.
  assert (q - q' = 0) by nia. nia.
Qed.

Lemma euclid_ediv a b : b <> 0 -> euclid a b (ediv a b) (emod a b).
Proof.
  intros Hb. unfold euclid, ediv, emod. destruct (Z.eqb_spec b 0); [lia|].
  pose proof (Z.div_mod a (Z.abs b) ltac:(lia)) as H.
  pose proof (Z.mod_pos_bound a (Z.abs b) ltac:(lia)).
  split; [|lia]. destruct (Z.abs_spec b) as [[? E]|[? E]]; rewrite E in *.
  - rewrite Z.sgn_pos by lia. lia.
  - rewrite Z.sgn_neg by lia. lia.
Qed.

Lemma ediv_0 a : ediv a 0 = 0. Proof. reflexivity. Qed.
Lemma emod_0 a : emod a 0 = 0. Proof. reflexivity. Qed.

Lemma ediv_pos a b : 0 < b -> ediv a b = a / b.
Proof. intros; unfold ediv. rewrite Z.sgn_pos, Z.abs_eq by lia. lia. Qed.
Lemma ediv_neg a b : b < 0 -> ediv a b = - (a / - b).
Proof. intros; unfold ediv. rewrite Z.sgn_neg, Z.abs_neq by lia. lia. Qed.
Lemma emod_pos a b : 0 < b -> emod a b = a mod b.
Proof. intros; unfold emod. destruct (Z.eqb_spec b 0); [lia|]. rewrite Z.abs_eq by lia. lia. Qed.
Lemma emod_neg a b : b < 0 -> emod a b = a mod - b.
Proof. intros; unfold emod. destruct (Z.eqb_spec b 0); [lia|]. rewrite Z.abs_neq by lia. lia. Qed.

(** quot / rem in terms of euclid *)
Lemma quot_rem_spec a b : b <> 0 ->
  a = b * Z.quot a b + Z.rem a b /\ Z.abs (Z.rem a b) < Z.abs b /\ 0 <= Z.rem a b * a.
Proof.
  intros Hb. split; [apply Z.quot_rem'; lia|]. split.
  - apply Z.rem_bound_abs; auto.
  - apply Z.rem_sign_mul; lia.
Qed.

Lemma quot_range w a b : 0 < w -> imin w <= a <= imax w -> b <> 0 -> ~ (a = imin w /\ b = -1) ->
  imin w <= Z.quot a b <= imax w.
Proof.
  intros Hw Ha Hb Hn. pose proof (pow_w w Hw). destruct (quot_rem_spec a b Hb) as (H1 & H2 & H3).
  unfold imin, imax in *. set (q := Z.quot a b) in *. set (r := Z.rem a b) in *.
  assert (b = 1 \/ b = -1 \/ 2 <= Z.abs b) as [->|[->|]] by lia; nia.
Qed.

Lemma euclidean_div_ok w a b d :
  0 < w -> imin w <= a <= imax w -> imin w <= b <= imax w -> b <> 0 -> ~ (a = imin w /\ b = -1) ->
  euclidean_div w a b d = Val (ediv a b).
Proof.
  intros Hw Ha Hb Hb0 Hn. pose proof (pow_w w Hw) as Hp.
  pose proof (quot_range w a b Hw Ha Hb0 Hn) as Hq.
  destruct (quot_rem_spec a b Hb0) as (H1 & H2 & H3).
  unfold euclidean_div, cdiv, crem, csub, cadd.
  destruct (Z.eqb_spec b 0); [lia|].
  rewrite (proj2 (in_range_iff w _) Hq), (chk_ok _ _ Hq); cbn [bind].
  pose proof (euclid_ediv a b Hb0) as HE.
  set (q := Z.quot a b) in *. set (r := Z.rem a b) in *.
  assert (Hr : imin w <= r <= imax w) by (unfold imin, imax in *; lia).
  rewrite (shiftr_sign w b Hw Hb), (shiftr_sign w r Hw Hr).
  assert (Hrr : r < 0 -> euclid a b (if b <? 0 then q + 1 else q - 1) (r + Z.abs b)).
  { intros Hlt. unfold euclid. destruct (Z.ltb_spec b 0); split; lia. }
  assert (Hrr' : 0 <= r -> euclid a b q r) by (unfold euclid; lia).
  assert (He : imin w <= ediv a b <= imax w).
  { destruct HE as [E1 E2]. unfold imin, imax in *.
    assert (b = 1 \/ b = -1 \/ 2 <= Z.abs b) as [->|[->|]] by lia; nia. }
  destruct (Z.ltb_spec r 0) as [Hr0|Hr0].
  - specialize (Hrr Hr0). destruct (euclid_unique _ _ _ _ _ _ HE Hrr) as [Eq _].
    destruct (Z.ltb_spec b 0).
    + change (Z.land (-1) (-1)) with (-1). change (Z.land (-1) (Z.lnot (-1))) with 0.
      rewrite chk_ok by lia. cbn [bind]. rewrite chk_ok by lia. f_equal; lia.
    + change (Z.land (-1) 0) with 0. change (Z.land (-1) (Z.lnot 0)) with (-1).
      rewrite chk_ok by lia. cbn [bind]. rewrite chk_ok by lia. f_equal; lia.
  - specialize (Hrr' Hr0). destruct (euclid_unique _ _ _ _ _ _ HE Hrr') as [Eq _].
    rewrite !Z.land_0_l. rewrite chk_ok by lia. cbn [bind]. rewrite chk_ok by lia. f_equal; lia.
Qed.

Lemma euclidean_mod_ok w a b d :
  0 < w -> imin w <= a <= imax w -> imin w <= b <= imax w -> b <> 0 -> ~ (a = imin w /\ b = -1) ->
  euclidean_mod w a b d = Val (emod a b).
Proof.
  intros Hw Ha Hb Hb0 Hn. pose proof (pow_w w Hw) as Hp.
  pose proof (quot_range w a b Hw Ha Hb0 Hn) as Hq.
  destruct (quot_rem_spec a b Hb0) as (H1 & H2 & H3).
  unfold euclidean_mod, crem, csub, cadd.
  destruct (Z.eqb_spec b 0); [lia|].
  rewrite (proj2 (in_range_iff w _) Hq); cbn [bind].
  pose proof (euclid_ediv a b Hb0) as HE.
  set (q := Z.quot a b) in *. set (r := Z.rem a b) in *.
  destruct (Z.leb_spec 0 r) as [Hr0|Hr0].
  - assert (Hrr' : euclid a b q r) by (unfold euclid; lia).
    destruct (euclid_unique _ _ _ _ _ _ HE Hrr') as [_ ->]; auto.
  - assert (Hrr : euclid a b (if b <? 0 then q + 1 else q - 1) (r + Z.abs b)).
    { unfold euclid. destruct (Z.ltb_spec b 0); split; lia. }
    destruct (euclid_unique _ _ _ _ _ _ HE Hrr) as [_ Er]. rewrite Er.
    destruct (Z.ltb_spec b 0); rewrite chk_ok by (unfold imin, imax in *; lia); f_equal; lia.
Qed.

Lemma euclidean_div_zero w a d : euclidean_div w a 0 d = Val d.
Proof. reflexivity. Qed.
Lemma euclidean_mod_zero w a d : euclidean_mod w a 0 d = Val d.
Proof. reflexivity. Qed.

Lemma imin_quot w : 0 < w -> in_range w (Z.quot (imin w) (-1)) = false.
Proof.
  intros Hw. pose proof (pow_w w Hw).
  replace (Z.quot (imin w) (-1)) with (- imin w).
  2:{ change (-1) with (- (1)). rewrite Z.quot_opp_r by lia. rewrite Z.quot_1_r. lia. }
  unfold in_range, imin, imax. lia.
Qed.

Lemma euclidean_div_ub w d : 0 < w -> euclidean_div w (imin w) (-1) d = UB.
Proof.
  intros Hw. unfold euclidean_div, cdiv. cbn [Z.eqb].
  unfold chk. rewrite imin_quot by auto. reflexivity.
Qed.
Lemma euclidean_mod_ub w d : 0 < w -> euclidean_mod w (imin w) (-1) d = UB.
Proof.
  intros Hw. unfold euclidean_mod, crem. cbn [Z.eqb]. rewrite imin_quot by auto. reflexivity.
Qed.

Lemma euclidean_div_pos_ok w a b :
  0 < w -> imin w <= a <= imax w -> 0 < b <= imax w ->
  euclidean_div_positive_divisor w a b = Val (ediv a b).
Proof.
  intros Hw Ha Hb. pose proof (pow_w w Hw) as Hp.
  assert (Hb0 : b <> 0) by lia. assert (Hn : ~ (a = imin w /\ b = -1)) by lia.
  pose proof (quot_range w a b Hw Ha Hb0 Hn) as Hq.
  destruct (quot_rem_spec a b Hb0) as (H1 & H2 & H3).
  unfold euclidean_div_positive_divisor, cdiv, crem, cadd.
  destruct (Z.eqb_spec b 0); [lia|].
  rewrite (proj2 (in_range_iff w _) Hq), (chk_ok _ _ Hq); cbn [bind].
  pose proof (euclid_ediv a b Hb0) as HE.
  set (q := Z.quot a b) in *. set (r := Z.rem a b) in *.
  assert (Hr : imin w <= r <= imax w) by (unfold imin, imax in *; lia).
  rewrite (shiftr_sign w r Hw Hr).
  assert (He : imin w <= ediv a b <= imax w).
  { destruct HE as [E1 E2]. unfold imin, imax in *. nia. }
  destruct (Z.ltb_spec r 0) as [Hr0|Hr0].
  - assert (Hrr : euclid a b (q - 1) (r + b)) by (unfold euclid; lia).
    destruct (euclid_unique _ _ _ _ _ _ HE Hrr) as [Eq _]. rewrite chk_ok by lia. f_equal; lia.
  - assert (Hrr : euclid a b q r) by (unfold euclid; lia).
    destruct (euclid_unique _ _ _ _ _ _ HE Hrr) as [Eq _]. rewrite chk_ok by lia. f_equal; lia.
Qed.

Lemma euclidean_mod_pos_ok w a b :
  0 < w -> imin w <= a <= imax w -> 0 < b <= imax w ->
  euclidean_mod_positive_modulus w a b = Val (emod a b).
Proof.
  intros Hw Ha Hb. pose proof (pow_w w Hw) as Hp.
  assert (Hb0 : b <> 0) by lia. assert (Hn : ~ (a = imin w /\ b = -1)) by lia.
  pose proof (quot_range w a b Hw Ha Hb0 Hn) as Hq.
  destruct (quot_rem_spec a b Hb0) as (H1 & H2 & H3).
  unfold euclidean_mod_positive_modulus, crem, cadd.
  destruct (Z.eqb_spec b 0); [lia|].
  rewrite (proj2 (in_range_iff w _) Hq); cbn [bind].
  pose proof (euclid_ediv a b Hb0) as HE.
  set (q := Z.quot a b) in *. set (r := Z.rem a b) in *.
  destruct (Z.leb_spec 0 r) as [Hr0|Hr0].
  - assert (Hrr : euclid a b q r) by (unfold euclid; lia).
    destruct (euclid_unique _ _ _ _ _ _ HE Hrr) as [_ ->]; auto.
  - assert (Hrr : euclid a b (q - 1) (r + b)) by (unfold euclid; lia).
    destruct (euclid_unique _ _ _ _ _ _ HE Hrr) as [_ ->]. rewrite chk_ok by (unfold imin, imax in *; lia). auto.
Qed.

(** ** Rounding *)

Lemma floor_div_ok w a b :
  0 < w -> imin w <= a <= imax w -> 0 < b <= imax w -> floor_div w a b = Val (a / b).
Proof.
  intros. unfold floor_div. rewrite euclidean_div_ok; [|auto|auto|unfold imin, imax in *; lia|lia|lia].
  rewrite ediv_pos by lia. reflexivity.
Qed.

Lemma ceil_div_ok w a b :
  0 < w -> imin w <= a <= imax w -> 0 < b <= imax w -> a + b <= imax w ->
  exists q, ceil_div w a b = Val q /\ b * (q - 1) < a <= b * q.
Proof.
  intros Hw Ha Hb Hs. pose proof (pow_w w Hw). unfold ceil_div, cadd, csub.
  rewrite chk_ok by lia. cbn [bind]. rewrite chk_ok by (unfold imin, imax in *; lia). cbn [bind].
  rewrite floor_div_ok by (unfold imin, imax in *; lia). eexists; split; [reflexivity|].
  pose proof (Z.div_mod (a + b - 1) b ltac:(lia)). pose proof (Z.mod_pos_bound (a + b - 1) b ltac:(lia)). nia.
Qed.

Lemma round_div_ok w a b :
  0 < w -> imin w <= a <= imax w -> 0 < b <= imax w -> a + b / 2 <= imax w ->
  exists q, round_div w a b = Val q /\ 2 * a - b < 2 * b * q <= 2 * a + b.
Proof.
  intros Hw Ha Hb Hs. pose proof (pow_w w Hw). unfold round_div, cadd.
  rewrite Z.shiftr_div_pow2 by lia. change (2 ^ 1) with 2.
  assert (0 <= b / 2) by (apply Z.div_pos; lia).
  rewrite chk_ok by lia. cbn [bind].
  rewrite floor_div_ok by (unfold imin, imax in *; lia). eexists; split; [reflexivity|].
  pose proof (Z.div_mod (a + b / 2) b ltac:(lia)). pose proof (Z.mod_pos_bound (a + b / 2) b ltac:(lia)).
  pose proof (Z.div_mod b 2 ltac:(lia)). pose proof (Z.mod_pos_bound b 2 ltac:(lia)). nia.
Qed.

Lemma align_up_ok w x n :
  0 < w -> imin w <= x <= imax w -> 0 < n <= imax w -> x + n <= imax w ->
  exists y, align_up w x n = Val y /\ (n | y) /\ x <= y /\ forall z, (n | z) -> x <= z -> y <= z.
Proof.
  intros Hw Hx Hn Hs. pose proof (pow_w w Hw). destruct (ceil_div_ok w x n Hw Hx Hn Hs) as (q & E & Hq).
  unfold align_up. rewrite E. cbn [bind]. unfold cmul. rewrite chk_ok by lia.
  eexists; split; [reflexivity|]. split; [exists q; auto|]. split; [lia|].
  intros z [k ->] Hz. assert (n * (q - 1) < n * k) by lia. assert (q - 1 < k) by (apply Z.mul_lt_mono_pos_l with n; lia). nia.
Qed.

Lemma align_down_ok w x n :
  0 < w -> imin w + n <= x <= imax w -> 0 < n <= imax w ->
  exists y, align_down w x n = Val y /\ (n | y) /\ y <= x /\ forall z, (n | z) -> z <= x -> z <= y.
Proof.
  intros Hw Hx Hn. pose proof (pow_w w Hw).
  unfold align_down. rewrite floor_div_ok by lia. cbn [bind]. unfold cmul.
  pose proof (Z.div_mod x n ltac:(lia)). pose proof (Z.mod_pos_bound x n ltac:(lia)).
  rewrite chk_ok by (unfold imin, imax in *; nia).
  eexists; split; [reflexivity|]. split; [eexists; reflexivity|]. split; [lia|].
  intros z [k ->] Hz. assert (n * k < n * (x / n + 1)) by lia. assert (k < x / n + 1) by (apply Z.mul_lt_mono_pos_l with n; lia). nia.
Qed.

(** ** Wrap and saturation *)

Lemma wrap_in_range w z : 0 < w -> imin w <= z <= imax w -> wrap w z = z.
Proof.
  intros Hw Hz. unfold wrap. rewrite Z.mod_small; [lia|].
  unfold imin, imax in *. assert (2 ^ w = 2 * 2 ^ (w - 1)) by (rewrite <- Z.pow_succ_r by lia; f_equal; lia). lia.
Qed.

Lemma add_sat_ok w a b : 0 < w -> imin w <= a <= imax w -> imin w <= b <= imax w ->
  2 < w -> add_sat w a b = Val (clampZ (imin w) (imax w) (a + b)).
Proof.
  intros Hw Ha Hb Hw1. pose proof (pow_w w Hw).
  assert (2 ^ (w - 1) = 2 * 2 ^ (w - 2)) as E by (rewrite <- Z.pow_succ_r by lia; f_equal; lia).
  assert (2 ^ (w - 2) = 2 * 2 ^ (w - 3)) as E' by (rewrite <- Z.pow_succ_r by lia; f_equal; lia).
  assert (0 < 2 ^ (w - 3)) by (apply Z.pow_pos_nonneg; lia).
  unfold add_sat, builtin_add_overflow, clampZ. destruct (in_range w (a + b)) eqn:R; cbn [negb].
  - apply in_range_iff in R. rewrite wrap_in_range by auto. f_equal; lia.
  - assert (~ (imin w <= a + b <= imax w)) as R' by (rewrite <- in_range_iff; congruence).
    rewrite !Z.shiftr_div_pow2 by lia. change (2 ^ 1) with 2.
    pose proof (Z.div_mod a 2 ltac:(lia)). pose proof (Z.mod_pos_bound a 2 ltac:(lia)).
    pose proof (Z.div_mod b 2 ltac:(lia)). pose proof (Z.mod_pos_bound b 2 ltac:(lia)).
    unfold cadd. rewrite chk_ok by (unfold imin, imax in *; lia). cbn [bind].
    f_equal. destruct (Z.ltb_spec 0 (a / 2 + b / 2)); unfold imin, imax in *; lia.
Qed.

Lemma sub_sat_ok w a b : 0 < w -> imin w <= a <= imax w -> imin w <= b <= imax w ->
  2 < w -> sub_sat w a b = Val (clampZ (imin w) (imax w) (a - b)).
Proof.
  intros Hw Ha Hb Hw1. pose proof (pow_w w Hw).
  assert (2 ^ (w - 1) = 2 * 2 ^ (w - 2)) as E by (rewrite <- Z.pow_succ_r by lia; f_equal; lia).
  assert (2 ^ (w - 2) = 2 * 2 ^ (w - 3)) as E' by (rewrite <- Z.pow_succ_r by lia; f_equal; lia).
  assert (0 < 2 ^ (w - 3)) by (apply Z.pow_pos_nonneg; lia).
  unfold sub_sat, builtin_sub_overflow, clampZ. destruct (in_range w (a - b)) eqn:R; cbn [negb].
  - apply in_range_iff in R. rewrite wrap_in_range by auto. f_equal; lia.
  - assert (~ (imin w <= a - b <= imax w)) as R' by (rewrite <- in_range_iff; congruence).
    rewrite !Z.shiftr_div_pow2 by lia. change (2 ^ 1) with 2.
    pose proof (Z.div_mod a 2 ltac:(lia)). pose proof (Z.mod_pos_bound a 2 ltac:(lia)).
    pose proof (Z.div_mod b 2 ltac:(lia)). pose proof (Z.mod_pos_bound b 2 ltac:(lia)).
    unfold csub. rewrite chk_ok by (unfold imin, imax in *; lia). cbn [bind].
    f_equal. destruct (Z.ltb_spec 0 (a / 2 - b / 2)); unfold imin, imax in *; lia.
Qed.

Lemma mul_sat_ok w a b : 0 < w -> imin w <= a <= imax w -> imin w <= b <= imax w ->
  mul_sat w a b = Val (clampZ (imin w) (imax w) (a * b)).
Proof.
  intros Hw Ha Hb. pose proof (pow_w w Hw).
  unfold mul_sat, builtin_mul_overflow, clampZ. destruct (in_range w (a * b)) eqn:R; cbn [negb].
  - apply in_range_iff in R. rewrite wrap_in_range by auto. f_equal; lia.
  - assert (~ (imin w <= a * b <= imax w)) as R' by (rewrite <- in_range_iff; congruence).
    unfold sign. unfold imin, imax in *.
    destruct (Z.eqb_spec a 0); [subst; lia|]. destruct (Z.eqb_spec b 0); [subst; lia|].
    f_equal. destruct (Z.ltb_spec 0 a), (Z.ltb_spec 0 b).
    + change (0 <? 1 * 1) with true. assert (0 < a * b) by nia. cbv iota. lia.
    + change (0 <? 1 * -1) with false. assert (a * b < 0) by nia. cbv iota. lia.
    + change (0 <? -1 * 1) with false. assert (a * b < 0) by nia. cbv iota. lia.
    + change (0 <? -1 * -1) with true. assert (0 < a * b) by nia. cbv iota. lia.
Qed.

Lemma div_sat_ok w a b : 0 < w -> imin w <= a <= imax w -> imin w <= b <= imax w ->
  div_sat w a b = Val (clampZ (imin w) (imax w) (ediv a b)).
Proof.
  intros Hw Ha Hb. pose proof (pow_w w Hw) as Hp. unfold div_sat, clampZ.
  destruct (Z.eqb_spec b (-1)) as [->|Hb1]; cbn [andb].
  - destruct (Z.eqb_spec a (imin w)) as [->|Ha1].
    + f_equal. rewrite ediv_neg by lia. change (- -1) with 1. rewrite Z.div_1_r. unfold imin, imax in *; lia.
    + rewrite euclidean_div_ok by (unfold imin, imax in *; lia). f_equal.
      rewrite ediv_neg by lia. change (- -1) with 1. rewrite Z.div_1_r. unfold imin, imax in *; lia.
  - destruct (Z.eq_dec b 0) as [->|Hb0].
    + rewrite euclidean_div_zero, ediv_0. f_equal. unfold imin, imax in *; lia.
    + rewrite euclidean_div_ok by (unfold imin, imax in *; lia). f_equal.
      destruct (euclid_ediv a b Hb0) as [E1 E2]. unfold imin, imax in *.
      assert (b = 1 \/ 2 <= Z.abs b) as [->|] by lia; [nia|].
      assert (- 2 ^ (w - 1) <= ediv a b <= 2 ^ (w - 1) - 1) by nia. lia.
Qed.

(** ** Overflow flags *)

Lemma add_with_overflow_ok w a b : 0 < w ->
  (fst (add_with_overflow w a b) = true <-> ~ (imin w <= a + b <= imax w)) /\
  (fst (add_with_overflow w a b) = false -> snd (add_with_overflow w a b) = a + b).
Proof.
  intros Hw. unfold add_with_overflow, builtin_add_overflow. cbn [fst snd].
  destruct (in_range w (a + b)) eqn:R; cbn [negb].
  - apply in_range_iff in R. split; [split; [discriminate|contradiction]|]. intros _. apply wrap_in_range; auto.
  - split; [|discriminate]. split; auto. intros _ C. apply in_range_iff in C. congruence.
Qed.
Lemma sub_with_overflow_ok w a b : 0 < w ->
  (fst (sub_with_overflow w a b) = true <-> ~ (imin w <= a - b <= imax w)) /\
  (fst (sub_with_overflow w a b) = false -> snd (sub_with_overflow w a b) = a - b).
Proof.
  intros Hw. unfold sub_with_overflow, builtin_sub_overflow. cbn [fst snd].
  destruct (in_range w (a - b)) eqn:R; cbn [negb].
  - apply in_range_iff in R. split; [split; [discriminate|contradiction]|]. intros _. apply wrap_in_range; auto.
  - split; [|discriminate]. split; auto. intros _ C. apply in_range_iff in C. congruence.
Qed.
Lemma mul_with_overflow_ok w a b : 0 < w ->
  (fst (mul_with_overflow w a b) = true <-> ~ (imin w <= a * b <= imax w)) /\
  (fst (mul_with_overflow w a b) = false -> snd (mul_with_overflow w a b) = a * b).
Proof.
  intros Hw. unfold mul_with_overflow, builtin_mul_overflow. cbn [fst snd].
  destruct (in_range w (a * b)) eqn:R; cbn [negb].
  - apply in_range_iff in R. split; [split; [discriminate|contradiction]|]. intros _. apply wrap_in_range; auto.
  - split; [|discriminate]. split; auto. intros _ C. apply in_range_iff in C. congruence.
Qed.

(** ** gcd, lcm *)

Lemma is_gcd_Zgcd a b : is_gcd a b (Z.gcd a b).
Proof.
  unfold is_gcd. repeat split; [apply Z.gcd_divide_l|apply Z.gcd_divide_r|apply Z.gcd_nonneg|].
  intros; apply Z.gcd_greatest; auto.
Qed.

Lemma quot_range_inv w a b : in_range w (Z.quot a b) = true -> imin w <= Z.quot a b <= imax w.
Proof. apply in_range_iff. Qed.

Lemma rem_halves b r : r <> 0 -> Z.abs r < Z.abs b -> 2 * Z.abs (Z.rem b r) < Z.abs b.
Proof.
  intros Hr Hb. rewrite <- Z.rem_abs by auto. set (b' := Z.abs b) in *. set (r' := Z.abs r) in *.
  assert (0 < r') by lia.
  pose proof (Z.rem_bound_pos b' r' ltac:(lia) ltac:(lia)).
  pose proof (Z.quot_rem' b' r'). assert (1 <= Z.quot b' r') by (apply Z.quot_le_lower_bound; lia). nia.
Qed.

Lemma crem_cases w a b : 0 < w -> imin w <= a <= imax w -> b <> 0 ->
  (a = imin w /\ b = -1 /\ crem w a b = UB) \/ (~ (a = imin w /\ b = -1) /\ crem w a b = Val (Z.rem a b)).
Proof.
  intros Hw Ha Hb. unfold crem. destruct (Z.eqb_spec b 0); [contradiction|].
  destruct (Z.eq_dec a (imin w)) as [->|Hna].
  - destruct (Z.eq_dec b (-1)) as [->|Hnb].
    + left. rewrite imin_quot by auto. auto.
    + right. split; [lia|]. rewrite (proj2 (in_range_iff w _)); auto. apply quot_range; auto; lia.
  - right. split; [lia|]. rewrite (proj2 (in_range_iff w _)); auto. apply quot_range; auto; lia.
Qed.

Lemma rem_in_range w a b : 0 < w -> imin w <= b <= imax w -> b <> 0 -> imin w <= Z.rem a b <= imax w.
Proof. intros Hw Hb Hb0. pose proof (Z.rem_bound_abs a b Hb0). unfold imin, imax in *. lia. Qed.

Lemma gcd_rem_eq a b : Z.gcd b (Z.rem a b) = Z.gcd a b.
Proof.
  destruct (Z.eq_dec b 0) as [->|Hb]. { now rewrite Zrem_0_r, Z.gcd_comm. }
  pose proof (Z.quot_rem' a b) as E. set (q := Z.quot a b) in *. set (r := Z.rem a b) in *.
  apply Z.gcd_unique; [apply Z.gcd_nonneg|apply Z.gcd_divide_r| |].
  - replace r with (a - b * q) by lia. apply Z.divide_sub_r; [apply Z.gcd_divide_l|].
    apply Z.divide_mul_l, Z.gcd_divide_r.
  - intros d Hd1 Hd2. apply Z.gcd_greatest; auto. rewrite E. apply Z.divide_add_r; auto. apply Z.divide_mul_l; auto.
Qed.

(** The loop finishes within [2k+1] iterations when [|b| < 2^k]; its result is [UB]
    or (plus or minus) the gcd; never [UB] for non-negative operands. *)
Lemma gcd_loop_ok w : 0 < w -> forall k fuel a b,
  imin w <= a <= imax w -> imin w <= b <= imax w -> Z.abs b < 2 ^ (Z.of_nat k) -> (2 * k + 1 <= fuel)%nat ->
  (gcd_loop fuel w a b = UB /\ (a < 0 \/ b < 0)) \/
  (exists g, gcd_loop fuel w a b = Val g /\ Z.abs g = Z.gcd a b /\ (0 <= a -> 0 <= b -> 0 <= g)).
Proof.
  intros Hw. pose proof (pow_w w Hw) as Hp.
  assert (B0 : forall fuel a, imin w <= a <= imax w ->
    exists g, gcd_loop (S fuel) w a 0 = Val g /\ Z.abs g = Z.gcd a 0 /\ (0 <= a -> 0 <= 0 -> 0 <= g)).
  { intros. cbn. exists a. rewrite Z.gcd_0_r. auto. }
  induction k as [|k IH]; intros fuel a b Ha Hb Hk Hf.
  - change (2 ^ Z.of_nat 0) with 1 in Hk. assert (b = 0) as -> by lia.
    destruct fuel; [lia|]. right. apply B0; auto.
  - destruct (Z.eq_dec b 0) as [->|Hb0]. { destruct fuel; [lia|]. right. apply B0; auto. }
    destruct fuel as [|[|fuel]]; [lia|lia|].
    cbn [gcd_loop]. destruct (Z.eqb_spec b 0); [contradiction|].
    destruct (crem_cases w a b Hw Ha Hb0) as [(-> & -> & ->)|(Hn & ->)].
    { left. cbn [bind]. unfold imin. split; auto; lia. }
    cbn [bind]. pose proof (rem_in_range w a b Hw Hb Hb0) as Hr.
    pose proof (Z.rem_bound_abs a b Hb0) as Hra. pose proof (gcd_rem_eq a b) as HG.
    assert (Hs : 0 <= a -> 0 <= b -> 0 <= Z.rem a b) by (intros; apply Z.rem_nonneg; lia).
    assert (Hs' : a < 0 \/ b < 0 \/ (0 <= a /\ 0 <= b)) by lia.
    set (r := Z.rem a b) in *.
    destruct (Z.eqb_spec r 0) as [Er|Hr0].
    { right. exists b. split; auto. rewrite Er, Z.gcd_0_r in HG. split; auto. }
    destruct (crem_cases w b r Hw Hb Hr0) as [(-> & Er & ->)|(Hn' & ->)].
    { left. cbn [bind]. split; auto. unfold imin. lia. }
    cbn [bind]. pose proof (rem_in_range w b r Hw Hr Hr0) as Hr2.
    pose proof (rem_halves b r Hr0 Hra) as Hh. pose proof (gcd_rem_eq b r) as HG2.
    assert (Hs2 : 0 <= b -> 0 <= r -> 0 <= Z.rem b r) by (intros; apply Z.rem_nonneg; lia).
    assert (Hneg : r < 0 -> a < 0).
    { intros Hlt. destruct (Z_lt_ge_dec a 0); auto. pose proof (Z.rem_nonneg a b Hb0 ltac:(lia)). unfold r in Hlt. lia. }
    assert (Hneg2 : Z.rem b r < 0 -> b < 0).
    { intros Hlt. destruct (Z_lt_ge_dec b 0); auto. pose proof (Z.rem_nonneg b r Hr0 ltac:(lia)). lia. }
    replace (Z.of_nat (S k)) with (1 + Z.of_nat k) in Hk by lia. rewrite Z.pow_add_r in Hk by lia.
    destruct (IH fuel r (Z.rem b r) Hr Hr2 ltac:(lia) ltac:(lia)) as [(-> & Hc)|(g & -> & Hg1 & Hg2)].
    + left. split; auto. lia.
    + right. exists g. split; auto. split; [congruence|]. intros. apply Hg2; auto.
Qed.

Lemma abs_lt_pow w b : 0 < w -> imin w <= b <= imax w -> Z.abs b < 2 ^ Z.of_nat (Z.to_nat w).
Proof.
  intros Hw Hb. rewrite Z2Nat.id by lia. unfold imin, imax in *. pose proof (pow_w w Hw).
  assert (2 ^ w = 2 * 2 ^ (w - 1)) by (rewrite <- Z.pow_succ_r by lia; f_equal; lia). lia.
Qed.

Lemma gcd_gen w a b : 0 < w -> imin w <= a <= imax w -> imin w <= b <= imax w ->
  (gcd w a b = UB /\ (a < 0 \/ b < 0)) \/
  (exists g, gcd w a b = Val g /\ Z.abs g = Z.gcd a b /\ (0 <= a -> 0 <= b -> 0 <= g)).
Proof.
  intros Hw Ha Hb. unfold gcd, gcd_fuel. destruct (a <? b).
  - destruct (gcd_loop_ok w Hw (Z.to_nat w) (Z.to_nat (2 * w + 1)) b a) as [(-> & H)|(g & -> & H1 & H2)]; auto; try lia.
    + apply abs_lt_pow; auto.
    + left; split; auto; lia.
    + right. exists g. rewrite Z.gcd_comm. auto.
  - apply gcd_loop_ok with (k := Z.to_nat w); auto; try lia. apply abs_lt_pow; auto.
Qed.

Lemma gcd_ok w a b : 0 < w -> 0 <= a <= imax w -> 0 <= b <= imax w -> gcd w a b = Val (Z.gcd a b).
Proof.
  intros Hw Ha Hb. pose proof (pow_w w Hw).
  destruct (gcd_gen w a b) as [(_ & H1)|(g & -> & H1 & H2)]; auto; try (unfold imin; lia).
  f_equal. rewrite <- H1. specialize (H2 ltac:(lia) ltac:(lia)). lia.
Qed.

Lemma gcd_inv w a b g : 0 < w -> imin w <= a <= imax w -> imin w <= b <= imax w ->
  gcd w a b = Val g -> Z.abs g = Z.gcd a b.
Proof. intros Hw Ha Hb E. destruct (gcd_gen w a b) as [(E' & _)|(g' & E' & H & _)]; auto; congruence. Qed.

Lemma lcm_ok w a b : 0 < w -> 0 <= a <= imax w -> 0 <= b <= imax w -> a * b <= imax w ->
  0 < a \/ 0 < b -> lcm w a b = Val (Z.lcm a b).
Proof.
  intros Hw Ha Hb Hab Hp. pose proof (pow_w w Hw). unfold lcm. rewrite gcd_ok by auto.
  unfold cmul. rewrite chk_ok by (unfold imin in *; nia). cbn [bind].
  unfold cdiv. pose proof (Z.gcd_nonneg a b).
  assert (Z.gcd a b <> 0).
  { intros E. destruct Hp; [apply Z.gcd_eq_0_l in E|apply Z.gcd_eq_0_r in E]; lia. }
  destruct (Z.eqb_spec (Z.gcd a b) 0); [lia|].
  destruct (Z.gcd_divide_r a b) as [k Ek].
  assert (0 <= k) by nia.
  assert (E : a * b = a * k * Z.gcd a b) by (rewrite Ek at 1; ring).
  rewrite E, Z.quot_mul by auto.
  unfold Z.lcm. assert (Ed : b / Z.gcd a b = k) by (rewrite Ek at 1; apply Z.div_mul; auto). rewrite Ed.
  assert (0 <= a * k) by nia. rewrite Z.abs_eq by auto.
  apply chk_ok. unfold imin. nia.
Qed.

(** any defined result of [lcm] is plus or minus the lcm *)
Lemma lcm_inv w a b l : 0 < w -> imin w <= a <= imax w -> imin w <= b <= imax w ->
  lcm w a b = Val l -> Z.abs l = Z.lcm a b.
Proof.
  intros Hw Ha Hb H. unfold lcm in H.
  apply bind_inv in H as (m & Hm & H). apply bind_inv in H as (g & Hg & H).
  apply chk_inv in Hm as [-> _]. apply gcd_inv in Hg; auto.
  unfold cdiv in H. destruct (Z.eqb_spec g 0); [discriminate|]. apply chk_inv in H as [-> _].
  assert (Hg0 : Z.gcd a b <> 0) by lia.
  destruct (Z.gcd_divide_r a b) as [k Ek].
  unfold Z.lcm. assert (Ed : b / Z.gcd a b = k) by (rewrite Ek at 1; apply Z.div_mul; auto). rewrite Ed.
  assert (g = Z.gcd a b \/ g = - Z.gcd a b) as [->| ->] by lia.
  - replace (a * b) with (a * k * Z.gcd a b) by (rewrite Ek at 2; ring). rewrite Z.quot_mul by auto. auto.
  - replace (a * b) with (a * k * Z.gcd a b) by (rewrite Ek at 2; ring). rewrite Z.quot_opp_r, Z.quot_mul by auto. lia.
Qed.

Lemma is_lcm_Zlcm a b : is_lcm a b (Z.lcm a b).
Proof.
  unfold is_lcm. repeat split; [apply Z.divide_lcm_l|apply Z.divide_lcm_r|apply Z.lcm_nonneg|].
  intros; apply Z.lcm_least; auto.
Qed.

(** ** is_power_of_two *)

Lemma land_pow2_pred k : 0 <= k -> Z.land (2 ^ k) (2 ^ k - 1) = 0.
Proof.
  intros. replace (2 ^ k - 1) with (Z.ones k) by (rewrite Z.ones_equiv; lia).
  rewrite Z.land_ones by auto. apply Z.mod_same. pose proof (Z.pow_pos_nonneg 2 k); lia.
Qed.

Lemma is_power_of_two_ok w x : 0 < w -> imin w <= x <= imax w ->
  exists r, is_power_of_two w x = Val r /\ (r = true <-> exists k, 0 <= k /\ x = 2 ^ k).
Proof.
  intros Hw Hx. pose proof (pow_w w Hw). unfold is_power_of_two.
  destruct (Z.ltb_spec 0 x) as [Hp|Hp].
  - unfold csub. rewrite chk_ok by (unfold imin in *; lia). cbn [bind]. eexists; split; [reflexivity|].
    rewrite Z.eqb_eq. split.
    + intros HL. set (k := Z.log2 x). exists k. pose proof (Z.log2_nonneg x). split; [auto|].
      destruct (Z.log2_spec x Hp) as [L1 L2]. fold k in L1, L2.
      destruct (Z.eq_dec x (2 ^ k)); auto. exfalso.
      (* both x and x-1 have bit k *)
      assert (B1 : Z.testbit x k = true) by (apply Z.bit_log2; lia).
      assert (B2 : Z.testbit (x - 1) k = true).
      { assert (Hk2 : Z.log2 (x - 1) = k) by (apply Z.log2_unique; [auto|lia]).
        pose proof (Z.pow_pos_nonneg 2 k ltac:(lia) ltac:(auto)).
        pose proof (Z.bit_log2 (x - 1) ltac:(lia)) as B. rewrite Hk2 in B. exact B. }
      assert (Z.testbit (Z.land x (x - 1)) k = true) by (rewrite Z.land_spec, B1, B2; auto).
      rewrite HL, Z.bits_0 in *. discriminate.
    + intros (k & Hk & ->). apply land_pow2_pred; auto.
  - eexists; split; [reflexivity|]. split; [discriminate|].
    intros (k & Hk & ->). pose proof (Z.pow_pos_nonneg 2 k); lia.
Qed.

(** ** Staircase *)

(** the exact value over Z *)
Definition stairZ (x a b c : Z) : Z := ediv (x + a) b * c.
Definition stair_sumZ (x a1 b1 c1 a2 b2 c2 : Z) : Z := stairZ x a1 b1 c1 + stairZ x a2 b2 c2.

Lemma euclidean_div_inv w a b v : 0 < w -> imin w <= a <= imax w -> imin w <= b <= imax w ->
  euclidean_div w a b 0 = Val v -> v = ediv a b.
Proof.
  intros Hw Ha Hb. destruct (Z.eq_dec b 0) as [->|Hb0].
  - rewrite euclidean_div_zero. intros E; inversion E. symmetry; apply ediv_0.
  - destruct (Z.eq_dec a (imin w)) as [->|].
    + destruct (Z.eq_dec b (-1)) as [->|].
      * rewrite euclidean_div_ub by auto. discriminate.
      * rewrite euclidean_div_ok by (auto; lia). congruence.
    + rewrite euclidean_div_ok by (auto; lia). congruence.
Qed.

Lemma staircase_inv w x a b c v : 0 < w -> imin w <= b <= imax w ->
  staircase w x a b c = Val v -> v = stairZ x a b c.
Proof.
  intros Hw Hb H. unfold staircase in H.
  apply bind_inv in H as (t & Ht & H). apply bind_inv in H as (q & Hq & H).
  apply chk_inv in Ht as [-> Ht]. apply chk_inv in H as [-> H].
  apply euclidean_div_inv in Hq; auto. subst; reflexivity.
Qed.

Lemma staircase_y_inv x a1 b1 c1 a2 b2 c2 y :
  imin 32 <= b1 <= imax 32 -> imin 32 <= b2 <= imax 32 ->
  staircase_y x a1 b1 c1 a2 b2 c2 = Val y -> y = stair_sumZ x a1 b1 c1 a2 b2 c2 /\ imin 32 <= y <= imax 32.
Proof.
  intros Hb1 Hb2 H. unfold staircase_y in H.
  apply bind_inv in H as (s1 & H1 & H). apply bind_inv in H as (s2 & H2 & H).
  apply staircase_inv in H1; [|lia|auto]. apply staircase_inv in H2; [|lia|auto].
  apply chk_inv in H as [-> H]. subst. split; auto.
Qed.

Lemma staircase_scan_spec a1 b1 c1 a2 b2 c2 :
  imin 32 <= b1 <= imax 32 -> imin 32 <= b2 <= imax 32 ->
  forall n x mn mx mn' mx',
  staircase_scan n x a1 b1 c1 a2 b2 c2 mn mx = Val (mn', mx') ->
  let f := fun x => stair_sumZ x a1 b1 c1 a2 b2 c2 in
  (forall k, x <= k < x + Z.of_nat n -> mn' <= f k <= mx' /\ imin 32 <= f k <= imax 32) /\
  mn' <= mn /\ mx <= mx' /\
  (mn' = mn \/ exists k, x <= k < x + Z.of_nat n /\ f k = mn') /\
  (mx' = mx \/ exists k, x <= k < x + Z.of_nat n /\ f k = mx').
Proof.
  intros Hb1 Hb2 n. induction n as [|n IH]; intros x mn mx mn' mx' H f.
  - cbn in H. inversion H; subst. split; [intros; lia|]. repeat split; auto; lia.
  - cbn [staircase_scan] in H. apply bind_inv in H as (y & Hy & H).
    apply staircase_y_inv in Hy as [-> Hr]; auto. fold f in H. change (stair_sumZ x a1 b1 c1 a2 b2 c2) with (f x) in *.
    apply IH in H. destruct H as (Ha & Hmn & Hmx & Hmn' & Hmx'). fold f in Ha, Hmn', Hmx'. repeat split.
    + destruct (Z.eq_dec k x) as [->|]; [lia|]. apply Ha. lia.
    + destruct (Z.eq_dec k x) as [->|]; [lia|]. apply Ha. lia.
    + destruct (Z.eq_dec k x) as [->|]; [lia|]. apply Ha. lia.
    + destruct (Z.eq_dec k x) as [->|]; [lia|]. apply Ha. lia.
    + lia.
    + lia.
    + destruct Hmn' as [E|(k & Hk & E)].
      * destruct (Z.min_spec mn (f x)) as [[? E']|[? E']]; rewrite E' in E; [left; auto|right; exists x; split; [lia|auto]].
      * right; exists k; split; [lia|auto].
    + destruct Hmx' as [E|(k & Hk & E)].
      * destruct (Z.max_spec mx (f x)) as [[? E']|[? E']]; rewrite E' in E; [right; exists x; split; [lia|auto]|left; auto].
      * right; exists k; split; [lia|auto].
Qed.

Lemma ediv_shift a b k : b <> 0 -> ediv (a + b * k) b = ediv a b + k.
Proof.
  intros Hb. pose proof (euclid_ediv a b Hb) as H1. pose proof (euclid_ediv (a + b * k) b Hb) as H2.
  assert (H3 : euclid (a + b * k) b (ediv a b + k) (emod a b)) by (unfold euclid in *; lia).
  destruct (euclid_unique _ _ _ _ _ _ H2 H3); auto.
Qed.

Lemma stair_sum_period a1 b1 c1 a2 b2 c2 P k : b1 <> 0 -> b2 <> 0 -> c1 * b2 = - c2 * b1 ->
  (b1 | P) -> (b2 | P) -> forall x,
  stair_sumZ (x + P * k) a1 b1 c1 a2 b2 c2 = stair_sumZ x a1 b1 c1 a2 b2 c2.
Proof.
  intros Hb1 Hb2 Hc [p1 E1] [p2 E2] x. unfold stair_sumZ, stairZ.
  replace (x + P * k + a1) with (x + a1 + b1 * (p1 * k)) by (rewrite E1; ring).
  replace (x + P * k + a2) with (x + a2 + b2 * (p2 * k)) by (rewrite E2; ring).
  rewrite !ediv_shift by auto.
  assert (b1 * b2 * (p1 * c1 + p2 * c2) = 0).
  { replace (b1 * b2 * (p1 * c1 + p2 * c2)) with (p1 * b1 * (c1 * b2) + (p2 * b2) * c2 * b1) by ring.
    rewrite Hc, <- E1, <- E2. ring. }
  assert (E : p1 * c1 + p2 * c2 = 0).
  { apply Z.mul_eq_0_r with (b1 * b2); [auto|]. intros C. apply Z.mul_eq_0 in C. lia. }
  assert (k * (p1 * c1 + p2 * c2) = 0) by (rewrite E; lia). lia.
Qed.

Lemma lcm_pos a b : 0 < a -> 0 < b -> 0 < Z.lcm a b.
Proof. intros. pose proof (Z.lcm_nonneg a b). assert (Z.lcm a b <> 0) by (rewrite Z.lcm_eq_0; lia). lia. Qed.

Lemma staircase_sum_bounds_sound a1 b1 c1 a2 b2 c2 i :
  imin 32 <= b1 <= imax 32 -> imin 32 <= b2 <= imax 32 ->
  staircase_sum_bounds a1 b1 c1 a2 b2 c2 = Val i ->
  forall x, let y := stair_sumZ x a1 b1 c1 a2 b2 c2 in
  (forall m, iv_min i = Some m -> m <= y) /\ (forall m, iv_max i = Some m -> y <= m).
Proof.
  intros Hb1 Hb2 H x. cbv zeta.
  unfold staircase_sum_bounds in H.
  destruct (Z.eqb_spec b1 0) as [->|Hb10]; cbn [andb orb] in H.
  - destruct (Z.eqb_spec b2 0) as [->|Hb20].
    + inversion H; subst; cbn [iv_min iv_max]. unfold stair_sumZ, stairZ. rewrite !ediv_0. split; intros m E; inversion E; lia.
    + apply bind_inv in H as (l & _ & H). apply bind_inv in H as (nc2 & _ & H). apply bind_inv in H as (r & _ & H).
      destruct (negb (l =? r)); inversion H; subst; cbn; split; discriminate.
  - apply bind_inv in H as (l & Hl & H). apply bind_inv in H as (nc2 & Hn & H). apply bind_inv in H as (r & Hr & H).
    apply chk_inv in Hl as [-> _]. apply chk_inv in Hn as [-> _]. apply chk_inv in Hr as [-> _].
    destruct (Z.eqb_spec (c1 * b2) (- c2 * b1)) as [Hc|]; cbn [negb] in H.
    2:{ inversion H; subst; cbn; split; discriminate. }
    destruct (Z.eqb_spec b2 0) as [Hb20|Hb20].
    { inversion H; subst; cbn; split; discriminate. }
    apply bind_inv in H as (ab1 & Hab1 & H). apply chk_inv in Hab1 as [-> _].
    destruct (Z.ltb_spec 1024 (Z.abs b1)). { inversion H; subst; cbn; split; discriminate. }
    apply bind_inv in H as (ab2 & Hab2 & H). apply chk_inv in Hab2 as [-> _].
    destruct (Z.ltb_spec 1024 (Z.abs b2)). { inversion H; subst; cbn; split; discriminate. }
    rewrite lcm_ok in H by (unfold imax; change (2 ^ (32 - 1)) with 2147483648; nia).
    cbn [bind] in H. apply bind_inv in H as ([mn mx] & Hs & H). inversion H; subst; cbn [iv_min iv_max fst snd].
    apply staircase_scan_spec in Hs; auto. destruct Hs as (Hall & _).
    set (P := Z.lcm (Z.abs b1) (Z.abs b2)) in *.
    assert (0 < P) by (apply lcm_pos; lia).
    assert (b1 | P) by (apply Z.divide_trans with (Z.abs b1); [apply Z.divide_abs_r, Z.divide_refl|apply Z.divide_lcm_l]).
    assert (b2 | P) by (apply Z.divide_trans with (Z.abs b2); [apply Z.divide_abs_r, Z.divide_refl|apply Z.divide_lcm_r]).
    pose proof (Z.mod_pos_bound x P ltac:(lia)) as Hm.
    specialize (Hall (x mod P)). rewrite Z2Nat.id in Hall by lia. specialize (Hall ltac:(lia)).
    rewrite (Z.div_mod x P) by lia. rewrite Z.add_comm, stair_sum_period by auto.
    split; intros m E; inversion E; subst; lia.
Qed.

(** tightness: finite ends are attained *)
Lemma staircase_sum_bounds_tight a1 b1 c1 a2 b2 c2 i :
  imin 32 <= b1 <= imax 32 -> imin 32 <= b2 <= imax 32 ->
  staircase_sum_bounds a1 b1 c1 a2 b2 c2 = Val i ->
  (forall m, iv_min i = Some m -> exists x, stair_sumZ x a1 b1 c1 a2 b2 c2 = m) /\
  (forall m, iv_max i = Some m -> exists x, stair_sumZ x a1 b1 c1 a2 b2 c2 = m).
Proof.
  intros Hb1 Hb2 H.
  unfold staircase_sum_bounds in H.
  destruct (Z.eqb_spec b1 0) as [->|Hb10]; cbn [andb orb] in H.
  - destruct (Z.eqb_spec b2 0) as [->|Hb20].
    + inversion H; subst; cbn [iv_min iv_max]. unfold stair_sumZ, stairZ. split; intros m E; inversion E; subst; exists 0; rewrite !ediv_0; lia.
    + apply bind_inv in H as (l & _ & H). apply bind_inv in H as (nc2 & _ & H). apply bind_inv in H as (r & _ & H).
      destruct (negb (l =? r)); inversion H; subst; cbn; split; discriminate.
  - apply bind_inv in H as (l & Hl & H). apply bind_inv in H as (nc2 & Hn & H). apply bind_inv in H as (r & Hr & H).
    apply chk_inv in Hl as [-> _]. apply chk_inv in Hn as [-> _]. apply chk_inv in Hr as [-> _].
    destruct (Z.eqb_spec (c1 * b2) (- c2 * b1)) as [Hc|]; cbn [negb] in H.
    2:{ inversion H; subst; cbn; split; discriminate. }
    destruct (Z.eqb_spec b2 0) as [Hb20|Hb20].
    { inversion H; subst; cbn; split; discriminate. }
    apply bind_inv in H as (ab1 & Hab1 & H). apply chk_inv in Hab1 as [-> _].
    destruct (Z.ltb_spec 1024 (Z.abs b1)). { inversion H; subst; cbn; split; discriminate. }
    apply bind_inv in H as (ab2 & Hab2 & H). apply chk_inv in Hab2 as [-> _].
    destruct (Z.ltb_spec 1024 (Z.abs b2)). { inversion H; subst; cbn; split; discriminate. }
    rewrite lcm_ok in H by (unfold imax; change (2 ^ (32 - 1)) with 2147483648; nia).
    cbn [bind] in H. apply bind_inv in H as ([mn mx] & Hs & H). inversion H; subst; cbn [iv_min iv_max fst snd].
    apply staircase_scan_spec in Hs; auto. destruct Hs as (Hall & _ & _ & Hmn & Hmx).
    set (P := Z.lcm (Z.abs b1) (Z.abs b2)) in *.
    assert (0 < P) by (apply lcm_pos; lia).
    specialize (Hall 0 ltac:(lia)).
    split; intros m E; inversion E; subst.
    + destruct Hmn as [E'|(k & _ & E')]; [|eauto]. exists 0. lia.
    + destruct Hmx as [E'|(k & _ & E')]; [|eauto]. exists 0. lia.
Qed.

(** absence of undefined behaviour for moderate constants *)
Lemma ediv_abs_bound x b n m : b <> 0 -> 0 <= n -> 0 <= m -> Z.abs x <= n * Z.abs b + m -> Z.abs (ediv x b) <= n + m + 1.
Proof.
  intros Hb Hn Hm Hx. destruct (euclid_ediv x b Hb) as [E1 E2].
  assert (Z.abs b * Z.abs (ediv x b) <= n * Z.abs b + m + Z.abs b) by nia. nia.
Qed.

Lemma staircase_nub x a b c n : b <> 0 -> Z.abs b <= 1024 -> Z.abs a <= 16384 -> Z.abs c <= 16384 ->
  0 <= x <= n * Z.abs b -> 0 <= n <= 1024 ->
  exists v, staircase 32 x a b c = Val v /\ Z.abs v <= 300000000.
Proof.
  intros Hb0 Hb Ha Hc Hx Hn. unfold staircase, cadd, cmul.
  assert (I1 : imin 32 = -2147483648) by reflexivity. assert (I2 : imax 32 = 2147483647) by reflexivity.
  rewrite chk_ok by nia. cbn [bind].
  rewrite euclidean_div_ok by nia. cbn [bind].
  pose proof (ediv_abs_bound (x + a) b n 16384 Hb0 ltac:(lia) ltac:(lia) ltac:(nia)) as B.
  rewrite chk_ok by nia. eexists; split; [reflexivity|]. nia.
Qed.

Lemma staircase_scan_nub a1 b1 c1 a2 b2 c2 P :
  b1 <> 0 -> b2 <> 0 -> Z.abs b1 <= 1024 -> Z.abs b2 <= 1024 ->
  Z.abs a1 <= 16384 -> Z.abs a2 <= 16384 -> Z.abs c1 <= 16384 -> Z.abs c2 <= 16384 ->
  P <= Z.abs b1 * Z.abs b2 ->
  forall n x mn mx, 0 <= x -> x + Z.of_nat n <= P ->
  exists r, staircase_scan n x a1 b1 c1 a2 b2 c2 mn mx = Val r.
Proof.
  intros Hb10 Hb20 Hb1 Hb2 Ha1 Ha2 Hc1 Hc2 HP n. induction n as [|n IH]; intros x mn mx Hx Hn.
  - eexists; reflexivity.
  - cbn [staircase_scan]. unfold staircase_y.
    destruct (staircase_nub x a1 b1 c1 (Z.abs b2)) as (v1 & -> & B1); auto; try lia.
    destruct (staircase_nub x a2 b2 c2 (Z.abs b1)) as (v2 & -> & B2); auto; try lia.
    cbn [bind]. unfold cadd. rewrite chk_ok by (change (imin 32) with (-2147483648); change (imax 32) with 2147483647; lia).
    cbn [bind]. apply IH; lia.
Qed.

Lemma lcm_le a b : 0 < a -> 0 < b -> Z.lcm a b <= a * b.
Proof.
  intros. unfold Z.lcm. pose proof (Z.gcd_nonneg a b).
  assert (Z.gcd a b <> 0) by (intros E; apply Z.gcd_eq_0_l in E; lia).
  pose proof (Z.div_mod b (Z.gcd a b) ltac:(auto)). pose proof (Z.mod_pos_bound b (Z.gcd a b) ltac:(lia)).
  assert (0 <= b / Z.gcd a b) by (apply Z.div_pos; lia).
  rewrite Z.abs_eq by nia. nia.
Qed.

Lemma staircase_sum_bounds_defined a1 b1 c1 a2 b2 c2 :
  Z.abs b1 <= 1024 -> Z.abs b2 <= 1024 ->
  Z.abs a1 <= 16384 -> Z.abs a2 <= 16384 -> Z.abs c1 <= 16384 -> Z.abs c2 <= 16384 ->
  exists i, staircase_sum_bounds a1 b1 c1 a2 b2 c2 = Val i /\
    (b1 <> 0 -> b2 <> 0 -> c1 * b2 = - c2 * b1 -> exists m M, iv_min i = Some m /\ iv_max i = Some M).
Proof.
  intros Hb1 Hb2 Ha1 Ha2 Hc1 Hc2.
  assert (I1 : imin 32 = -2147483648) by reflexivity. assert (I2 : imax 32 = 2147483647) by reflexivity.
  unfold staircase_sum_bounds.
  destruct ((b1 =? 0) && (b2 =? 0)) eqn:E0. { eexists; split; [reflexivity|]. cbn. eauto. }
  unfold cmul, cneg, cabs. rewrite chk_ok by nia. cbn [bind]. rewrite chk_ok by lia. cbn [bind].
  rewrite chk_ok by nia. cbn [bind].
  destruct (Z.eqb_spec (c1 * b2) (- c2 * b1)); cbn [negb].
  2:{ eexists; split; [reflexivity|]. contradiction. }
  destruct ((b1 =? 0) || (b2 =? 0)) eqn:E1. { eexists; split; [reflexivity|]. lia. }
  rewrite chk_ok by lia. cbn [bind]. destruct (Z.ltb_spec 1024 (Z.abs b1)); [lia|].
  rewrite chk_ok by lia. cbn [bind]. destruct (Z.ltb_spec 1024 (Z.abs b2)); [lia|].
  rewrite lcm_ok by nia. cbn [bind].
  pose proof (lcm_le (Z.abs b1) (Z.abs b2) ltac:(lia) ltac:(lia)).
  pose proof (lcm_pos (Z.abs b1) (Z.abs b2) ltac:(lia) ltac:(lia)).
  destruct (staircase_scan_nub a1 b1 c1 a2 b2 c2 (Z.lcm (Z.abs b1) (Z.abs b2)) ltac:(lia) ltac:(lia) Hb1 Hb2 Ha1 Ha2 Hc1 Hc2 ltac:(auto)
    (Z.to_nat (Z.lcm (Z.abs b1) (Z.abs b2))) 0 (imax 32) (imin 32) ltac:(lia) ltac:(lia)) as [[mn mx] ->].
  cbn [bind]. eexists; split; [reflexivity|]. cbn. eauto.
Qed.
