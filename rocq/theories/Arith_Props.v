(** Properties C01-C06: integer arithmetic (slinky/base/arithmetic.h, .cc).
    [w] is the width of the C++ type: 64 for [index_t], 32 for [int]. *)
From Coq Require Import ZArith Lia.
From Verif Require Import Arith_Model Arith_Spec Arith_Proofs.
Open Scope Z_scope.

Definition repr (w z : Z) : Prop := imin w <= z <= imax w.

(** C01 *)
Theorem C01_euclidean_div_mod :
  forall w a b, 0 < w -> repr w a -> repr w b ->
    (* zero divisor: the documented default *)
    (b = 0 -> forall d, euclidean_div w a b d = Val d /\ euclidean_mod w a b d = Val d) /\
    (* the only other excluded input is the unrepresentable quotient *)
    (b <> 0 -> ~ (a = imin w /\ b = -1) -> forall d,
       exists q r, euclidean_div w a b d = Val q /\ euclidean_mod w a b d = Val r /\ euclid a b q r) /\
    (a = imin w -> b = -1 -> forall d, euclidean_div w a b d = UB /\ euclidean_mod w a b d = UB).
Proof.
  intros w a b Hw Ha Hb. split; [|split].
  - intros -> d. split; [apply euclidean_div_zero | apply euclidean_mod_zero].
  - intros Hb0 Hn d. exists (ediv a b), (emod a b).
    split; [apply euclidean_div_ok; auto|]. split; [apply euclidean_mod_ok; auto | apply euclid_ediv; auto].
  - intros -> -> d. split; [apply euclidean_div_ub; auto | apply euclidean_mod_ub; auto].
Qed.
Print Assumptions C01_euclidean_div_mod.
Example C01_ex : repr 64 (-7) /\ euclidean_div 64 (-7) 2 0 = Val (-4) /\ euclidean_mod 64 (-7) 2 0 = Val 1
  /\ euclidean_div 64 (-7) (-2) 0 = Val 4.
Proof. split; [unfold repr, imin, imax; lia|]. repeat split; vm_compute; reflexivity. Qed.

(** Uniqueness: [euclid] determines quotient and remainder, so C01 fixes the results. *)
Theorem C01_euclid_unique :
  forall a b q r q' r', euclid a b q r -> euclid a b q' r' -> q = q' /\ r = r'.
Proof. exact euclid_unique. Qed.
Print Assumptions C01_euclid_unique.

Theorem C01_positive_divisor_variants :
  forall w a b, 0 < w -> repr w a -> 0 < b <= imax w ->
    exists q r, euclidean_div_positive_divisor w a b = Val q /\
                euclidean_mod_positive_modulus w a b = Val r /\ euclid a b q r.
Proof.
  intros w a b Hw Ha Hb. exists (ediv a b), (emod a b).
  split; [apply euclidean_div_pos_ok; auto|]. split; [apply euclidean_mod_pos_ok; auto | apply euclid_ediv; lia].
Qed.
Print Assumptions C01_positive_divisor_variants.

(** C01, the excluded pair is real: the evaluator's [/] and [%] have undefined behaviour
    for it although [div_sat] guards it. *)
Theorem C01_no_ub_refuted :
  exists a b, repr 64 a /\ repr 64 b /\ b <> 0 /\ euclidean_div 64 a b 0 = UB /\ euclidean_mod 64 a b 0 = UB.
Proof.
  exists (imin 64), (-1). unfold repr, imin, imax.
  repeat split; try lia; vm_compute; reflexivity.
Qed.
Print Assumptions C01_no_ub_refuted.

(** C02 *)
Theorem C02_floor_div :
  forall w a b, 0 < w -> repr w a -> 0 < b <= imax w ->
    exists q, floor_div w a b = Val q /\ b * q <= a < b * (q + 1).
Proof.
  intros w a b Hw Ha Hb. exists (a / b). split; [apply floor_div_ok; auto|].
  pose proof (Z.div_mod a b ltac:(lia)). pose proof (Z.mod_pos_bound a b ltac:(lia)). lia.
Qed.
Print Assumptions C02_floor_div.

Theorem C02_ceil_div :
  forall w a b, 0 < w -> repr w a -> 0 < b <= imax w -> a + b <= imax w ->
    exists q, ceil_div w a b = Val q /\ b * (q - 1) < a <= b * q.
Proof. exact ceil_div_ok. Qed.
Print Assumptions C02_ceil_div.

Theorem C02_round_div :
  forall w a b, 0 < w -> repr w a -> 0 < b <= imax w -> a + b / 2 <= imax w ->
    exists q, round_div w a b = Val q /\ 2 * a - b < 2 * b * q <= 2 * a + b.
Proof. exact round_div_ok. Qed.
Print Assumptions C02_round_div.

Theorem C02_align_up :
  forall w x n, 0 < w -> repr w x -> 0 < n <= imax w -> x + n <= imax w ->
    exists y, align_up w x n = Val y /\ (n | y) /\ x <= y /\ forall z, (n | z) -> x <= z -> y <= z.
Proof. exact align_up_ok. Qed.
Print Assumptions C02_align_up.

Theorem C02_align_down :
  forall w x n, 0 < w -> imin w + n <= x <= imax w -> 0 < n <= imax w ->
    exists y, align_down w x n = Val y /\ (n | y) /\ y <= x /\ forall z, (n | z) -> z <= x -> z <= y.
Proof. exact align_down_ok. Qed.
Print Assumptions C02_align_down.
Example C02_ex : repr 64 (-5) /\ 0 < 4 <= imax 64 /\ (-5) + 4 <= imax 64 /\ imin 64 + 4 <= -5
  /\ ceil_div 64 (-5) 4 = Val (-1) /\ floor_div 64 (-5) 4 = Val (-2) /\ round_div 64 (-5) 4 = Val (-1)
  /\ align_up 64 (-5) 4 = Val (-4) /\ align_down 64 (-5) 4 = Val (-8).
Proof. unfold repr. change (imin 64) with (-9223372036854775808). change (imax 64) with 9223372036854775807.
  repeat split; try lia; vm_compute; reflexivity. Qed.

(** C03 *)
Theorem C03_saturating :
  forall w a b, 2 < w -> repr w a -> repr w b ->
    add_sat w a b = Val (clampZ (imin w) (imax w) (a + b)) /\
    sub_sat w a b = Val (clampZ (imin w) (imax w) (a - b)) /\
    mul_sat w a b = Val (clampZ (imin w) (imax w) (a * b)) /\
    div_sat w a b = Val (clampZ (imin w) (imax w) (ediv a b)).
Proof.
  intros w a b Hw Ha Hb. assert (0 < w) by lia.
  split; [apply add_sat_ok; auto|]. split; [apply sub_sat_ok; auto|]. split; [apply mul_sat_ok; auto|apply div_sat_ok; auto].
Qed.
Print Assumptions C03_saturating.
Example C03_ex : repr 64 (imax 64) /\ repr 64 (-1) /\ add_sat 64 (imax 64) 1 = Val (imax 64)
  /\ div_sat 64 (imin 64) (-1) = Val (imax 64) /\ mul_sat 64 (imin 64) 2 = Val (imin 64).
Proof. unfold repr. change (imin 64) with (-9223372036854775808). change (imax 64) with 9223372036854775807.
  repeat split; try lia; vm_compute; reflexivity. Qed.

(** C04 *)
Theorem C04_overflow_flag_exact :
  forall w a b, 0 < w ->
    ((fst (add_with_overflow w a b) = true <-> ~ repr w (a + b)) /\
     (fst (add_with_overflow w a b) = false -> snd (add_with_overflow w a b) = a + b)) /\
    ((fst (sub_with_overflow w a b) = true <-> ~ repr w (a - b)) /\
     (fst (sub_with_overflow w a b) = false -> snd (sub_with_overflow w a b) = a - b)) /\
    ((fst (mul_with_overflow w a b) = true <-> ~ repr w (a * b)) /\
     (fst (mul_with_overflow w a b) = false -> snd (mul_with_overflow w a b) = a * b)).
Proof.
  intros w a b Hw. split; [exact (add_with_overflow_ok w a b Hw)|].
  split; [exact (sub_with_overflow_ok w a b Hw) | exact (mul_with_overflow_ok w a b Hw)].
Qed.
Print Assumptions C04_overflow_flag_exact.
Example C04_ex : add_with_overflow 64 (imax 64) 1 = (true, 0) /\ mul_with_overflow 64 3 5 = (false, 15).
Proof. split; vm_compute; reflexivity. Qed.

(** C05 *)
Theorem C05_gcd :
  forall w a b, 0 < w -> 0 <= a <= imax w -> 0 <= b <= imax w ->
    exists g, gcd w a b = Val g /\ is_gcd a b g.
Proof.
  intros w a b Hw Ha Hb. exists (Z.gcd a b). split; [apply gcd_ok; auto; lia | apply is_gcd_Zgcd].
Qed.
Print Assumptions C05_gcd.

(** With negative operands (they arise in modulus_remainder products) the loop still
    terminates and a defined result is the gcd up to sign. *)
Theorem C05_gcd_signed :
  forall w a b g, 0 < w -> repr w a -> repr w b -> gcd w a b = Val g -> is_gcd a b (Z.abs g).
Proof.
  intros w a b g Hw Ha Hb H. apply gcd_inv in H; auto. rewrite H. apply is_gcd_Zgcd.
Qed.
Print Assumptions C05_gcd_signed.

Theorem C05_lcm :
  forall w a b, 0 < w -> 0 <= a <= imax w -> 0 <= b <= imax w -> a * b <= imax w -> (0 < a \/ 0 < b) ->
    exists l, lcm w a b = Val l /\ is_lcm a b l.
Proof.
  intros w a b Hw Ha Hb Hab Hp. exists (Z.lcm a b).
  split; [apply lcm_ok; auto; lia | apply is_lcm_Zlcm].
Qed.
Print Assumptions C05_lcm.
Example C05_ex : gcd 64 12 18 = Val 6 /\ lcm 64 12 18 = Val 36 /\ gcd 64 0 5 = Val 5 /\ gcd 64 (-4) (-6) = Val (-2).
Proof. repeat split; vm_compute; reflexivity. Qed.

(** [lcm(0, 0)] divides by zero. *)
Theorem C05_lcm_zero_refuted : exists a b, 0 <= a /\ 0 <= b /\ lcm 64 a b = UB.
Proof. exists 0, 0. repeat split; try lia. Qed.
Print Assumptions C05_lcm_zero_refuted.

Theorem C05_is_power_of_two :
  forall w x, 0 < w -> repr w x ->
    exists r, is_power_of_two w x = Val r /\ (r = true <-> exists k, 0 <= k /\ x = 2 ^ k).
Proof. exact is_power_of_two_ok. Qed.
Print Assumptions C05_is_power_of_two.

(** C06.  The exact sum over the unbounded integers: *)
Definition stair_sum_spec (x a1 b1 c1 a2 b2 c2 : Z) : Z :=
  ediv (x + a1) b1 * c1 + ediv (x + a2) b2 * c2.

Theorem C06_staircase_bounds_sound :
  forall a1 b1 c1 a2 b2 c2 i, repr 32 b1 -> repr 32 b2 ->
    staircase_sum_bounds a1 b1 c1 a2 b2 c2 = Val i ->
    forall x,
      (forall m, iv_min i = Some m -> m <= stair_sum_spec x a1 b1 c1 a2 b2 c2) /\
      (forall m, iv_max i = Some m -> stair_sum_spec x a1 b1 c1 a2 b2 c2 <= m).
Proof. exact staircase_sum_bounds_sound. Qed.
Print Assumptions C06_staircase_bounds_sound.

Theorem C06_staircase_bounds_tight :
  forall a1 b1 c1 a2 b2 c2 i, repr 32 b1 -> repr 32 b2 ->
    staircase_sum_bounds a1 b1 c1 a2 b2 c2 = Val i ->
    (forall m, iv_min i = Some m -> exists x, stair_sum_spec x a1 b1 c1 a2 b2 c2 = m) /\
    (forall m, iv_max i = Some m -> exists x, stair_sum_spec x a1 b1 c1 a2 b2 c2 = m).
Proof. exact staircase_sum_bounds_tight. Qed.
Print Assumptions C06_staircase_bounds_tight.

(** For moderate constants there is no undefined behaviour, and when the two slopes
    cancel (and the divisors are nonzero) both ends are reported. *)
Theorem C06_staircase_bounds_defined :
  forall a1 b1 c1 a2 b2 c2,
    Z.abs b1 <= 1024 -> Z.abs b2 <= 1024 ->
    Z.abs a1 <= 16384 -> Z.abs a2 <= 16384 -> Z.abs c1 <= 16384 -> Z.abs c2 <= 16384 ->
    exists i, staircase_sum_bounds a1 b1 c1 a2 b2 c2 = Val i /\
      (b1 <> 0 -> b2 <> 0 -> c1 * b2 = - c2 * b1 -> exists m M, iv_min i = Some m /\ iv_max i = Some M).
Proof. exact staircase_sum_bounds_defined. Qed.
Print Assumptions C06_staircase_bounds_defined.
Example C06_ex : staircase_sum_bounds 1 4 4 0 8 (-8) = Val {| iv_min := Some 0; iv_max := Some 8 |}.
Proof. vm_compute; reflexivity. Qed.

(** Large constants reach undefined behaviour: [c1 * b2] overflows [int]. *)
Theorem C06_no_ub_refuted :
  exists a1 b1 c1 a2 b2 c2, repr 32 a1 /\ repr 32 b1 /\ repr 32 c1 /\ repr 32 a2 /\ repr 32 b2 /\ repr 32 c2 /\
    staircase_sum_bounds a1 b1 c1 a2 b2 c2 = UB.
Proof.
  exists 0, 65536, 65536, 0, 65536, 1. unfold repr, imin, imax. change (2 ^ (32 - 1)) with 2147483648.
  repeat split; try lia; vm_compute; reflexivity.
Qed.
Print Assumptions C06_no_ub_refuted.
