(** Property C07: modulus-remainder analysis (slinky/base/modulus_remainder.h). *)
From Coq Require Import ZArith Lia.
From Verif Require Import Arith_Model Arith_Spec ModRem_Model ModRem_Proofs.
Open Scope Z_scope.

(** [mr_in m x]: there is y with x = modulus * y + remainder
    (ModRem_Proofs; the set described in the header comment of the C++ file). *)
Theorem C07_modulus_remainder_sound :
  forall w a b c, 0 < w -> mr_repr w a -> mr_repr w b ->
    (mr_add w a b = Val c -> forall x y, mr_in a x -> mr_in b y -> mr_in c (x + y)) /\
    (mr_sub w a b = Val c -> forall x y, mr_in a x -> mr_in b y -> mr_in c (x - y)) /\
    (mr_mul w a b = Val c -> forall x y, mr_in a x -> mr_in b y -> mr_in c (x * y)) /\
    (mr_div w a b = Val c -> forall x y, mr_in a x -> mr_in b y -> mr_in c (ediv x y)) /\
    (mr_union w a b = Val c -> forall x, mr_in a x \/ mr_in b x -> mr_in c x) /\
    (mr_inter w a b = Val c -> forall x, mr_in a x -> mr_in b x -> mr_in c x).
Proof.
  intros w a b c Hw Ha Hb. split; [|split; [|split; [|split; [|split]]]]; intros H.
  - eapply mr_add_sound; eauto.
  - eapply mr_sub_sound; eauto.
  - eapply mr_mul_sound; eauto.
  - eapply mr_div_sound; eauto.
  - eapply mr_union_sound; eauto.
  - eapply mr_inter_sound; eauto.
Qed.
Print Assumptions C07_modulus_remainder_sound.

(** [%]: the class of the divisor must show that it can be 0 (remainder 0) if it contains 0;
    every class with |remainder| < |modulus| does (see C07_zero_visible). *)
Theorem C07_modulus_remainder_mod_sound :
  forall w a b c, 0 < w -> mr_repr w a -> mr_repr w b -> (mr_in b 0 -> remainder b = 0) ->
    mr_mod w a b = Val c -> forall x y, mr_in a x -> mr_in b y -> mr_in c (emod x y).
Proof. exact mr_mod_sound. Qed.
Print Assumptions C07_modulus_remainder_mod_sound.

Theorem C07_zero_visible :
  forall b, Z.abs (remainder b) < Z.abs (modulus b) \/ modulus b = 0 -> mr_in b 0 -> remainder b = 0.
Proof.
  intros [m r] H [y E]; cbn [modulus remainder] in *. destruct H as [H| ->]; [|lia].
  destruct (Z.eq_dec y 0) as [->|Hy]; [lia|].
  assert (Z.abs r = Z.abs m * Z.abs y) by (rewrite <- Z.abs_mul; lia). nia.
Qed.
Print Assumptions C07_zero_visible.

Example C07_ex :
  mr_repr 64 (MR 8 3) /\ mr_in (MR 8 3) 19 /\ mr_div 64 (MR 8 3) (mr_const 2) = Val (MR 4 1)
  /\ mr_union 64 (MR 30 13) (MR 40 27) = Val (MR 2 1) /\ mr_mod 64 (MR 8 5) (MR 6 2) = Val (MR 2 1)
  /\ mr_mul 64 (MR 4 1) (mr_const (-3)) = Val (MR (-12) (-3)) /\ mr_add 64 (MR 4 1) (MR 6 2) = Val (MR 2 1).
Proof.
  split; [unfold mr_repr, imin, imax; cbn; lia|]. split; [exists 2; reflexivity|].
  repeat split; vm_compute; reflexivity.
Qed.

(** Without that side condition [%] is unsound: a class such as 4*y + 8, whose
    remainder is not reduced, contains 0 and x % 0 = 0. *)
Theorem C07_mod_unreduced_refuted :
  exists a b c x y, mr_repr 64 a /\ mr_repr 64 b /\ mr_mod 64 a b = Val c /\ mr_in a x /\ mr_in b y /\ ~ mr_in c (emod x y).
Proof.
  exists (MR 0 5), (MR 4 8), (MR 4 1), 5, 0.
  split; [unfold mr_repr, imin, imax; cbn; lia|]. split; [unfold mr_repr, imin, imax; cbn; lia|].
  split; [vm_compute; reflexivity|]. split; [exists 0; reflexivity|]. split; [exists (-2); reflexivity|].
  intros [y E]. cbn [modulus remainder emod Z.eqb] in E. lia.
Qed.
Print Assumptions C07_mod_unreduced_refuted.

(** Every operation keeps classes reduced, so the side condition of
    C07_modulus_remainder_mod_sound holds for all classes built from constants and
    the default class. *)
Theorem C07_results_reduced :
  forall w a b c, 0 < w -> mr_repr w a -> mr_repr w b -> mr_reduced a -> mr_reduced b ->
    (mr_add w a b = Val c \/ mr_sub w a b = Val c \/ mr_mul w a b = Val c \/ mr_div w a b = Val c \/
     mr_union w a b = Val c \/ mr_inter w a b = Val c \/ mr_mod w a b = Val c) -> mr_reduced c.
Proof.
  intros w a b c Hw Ha Hb Ra Rb [H|[H|[H|[H|[H|[H|H]]]]]].
  - exact (mr_add_reduced w a b c Hw Ha Hb H).
  - exact (mr_sub_reduced w a b c Hw Ha Hb H).
  - exact (mr_mul_reduced w a b c Hw Ha Hb Ra Rb H).
  - exact (mr_div_reduced w a b c Hw Ha Hb H).
  - exact (mr_union_reduced w a b c Hw Ha Hb H).
  - exact (mr_inter_reduced w a b c Ra Rb H).
  - exact (mr_mod_reduced w a b c Hw Ha Hb H).
Qed.
Print Assumptions C07_results_reduced.
Example C07_reduced_ex : mr_reduced (mr_const 7) /\ mr_reduced mr_all /\ mr_reduced (MR (-12) (-3)).
Proof. unfold mr_reduced; cbn; lia. Qed.
