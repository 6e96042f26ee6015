(** Mathematical specification of the integer operations, independent of the model. *)
From Coq Require Import ZArith Lia.
Open Scope Z_scope.

(** [q] and [r] are the Euclidean quotient and remainder of [a] by [b]. *)
Definition euclid (a b q r : Z) : Prop := a = b * q + r /\ 0 <= r < Z.abs b.

(** Total functions on Z used as the meaning of [/] and [%] in expressions; 0 when
    the divisor is 0 (arithmetic.h:17,31: [define_b_zero = 0]). *)
Definition ediv (a b : Z) : Z := Z.sgn b * (a / Z.abs b).
Definition emod (a b : Z) : Z := if b =? 0 then 0 else a mod Z.abs b.

(** [z] clamped to [[lo, hi]]. *)
Definition clampZ (lo hi z : Z) : Z := Z.max lo (Z.min hi z).

(** [g] is the greatest common divisor of [a] and [b] (for non-negative [g]). *)
Definition is_gcd (a b g : Z) : Prop :=
  (g | a) /\ (g | b) /\ 0 <= g /\ forall d, (d | a) -> (d | b) -> (d | g).
Definition is_lcm (a b l : Z) : Prop :=
  (a | l) /\ (b | l) /\ 0 <= l /\ forall m, (a | m) -> (b | m) -> (l | m).
