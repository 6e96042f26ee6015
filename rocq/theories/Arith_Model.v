(** Model of slinky/base/arithmetic.h and slinky/base/arithmetic.cc.

    The C++ functions are templates over a signed integer type [T]; the model is
    parameterised by the width [w] of [T] in bits (32 for [int], 64 for
    [index_t] = [std::ptrdiff_t]).  Values are [Z]; every C++ arithmetic operator on
    [T] goes through a checked operator whose result is [UB] when C++ leaves the
    behaviour undefined (signed overflow, division by zero, MIN / -1, MIN % -1). *)
From Coq Require Import ZArith List Bool.
Import ListNotations.
Open Scope Z_scope.

(** Outcome of a C++ computation: a value, or undefined behaviour. *)
Inductive res (A : Type) : Type := Val (a : A) | UB.
Arguments Val {A} a.
Arguments UB {A}.

Definition bind {A B} (r : res A) (f : A -> res B) : res B :=
  match r with Val a => f a | UB => UB end.
Notation "x <- r ;; k" := (bind r (fun x => k)) (at level 61, r at next level, right associativity).

(** std::numeric_limits<T>::min()/max() for a [w]-bit two's complement type. *)
Definition imin (w : Z) : Z := - 2 ^ (w - 1).
Definition imax (w : Z) : Z := 2 ^ (w - 1) - 1.
Definition in_range (w z : Z) : bool := (imin w <=? z) && (z <=? imax w).
Definition chk (w z : Z) : res Z := if in_range w z then Val z else UB.

(** The built-in signed operators [+ - * / %] of C++ (C++17 [expr.pre]/4,
    [expr.mul]/4). *)
Definition cadd w a b := chk w (a + b).
Definition csub w a b := chk w (a - b).
Definition cmul w a b := chk w (a * b).
Definition cneg w a := chk w (- a).
Definition cdiv w a b : res Z := if b =? 0 then UB else chk w (Z.quot a b).
(** [%]: undefined when [a / b] is not representable. *)
Definition crem w a b : res Z :=
  if b =? 0 then UB else if in_range w (Z.quot a b) then Val (Z.rem a b) else UB.
(** [std::abs]: undefined for MIN. *)
Definition cabs w a := chk w (Z.abs a).

(** arithmetic.h:17-29 [euclidean_div(a, b, define_b_zero = 0)]. *)
Definition euclidean_div (w a b define_b_zero : Z) : res Z :=
  if b =? 0 then Val define_b_zero else
  q <- cdiv w a b ;;
  r <- crem w a b ;;
  let bs := Z.shiftr b (w - 1) in
  let rs := Z.shiftr r (w - 1) in
  t <- csub w q (Z.land rs bs) ;;
  cadd w t (Z.land rs (Z.lnot bs)).

(** arithmetic.h:31-38 [euclidean_mod(a, b, define_b_zero = 0)]. *)
Definition euclidean_mod (w a b define_b_zero : Z) : res Z :=
  if b =? 0 then Val define_b_zero else
  r <- crem w a b ;;
  if 0 <=? r then Val r
  else if b <? 0 then csub w r b else cadd w r b.

(** arithmetic.h:40-48 [euclidean_div_positive_divisor]; the [assert(b > 0)] is
    compiled out in release builds, so it is not a branch of the model. *)
Definition euclidean_div_positive_divisor (w a b : Z) : res Z :=
  q <- cdiv w a b ;;
  r <- crem w a b ;;
  let rs := Z.shiftr r (w - 1) in
  cadd w q rs.

(** arithmetic.h:50-55 [euclidean_mod_positive_modulus]. *)
Definition euclidean_mod_positive_modulus (w a b : Z) : res Z :=
  r <- crem w a b ;;
  if 0 <=? r then Val r else cadd w r b.

(** arithmetic.h:57-61 *)
Definition floor_div (w a b : Z) : res Z := euclidean_div w a b 0.
(** arithmetic.h:63-67 *)
Definition round_div (w a b : Z) : res Z :=
  t <- cadd w a (Z.shiftr b 1) ;; floor_div w t b.
(** arithmetic.h:69-73: [floor_div(a + b - 1, b)], evaluated left to right. *)
Definition ceil_div (w a b : Z) : res Z :=
  t <- cadd w a b ;; t' <- csub w t 1 ;; floor_div w t' b.
(** arithmetic.h:75-79 *)
Definition align_up (w x n : Z) : res Z := q <- ceil_div w x n ;; cmul w q n.
(** arithmetic.h:81-85 *)
Definition align_down (w x n : Z) : res Z := q <- floor_div w x n ;; cmul w q n.

(** The GCC builtins [__builtin_{add,sub,mul}_overflow]: the flag, and the result
    wrapped to [w] bits. *)
Definition wrap (w z : Z) : Z := (z - imin w) mod 2 ^ w + imin w.
Definition builtin_add_overflow w a b : bool * Z := (negb (in_range w (a + b)), wrap w (a + b)).
Definition builtin_sub_overflow w a b : bool * Z := (negb (in_range w (a - b)), wrap w (a - b)).
Definition builtin_mul_overflow w a b : bool * Z := (negb (in_range w (a * b)), wrap w (a * b)).

(** arithmetic.h:96-105 *)
Definition add_sat (w a b : Z) : res Z :=
  let (o, r) := builtin_add_overflow w a b in
  if negb o then Val r
  else s <- cadd w (Z.shiftr a 1) (Z.shiftr b 1) ;; Val (if 0 <? s then imax w else imin w).

(** arithmetic.h:107-115 *)
Definition sub_sat (w a b : Z) : res Z :=
  let (o, r) := builtin_sub_overflow w a b in
  if negb o then Val r
  else s <- csub w (Z.shiftr a 1) (Z.shiftr b 1) ;; Val (if 0 <? s then imax w else imin w).

(** arithmetic.h:117-121 *)
Definition sign (x : Z) : Z := if x =? 0 then 0 else if 0 <? x then 1 else -1.

(** arithmetic.h:123-131 *)
Definition mul_sat (w a b : Z) : res Z :=
  let (o, r) := builtin_mul_overflow w a b in
  if negb o then Val r
  else Val (if 0 <? sign a * sign b then imax w else imin w).

(** arithmetic.h:133-141 *)
Definition div_sat (w a b : Z) : res Z :=
  if (b =? -1) && (a =? imin w) then Val (imax w) else euclidean_div w a b 0.

(** arithmetic.h:143-159 [add_overflows], [sub_overflows], [mul_overflows]. *)
Definition add_overflows w a b := fst (builtin_add_overflow w a b).
Definition sub_overflows w a b := fst (builtin_sub_overflow w a b).
Definition mul_overflows w a b := fst (builtin_mul_overflow w a b).

(** arithmetic.h:161-190 [*_with_overflow]: (returned flag, value stored in
    [result]). *)
Definition add_with_overflow w a b : bool * Z :=
  let (o, r) := builtin_add_overflow w a b in (o, if o then 0 else r).
Definition sub_with_overflow w a b : bool * Z :=
  let (o, r) := builtin_sub_overflow w a b in (o, if o then 0 else r).
Definition mul_with_overflow w a b : bool * Z :=
  let (o, r) := builtin_mul_overflow w a b in (o, if o then 0 else r).

(** arithmetic.h:192-203 [gcd].  The [while] loop is recursion on fuel; running out of
    fuel is [UB] (a C++ loop without side effects that does not terminate is
    undefined behaviour).  Arith_Proofs shows [gcd_fuel w] iterations always suffice. *)
Fixpoint gcd_loop (fuel : nat) (w a b : Z) : res Z :=
  match fuel with
  | O => UB
  | S fuel' =>
      if b =? 0 then Val a
      else r <- crem w a b ;; gcd_loop fuel' w b r
  end.
Definition gcd_fuel (w : Z) : nat := Z.to_nat (2 * w + 1).
Definition gcd (w a b : Z) : res Z :=
  if a <? b then gcd_loop (gcd_fuel w) w b a else gcd_loop (gcd_fuel w) w a b.

(** arithmetic.h:205-208 [lcm]. *)
Definition lcm (w a b : Z) : res Z :=
  m <- cmul w a b ;; g <- gcd w a b ;; cdiv w m g.

(** arithmetic.h:210-213 *)
Definition is_power_of_two (w x : Z) : res bool :=
  if 0 <? x then t <- csub w x 1 ;; Val (Z.land x t =? 0) else Val false.

(** arithmetic.h:215-219 [staircase(x, a, b, c)] = ((x + a) / b) * c. *)
Definition staircase (w x a b c : Z) : res Z :=
  t <- cadd w x a ;; q <- euclidean_div w t b 0 ;; cmul w q c.

(** arithmetic.h:221-239 [interval<T>]: [None] is "unbounded". *)
Record interval := { iv_min : option Z; iv_max : option Z }.

(** arithmetic.cc:23-27: one iteration of the scan over the period; 32-bit [int]s.
    The expression is [euclidean_div(x + a1, b1) * c1 + euclidean_div(x + a2, b2) * c2]. *)
Definition staircase_y (x a1 b1 c1 a2 b2 c2 : Z) : res Z :=
  s1 <- staircase 32 x a1 b1 c1 ;;
  s2 <- staircase 32 x a2 b2 c2 ;;
  cadd 32 s1 s2.

(** arithmetic.cc:23-27: [for (int x = 0; x < period; ++x)], [n] iterations left. *)
Fixpoint staircase_scan (n : nat) (x : Z) (a1 b1 c1 a2 b2 c2 : Z) (mn mx : Z) : res (Z * Z) :=
  match n with
  | O => Val (mn, mx)
  | S n' =>
      y <- staircase_y x a1 b1 c1 a2 b2 c2 ;;
      staircase_scan n' (x + 1) a1 b1 c1 a2 b2 c2 (Z.min mn y) (Z.max mx y)
  end.

(** arithmetic.cc:8-30 [staircase_sum_bounds], on 32-bit [int]s. *)
Definition staircase_sum_bounds (a1 b1 c1 a2 b2 c2 : Z) : res interval :=
  if (b1 =? 0) && (b2 =? 0) then Val {| iv_min := Some 0; iv_max := Some 0 |} else
  l <- cmul 32 c1 b2 ;;
  nc2 <- cneg 32 c2 ;;
  r <- cmul 32 nc2 b1 ;;
  if negb (l =? r) then Val {| iv_min := None; iv_max := None |}
  else if (b1 =? 0) || (b2 =? 0) then Val {| iv_min := None; iv_max := None |}
  else
  ab1 <- cabs 32 b1 ;;
  (* [abs(b1) > 1024 || abs(b2) > 1024], short-circuiting *)
  if 1024 <? ab1 then Val {| iv_min := None; iv_max := None |} else
  ab2 <- cabs 32 b2 ;;
  if 1024 <? ab2 then Val {| iv_min := None; iv_max := None |} else
  period <- lcm 32 ab1 ab2 ;;
  mm <- staircase_scan (Z.to_nat period) 0 a1 b1 c1 a2 b2 c2 (imax 32) (imin 32) ;;
  Val {| iv_min := Some (fst mm); iv_max := Some (snd mm) |}.
