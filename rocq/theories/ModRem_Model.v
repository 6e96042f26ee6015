(** Model of slinky/base/modulus_remainder.h, over [w]-bit signed integers. *)
From Coq Require Import ZArith Bool.
From Verif Require Import Arith_Model.
Open Scope Z_scope.

(** modulus_remainder.h:24-34 *)
Record modrem := MR { modulus : Z; remainder : Z }.
(** modulus_remainder.h:29 default: all integers. *)
Definition mr_all : modrem := MR 1 0.

(** modulus_remainder.h:36-44 [operator+] *)
Definition mr_add (w : Z) (a b : modrem) : res modrem :=
  let (o, r) := add_with_overflow w (remainder a) (remainder b) in
  if o then Val (MR 1 r)  (* m = 1, r = 0: add_with_overflow stored 0 in r *)
  else m <- gcd w (modulus a) (modulus b) ;; r' <- euclidean_mod w r m r ;; Val (MR m r').

(** modulus_remainder.h:46-54 [operator-] *)
Definition mr_sub (w : Z) (a b : modrem) : res modrem :=
  let (o, r) := sub_with_overflow w (remainder a) (remainder b) in
  if o then Val (MR 1 r)
  else m <- gcd w (modulus a) (modulus b) ;; r' <- euclidean_mod w r m r ;; Val (MR m r').

(** modulus_remainder.h:56-94 [operator*] *)
Definition mr_mul (w : Z) (a b : modrem) : res modrem :=
  if modulus a =? 0 then
    let (o1, m) := mul_with_overflow w (remainder a) (modulus b) in
    let (o2, r) := mul_with_overflow w (remainder a) (remainder b) in
    if negb o1 && negb o2 then Val (MR m r) else Val mr_all
  else if modulus b =? 0 then
    let (o1, m) := mul_with_overflow w (modulus a) (remainder b) in
    let (o2, r) := mul_with_overflow w (remainder a) (remainder b) in
    if negb o1 && negb o2 then Val (MR m r) else Val mr_all
  else if (remainder a =? 0) && (remainder b =? 0) then
    let (o, m) := mul_with_overflow w (modulus a) (modulus b) in
    if negb o then Val (MR m 0) else Val mr_all
  else if remainder a =? 0 then
    g <- gcd w (modulus b) (remainder b) ;;
    let (o, m) := mul_with_overflow w (modulus a) g in
    if negb o then Val (MR m 0) else Val mr_all
  else if remainder b =? 0 then
    g <- gcd w (modulus a) (remainder a) ;;
    let (o, m) := mul_with_overflow w (modulus b) g in
    if negb o then Val (MR m 0) else Val mr_all
  else
    let (o, r) := mul_with_overflow w (remainder a) (remainder b) in
    if negb o then
      m <- gcd w (modulus a) (modulus b) ;; r' <- euclidean_mod w r m r ;; Val (MR m r')
    else Val mr_all.

(** modulus_remainder.h:96-117 [operator/] *)
Definition mr_div (w : Z) (a b : modrem) : res modrem :=
  if (modulus b =? 0) && negb (remainder b =? 0) then
    t <- euclidean_mod w (modulus a) (remainder b) (modulus a) ;;
    if t =? 0 then
      m <- cdiv w (modulus a) (remainder b) ;;
      r <- euclidean_div w (remainder a) (remainder b) 0 ;;
      r' <- euclidean_mod w r m r ;;
      Val (MR m r')
    else Val mr_all
  else Val mr_all.

(** modulus_remainder.h:134-151: the body of [operator|] after the recursive swap. *)
Definition mr_union_ordered (w : Z) (a b : modrem) : res modrem :=
  m <- gcd w (modulus a) (modulus b) ;;
  let (o, _) := sub_with_overflow w (remainder a) (remainder b) in
  if o then Val mr_all
  else
    diff <- csub w (remainder a) (remainder b) ;;
    m' <- gcd w diff m ;;
    ra <- euclidean_mod w (remainder a) m' (remainder a) ;;
    Val (MR m' ra).
(** modulus_remainder.h:119-152 [operator|]; the recursion [b | a] happens at most once. *)
Definition mr_union (w : Z) (a b : modrem) : res modrem :=
  if remainder a <? remainder b then mr_union_ordered w b a else mr_union_ordered w a b.

(** modulus_remainder.h:154-174 [operator&] *)
Definition mr_inter (w : Z) (a b : modrem) : res modrem :=
  if modulus a =? 0 then Val a
  else if modulus b =? 0 then Val b
  else if (remainder a =? 0) && (remainder b =? 0) then
    l <- lcm w (modulus a) (modulus b) ;; Val (MR l 0)
  else if modulus b <? modulus a then Val a else Val b.

(** modulus_remainder.h:176-206 [operator%] *)
Definition mr_mod (w : Z) (a b : modrem) : res modrem :=
  m0 <- gcd w (modulus a) (modulus b) ;;
  m <- gcd w m0 (remainder b) ;;
  r <- euclidean_mod w (remainder a) m (remainder a) ;;
  if (remainder b =? 0) && negb (r =? 0) then
    if m =? 0 then Val (MR m 0) else Val (MR 1 0)
  else Val (MR m r).

(** modulus_remainder.h:208-231: the overloads with a constant right operand. *)
Definition mr_const (b : Z) : modrem := MR 0 b.
