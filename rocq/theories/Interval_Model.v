(** Intervals and boxes of expressions: slinky/runtime/expr.h:300-366,
    slinky/runtime/expr_stmt.cc:235-416, slinky/builder/simplify_exprs.cc:393-409.

    interval_expr::is_point compares the addresses of the two ends (expr.h:309).  The
    model records the answer as a third field of the interval, [i_point]; it is only ever
    true of an interval whose ends are the same defined expression ([interval_ok] in
    Interval_Spec.v).  An interval made from two expressions that happen to be the same
    object is given the answer false: no function below asks is_point of an interval it
    has just made in this way. *)
From Coq Require Import ZArith List Bool.
From Verif Require Import Arith_Model Expr_Model Match_Model Simplify_Model.
Import ListNotations.
Open Scope Z_scope.

Record interval := Interval { i_min : expr; i_max : expr; i_point : bool }.

(** expr.h:303-305, 350-354; expr_stmt.cc:379-381 *)
Definition i_undef : interval := Interval EUndef EUndef false.
Definition i_bounds (min max : expr) : interval := Interval min max false.
Definition point (x : expr) : interval := Interval x x (defined x).
Definition i_range (begin_ end_ : expr) : interval := i_bounds begin_ (e_sub end_ (EConst 1)).
Definition i_min_extent (min extent : expr) : interval := i_bounds min (e_sub (e_add min extent) (EConst 1)).

(** expr_stmt.cc:235-244 *)
Definition i_all : interval := i_bounds negative_infinity positive_infinity.
Definition i_none : interval := i_bounds positive_infinity negative_infinity.
Definition union_identity := i_none.
Definition intersection_identity := i_all.

(** expr_stmt.cc:246-261 *)
Definition i_begin (i : interval) : expr := i_min i.
Definition i_end (i : interval) : expr := e_add (i_max i) (EConst 1).
Definition i_extent (i : interval) : expr := e_add (e_sub (i_max i) (i_min i)) (EConst 1).
Definition i_empty (i : interval) : expr := e_gt (i_min i) (i_max i).
Definition i_contains (i : interval) (x : expr) : expr :=
  if defined (i_min i) && defined (i_max i) then e_and (e_le (i_min i) x) (e_le x (i_max i))
  else if defined (i_min i) then e_le (i_min i) x
  else if defined (i_max i) then e_le x (i_max i)
  else EConst 1.

(** "if (min.defined()) min = T::make(min, x)" *)
Definition on_end (o : binop) (e x : expr) : expr := if defined e then make_bin o e x else e.

(** expr_stmt.cc:347-365 *)
Definition i_union (a b : interval) : interval :=
  i_bounds (if defined (i_min a) && defined (i_min b) then e_min (i_min a) (i_min b) else EUndef)
           (if defined (i_max a) && defined (i_max b) then e_max (i_max a) (i_max b) else EUndef).
Definition i_intersection (a b : interval) : interval :=
  i_bounds (if defined (i_min a) && defined (i_min b) then e_max (i_min a) (i_min b)
            else if defined (i_min a) then i_min a else i_min b)
           (if defined (i_max a) && defined (i_max b) then e_min (i_max a) (i_max b)
            else if defined (i_max a) then i_max a else i_max b).

(** expr_stmt.cc:263-297: operator*= and operator/= *)
Definition i_scale (o : binop) (i : interval) (s : expr) : interval :=
  if i_point i then point (make_bin o (i_min i) s)
  else if is_non_negative s then i_bounds (on_end o (i_min i) s) (on_end o (i_max i) s)
  else if is_negative s then i_bounds (on_end o (i_max i) s) (on_end o (i_min i) s)
  else let a := on_end o (i_min i) s in
       let b := on_end o (i_max i) s in
       i_union (i_bounds a b) (i_bounds b a).
Definition i_mul := i_scale Mul.
Definition i_div := i_scale Div.

(** expr_stmt.cc:299-317: operator+= and operator-= *)
Definition i_shift (o : binop) (i : interval) (x : expr) : interval :=
  if i_point i then point (make_bin o (i_min i) x)
  else i_bounds (on_end o (i_min i) x) (on_end o (i_max i) x).
Definition i_add := i_shift Add.
Definition i_sub := i_shift Sub.

(** expr_stmt.cc:343-345, 385 *)
Definition i_neg (i : interval) : interval :=
  i_bounds (if defined (i_max i) then e_neg (i_max i) else EUndef) (if defined (i_min i) then e_neg (i_min i) else EUndef).
Definition e_minus_i (a : expr) (b : interval) : interval := i_add (i_neg b) a.

(** expr_stmt.cc:387-397 *)
Definition i_clamp (x : expr) (i : interval) : expr := e_clamp x (i_min i) (i_max i).
Definition i_select (c : expr) (t f : interval) : interval :=
  if i_point t && i_point f then point (ESelect c (i_min t) (i_min f))
  else i_bounds (ESelect c (i_min t) (i_min f)) (ESelect c (i_max t) (i_max f)).

(** expr_stmt.cc:399-416.  a.resize(n) adds default (undefined) intervals. *)
Definition resize (a : list interval) (n : nat) : list interval := a ++ repeat i_undef (n - length a).
Fixpoint zip_box (f : interval -> interval -> interval) (a b : list interval) : list interval :=
  match a, b with
  | x :: a', y :: b' => f x y :: zip_box f a' b'
  | _, [] => a
  | [], _ => []
  end.
Definition box_union (a b : list interval) : list interval :=
  zip_box i_union (resize a (Nat.max (length a) (length b))) b.
(** The second loop of operator& reads b[i] for i from b.size() to a.size() - 1: out of
    bounds if there is such an i. *)
Definition box_intersection (a b : list interval) : res (list interval) :=
  let a := resize a (Nat.max (length a) (length b)) in
  if (length b <? length a)%nat then UB else Val (zip_box i_intersection a b).

(** simplify_exprs.cc:393-409 *)
Definition simplify_intersection (a b : interval) : res interval :=
  lo <- (if defined (i_min a) && defined (i_min b) then simplify_max (i_min a) (i_min b)
         else Val (if defined (i_min a) then i_min a else i_min b)) ;;
  hi <- (if defined (i_max a) && defined (i_max b) then simplify_min (i_max a) (i_max b)
         else Val (if defined (i_max a) then i_max a else i_max b)) ;;
  Val (if match_expr lo hi then point lo else i_bounds lo hi).
