(** bounds_of: the interval of the results of one operation on intervals of operands
    (slinky/builder/simplify_bounds.cc).

    simplify(op_simplified(), op, a, b) (21-30) returns the node [op] itself when [a] and
    [b] are the operand objects of [op], and simplify(op, a, b) otherwise.  The comparison
    of addresses is a parameter, [reuse]: any answer is allowed for any two operands (in
    the code it can only be true of the operands of [op]; then the node [op] is
    [EBin o a b]).  simplify_min etc. are called with op = nullptr.

    Undefined behaviour (UB) is overflow of index_t in a helper. *)
From Coq Require Import ZArith List Bool.
From Verif Require Import Arith_Model Arith_Spec Expr_Model Match_Model Rewrite_Model Simplify_Model Const_Model Interval_Model.
Import ListNotations.
Open Scope Z_scope.

Section BoundsOf.
  Variable reuse : expr -> expr -> bool.
  Variable W : world.
  (** simplify(const expr&) (simplify.cc), used at 104 *)
  Variable simplify_all : expr -> res expr.

  (** simplify_bounds.cc:20-30 *)
  Definition simp (o : binop) (a b : expr) : res expr :=
    if reuse a b then Val (EBin o a b) else simplify_bin o a b.

  Definition both_points (a b : interval) : bool := i_point a && i_point b.
  Definition interval_of (lo hi : res expr) : res interval := l <- lo ;; h <- hi ;; Val (i_bounds l h).
  Definition point_of (x : res expr) : res interval := e <- x ;; Val (point e).

  (** simplify_bounds.cc:32-42 *)
  Definition bounds_of_linear (o : binop) (a b : interval) : res interval :=
    if both_points a b then point_of (simp o (i_min a) (i_min b))
    else interval_of (simp o (i_min a) (i_min b)) (simp o (i_max a) (i_max b)).
  (** 44-56 *)
  Definition bounds_of_less (o : binop) (a b : interval) : res interval :=
    if both_points a b then point_of (simp o (i_min a) (i_min b))
    else interval_of (simp o (i_max a) (i_min b)) (simp o (i_min a) (i_max b)).

  (** 58-84.  The arguments of staircase_sum_bounds are converted to int. *)
  Definition stair_pattern : pat := PStair (PWild 0) (PConst 0) (PConst 1) (PConst 2).
  Definition match_stair (e : expr) : res (option binds) := match_any_variant stair_pattern e.
  Definition stair_bounds (l r : binds) (sign_b : Z) : res Arith_Model.interval :=
    rc <- cmul 64 (bound_const r 2) sign_b ;;
    staircase_sum_bounds (wrap 32 (bound_const l 0)) (wrap 32 (bound_const l 1)) (wrap 32 (bound_const l 2))
      (wrap 32 (bound_const r 0)) (wrap 32 (bound_const r 1)) (wrap 32 rc).
  Definition tighten_stairs (i : interval) (a b : expr) (sign_b : Z) : res interval :=
    lhs <- match_stair a ;;
    rhs <- (match lhs with None => Val None | Some _ => match_stair b end) ;;
    match lhs, rhs with
    | Some l, Some r =>
        if match_expr (bound_var l 0) (bound_var r 0) then
          sb <- stair_bounds l r sign_b ;;
          match iv_min sb, iv_max sb with
          | None, None => Val i
          | lo, hi => interval_of (match lo with Some m => simplify_max (i_min i) (EConst m) | None => Val (i_min i) end)
                                  (match hi with Some m => simplify_min (i_max i) (EConst m) | None => Val (i_max i) end)
          end
        else Val i
    | _, _ => Val i
    end.
  (** 86-109 *)
  Definition tighten_min_max (i : interval) (a b : expr) (sign_b : Z) : res interval :=
    if negb (sign_b =? -1) then Val i else
    match a, b with
    | EBin Min aa ab, EBin Max ba bb =>
        m <- simplify_all (e_min (e_min (e_sub aa ba) (e_sub ab bb)) (e_min (e_sub aa bb) (e_sub ab ba))) ;;
        h <- simplify_min m (i_max i) ;;
        Val (i_bounds (i_min i) h)
    | _, _ => Val i
    end.
  (** 111-116 *)
  Definition tighten (i : interval) (op : option (expr * expr)) (sign_b : Z) : res interval :=
    match op with
    | Some (a, b) => i <- tighten_stairs i a b sign_b ;; tighten_min_max i a b sign_b
    | None => Val i
    end.

  (** 120-135.  swap(b.min, b.max) does not change is_point. *)
  Definition swapped (b : interval) : interval := Interval (i_max b) (i_min b) (i_point b).
  Definition bounds_of_add (op : option (expr * expr)) (a b : interval) : res interval :=
    i <- bounds_of_linear Add a b ;; tighten i op 1.
  Definition bounds_of_sub (op : option (expr * expr)) (a b : interval) : res interval :=
    i <- bounds_of_linear Sub a (swapped b) ;; tighten i op (-1).

  (** 145-150 *)
  Definition is_simple (e : expr) : bool := match e with EVar _ _ _ | EConst _ => true | _ => false end.
  Definition simple_or_unbounded (lo hi : res expr) : res interval :=
    l <- lo ;; h <- hi ;;
    Val (i_bounds (if is_simple l then l else negative_infinity) (if is_simple h then h else positive_infinity)).
  (** 152-166 *)
  Definition constant_interval (i : interval) : res (option Z * option Z) :=
    l <- evaluate_constant_lower_bound (i_min i) ;; h <- evaluate_constant_upper_bound (i_max i) ;; Val (l, h).
  Definition c_positive (c : option Z * option Z) : bool := match fst c with Some m => 0 <? m | None => false end.
  Definition c_negative (c : option Z * option Z) : bool := match snd c with Some m => m <? 0 | None => false end.
  Definition c_non_negative (c : option Z * option Z) : bool := match fst c with Some m => 0 <=? m | None => false end.
  Definition c_non_positive (c : option Z * option Z) : bool := match snd c with Some m => m <=? 0 | None => false end.

  (** 170-229 *)
  Definition corners2 (x y : res expr) : res interval :=
    c0 <- x ;; c1 <- y ;; simple_or_unbounded (simplify_min c0 c1) (simplify_max c0 c1).
  Definition corners4 (w x y z : res expr) : res interval :=
    c0 <- w ;; c1 <- x ;; c2 <- y ;; c3 <- z ;;
    simple_or_unbounded (p <- simplify_min c0 c1 ;; q <- simplify_min c2 c3 ;; simplify_min p q)
                        (p <- simplify_max c0 c1 ;; q <- simplify_max c2 c3 ;; simplify_max p q).
  Definition bounds_of_mul (a b : interval) : res interval :=
    if both_points a b then point_of (simp Mul (i_min a) (i_min b)) else
    ca <- constant_interval a ;; cb <- constant_interval b ;;
    let m := simp Mul in
    if c_non_negative ca && c_non_negative cb then interval_of (m (i_min a) (i_min b)) (m (i_max a) (i_max b))
    else if c_non_positive ca && c_non_positive cb then interval_of (m (i_max a) (i_max b)) (m (i_min a) (i_min b))
    else if i_point b then
      if c_non_negative cb then interval_of (m (i_min a) (i_min b)) (m (i_max a) (i_min b))
      else if c_non_positive cb then interval_of (m (i_max a) (i_min b)) (m (i_min a) (i_min b))
      else corners2 (m (i_min a) (i_min b)) (m (i_max a) (i_min b))
    else if i_point a then
      if c_non_negative ca then interval_of (m (i_min a) (i_min b)) (m (i_min a) (i_max b))
      else if c_non_positive ca then interval_of (m (i_min a) (i_max b)) (m (i_min a) (i_min b))
      else corners2 (m (i_min a) (i_min b)) (m (i_min a) (i_max b))
    else corners4 (m (i_min a) (i_min b)) (m (i_min a) (i_max b)) (m (i_max a) (i_min b)) (m (i_max a) (i_max b)).

  (** 233-247 *)
  Definition s_negate (a : expr) : res expr := simplify_sub (EConst 0) a.
  Definition i_negate (x : interval) : res interval :=
    if i_point x then point_of (s_negate (i_min x)) else interval_of (s_negate (i_max x)) (s_negate (i_min x)).
  Definition union_x_negate_x (x : interval) : res interval :=
    interval_of (n <- s_negate (i_max x) ;; simplify_min (i_min x) n) (n <- s_negate (i_min x) ;; simplify_max (i_max x) n).

  (** 251-290 *)
  Definition bounds_of_div (a b : interval) : res interval :=
    ca <- constant_interval a ;; cb <- constant_interval b ;;
    let d := simp Div in
    if i_point b then
      if is_zero (i_min b) then Val (i_bounds (EConst 0) (EConst 0))
      else if i_point a then point_of (d (i_min a) (i_min b))
      else if c_non_negative cb then interval_of (d (i_min a) (i_min b)) (d (i_max a) (i_min b))
      else if c_non_positive cb then interval_of (d (i_max a) (i_min b)) (d (i_min a) (i_min b))
      else union_x_negate_x a
    else if c_positive cb then
      if c_non_negative ca then interval_of (d (i_min a) (i_max b)) (d (i_max a) (i_min b))
      else if c_non_positive ca then interval_of (d (i_min a) (i_min b)) (d (i_max a) (i_max b))
      else u <- union_x_negate_x a ;; interval_of (d (i_min u) (i_min b)) (d (i_max u) (i_min b))
    else if c_negative cb then
      if c_non_negative ca then interval_of (d (i_max a) (i_max b)) (d (i_min a) (i_min b))
      else if c_non_positive ca then interval_of (d (i_max a) (i_min b)) (d (i_min a) (i_max b))
      else u <- union_x_negate_x a ;; interval_of (d (i_max u) (i_max b)) (d (i_min u) (i_max b))
    else union_x_negate_x a.

  (** 291-317.  The second test of is_non_negative (306) cannot succeed. *)
  Definition s_abs (x : expr) : res expr := simplify_call W i_abs None [x].
  Definition bounds_of_mod (a b : interval) : res interval :=
    if both_points a b then point_of (simp Mod (i_min a) (i_min b)) else
    cb <- constant_interval b ;;
    max_b <- (if c_non_negative cb then Val (i_max b)
              else if i_point b then s_abs (i_max b)
              else x <- s_abs (i_min b) ;; y <- s_abs (i_max b) ;; simplify_max x y) ;;
    interval_of (Val (EConst 0)) (m <- simplify_sub max_b (EConst 1) ;; simplify_max m (EConst 0)).

  (** 319-332 *)
  Definition bounds_of_min := bounds_of_linear Min.
  Definition bounds_of_max := bounds_of_linear Max.
  Definition bounds_of_lt := bounds_of_less Less.
  Definition bounds_of_le := bounds_of_less LessEqual.
  (** 333-356 *)
  Definition bounds_of_equal (a b : interval) : res interval :=
    if both_points a b then point_of (simp Equal (i_min a) (i_min b))
    else interval_of (Val (EConst 0))
           (x <- simplify_less_equal (i_min a) (i_max b) ;; y <- simplify_less_equal (i_min b) (i_max a) ;; simplify_and x y).
  Definition bounds_of_not_equal (a b : interval) : res interval :=
    if both_points a b then point_of (simp NotEqual (i_min a) (i_min b))
    else interval_of
           (x <- simplify_less (i_max a) (i_min b) ;; y <- simplify_less (i_max b) (i_min a) ;; simplify_or x y)
           (Val (EConst 1)).
  (** 358-363 *)
  Definition bounds_of_and := bounds_of_linear And.
  Definition bounds_of_or := bounds_of_linear Or.
  (** 364-372.  [is_op]: the answer of a.is_point(op), where [op] is [ENot x] for
      [op = Some x]. *)
  Definition bounds_of_not (op : option expr) (is_op : bool) (a : interval) : res interval :=
    match op with
    | Some x => if is_op then Val (point (ENot x))
                else if i_point a then point_of (simplify_not (i_min a))
                else interval_of (simplify_not (i_max a)) (simplify_not (i_min a))
    | None => if i_point a then point_of (simplify_not (i_min a))
              else interval_of (simplify_not (i_max a)) (simplify_not (i_min a))
    end.
  (** 374-393.  [reuse_select]: the three ends are the operand objects of op *)
  Definition bounds_of_select (reuse_select : bool) (c t f : interval) : res interval :=
    if i_point c && i_point t && i_point f then
      if reuse_select then Val (point (ESelect (i_min c) (i_min t) (i_min f)))
      else point_of (simplify_select (i_min c) (i_min t) (i_min f))
    else if is_true (i_min c) then Val t
    else if is_false (i_max c) then Val f
    else if i_point c then Val (i_select (i_min c) t f)
    else interval_of (simplify_min (i_min t) (i_min f)) (simplify_max (i_max t) (i_max f)).
  (** 395-412 *)
  Definition bounds_of_abs (a : interval) : res interval :=
    if is_non_negative (i_min a) then Val (i_bounds (i_min a) (i_max a))
    else if is_non_positive (i_max a) then i_negate a
    else if i_point a then interval_of (Val (EConst 0)) (s_abs (i_min a))
    else interval_of (Val (EConst 0)) (x <- s_abs (i_min a) ;; y <- s_abs (i_max a) ;; simplify_max x y).
  Definition bounds_of_call (fn : intrinsic) (t : option nat) (args : list expr) (ivs : list interval) : res interval :=
    match fn with
    | i_abs => match ivs with [a] => bounds_of_abs a | _ => UB end
    | _ => Val (point (ECall fn t args))
    end.
End BoundsOf.
