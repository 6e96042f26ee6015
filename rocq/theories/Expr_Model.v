(** Expressions of slinky: the nodes, their constructors and operators
    (slinky/runtime/expr.h, slinky/runtime/expr_stmt.cc), and their evaluation
    (slinky/runtime/evaluate.cc:68-351).

    Conventions.  An [expr] in C++ is a possibly null reference to an immutable
    reference-counted tree; the model is the tree, with [EUndef] for null.  Pointer
    identity is not modelled except for the std::function of a call, see [ECall]. *)
From Coq Require Import ZArith List Bool.
From Verif Require Import Arith_Model Arith_Spec Buf_Model Alloc_Model.
Import ListNotations.
Open Scope Z_scope.

(** expr.h:421-452: the binary operators, in the order of expr_node_type
    (expr.h:62-84). *)
Inductive binop :=
| Add | Sub | Mul | Div | Mod | Min | Max
| Equal | NotEqual | Less | LessEqual | And | Or.

(** expr.h:86-125 *)
Inductive intrinsic :=
| i_none | i_negative_infinity | i_positive_infinity | i_indeterminate
| i_abs | i_and_then | i_or_else | i_buffer_at
| i_semaphore_init | i_semaphore_signal | i_semaphore_wait | i_wait_for
| i_trace_begin | i_trace_end | i_free | i_validate_buffer.

(** expr.h:127-138 *)
Inductive field := f_none | f_rank | f_elem_size | f_size_bytes | f_min | f_max | f_stride | f_fold_factor.

(** expr.h:370-560.  The target of a call is a std::function that can only be
    compared by the address of its node (substitute.cc:237-247): [Some n] is the node
    with identity [n], [None] a null target. *)
Inductive expr :=
| EUndef
| EVar (sym : nat) (f : field) (dim : Z)
| ELet (lets : list (nat * expr)) (body : expr)
| EBin (op : binop) (a b : expr)
| ENot (a : expr)
| ESelect (c t f : expr)
| ECall (fn : intrinsic) (target : option nat) (args : list expr)
| EConst (c : Z).

(** expr.h:62-84: the position in the enumeration (0 is none). *)
Definition binop_type (o : binop) : Z :=
  match o with
  | Add => 3 | Sub => 4 | Mul => 5 | Div => 6 | Mod => 7 | Min => 8 | Max => 9
  | Equal => 10 | NotEqual => 11 | Less => 12 | LessEqual => 13 | And => 14 | Or => 15
  end.
Definition type_of (e : expr) : Z :=
  match e with
  | EUndef => 0 | EVar _ _ _ => 1 | ELet _ _ => 2 | EBin o _ _ => binop_type o
  | ENot _ => 16 | ESelect _ _ _ => 17 | ECall _ _ _ => 18 | EConst _ => 19
  end.
Definition defined (e : expr) : bool := match e with EUndef => false | _ => true end.

(** expr.h:304-306 *)
Definition should_commute (a b : expr) : bool := type_of b <? type_of a.
(** expr.h:438-450: the second argument of DECLARE_BINARY_OP *)
Definition commutative (o : binop) : bool :=
  match o with
  | Add | Mul | Min | Max | Equal | NotEqual | And | Or => true
  | Sub | Div | Mod | Less | LessEqual => false
  end.
(** expr_stmt.cc:55-66, make_bin_op, which is T::make for every binary node *)
Definition make_bin (o : binop) (a b : expr) : expr :=
  if commutative o && should_commute a b then EBin o b a else EBin o a b.

(** expr_stmt.cc:163-203: the operators on exprs *)
Definition e_add := make_bin Add.
Definition e_sub := make_bin Sub.
Definition e_mul := make_bin Mul.
Definition e_div := make_bin Div.
Definition e_mod := make_bin Mod.
Definition e_min := make_bin Min.
Definition e_max := make_bin Max.
Definition e_eq := make_bin Equal.
Definition e_ne := make_bin NotEqual.
Definition e_lt := make_bin Less.
Definition e_le := make_bin LessEqual.
Definition e_gt (a b : expr) := make_bin Less b a.
Definition e_ge (a b : expr) := make_bin LessEqual b a.
Definition e_and := make_bin And.
Definition e_or := make_bin Or.
Definition e_not (a : expr) := ENot a.
Definition e_neg (a : expr) := e_sub (EConst 0) a.
(** expr_stmt.cc:172-176 *)
Definition e_clamp (x a b : expr) : expr :=
  let x := if defined b then make_bin Min x b else x in
  if defined a then make_bin Max x a else x.
(** expr_stmt.cc:208-226, min and max of a span *)
Fixpoint e_min_span (l : list expr) : expr :=
  match l with
  | [] => EUndef
  | [x] => x
  | x :: l' => e_min x (e_min_span l')
  end.
Fixpoint e_max_span (l : list expr) : expr :=
  match l with
  | [] => EUndef
  | [x] => x
  | x :: l' => e_max x (e_max_span l')
  end.
(** expr_stmt.cc:630-645 *)
Definition positive_infinity : expr := ECall i_positive_infinity None [].
Definition negative_infinity : expr := ECall i_negative_infinity None [].
Definition indeterminate : expr := ECall i_indeterminate None [].
Definition infinity (sign : Z) : expr := if sign <? 0 then negative_infinity else positive_infinity.
(** expr_stmt.cc:690-698 *)
Definition e_abs (x : expr) : expr := ECall i_abs None [x].
Definition e_align_down (x a : expr) : expr := e_mul (e_div x a) a.
Definition e_align_up (x a : expr) : expr := e_mul (e_div (e_sub (e_add x a) (EConst 1)) a) a.
Definition e_and_then (a b : expr) : expr := ECall i_and_then None [a; b].
Definition e_or_else (a b : expr) : expr := ECall i_or_else None [a; b].
(** expr_stmt.cc:700-707 *)
Definition buffer_min (b : nat) (d : Z) : expr := EVar b f_min d.
Definition buffer_max (b : nat) (d : Z) : expr := EVar b f_max d.
Definition buffer_extent (b : nat) (d : Z) : expr := e_add (e_sub (buffer_max b d) (buffer_min b d)) (EConst 1).

(** expr.h:626-680 and expr_stmt.cc:647-688, 766-795: tests on exprs *)
Definition as_constant (e : expr) : option Z := match e with EConst c => Some c | _ => None end.
Definition is_const (e : expr) (v : Z) : bool := match e with EConst c => c =? v | _ => false end.
Definition is_zero (e : expr) : bool := is_const e 0.
Definition is_one (e : expr) : bool := is_const e 1.
Definition is_true (e : expr) : bool := match e with EConst c => negb (c =? 0) | _ => false end.
Definition is_false (e : expr) : bool := is_zero e.
Definition intrinsic_eqb (a b : intrinsic) : bool :=
  match a, b with
  | i_none, i_none | i_negative_infinity, i_negative_infinity | i_positive_infinity, i_positive_infinity
  | i_indeterminate, i_indeterminate | i_abs, i_abs | i_and_then, i_and_then | i_or_else, i_or_else
  | i_buffer_at, i_buffer_at | i_semaphore_init, i_semaphore_init | i_semaphore_signal, i_semaphore_signal
  | i_semaphore_wait, i_semaphore_wait | i_wait_for, i_wait_for | i_trace_begin, i_trace_begin
  | i_trace_end, i_trace_end | i_free, i_free | i_validate_buffer, i_validate_buffer => true
  | _, _ => false
  end.
Definition is_call (fn : intrinsic) (e : expr) : bool :=
  match e with ECall g _ _ => intrinsic_eqb g fn | _ => false end.
Definition is_positive_infinity := is_call i_positive_infinity.
Definition is_negative_infinity := is_call i_negative_infinity.
Definition is_indeterminate := is_call i_indeterminate.
Definition is_infinity (e : expr) : Z :=
  if is_positive_infinity e then 1 else if is_negative_infinity e then -1 else 0.
Definition is_finite (e : expr) : bool :=
  match e with EConst _ => true | ECall fn _ _ => intrinsic_eqb fn i_buffer_at | _ => false end.
(** expr_stmt.cc:647-655.  An abs node has one argument (asserted). *)
Fixpoint is_positive (e : expr) : bool :=
  match e with
  | ECall i_positive_infinity _ _ => true
  | ECall i_abs _ (a :: _) => is_positive a
  | EConst c => 0 <? c
  | _ => false
  end.
Definition is_non_negative (e : expr) : bool :=
  if is_positive_infinity e then true else if is_call i_abs e then true
  else match as_constant e with Some c => 0 <=? c | None => false end.
Definition is_negative (e : expr) : bool :=
  if is_negative_infinity e then true else match as_constant e with Some c => c <? 0 | None => false end.
Definition is_non_positive (e : expr) : bool :=
  if is_negative_infinity e then true else match as_constant e with Some c => c <=? 0 | None => false end.
Definition is_boolean_node (e : expr) : bool :=
  match e with
  | EBin (Less | LessEqual | Equal | NotEqual | And | Or) _ _ => true
  | ENot _ => true
  | _ => false
  end.
Definition is_boolean (e : expr) : bool := is_boolean_node e || is_one e || is_zero e.
Definition of_bool (b : bool) : Z := if b then 1 else 0.
(** expr_stmt.cc:783-791 *)
Definition boolean (x : expr) : expr :=
  if negb (defined x) || is_boolean x then x
  else match as_constant x with
       | Some c => EConst (of_bool (negb (c =? 0)))
       | None => make_bin NotEqual x (EConst 0)
       end.

(** ** Evaluation on the machine (evaluate.cc) *)

(** expr.h:455-479, make_binary on index_t.  [64] is the width of index_t. *)
Definition truthy (z : Z) : bool := negb (z =? 0).
Definition eval_bin (o : binop) (a b : Z) : res Z :=
  match o with
  | Add => cadd 64 a b
  | Sub => csub 64 a b
  | Mul => cmul 64 a b
  | Div => euclidean_div 64 a b 0
  | Mod => euclidean_mod 64 a b 0
  | Min => Val (Z.min a b)
  | Max => Val (Z.max a b)
  | Equal => Val (of_bool (a =? b))
  | NotEqual => Val (of_bool (negb (a =? b)))
  | Less => Val (of_bool (a <? b))
  | LessEqual => Val (of_bool (a <=? b))
  | And => Val (of_bool (truthy a && truthy b))
  | Or => Val (of_bool (truthy a || truthy b))
  end.

(** expr.h:481-494, make_or_eval_binary *)
Definition binary_overflows (o : binop) (a b : Z) : bool :=
  match o with
  | Add => add_overflows 64 a b
  | Sub => sub_overflows 64 a b
  | Mul => mul_overflows 64 a b
  | _ => false
  end.
Definition make_or_eval_binary (o : binop) (a b : Z) : res expr :=
  if binary_overflows o a b then Val (make_bin o (EConst a) (EConst b))
  else v <- eval_bin o a b ;; Val (EConst v).

(** evaluate.h:47-88: the context is a vector of values indexed by symbol.  Entries
    that were never set hold unspecified values: the model is a total function. *)
Definition context := nat -> Z.
Definition ctx_set (c : context) (s : nat) (v : Z) : context := fun t => if (t =? s)%nat then v else c t.

(** What evaluation reads besides the context: the raw_buffer objects in memory, the
    user functions ([w_user n] for the node [n]; it is given the values of its
    defined arguments, "must be a pure function of the inputs", expr.h:543), and the
    results of the intrinsics with effects (semaphores, tracing, wait_for, free) and
    of validate_buffer. *)
Record world := World {
  w_buf : Z -> option buf;
  w_user : nat -> list (option Z) -> Z;
  w_intrinsic : intrinsic -> list (option Z) -> Z }.

Definition ptr_value (p : ptr) : Z := match p with Some a => a | None => 0 end.
(** buffer.h:250: raw_buffer::dim(i) with i an int converted to std::size_t *)
Definition dim_int (b : buf) (d : Z) : dim := if d <? 0 then broadcast else dim_at b (Z.to_nat d).
(** evaluate.cc:144-158 *)
Definition field_value (b : buf) (f : field) (d v : Z) : Z :=
  match f with
  | f_none => v
  | f_rank => Z.of_nat (rank b)
  | f_elem_size => elem_size b
  | f_size_bytes => size_bytes b
  | f_min => d_min (dim_int b d)
  | f_max => d_max (dim_int b d)
  | f_stride => d_stride (dim_int b d)
  | f_fold_factor => d_fold (dim_int b d)
  end.

(** evaluate.cc:175-179: the old values are put back in the order in which they were
    saved *)
Fixpoint restore_all (c : context) (old : list (nat * Z)) : context :=
  match old with
  | [] => c
  | (s, v) :: old' => restore_all (ctx_set c s v) old'
  end.

(** The loops of the evaluator; [ev] is the evaluation of a subexpression. *)
Section Loops.
  Variable ev : context -> expr -> res (Z * context).

  (** evaluate.cc:171-174: the values are set in order; the second component lists the
      old values in the same order *)
  Fixpoint eval_lets (l : list (nat * expr)) (c : context) {struct l} : res (context * list (nat * Z)) :=
    match l with
    | [] => Val (c, [])
    | (s, x) :: l' =>
        rx <- ev c x ;; let '(v, c1) := rx in
        r <- eval_lets l' (ctx_set c1 s v) ;; let '(c2, old) := r in
        Val (c2, (s, c1 s) :: old)
    end.
  (** the arguments of a call; undefined ones stay undefined *)
  Fixpoint eval_args (l : list expr) (c : context) {struct l} : res (list (option Z) * context) :=
    match l with
    | [] => Val ([], c)
    | x :: l' =>
        if defined x then
          rx <- ev c x ;; let '(v, c1) := rx in
          r <- eval_args l' c1 ;; let '(vs, c2) := r in Val (Some v :: vs, c2)
        else r <- eval_args l' c ;; let '(vs, c2) := r in Val (None :: vs, c2)
    end.
  (** evaluate.cc:208-216: the dimensions are visited while both the rank [n] and the
      arguments last *)
  Fixpoint eval_at (n : nat) (l : list expr) (c : context) {struct l} : res (list (option Z) * context) :=
    match l, n with
    | x :: l', S n' =>
        if defined x then
          rx <- ev c x ;; let '(v, c1) := rx in
          r <- eval_at n' l' c1 ;; let '(vs, c2) := r in Val (Some v :: vs, c2)
        else r <- eval_at n' l' c ;; let '(vs, c2) := r in Val (None :: vs, c2)
    | _, _ => Val ([], c)
    end.
  (** evaluate.cc:186-197; [stop] is true for or_else, false for and_then *)
  Fixpoint eval_short (stop : bool) (l : list expr) (c : context) {struct l} : res (Z * context) :=
    match l with
    | [] => Val (of_bool (negb stop), c)
    | x :: l' => rx <- ev c x ;; let '(v, c1) := rx in
                 if Bool.eqb (truthy v) stop then Val (of_bool stop, c1) else eval_short stop l' c1
    end.
End Loops.

Section Eval.
  Variable W : world.

  (** evaluate.cc:76-141, 160-223, 309-351.  The result is the value and the context
      afterwards.  Evaluating an undefined expr, an infinity or indeterminate is
      undefined behaviour (a null node, SLINKY_UNREACHABLE). *)
  Fixpoint eval (c : context) (e : expr) {struct e} : res (Z * context) :=
    match e with
    | EUndef => UB
    | EConst v => Val (v, c)
    | EVar s f d =>
        match f with
        | f_none => Val (c s, c)
        | _ => match w_buf W (c s) with
               | Some b => Val (field_value b f d (c s), c)
               | None => UB
               end
        end
    | EBin o a b =>
        ra <- eval c a ;; let '(va, c1) := ra in
        rb <- eval c1 b ;; let '(vb, c2) := rb in
        v <- eval_bin o va vb ;; Val (v, c2)
    | ENot a => ra <- eval c a ;; let '(va, c1) := ra in Val (of_bool (va =? 0), c1)
    | ESelect q t f =>
        rq <- eval c q ;; let '(vq, c1) := rq in
        if truthy vq then eval c1 t else eval c1 f
    | ELet lets body =>
        r <- eval_lets eval lets c ;; let '(c1, old) := r in
        rb <- eval c1 body ;; let '(v, c2) := rb in
        Val (v, restore_all c2 old)
    | ECall fn target args =>
        match fn with
        | i_none => match target with
                    | None => UB
                    | Some n => r <- eval_args eval args c ;; let '(vs, c1) := r in Val (w_user W n vs, c1)
                    end
        | i_positive_infinity | i_negative_infinity | i_indeterminate => UB
        | i_abs => match args with
                   | [x] => rx <- eval c x ;; let '(v, c1) := rx in a <- cabs 64 v ;; Val (a, c1)
                   | _ => UB
                   end
        | i_and_then => eval_short eval false args c
        | i_or_else => eval_short eval true args c
        | i_buffer_at =>
            match args with
            | EVar s f_none _ :: at_ =>
                match w_buf W (c s) with
                | Some b => r <- eval_at eval (rank b) at_ c ;; let '(vs, c1) := r in
                            Val (ptr_value (buffer_at b vs), c1)
                | None => UB
                end
            | _ => UB
            end
        | _ => r <- eval_args eval args c ;; let '(vs, c1) := r in Val (w_intrinsic W fn vs, c1)
        end
    end.
End Eval.
