(** The simplification of one node (slinky/builder/simplify_exprs.cc).

    The first parameter [op] of the C++ functions is only used to return the existing
    node when nothing changed: the result is the same tree, so it is not modelled. *)
From Coq Require Import ZArith List Bool.
From Verif Require Import Arith_Model Arith_Spec Expr_Model Rewrite_Model Rules.
Import ListNotations.
Open Scope Z_scope.

(** make_rewriter(pattern); apply_..._rules(r) ? r.result : make.  Matching against the
    pattern op(pattern_expr a, pattern_expr b) is matching the node (rewrite.h:255-259). *)
Definition rewrite_or (l : list rule) (e dflt : expr) : res expr :=
  o <- apply_rules l e ;; Val (match o with Some e' => e' | None => dflt end).

(** if (should_commute(a, b)) std::swap(a, b) *)
Definition commute (a b : expr) : expr * expr := if should_commute a b then (b, a) else (a, b).

(** simplify_exprs.cc:17-38, 40-61 *)
Definition simplify_min (a0 b0 : expr) : res expr :=
  let '(a, b) := commute a0 b0 in
  match as_constant a, as_constant b with
  | Some x, Some y => Val (EConst (Z.min x y))
  | _, _ =>
      if is_indeterminate a then Val a else if is_indeterminate b then Val b
      else rewrite_or min_rules (EBin Min a b) (make_bin Min a b)
  end.
Definition simplify_max (a0 b0 : expr) : res expr :=
  let '(a, b) := commute a0 b0 in
  match as_constant a, as_constant b with
  | Some x, Some y => Val (EConst (Z.max x y))
  | _, _ =>
      if is_indeterminate a then Val a else if is_indeterminate b then Val b
      else rewrite_or max_rules (EBin Max a b) (make_bin Max a b)
  end.

(** the constants of [a] and [b] and the condition under which they are folded *)
Definition folded (ov : Z -> Z -> Z -> bool) (a b : expr) : bool :=
  match as_constant a, as_constant b with Some x, Some y => negb (ov 64 x y) | _, _ => false end.
Definition cst (e : expr) : Z := match e with EConst c => c | _ => 0 end.

(** simplify_exprs.cc:63-87 *)
Definition simplify_add (a0 b0 : expr) : res expr :=
  let '(a, b) := commute a0 b0 in
  if folded add_overflows a b then v <- cadd 64 (cst a) (cst b) ;; Val (EConst v)
  else if is_indeterminate a then Val a else if is_indeterminate b then Val b
  else if negb (is_infinity a =? 0) && negb (is_infinity b =? 0)
       then Val (if is_infinity a =? is_infinity b then a else indeterminate)
  else rewrite_or add_rules (EBin Add a b) (make_bin Add a b).

(** simplify_exprs.cc:89-114 *)
Definition simplify_sub (a b : expr) : res expr :=
  if folded sub_overflows a b then v <- csub 64 (cst a) (cst b) ;; Val (EConst v)
  else if match as_constant b with Some y => negb (sub_overflows 64 0 y) | None => false end
       then n <- cneg 64 (cst b) ;; simplify_add a (EConst n)
  else if is_indeterminate a then Val a else if is_indeterminate b then Val b
  else if negb (is_infinity a =? 0) && negb (is_infinity b =? 0)
       then Val (if is_infinity a =? is_infinity b then indeterminate else a)
  else rewrite_or sub_rules (EBin Sub a b) (make_bin Sub a b).

(** simplify_exprs.cc:116-140 *)
Definition simplify_mul (a0 b0 : expr) : res expr :=
  let '(a, b) := commute a0 b0 in
  if folded mul_overflows a b then v <- cmul 64 (cst a) (cst b) ;; Val (EConst v)
  else if is_indeterminate a then Val a else if is_indeterminate b then Val b
  else if negb (is_infinity a =? 0) && negb (is_infinity b =? 0)
       then Val (infinity (is_infinity a * is_infinity b))
  else rewrite_or mul_rules (EBin Mul a b) (make_bin Mul a b).

(** simplify_exprs.cc:142-161 *)
Definition simplify_div (a b : expr) : res expr :=
  match as_constant a, as_constant b with
  | Some x, Some y => v <- euclidean_div 64 x y 0 ;; Val (EConst v)
  | _, _ =>
      if is_indeterminate a then Val a else if is_indeterminate b then Val b
      else if negb (is_infinity a =? 0) && negb (is_infinity b =? 0) then Val indeterminate
      else rewrite_or div_rules (EBin Div a b) (make_bin Div a b)
  end.

(** simplify_exprs.cc:163-179 *)
Definition simplify_mod (a b : expr) : res expr :=
  match as_constant a, as_constant b with
  | Some x, Some y => v <- euclidean_mod 64 x y 0 ;; Val (EConst v)
  | _, _ => rewrite_or mod_rules (EBin Mod a b) (make_bin Mod a b)
  end.

(** simplify_exprs.cc:181-196 *)
Definition simplify_less (a b : expr) : res expr :=
  match as_constant a, as_constant b with
  | Some x, Some y => Val (EConst (of_bool (x <? y)))
  | _, _ => rewrite_or less_rules (EBin Less a b) (make_bin Less a b)
  end.

(** simplify_exprs.cc:296-310 *)
Definition simplify_not (a : expr) : res expr :=
  match as_constant a with
  | Some x => Val (EConst (of_bool (x =? 0)))
  | None => rewrite_or logical_not_rules (ENot a) (ENot a)
  end.

(** simplify_exprs.cc:198-211 *)
Definition simplify_less_equal (a b : expr) : res expr := e <- simplify_less b a ;; simplify_not e.

(** simplify_exprs.cc:213-232 *)
Definition simplify_equal (a0 b0 : expr) : res expr :=
  let '(a, b) := commute a0 b0 in
  match as_constant a, as_constant b with
  | Some x, Some y => Val (EConst (of_bool (x =? y)))
  | _, _ => rewrite_or equal_rules (EBin Equal a b) (make_bin Equal a b)
  end.

(** simplify_exprs.cc:234-247 *)
Definition simplify_not_equal (a b : expr) : res expr := e <- simplify_equal a b ;; simplify_not e.

(** simplify_exprs.cc:249-270, 272-294 *)
Definition simplify_and (a0 b0 : expr) : res expr :=
  let '(a, b) := commute a0 b0 in
  match as_constant a, as_constant b with
  | Some x, Some y => Val (EConst (of_bool (truthy x && truthy y)))
  | _, Some y => Val (if truthy y then boolean a else EConst 0)
  | _, None => rewrite_or logical_and_rules (EBin And a b) (make_bin And a b)
  end.
Definition simplify_or (a0 b0 : expr) : res expr :=
  let '(a, b) := commute a0 b0 in
  match as_constant a, as_constant b with
  | Some x, Some y => Val (EConst (of_bool (truthy x || truthy y)))
  | _, Some y => Val (if truthy y then EConst 1 else boolean a)
  | _, None => rewrite_or logical_or_rules (EBin Or a b) (make_bin Or a b)
  end.

(** simplify_exprs.cc:312-327 *)
Definition simplify_select (c t f : expr) : res expr :=
  if is_true c then Val t else if is_false c then Val f
  else rewrite_or select_rules (ESelect c t f) (ESelect c t f).

(** simplify.cc:2792-2799 *)
Definition can_evaluate (fn : intrinsic) : bool :=
  match fn with i_negative_infinity | i_positive_infinity | i_indeterminate => false | _ => true end.

Definition is_semaphore_fn (fn : intrinsic) : bool :=
  match fn with i_semaphore_init | i_semaphore_wait | i_semaphore_signal => true | _ => false end.
(** simplify_exprs.cc:337-351: pairs whose first argument is undefined are removed.  An
    odd number of arguments is an assertion failure. *)
Fixpoint drop_undefined_pairs (l : list expr) : res (list expr) :=
  match l with
  | [] => Val []
  | [_] => UB
  | s :: n :: l' => r <- drop_undefined_pairs l' ;; Val (if defined s then s :: n :: r else r)
  end.
(** simplify_exprs.cc:353-361 *)
Definition is_min_of (e : expr) (s : nat) (d : Z) : bool :=
  match e with EVar t f_min k => (t =? s)%nat && (k =? d) | _ => false end.
Fixpoint clear_mins (s : nat) (d : Z) (l : list expr) : list expr :=
  match l with
  | [] => []
  | e :: l' => (if is_min_of e s d then EUndef else e) :: clear_mins s (d + 1) l'
  end.
(** simplify_exprs.cc:362-366 *)
Fixpoint pop_undefined (l : list expr) : list expr :=
  match l with
  | [] => []
  | e :: l' => match pop_undefined l' with [] => if defined e then [e] else [] | r => e :: r end
  end.

(** simplify_exprs.cc:329-391.  [W] is the world in which evaluate(e) runs. *)
Definition finish_call (W : world) (constant : bool) (fn : intrinsic) (target : option nat) (args : list expr) : res expr :=
  let e := ECall fn target args in
  if constant && can_evaluate fn then r <- eval W (fun _ => 0) e ;; Val (EConst (fst r))
  else rewrite_or call_rules e e.
Definition simplify_call (W : world) (fn : intrinsic) (target : option nat) (args : list expr) : res expr :=
  let constant := forallb (fun a => match as_constant a with Some _ => true | None => false end) args in
  if is_semaphore_fn fn then
    args <- drop_undefined_pairs args ;;
    match args with [] => Val EUndef | _ => finish_call W constant fn target args end
  else match fn with
  | i_buffer_at =>
      match args with
      | EVar s f_none d :: at_ => finish_call W constant fn target (EVar s f_none d :: pop_undefined (clear_mins s 0 at_))
      | _ :: _ :: _ => UB
      | _ => finish_call W constant fn target args
      end
  | i_abs =>
      match args with
      | [x] => if is_non_negative x then Val x
               else if is_non_positive x then simplify_sub (EConst 0) x
               else finish_call W constant fn target args
      | _ => UB
      end
  | _ => finish_call W constant fn target args
  end.

(** The binary simplifications together. *)
Definition simplify_bin (o : binop) : expr -> expr -> res expr :=
  match o with
  | Add => simplify_add | Sub => simplify_sub | Mul => simplify_mul | Div => simplify_div | Mod => simplify_mod
  | Min => simplify_min | Max => simplify_max
  | Equal => simplify_equal | NotEqual => simplify_not_equal
  | Less => simplify_less | LessEqual => simplify_less_equal
  | And => simplify_and | Or => simplify_or
  end.
