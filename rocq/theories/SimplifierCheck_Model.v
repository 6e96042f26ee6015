(** Checks for the checked simplifier (SimplifierGuard_Model.v) that can be computed, given
    the values of the variables: all constants are below 2^30 and what is computed has integer
    values where that is needed.  That they ensure guards_sound is C48_checks. *)
From Coq Require Import ZArith List Bool.
From Verif Require Import Arith_Model Arith_Spec ModRem_Model Buf_Model Expr_Model Expr_Spec Match_Model Rewrite_Model Rewrite_Proofs Simplify_Model Simplify_Proofs
  Simplify_Props Const_Model Const_Proofs Interval_Model BoundsOf_Model Subst_Model Knowledge_Model Knowledge_Spec Simplifier_Model SimplifierGuard_Model.
Import ListNotations.
Open Scope Z_scope.

(** constants below 2^30, no lets, buffer_at of variables *)
Definition plain_head (args : list expr) : bool := match args with EVar _ f_none _ :: _ => true | _ => false end.
Fixpoint fine (e : expr) : bool :=
  match e with
  | EConst c => (- 2 ^ 30 <? c) && (c <? 2 ^ 30)
  | EBin _ a b => fine a && fine b
  | ENot a => fine a
  | ESelect c t f => fine c && fine t && fine f
  | ECall fn _ args => forallb fine args && match fn with i_buffer_at => plain_head args | _ => true end
  | ELet _ _ => false
  | EUndef | EVar _ _ _ => true
  end.
Definition point_ok (i : interval) : bool := negb (i_point i) || (match_expr (i_max i) (i_min i) && defined (i_min i)).
Definition ends_fine (i : interval) : bool := fine (i_min i) && fine (i_max i).
Definition ends_logical (i : interval) : bool := ends_fine i && logical_ok (i_min i) && logical_ok (i_max i).
Definition on_val {A} (x : res A) (f : A -> bool) : bool := match x with Val a => f a | UB => true end.
Definition for_ends (a b : interval) (f : expr -> expr -> bool) : bool :=
  f (i_min a) (i_min b) && f (i_min a) (i_max b) && f (i_max a) (i_min b) && f (i_max a) (i_max b).
Definition is_finb (x : xval) : bool := match x with Fin _ => true | _ => false end.
Definition is_inf (x : xval) : bool := match x with PInf | NInf => true | _ => false end.
Definition is_bad (x : xval) : bool := match x with Bad => true | _ => false end.
Definition is_0 (x : xval) : bool := match x with Fin z => z =? 0 | _ => false end.
Definition is_01 (x : xval) : bool := match x with Fin z => (z =? 0) || (z =? 1) | _ => false end.
Definition inf_lit (e : expr) : bool := match_expr e positive_infinity || match_expr e negative_infinity.
Definition const_0 (e : expr) : bool := match e with EConst c => c =? 0 | _ => false end.
Definition modrem_ok (m : modrem) : bool := in_range 64 (modulus m) && in_range 64 (remainder m).

Section Checks.
  Variable W : world.
  Variable r : env.
  Variable reuse : path -> expr -> expr -> bool.
  Variable reuse_select : path -> bool.
  Notation M := (meaning W r).

  Fixpoint finite_all (e : expr) : bool :=
    match M e with Fin z => in_range 64 z | _ => false end &&
    match e with
    | EBin _ a b => finite_all a && finite_all b
    | ENot a => finite_all a
    | ESelect c t f => finite_all c && finite_all t && finite_all f
    | ECall _ _ args => forallb finite_all args
    | _ => true
    end.
  Definition ck_visit (e : expr) : bool := match e with EBin _ a b => is_finb (M a) && is_finb (M b) | _ => true end.
  Definition ck_bin (o : binop) (a b : expr) : bool :=
    fine a && fine b && (negb (equality_op o && (is_select a || is_select b)) || (finite_all a && finite_all b)).
  Definition ck_select (c t f : expr) : bool := fine c && fine t && fine f && finite_all (ESelect c t f).
  Definition ck_based (args : list expr) : bool :=
    match args with
    | EVar s f_none _ :: _ =>
        match r s with
        | Fin p => match w_buf W p with Some b => forallb (fun d => d_contains d (d_min d) && (d_offset d (d_min d) =? 0)) (dims b) | None => true end
        | _ => true
        end
    | _ => true
    end.
  Definition ck_call (fn : intrinsic) (l : list expr) : bool :=
    forallb fine l && (match fn with i_buffer_at => ck_based l | _ => true end) && negb (is_semaphore_fn fn).
  Definition ck_answer (e : expr) : bool := fine e && logical_ok e && negb (is_bad (M e)).

  (** the side conditions of the bounds of one operator *)
  Definition ck_stairs (a b : expr) (sign : Z) : bool :=
    on_val (match_stair a) (fun l => match l with None => true | Some l =>
    on_val (match_stair b) (fun m => match m with None => true | Some m =>
    on_val (stair_bounds l m sign) (fun sb =>
      match iv_min sb with Some c => fine (EConst c) | None => true end && match iv_max sb with Some c => fine (EConst c) | None => true end) end) end).
  Definition ck_tighten (linear : res interval) (op : option (expr * expr)) (sign : Z) : bool :=
    match op with
    | None => true
    | Some (a, b) => fine a && fine b && ck_stairs a b sign && on_val linear (fun j => ends_fine j && on_val (tighten_stairs j a b sign) ends_fine)
    end.
  Definition ck_mul (p : path) (x y : expr) : bool :=
    negb ((is_0 (M x) && is_inf (M y)) || (is_inf (M x) && is_0 (M y))) ||
    (negb (reuse p x y) && ((const_0 x && inf_lit y) || (inf_lit x && const_0 y))).
  Definition ck_products (p : path) (a b : interval) : bool :=
    for_ends a b (fun x y => on_val (simp (reuse p) Mul x y) fine) &&
    for_ends a b (fun x y => for_ends a b (fun x' y' =>
      on_val (simp (reuse p) Mul x y) (fun m => on_val (simp (reuse p) Mul x' y') (fun m' =>
        on_val (simplify_min m m') fine && on_val (simplify_max m m') fine)))).
  Definition ck_div (p : path) (x y : expr) : bool :=
    (negb (is_inf (M y) && is_finb (M x)) || (negb (reuse p x y) && match x with EConst _ => true | _ => false end && inf_lit y)) &&
    (negb (is_inf (M x)) || negb (is_0 (M y))).
  Definition ck_each (f : expr -> res expr) (a : interval) : bool := on_val (f (i_min a)) fine && on_val (f (i_max a)) fine.
  Definition ck_mod (b : interval) : bool :=
    let less1 m := on_val (simplify_sub m (EConst 1)) fine in
    ck_each (s_abs W) b && less1 (i_max b) && on_val (s_abs W (i_min b)) less1 && on_val (s_abs W (i_max b)) less1 &&
    on_val (s_abs W (i_min b)) (fun x => on_val (s_abs W (i_max b)) (fun y => on_val (simplify_max x y) less1)).
  Definition ck_bounds_bin (p : path) (o : binop) (op : option (expr * expr)) (a b : interval) : bool :=
    point_ok a && point_ok b && ends_fine a && ends_fine b &&
    match o with
    | Add => ck_tighten (bounds_of_linear (reuse p) Add a b) op 1
    | Sub => ck_tighten (bounds_of_linear (reuse p) Sub a (swapped b)) op (-1)
    | Mul => ends_logical a && ends_logical b && for_ends a b (ck_mul p) && ck_products p a b
    | Div => ends_logical a && ends_logical b && for_ends a b (ck_div p) && ck_each s_negate a
    | Mod => ends_logical b && ck_mod b
    | And | Or => true
    | _ => for_ends a b (ck_bin o)
    end.
  Definition ck_bounds_select (p : path) (c t f : interval) : bool :=
    point_ok c && point_ok t && point_ok f &&
    (negb (i_point c && i_point t && i_point f && negb (reuse_select p)) ||
       (ends_fine c && ends_fine t && ends_fine f && finite_all (ESelect (i_min c) (i_min t) (i_min f)))) &&
    (i_point c || (ends_fine t && ends_fine f && for_ends t f (fun x y => negb (is_bad (M x)) && negb (is_bad (M y))))).
  Definition ck_bounds_call (fn : intrinsic) (bs : list interval) : bool :=
    match fn with i_abs => forallb (fun b => point_ok b && ends_fine b && (i_point b || ck_each (s_abs W) b)) bs | _ => true end.
  Definition ck_align (o : binop) (a b : modrem) : bool :=
    modrem_ok a && modrem_ok b && match o with Mod => (remainder b =? 0) || negb (emod (remainder b) (modulus b) =? 0) && negb (modulus b =? 0) || ((modulus b =? 0) && negb (remainder b =? 0)) | _ => true end.

  Definition ck_order (a b : expr) : bool := negb (is_op Min a) && negb (is_op Max b).
  Definition ck_equal (a : expr) : bool := match a with EBin Mod _ y => negb (const_0 y) | _ => true end.
  Fixpoint ck_learnable (pos : bool) (c : expr) : bool :=
    match pos, c with
    | true, EBin And a b => ck_learnable true a && ck_learnable true b
    | false, EBin Or a b => ck_learnable false a && ck_learnable false b
    | _, ENot a => ck_learnable (negb pos) a
    | true, EBin Less a b | true, EBin LessEqual a b => ck_order a b
    | false, EBin Less a b | false, EBin LessEqual a b => ck_order b a
    | true, EBin Equal a b | false, EBin NotEqual a b => ck_equal a
    | true, EBin _ _ _ | true, ESelect _ _ _ | true, ECall _ _ _ | true, ELet _ _ | true, EUndef => is_01 (M c)
    | true, EVar _ f _ => match f with f_none => true | _ => is_01 (M c) end
    | _, _ => true
    end.
  Definition ck_subst (a b x : expr) : bool :=
    defined a && defined b && fine x &&
    match a with EVar _ f_none _ => match b with EVar _ f_none _ => true | _ => false end | _ => true end.
  Definition ck_at (s : nat) (n : nat) (low : bool) : bool :=
    match r s with
    | Fin p => match w_buf W p with
               | Some b => match nth_error (dims b) n with
                           | Some d => let x := if low then d_min d else 0 in d_contains d x && (d_offset d x =? 0)
                           | None => true
                           end
               | None => true
               end
    | _ => true
    end.

  Definition checks : guards :=
    {| g_visit := ck_visit;
       g_bin := ck_bin;
       g_not := fine;
       g_select := ck_select;
       g_call := fun fn _ l => ck_call fn l;
       g_add_constant := fun a c => fine a && in_range 64 c;
       g_answer := ck_answer;
       g_bounds_bin := ck_bounds_bin;
       g_inner := fun e e' => (is_finb (M e) || is_bad (M e)) && fine e';
       g_bounds_not := fun a => point_ok a && ends_fine a;
       g_bounds_select := ck_bounds_select;
       g_bounds_call := ck_bounds_call;
       g_align := ck_align;
       g_aligned := fun al a b => modrem_ok al && fine a && fine b;
       g_learn := fun pos c => fine c && ck_learnable pos c;
       g_subst := ck_subst;
       g_at := ck_at |}.
End Checks.
