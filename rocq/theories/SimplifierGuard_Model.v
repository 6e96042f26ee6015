(** The simplifier of Simplifier_Model.v, run with checks: before a primitive is called (or,
    for an answer, before it is believed) a check decides whether the call is one for which
    the primitive is known to be correct, and stops the run ([UB]) if not.  The checks are
    arbitrary; what they have to ensure is in SimplifierGuard_Spec.v.  A run that is not
    stopped is a run of the code, with the same result (Simplifier_Props.v). *)
From Coq Require Import ZArith List Bool.
From Verif Require Import Arith_Model Arith_Spec ModRem_Model Buf_Model Expr_Model Match_Model Rewrite_Model Simplify_Model Const_Model
  Interval_Model BoundsOf_Model Subst_Model Knowledge_Model Knowledge_Props Simplifier_Model.
Import ListNotations.
Open Scope Z_scope.

Record guards := Guards {
  g_visit : expr -> bool;
  g_bin : binop -> expr -> expr -> bool;
  g_not : expr -> bool;
  g_select : expr -> expr -> expr -> bool;
  g_call : intrinsic -> option nat -> list expr -> bool;
  g_add_constant : expr -> Z -> bool;
  g_answer : expr -> bool;                  (* an expression that was proved to be true, or to be false *)
  g_bounds_bin : path -> binop -> option (expr * expr) -> interval -> interval -> bool;
  g_inner : expr -> expr -> bool;           (* an expression and its simplification, inside of bounds_of *)
  g_bounds_not : interval -> bool;
  g_bounds_select : path -> interval -> interval -> interval -> bool;
  g_bounds_call : intrinsic -> list interval -> bool;
  g_align : binop -> modrem -> modrem -> bool;
  g_aligned : modrem -> expr -> expr -> bool;
  g_learn : bool -> expr -> bool;
  g_subst : expr -> expr -> expr -> bool;
  g_at : nat -> nat -> bool -> bool }.

Definition when {A} (b : bool) (x : res A) : res A := if b then x else UB.
Definition believe (b : bool) (x : res bool) : res bool := t <- x ;; if t then when b (Val true) else Val false.

(** the comparison of an undefined interval with zero (mutate_boolean) is not checked *)
Definition undefined_bounds (o : binop) (op : option (expr * expr)) (a b : interval) : bool :=
  match o, op, i_min a, i_max a, i_min b, i_max b with
  | NotEqual, None, EUndef, EUndef, EConst 0, EConst 0 => negb (i_point a) && i_point b
  | _, _, _, _, _, _ => false
  end.

Definition guarded_prims (G : guards) (W : world) (same : path -> expr -> expr -> bool) (reuse : path -> expr -> expr -> bool)
    (reuse_select : path -> bool) : prims :=
  let C := code_prims W same reuse reuse_select in
  {| p_visit := g_visit G;
     p_same := same;
     p_bin := fun o a b => when (g_bin G o a b) (p_bin C o a b);
     p_not := fun a => when (g_not G a) (p_not C a);
     p_select := fun c t f => when (g_select G c t f) (p_select C c t f);
     p_call := fun fn t l => when (g_call G fn t l) (p_call C fn t l);
     p_add_constant := fun a c => when (g_add_constant G a c) (p_add_constant C a c);
     p_true := fun e => believe (g_answer G e) (p_true C e);
     p_false := fun e => believe (g_answer G e) (p_false C e);
     p_bounds_bin := fun p f o op a b =>
       when (g_bounds_bin G p o op a b || undefined_bounds o op a b)
         (p_bounds_bin C p (fun e => e' <- f e ;; when (g_inner G e e') (Val e')) o op a b);
     p_bounds_not := fun p op a => when (g_bounds_not G a) (p_bounds_not C p op a);
     p_bounds_select := fun p c t f => when (g_bounds_select G p c t f) (p_bounds_select C p c t f);
     p_bounds_call := fun fn t l bs => when (g_bounds_call G fn bs) (p_bounds_call C fn t l bs);
     p_align := fun o a b => when (g_align G o a b) (p_align C o a b);
     p_aligned := fun o al a b => when (g_aligned G al a b) (p_aligned C o al a b);
     p_learn := fun pos v b c => when (g_learn G pos c) (learn (guarded (g_bin G)) pos (knowledge_new v b) c);
     p_subst := fun a b x => when (g_subst G a b x) (p_subst C a b x);
     p_at := g_at G |}.
