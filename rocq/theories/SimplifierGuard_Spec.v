(** What the checks have to ensure, for given values of the variables.  These are the side
    conditions of the theorems about the primitives (C10 - C14, C35, C41, C43, C44, C47):
    constants in the range of index_t (or below 2^30), operands with integer values, and the
    few cases in which the primitives are wrong (see the refuted theorems there). *)
From Coq Require Import ZArith List Bool.
From Verif Require Import Arith_Model Arith_Spec ModRem_Model ModRem_Proofs Buf_Model Expr_Model Expr_Spec Expr_Proofs Match_Model Rewrite_Model
  RewriteMatch_Proofs RuleTac Rewrite_Props Simplify_Model Simplify_Proofs Const_Model Const_Proofs Const_Props Interval_Model Interval_Spec BoundsOf_Model BoundsOf_Spec BoundsOf_Proofs Deps_Spec
  Subst_Model Subst_Spec Knowledge_Model Knowledge_Spec Simplifier_Model SimplifierGuard_Model.
Import ListNotations.
Open Scope Z_scope.

Section Spec.
  Variable W : world.
  Variable r : env.
  Variable reuse : path -> expr -> expr -> bool.
  Variable reuse_select : path -> bool.
  Notation M := (meaning W r).

  (** the operands by which bounds_of(+) and bounds_of(-) are tightened *)
  Definition tighten_range (linear : res interval) (op : option (expr * expr)) (sign : Z) : Prop :=
    forall a b, op = Some (a, b) ->
      consts_all below30 a /\ consts_all below30 b /\ stairs_small op sign /\
      forall j, linear = Val j -> ends30 j /\ forall k, tighten_stairs j a b sign = Val k -> ends30 k.
  Definition bounds_range (p : path) (o : binop) (op : option (expr * expr)) (a b : interval) : Prop :=
    interval_ok a /\ interval_ok b /\
    match o with
    | Add => ends64 a /\ ends64 b /\ tighten_range (bounds_of_linear (reuse p) Add a b) op 1
    | Sub => ends64 a /\ ends64 b /\ tighten_range (bounds_of_linear (reuse p) Sub a (swapped b)) op (-1)
    | Mul => ends_bounds_ok a /\ ends_bounds_ok b /\ (forall x y, end_of a x -> end_of b y -> mul_ok W r (reuse p) x y) /\ mul_small (reuse p) a b
    | Div => ends_bounds_ok a /\ ends_bounds_ok b /\ (forall x y, end_of a x -> end_of b y -> div_ok W r (reuse p) x y) /\ ends30 a /\ neg_small a
    | Mod => ends64 a /\ ends_bounds_ok b /\ mod_small W b
    | And | Or => ends64 a /\ ends64 b
    | _ => forall x y, end_of a x -> end_of b y -> operands_ok W r o x y
    end.
  Definition select_range (p : path) (c t f : interval) : Prop :=
    interval_ok c /\ interval_ok t /\ interval_ok f /\
    (i_point c && i_point t && i_point f = true -> reuse_select p = false ->
       ends64 c /\ ends64 t /\ ends64 f /\ all_finite W r (ESelect (i_min c) (i_min t) (i_min f))) /\
    (i_point c = false -> ends30 t /\ ends30 f /\ (forall x, end_of t x \/ end_of f x -> M x <> Bad)).

  Record guards_sound (G : guards) : Prop := {
    s_visit : forall o a b z, g_visit G (EBin o a b) = true -> M (EBin o a b) = Fin z -> exists x y, M a = Fin x /\ M b = Fin y;
    s_bin : forall o a b, g_bin G o a b = true -> operands_ok W r o a b;
    s_not : forall a, g_not G a = true -> consts_all in64 a;
    s_select : forall c t f, g_select G c t f = true -> consts_all in64 c /\ consts_all in64 t /\ consts_all in64 f /\ all_finite W r (ESelect c t f);
    s_call : forall fn t l, g_call G fn t l = true -> Forall (consts_all in64) l /\
      (fn = i_buffer_at -> forall s d l', l = EVar s f_none d :: l' -> forall p b, r s = Fin p -> w_buf W p = Some b -> based_at_min b) /\
      (is_semaphore_fn fn = true -> simplify_call W fn t l <> Val EUndef);
    s_add_constant : forall a c, g_add_constant G a c = true -> consts_ok a /\ in64 c;
    s_answer : forall e, g_answer G e = true -> bounds_ok e /\ M e <> Bad;
    s_bounds_bin : forall p o op a b, g_bounds_bin G p o op a b = true -> bounds_range p o op a b;
    s_inner : forall e e', g_inner G e e' = true -> (M e = Bad \/ exists z, M e = Fin z) /\ consts_all below30 e';
    s_bounds_not : forall a, g_bounds_not G a = true -> interval_ok a /\ ends64 a;
    s_bounds_select : forall p c t f, g_bounds_select G p c t f = true -> select_range p c t f;
    s_bounds_call : forall fn bs, g_bounds_call G fn bs = true -> fn = i_abs ->
      Forall (fun b => interval_ok b /\ ends64 b /\ (i_point b = false -> abs_small W b)) bs;
    s_align : forall o a b, g_align G o a b = true -> mr_repr 64 a /\ mr_repr 64 b /\ (o = Mod -> mr_zero_visible b);
    s_aligned : forall al a b, g_aligned G al a b = true -> mr_repr 64 al /\ consts_all in64 a /\ consts_all in64 b;
    s_learn : forall pos c, g_learn G pos c = true -> consts_all in64 c /\ learnable W r pos c;
    s_subst : forall a b x, g_subst G a b x = true -> defined a = true /\ defined b = true /\ plain_heads x /\
      (forall s, binds s x -> ~ free s a /\ ~ free s b) /\
      (takes_address x -> forall s d, a = EVar s f_none d -> exists s' d', b = EVar s' f_none d');
    s_at : forall s n low p b d, g_at G s n low = true -> r s = Fin p -> w_buf W p = Some b -> nth_error (dims b) n = Some d ->
      let x := if low then d_min d else 0 in d_contains d x = true /\ d_offset d x = 0 }.
End Spec.
