(** Which statements C54 is about, and capture in statements. *)
From Coq Require Import ZArith List Bool.
From Verif Require Import Arith_Model Buf_Model Expr_Model Stmt_Model Deps_Spec Subst_Spec.
Import ListNotations.
Open Scope Z_scope.

(** no async, no copy_stmt, no closure; blocks are as block::make makes them: at least two statements, none of which is a block *)
Definition in_block (s : stmt) : bool := match s with SUndef | SBlock _ => false | _ => true end.
Fixpoint plain_stmt (s : stmt) : Prop :=
  match s with
  | SUndef | SCall _ _ _ _ | SCheck _ => True
  | SCopy _ _ _ _ _ | SAsync _ _ _ => False
  | SLet _ b c => c = false /\ plain_stmt b
  | SBlock l => (2 <= length l)%nat /\ forallb in_block l = true /\ (fix go (l : list stmt) := match l with [] => True | x :: l' => plain_stmt x /\ go l' end) l
  | SLoop _ _ _ _ b | SAllocate _ _ _ _ b | SMake _ _ _ _ b | SConst _ _ b | SClone _ _ b
  | SCropBuffer _ _ _ b | SCropDim _ _ _ _ b | SSliceBuffer _ _ _ b | SSliceDim _ _ _ _ b | STranspose _ _ _ b => plain_stmt b
  end.

(** [P] holds for all expressions in the statement *)
Section Every.
  Variable P : expr -> Prop.
  Definition every_interval (i : interval) : Prop := P (fst i) /\ P (snd i).
  Definition every_dim (d : dim_expr) : Prop := every_interval (de_bounds d) /\ P (de_stride d) /\ P (de_fold d).
  Fixpoint every_expr (s : stmt) : Prop :=
    match s with
    | SUndef => True
    | SCall _ _ _ sc => Forall P sc
    | SCopy _ src_x _ _ _ => Forall P src_x
    | SLet l b _ => Forall P (map snd l) /\ every_expr b
    | SBlock l => (fix go (l : list stmt) := match l with [] => True | x :: l' => every_expr x /\ go l' end) l
    | SLoop _ w i st b => P w /\ every_interval i /\ P st /\ every_expr b
    | SAllocate _ _ e ds b => P e /\ Forall every_dim ds /\ every_expr b
    | SMake _ p e ds b => P p /\ P e /\ Forall every_dim ds /\ every_expr b
    | SConst _ _ b | SClone _ _ b | STranspose _ _ _ b => every_expr b
    | SCropBuffer _ _ l b => Forall every_interval l /\ every_expr b
    | SCropDim _ _ _ i b => every_interval i /\ every_expr b
    | SSliceBuffer _ _ at_ b => Forall P at_ /\ every_expr b
    | SSliceDim _ _ _ at_ b => P at_ /\ every_expr b
    | SAsync _ t b => every_expr t /\ every_expr b
    | SCheck c => P c
    end.
End Every.

(** No argument of a buffer_at in [e] is the minimum of a buffer in that dimension, also after [rep] has replaced the symbol [x]: substitute removes it if it is the
    minimum of the buffer itself, which changes the address of a buffer whose base is not at its minimum (C16). *)
Section Tidy.
  Variable x : nat.
  Variable rep : expr.
  Definition min_in (d : Z) (e : expr) : Prop := match e with EVar _ f_min d' => d' = d | _ => False end.
  Fixpoint tidy_args (d : Z) (l : list expr) : Prop :=
    match l with
    | [] => True
    | a :: l' => ~ min_in d a /\ (match a with EVar y f_none _ => y = x -> ~ min_in d rep | _ => True end) /\ tidy_args (d + 1) l'
    end.
  Fixpoint tidy (e : expr) : Prop :=
    match e with
    | EUndef | EConst _ | EVar _ _ _ => True
    | ELet l b => (fix go (l : list (nat * expr)) := match l with [] => tidy b | (_, v) :: l' => tidy v /\ go l' end) l
    | EBin _ a b => tidy a /\ tidy b
    | ENot a => tidy a
    | ESelect c t f => tidy c /\ tidy t /\ tidy f
    | ECall fn _ args =>
        (match fn, args with i_buffer_at, _ :: at_ => tidy_args 0 at_ | _, _ => True end) /\
        (fix go (l : list expr) := match l with [] => True | a :: l' => tidy a /\ go l' end) args
    end.
End Tidy.

(** What is not allowed: a declaration in the statement declares a symbol of the replacement, and the target [x] occurs free in its scope; the crop of the target
    is one into the symbol that replaces it (it would be in place); an in-place truncation is one of the target (it would not be in place any more), or one of the
    target would be in place; a let makes another name for the target, and the symbol that replaces the target is used beside that name; the target occurs in the
    number of workers of a loop, where it is not replaced; the replacement uses a buffer that a crop_buffer crops in place in more than one dimension (C53). *)
Section Capture.
  Variable x : nat.
  Variable rep : expr.
  Section Lists.
    Variable body : stmt.
    Variable nc : Prop.
    Fixpoint no_capture_stmt_lets (l : list (nat * expr)) : Prop :=
      match l with
      | [] => nc
      | (s, v) :: l' =>
          (match v, rep with EVar y f_none _, EVar z f_none _ => y = x -> s <> z -> ~ in_lets (free z) z l' (free_stmt z body) | _, _ => True end) /\
          (s = x \/ ((in_lets (free x) x l' (free_stmt x body) -> ~ free s rep) /\ no_capture_stmt_lets l'))
      end.
  End Lists.
  Fixpoint no_capture_stmt (s : stmt) : Prop :=
    let decl sym b (nc : Prop) := sym = x \/ ((free_stmt x b -> ~ free sym rep) /\ nc) in
    match s with
    | SUndef | SCall _ _ _ _ | SCopy _ _ _ _ _ | SCheck _ => True
    | SLet l b _ => no_capture_stmt_lets b (no_capture_stmt b) l
    | SBlock l => (fix go (l : list stmt) := match l with [] => True | y :: l' => no_capture_stmt y /\ go l' end) l
    | SLoop sym w _ _ b => ~ free x w /\ decl sym b (no_capture_stmt b)
    | SAllocate sym _ _ _ b | SMake sym _ _ _ b | SConst sym _ b | SClone sym _ b
    | SSliceBuffer sym _ _ b | SSliceDim sym _ _ _ b => decl sym b (no_capture_stmt b)
    | SCropBuffer sym src l b => (src = x -> ~ free sym rep) /\ (sym = src -> ~ free sym rep \/ tl l = []) /\ decl sym b (no_capture_stmt b)
    | SCropDim sym src _ _ b => (src = x -> ~ free sym rep) /\ decl sym b (no_capture_stmt b)
    | STranspose sym src p b => (is_truncate p = true -> src = x -> ~ free sym rep /\ sym <> x) /\ decl sym b (no_capture_stmt b)
    | SAsync _ t b => no_capture_stmt t /\ no_capture_stmt b
    end.
End Capture.

(** [x] is not used as a buffer by a call, a crop and the like *)
Fixpoint no_buffer (x : nat) (s : stmt) : Prop :=
  match s with
  | SUndef | SCheck _ => True
  | SCall _ ins outs _ => ~ In x ins /\ ~ In x outs
  | SCopy src _ dst _ pad => src <> x /\ dst <> x /\ pad <> Some x
  | SLet _ b _ | SLoop _ _ _ _ b | SAllocate _ _ _ _ b | SMake _ _ _ _ b | SConst _ _ b => no_buffer x b
  | SBlock l => (fix go (l : list stmt) := match l with [] => True | y :: l' => no_buffer x y /\ go l' end) l
  | SClone _ src b | SCropBuffer _ src _ b | SCropDim _ src _ _ b | SSliceBuffer _ src _ b | SSliceDim _ src _ _ b | STranspose _ src _ b => src <> x /\ no_buffer x b
  | SAsync _ t b => no_buffer x t /\ no_buffer x b
  end.
