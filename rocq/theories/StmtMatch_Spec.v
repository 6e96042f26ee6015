From Coq Require Import ZArith List Bool.
From Verif Require Import Expr_Model Stmt_Model.
Import ListNotations.
Open Scope Z_scope.

(** What a comparison of statements does not look at: the number of workers of a loop, the place of an
    allocation, and whether a let is a closure. *)
Fixpoint forget (s : stmt) : stmt :=
  match s with
  | SUndef | SCall _ _ _ _ | SCopy _ _ _ _ _ | SCheck _ => s
  | SLet l b _ => SLet l (forget b) false
  | SBlock l => SBlock (map forget l)
  | SLoop v _ i st b => SLoop v EUndef i st (forget b)
  | SAllocate v _ e ds b => SAllocate v automatic e ds (forget b)
  | SMake v p e ds b => SMake v p e ds (forget b)
  | SConst v x b => SConst v x (forget b)
  | SClone v x b => SClone v x (forget b)
  | SCropBuffer v x l b => SCropBuffer v x l (forget b)
  | SCropDim v x d i b => SCropDim v x d i (forget b)
  | SSliceBuffer v x l b => SSliceBuffer v x l (forget b)
  | SSliceDim v x d e b => SSliceDim v x d e (forget b)
  | STranspose v x p b => STranspose v x p (forget b)
  | SAsync v t b => SAsync v (forget t) (forget b)
  end.

(** Expressions and statements as the make functions build them: the operands of commutative operators are in order, and
    blocks have at least two statements, none of them a block. *)
Fixpoint made (e : expr) : Prop :=
  match e with
  | EUndef | EVar _ _ _ | EConst _ => True
  | ELet l b => (fix go (l : list (nat * expr)) : Prop := match l with [] => True | (_, x) :: l' => made x /\ go l' end) l /\ made b
  | EBin o a b => (commutative o = true -> type_of a <= type_of b) /\ made a /\ made b
  | ENot a => made a
  | ESelect c t f => made c /\ made t /\ made f
  | ECall _ _ l => (fix go (l : list expr) : Prop := match l with [] => True | x :: l' => made x /\ go l' end) l
  end.
Definition made_interval (i : interval) : Prop := made (fst i) /\ made (snd i).
Definition made_dim (d : dim_expr) : Prop := made_interval (de_bounds d) /\ made (de_stride d) /\ made (de_fold d).
Definition in_block (s : stmt) : Prop := match s with SUndef | SBlock _ => False | _ => True end.
Fixpoint built (s : stmt) : Prop :=
  match s with
  | SUndef | SCall _ _ _ _ => True
  | SCopy _ x _ _ _ => Forall made x
  | SLet l b _ => Forall made (map snd l) /\ built b
  | SBlock l => (2 <= length l)%nat /\ Forall in_block l /\ (fix go (l : list stmt) : Prop := match l with [] => True | x :: l' => built x /\ go l' end) l
  | SLoop _ w i st b => made w /\ made_interval i /\ made st /\ built b
  | SAllocate _ _ e ds b => made e /\ Forall made_dim ds /\ built b
  | SMake _ p e ds b => made p /\ made e /\ Forall made_dim ds /\ built b
  | SConst _ _ b | SClone _ _ b | STranspose _ _ _ b => built b
  | SCropBuffer _ _ l b => Forall made_interval l /\ built b
  | SCropDim _ _ _ i b => made_interval i /\ built b
  | SSliceBuffer _ _ l b => Forall made l /\ built b
  | SSliceDim _ _ _ e b => made e /\ built b
  | SAsync _ t b => built t /\ built b
  | SCheck c => made c
  end.

(** the statements in s, s itself included *)
Inductive within : stmt -> stmt -> Prop :=
| within_self s : within s s
| within_let x l b c : within x b -> within x (SLet l b c)
| within_block x y l : In y l -> within x y -> within x (SBlock l)
| within_loop x v w i st b : within x b -> within x (SLoop v w i st b)
| within_allocate x v w e ds b : within x b -> within x (SAllocate v w e ds b)
| within_make x v p e ds b : within x b -> within x (SMake v p e ds b)
| within_const x v y b : within x b -> within x (SConst v y b)
| within_clone x v y b : within x b -> within x (SClone v y b)
| within_crop x v y l b : within x b -> within x (SCropBuffer v y l b)
| within_crop_dim x v y d i b : within x b -> within x (SCropDim v y d i b)
| within_slice x v y l b : within x b -> within x (SSliceBuffer v y l b)
| within_slice_dim x v y d e b : within x b -> within x (SSliceDim v y d e b)
| within_transpose x v y p b : within x b -> within x (STranspose v y p b)
| within_task x v t b : within x t -> within x (SAsync v t b)
| within_async x v t b : within x b -> within x (SAsync v t b).
(** no two statements in s differ only in what a comparison does not look at *)
Definition told_apart (s : stmt) : Prop := forall x y, within x s -> within y s -> forget x = forget y -> x = y.
