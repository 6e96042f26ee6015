(** Which statements C57 is about, and what fusing achieves. *)
From Coq Require Import ZArith List Bool.
From Verif Require Import Arith_Model Buf_Model Expr_Model Stmt_Model Deps_Spec.
Import ListNotations.
Open Scope Z_scope.

(** Two declarations that make buffers in the same way, but perhaps name them differently. *)
Inductive same_decl : stmt -> stmt -> Prop :=
| same_allocate x y w e ds a b : same_decl (SAllocate x w e ds a) (SAllocate y w e ds b)
| same_make x y p e ds a b : same_decl (SMake x p e ds a) (SMake y p e ds b)
| same_crop_buffer x y src l a b : same_decl (SCropBuffer x src l a) (SCropBuffer y src l b)
| same_crop_dim x y src d i a b : same_decl (SCropDim x src d i a) (SCropDim y src d i b)
| same_slice_buffer x y src l a b : same_decl (SSliceBuffer x src l a) (SSliceBuffer y src l b)
| same_slice_dim x y src d e a b : same_decl (SSliceDim x src d e a) (SSliceDim y src d e b)
| same_transpose x y src p a b : same_decl (STranspose x src p a) (STranspose y src p b).
(** [s] makes the buffer [x] for its body [b], from other buffers or memory *)
Inductive makes : stmt -> nat -> stmt -> Prop :=
| makes_make x p e ds b : makes (SMake x p e ds b) x b
| makes_crop_buffer x src l b : makes (SCropBuffer x src l b) x b
| makes_crop_dim x src d i b : makes (SCropDim x src d i b) x b
| makes_slice_buffer x src l b : makes (SSliceBuffer x src l b) x b
| makes_slice_dim x src d e b : makes (SSliceDim x src d e b) x b
| makes_transpose x src p b : makes (STranspose x src p b) x b.
Definition allocates (s : stmt) : bool := match s with SAllocate _ _ _ _ _ => true | _ => false end.

(** A later sibling does not use, in its body, an outer symbol with the name of an earlier one that makes the same buffer.  (An in-place transpose that just truncates does not make
    quite the same buffer as one that is not in place.) *)
Definition apart (s t : stmt) : Prop :=
  same_decl s t ->
  (forall x a y b, makes s x a -> makes t y b -> y = x \/ ~ free_stmt x b) /\
  (forall x y src p a b, s = STranspose x src p a -> t = STranspose y src p b -> is_truncate p = true -> (x = src <-> y = src)).
Fixpoint all_apart (l : list stmt) : Prop := match l with [] => True | s :: l' => Forall (apart s) l' /\ all_apart l' end.
(** no two adjacent statements are the same declaration *)
Fixpoint adjacent (P : stmt -> stmt -> Prop) (l : list stmt) : Prop :=
  match l with [] => True | s :: l' => match l' with [] => True | t :: _ => P s t end /\ adjacent P l' end.

(** a property of the statements in each of the blocks in a statement *)
Section Blocks.
  Variable P : list stmt -> Prop.
  Fixpoint every_block (s : stmt) : Prop :=
    match s with
    | SUndef | SCall _ _ _ _ | SCopy _ _ _ _ _ | SCheck _ => True
    | SBlock l => P l /\ (fix go (l : list stmt) := match l with [] => True | x :: l' => every_block x /\ go l' end) l
    | SLet _ b _ | SLoop _ _ _ _ b | SAllocate _ _ _ _ b | SMake _ _ _ _ b | SConst _ _ b | SClone _ _ b
    | SCropBuffer _ _ _ b | SCropDim _ _ _ _ b | SSliceBuffer _ _ _ b | SSliceDim _ _ _ _ b | STranspose _ _ _ b => every_block b
    | SAsync _ t b => every_block t /\ every_block b
    end.
End Blocks.
(** What C57 asks of each block: siblings are apart, and adjacent allocations are not the same (fused, they are one allocation). *)
Definition fusable (l : list stmt) : Prop := all_apart l /\ adjacent (fun s t => allocates s = true -> ~ same_decl s t) l.
(** what fusing achieves *)
Definition no_siblings (l : list stmt) : Prop := adjacent (fun s t => ~ same_decl s t) l.
