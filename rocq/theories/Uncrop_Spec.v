(** What substitute_inputs should do: functions get the whole buffers as inputs. *)
From Coq Require Import ZArith List Bool Arith.
From Verif Require Import Arith_Model Buf_Model Expr_Model Stmt_Model VSem_Spec Crops_Spec.
Import ListNotations.
Open Scope Z_scope.

Section Whole.
  (** the whole buffers of the symbols that are replaced *)
  Variable whole : nat -> option buf.
  Definition or_whole (x : nat) (b : buf) : buf := match whole x with Some w => w | None => b end.
  (** the inputs of a call *)
  Fixpoint wholes (names : list nat) (l : list buf) : list buf :=
    match names, l with x :: names', b :: l' => or_whole x b :: wholes names' l' | _, _ => l end.
  (** the buffers that the symbols stand for are parts of the whole buffers *)
  Fixpoint parts (names : list nat) (l : list buf) : Prop :=
    match names, l with
    | x :: names', b :: l' => (forall w, whole x = Some w -> includes w b) /\ parts names' l'
    | [], [] => True
    | _, _ => False
    end.
End Whole.

Section Scopes.
  (** the symbols that are replaced, and the symbols that they are replaced by *)
  Variable old new_ : nat -> Prop.
  (** the inputs of each function of the pipeline *)
  Variable inputs_of : nat -> list nat.
  Definition apart_from (s : nat) : Prop := ~ old s /\ ~ new_ s.
  (** Nothing defines the new symbols, and the old ones are only cropped in place. *)
  Fixpoint only_crops (s : stmt) : Prop :=
    match s with
    | SUndef | SCheck _ => True
    | SCall t ins _ _ => ins = inputs_of t
    | SCopy src _ _ _ pad => ~ old src /\ match pad with Some p => ~ old p | None => True end
    | SLet l b c => c = false /\ (fix go (l : list (nat * expr)) := match l with [] => True | (s, _) :: l' => apart_from s /\ go l' end) l /\ only_crops b
    | SBlock l => (fix go (l : list stmt) := match l with [] => True | x :: l' => only_crops x /\ go l' end) l
    | SLoop sym _ _ _ b | SAllocate sym _ _ _ b | SMake sym _ _ _ b | SConst sym _ b | SClone sym _ b
    | SSliceBuffer sym _ _ b | SSliceDim sym _ _ _ b | STranspose sym _ _ b => apart_from sym /\ only_crops b
    | SCropBuffer sym src _ b | SCropDim sym src _ _ b => ~ new_ sym /\ (old sym -> sym = src) /\ only_crops b
    | SAsync _ _ _ => False
    end.
End Scopes.

Section Subs.
  Variable subs : nat -> option nat.
  Variable whole : nat -> option buf.
  Definition is_old (x : nat) : Prop := subs x <> None.
  Definition is_new (y : nat) : Prop := exists x, subs x = Some y.
  (** The new symbols are the whole buffers of which the old ones are parts. *)
  Definition in_scope (E : venv) : Prop :=
    forall x y, subs x = Some y -> exists w k k' b, whole x = Some w /\ E y = Buffer k w /\ E x = Buffer k' b /\ includes w b.
End Subs.
