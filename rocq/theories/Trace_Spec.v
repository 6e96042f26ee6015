(** When tracing should have no effect, and what the callbacks should be told. *)
From Coq Require Import ZArith List Bool Arith String Ascii.
From Verif Require Import Arith_Model Buf_Model Expr_Model Stmt_Model Deps_Spec.
Import ListNotations.
Open Scope Z_scope.

(** The statement has no copies (they have been implemented), no closures (they are made later), and it does not define the symbols. *)
Section Traceable.
  Variable token names_buf : nat.
  Definition other (s : nat) : Prop := s <> token /\ s <> names_buf.
  Fixpoint traceable (s : stmt) : Prop :=
    match s with
    | SUndef | SCheck _ | SCall _ _ _ _ => True
    | SCopy _ _ _ _ _ => False
    | SLet l b c => c = false /\ Forall other (map fst l) /\ traceable b
    | SBlock l => (fix go (l : list stmt) := match l with [] => True | x :: l' => traceable x /\ go l' end) l
    | SLoop sym _ _ _ b | SAllocate sym _ _ _ b | SMake sym _ _ _ b | SConst sym _ b | SClone sym _ b
    | SSliceBuffer sym _ _ b | SSliceDim sym _ _ _ b | STranspose sym _ _ b
    | SCropBuffer sym _ _ b | SCropDim sym _ _ _ b => other sym /\ traceable b
    | SAsync sym t b => match sym with Some x => other x | None => True end /\ traceable t /\ traceable b
    end.
End Traceable.

(** The string that starts at an offset, as C sees it. *)
Definition reads (chars : list ascii) (name : string) (off : Z) : Prop :=
  exists before after, chars = before ++ list_ascii_of_string name ++ zero :: after /\ off = Z.of_nat (List.length before).

(** The offsets that the calls of trace_begin in a statement are given, in the order of the text. *)
Definition trace_offset (l : list (nat * expr)) : list Z :=
  match l with
  | [(_, ECall i_trace_begin _ [ECall i_buffer_at _ [_; EConst off]])] => [off]
  | _ => []
  end.
Fixpoint offsets (s : stmt) : list Z :=
  match s with
  | SUndef | SCheck _ | SCall _ _ _ _ | SCopy _ _ _ _ _ => []
  | SLet l b _ => trace_offset l ++ offsets b
  | SBlock l => (fix go (l : list stmt) := match l with [] => [] | x :: l' => offsets x ++ go l' end) l
  | SLoop _ _ _ _ b | SAllocate _ _ _ _ b | SMake _ _ _ _ b | SConst _ _ b | SClone _ _ b | SSliceBuffer _ _ _ b | SSliceDim _ _ _ _ b
  | STranspose _ _ _ b | SCropBuffer _ _ _ b | SCropDim _ _ _ _ b => offsets b
  | SAsync _ t b => offsets t ++ offsets b
  end.

(** The names that trace_begin should be told: of calls, loops, their iterations, and tasks. *)
Section Names.
  Variable name_of call_name : nat -> string.
  Fixpoint traced (s : stmt) : list string :=
    match s with
    | SUndef | SCheck _ | SCopy _ _ _ _ _ => []
    | SCall t _ _ _ => [if String.eqb (call_name t) "" then "call"%string else call_name t]
    | SLet _ b _ => traced b
    | SBlock l => (fix go (l : list stmt) := match l with [] => [] | x :: l' => traced x ++ go l' end) l
    | SLoop sym _ _ _ b => ("loop " ++ name_of sym)%string :: ("loop " ++ name_of sym ++ " iteration")%string :: traced b
    | SAllocate _ _ _ _ b | SMake _ _ _ _ b | SConst _ _ b | SClone _ _ b | SSliceBuffer _ _ _ b | SSliceDim _ _ _ _ b
    | STranspose _ _ _ b | SCropBuffer _ _ _ b | SCropDim _ _ _ _ b => traced b
    | SAsync sym t b => ("task " ++ match sym with Some x => name_of x | None => "" end)%string :: traced t ++ traced b
    end.
End Names.
