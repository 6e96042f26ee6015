(** What the sanitizer of the user's expressions should do. *)
From Coq Require Import ZArith List Bool Arith.
From Verif Require Import Arith_Model Buf_Model Expr_Model Stmt_Model Deps_Spec VSem_Spec.
Import ListNotations.
Open Scope Z_scope.

(** the symbols that an expression mentions *)
Fixpoint names (e : expr) : list nat :=
  match e with
  | EUndef | EConst _ => []
  | EVar s _ _ => [s]
  | ELet l b => (fix go (l : list (nat * expr)) := match l with [] => names b | (s, v) :: l' => s :: names v ++ go l' end) l
  | EBin _ a b => names a ++ names b
  | ENot a => names a
  | ESelect c t f => names c ++ names t ++ names f
  | ECall _ _ args => flat_map names args
  end.
(** the symbols that lets in an expression define *)
Fixpoint locals (e : expr) : list nat :=
  match e with
  | EUndef | EConst _ | EVar _ _ _ => []
  | ELet l b => (fix go (l : list (nat * expr)) := match l with [] => locals b | (s, v) :: l' => s :: locals v ++ go l' end) l
  | EBin _ a b => locals a ++ locals b
  | ENot a => locals a
  | ESelect c t f => locals c ++ locals t ++ locals f
  | ECall _ _ args => flat_map locals args
  end.
(** the uses of metadata of buffers, and of the addresses of their elements *)
Fixpoint metadata (e : expr) : list expr :=
  match e with
  | EUndef | EConst _ => []
  | EVar s f d => match f with f_none => [] | _ => [e] end
  | ELet l b => (fix go (l : list (nat * expr)) := match l with [] => metadata b | (_, v) :: l' => metadata v ++ go l' end) l
  | EBin _ a b => metadata a ++ metadata b
  | ENot a => metadata a
  | ESelect c t f => metadata c ++ metadata t ++ metadata f
  | ECall i_buffer_at _ _ => [e]
  | ECall _ _ args => flat_map metadata args
  end.
Definition of_buffer (P : nat -> Prop) (m : expr) : Prop :=
  match m with EVar s _ _ => P s | ECall _ _ (EVar s f_none _ :: _) => P s | _ => False end.

Section Where.
  Variable external : nat -> Prop.
  (** Where an expression that uses the metadata [ms] is evaluated, [E2], as compared to outside of everything, [E]: external buffers are
      still buffers, but perhaps other ones: their crops and slices, for example.  Indices in buffer_at have the same values. *)
  Record inside (ms : list expr) (E E2 : venv) : Prop := {
    in_external : forall y, external y -> (exists k b, E y = Buffer k b) /\ (exists k b, E2 y = Buffer k b);
    in_indices : forall m y, In m ms -> free y m -> ~ external y -> E2 y = E y }.
  (** [E2] with the external buffers as they are outside *)
  Definition with_outside (E E2 F : venv) : Prop := forall y, (external y -> F y = E y) /\ (~ external y -> F y = E2 y).
End Where.
