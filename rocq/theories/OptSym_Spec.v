(** Which statements C55 is about. *)
From Coq Require Import ZArith List Bool.
From Verif Require Import Arith_Model Buf_Model Expr_Model Stmt_Model Deps_Spec Subst_Spec StmtSubst_Spec.
Import ListNotations.
Open Scope Z_scope.

Definition also (P : nat -> Prop) (s : nat) : nat -> Prop := fun x => x = s \/ P x.

(** [B] are the buffers that the statement declares (those that a crop, slice or transpose could be done on in place), [P] the symbols in scope.
    No declaration hides a symbol.  Buffers in [B] have no second name (a let of the symbol alone); no clone is made of them; they are not truncated by a transpose
    that is just a truncation, and the bounds that a crop_buffer of them has for its second and later dimensions do not use them; and they do not occur in the number of
    workers of a loop. *)
Section Fresh.
  Variable B : nat -> Prop.
  Fixpoint fresh_lets (P : nat -> Prop) (l : list (nat * expr)) (k : (nat -> Prop) -> Prop) : Prop :=
    match l with
    | [] => k P
    | (s, v) :: l' => ~ P s /\ (match v with EVar y f_none _ => ~ B y /\ ~ B s | _ => True end) /\ fresh_lets (also P s) l' k
    end.
  Fixpoint fresh_decls (P : nat -> Prop) (s : stmt) : Prop :=
    match s with
    | SUndef | SCall _ _ _ _ | SCopy _ _ _ _ _ | SCheck _ => True
    | SLet l b _ => fresh_lets P l (fun P' => fresh_decls P' b)
    | SBlock l => (fix go (l : list stmt) := match l with [] => True | x :: l' => fresh_decls P x /\ go l' end) l
    | SLoop sym w _ _ b => ~ P sym /\ (forall y, B y -> ~ free y w) /\ fresh_decls (also P sym) b
    | SAllocate sym _ _ _ b | SMake sym _ _ _ b | SConst sym _ b => ~ P sym /\ B sym /\ fresh_decls (also P sym) b
    | SClone sym src b => ~ P sym /\ ~ B src /\ fresh_decls (also P sym) b
    | SCropBuffer sym src l b => ~ P sym /\ B sym /\ (B src -> Forall (fun i => ~ free src (fst i) /\ ~ free src (snd i)) (tl l)) /\ fresh_decls (also P sym) b
    | SCropDim sym _ _ _ b | SSliceBuffer sym _ _ b | SSliceDim sym _ _ _ b => ~ P sym /\ B sym /\ fresh_decls (also P sym) b
    | STranspose sym src p b => ~ P sym /\ B sym /\ (is_truncate p = true -> ~ B src) /\ fresh_decls (also P sym) b
    | SAsync _ t b => fresh_decls P t /\ fresh_decls P b
    end.
End Fresh.
(** the lets in an expression do not bind the symbols in [B] *)
Fixpoint lets_out (B : nat -> Prop) (e : expr) : Prop :=
  match e with
  | EUndef | EConst _ | EVar _ _ _ => True
  | ELet l b => (fix go (l : list (nat * expr)) := match l with [] => lets_out B b | (s, v) :: l' => ~ B s /\ lets_out B v /\ go l' end) l
  | EBin _ a b => lets_out B a /\ lets_out B b
  | ENot a => lets_out B a
  | ESelect c t f => lets_out B c /\ lets_out B t /\ lets_out B f
  | ECall _ _ args => (fix go (l : list expr) := match l with [] => True | a :: l' => lets_out B a /\ go l' end) args
  end.
(** no argument of a buffer_at is the minimum of a buffer in that dimension (see StmtSubst_Spec.tidy) *)
Fixpoint neat_args (d : Z) (l : list expr) : Prop := match l with [] => True | a :: l' => ~ min_in d a /\ neat_args (d + 1) l' end.
Fixpoint neat (e : expr) : Prop :=
  match e with
  | EUndef | EConst _ | EVar _ _ _ => True
  | ELet l b => (fix go (l : list (nat * expr)) := match l with [] => neat b | (_, v) :: l' => neat v /\ go l' end) l
  | EBin _ a b => neat a /\ neat b
  | ENot a => neat a
  | ESelect c t f => neat c /\ neat t /\ neat f
  | ECall fn _ args =>
      (match fn, args with i_buffer_at, _ :: at_ => neat_args 0 at_ | _, _ => True end) /\
      (fix go (l : list expr) := match l with [] => True | a :: l' => neat a /\ go l' end) args
  end.
