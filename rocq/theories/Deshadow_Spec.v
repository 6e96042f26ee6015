(** Which statements C56 is about, and what it means that a statement has no shadowed declarations. *)
From Coq Require Import ZArith List Bool.
From Verif Require Import Arith_Model Buf_Model Expr_Model Expr_Proofs Stmt_Model Deps_Spec Subst_Spec StmtSubst_Spec OptSym_Spec.
Import ListNotations.
Open Scope Z_scope.

(** all symbols in [e], also those that lets declare, are below [n] *)
Fixpoint below (n : nat) (e : expr) : Prop :=
  match e with
  | EUndef | EConst _ => True
  | EVar s _ _ => (s < n)%nat
  | ELet l b => (fix go (l : list (nat * expr)) := match l with [] => below n b | (s, v) :: l' => (s < n)%nat /\ below n v /\ go l' end) l
  | EBin _ a b => below n a /\ below n b
  | ENot a => below n a
  | ESelect c t f => below n c /\ below n t /\ below n f
  | ECall _ _ args => (fix go (l : list expr) := match l with [] => True | a :: l' => below n a /\ go l' end) args
  end.
(** All symbols that the statement names are below [n] (those in its expressions apart).  No async, no closure, and no check of free() (at the time of the pass there are none);
    blocks are as block::make makes them; a let or a copy does not declare a symbol twice; no transpose that just truncates is done in place. *)
Fixpoint ready (n : nat) (s : stmt) : Prop :=
  match s with
  | SUndef => True
  | SCall _ ins outs _ => Forall (fun x => (x < n)%nat) ins /\ Forall (fun x => (x < n)%nat) outs
  | SCopy src _ dst dst_x pad =>
      (src < n)%nat /\ (dst < n)%nat /\ match pad with Some p => (p < n)%nat | None => True end /\ Forall (fun x => (x < n)%nat) dst_x /\ NoDup dst_x
  | SLet l b c => c = false /\ Forall (fun x => (x < n)%nat) (map fst l) /\ NoDup (map fst l) /\ ready n b
  | SBlock l => (2 <= length l)%nat /\ forallb in_block l = true /\ (fix go (l : list stmt) := match l with [] => True | x :: l' => ready n x /\ go l' end) l
  | SLoop sym _ _ _ b | SAllocate sym _ _ _ b | SMake sym _ _ _ b | SConst sym _ b => (sym < n)%nat /\ ready n b
  | SClone sym src b | SCropBuffer sym src _ b | SCropDim sym src _ _ b | SSliceBuffer sym src _ b | SSliceDim sym src _ _ b =>
      (sym < n)%nat /\ (src < n)%nat /\ ready n b
  | STranspose sym src p b => (sym < n)%nat /\ (src < n)%nat /\ (sym = src -> is_truncate p = false) /\ ready n b
  | SAsync _ _ _ => False
  | SCheck c => forall t a, c <> ECall i_free t a
  end.
(** no async without a symbol *)
Fixpoint named_asyncs (s : stmt) : Prop :=
  match s with
  | SUndef | SCall _ _ _ _ | SCopy _ _ _ _ _ | SCheck _ => True
  | SLet _ b _ | SLoop _ _ _ _ b | SAllocate _ _ _ _ b | SMake _ _ _ _ b | SConst _ _ b | SClone _ _ b | STranspose _ _ _ b
  | SCropBuffer _ _ _ b | SCropDim _ _ _ _ b | SSliceBuffer _ _ _ b | SSliceDim _ _ _ _ b => named_asyncs b
  | SBlock l => (fix go (l : list stmt) := match l with [] => True | x :: l' => named_asyncs x /\ go l' end) l
  | SAsync sym t b => sym <> None /\ named_asyncs t /\ named_asyncs b
  end.
(** what is asked of the expressions: symbols below [n], a let does not declare a symbol twice, and no argument of a buffer_at is the minimum of a buffer in that dimension *)
Definition fine (n : nat) (e : expr) : Prop := below n e /\ lets_distinct e /\ neat e.

(** ** No shadowing: no declaration declares a symbol that is in scope, or is one of [D] *)
Section Lets.
  Variable rec : (nat -> Prop) -> expr -> Prop.
  Fixpoint unshadowed_lets (D : nat -> Prop) (l : list (nat * expr)) (k : (nat -> Prop) -> Prop) : Prop :=
    match l with [] => k D | (s, v) :: l' => rec D v /\ ~ D s /\ unshadowed_lets (also D s) l' k end.
End Lets.
Fixpoint unshadowed_expr (D : nat -> Prop) (e : expr) {struct e} : Prop :=
  match e with
  | EUndef | EConst _ | EVar _ _ _ => True
  | ELet l b => unshadowed_lets unshadowed_expr D l (fun D' => unshadowed_expr D' b)
  | EBin _ a b => unshadowed_expr D a /\ unshadowed_expr D b
  | ENot a => unshadowed_expr D a
  | ESelect c t f => unshadowed_expr D c /\ unshadowed_expr D t /\ unshadowed_expr D f
  | ECall _ _ args => (fix go (l : list expr) := match l with [] => True | a :: l' => unshadowed_expr D a /\ go l' end) args
  end.
Definition unshadowed_interval (D : nat -> Prop) (i : interval) : Prop := unshadowed_expr D (fst i) /\ unshadowed_expr D (snd i).
Definition unshadowed_dim (D : nat -> Prop) (d : dim_expr) : Prop := unshadowed_interval D (de_bounds d) /\ unshadowed_expr D (de_stride d) /\ unshadowed_expr D (de_fold d).
Fixpoint unshadowed_list (D : nat -> Prop) (l : list nat) (k : (nat -> Prop) -> Prop) : Prop :=
  match l with [] => k D | x :: l' => ~ D x /\ unshadowed_list (also D x) l' k end.
(** allocations are exempt *)
Fixpoint unshadowed (D : nat -> Prop) (s : stmt) {struct s} : Prop :=
  match s with
  | SUndef => True
  | SCall _ _ _ sc => Forall (unshadowed_expr D) sc
  | SCopy _ src_x _ dst_x _ => unshadowed_list D dst_x (fun D' => Forall (unshadowed_expr D') src_x)
  | SLet l b _ => unshadowed_lets unshadowed_expr D l (fun D' => unshadowed D' b)
  | SBlock l => (fix go (l : list stmt) := match l with [] => True | x :: l' => unshadowed D x /\ go l' end) l
  | SLoop sym w i st b => unshadowed_expr D w /\ unshadowed_interval D i /\ unshadowed_expr D st /\ ~ D sym /\ unshadowed (also D sym) b
  | SAllocate sym _ e ds b => unshadowed_expr D e /\ Forall (unshadowed_dim D) ds /\ unshadowed (also D sym) b
  | SMake sym p e ds b => unshadowed_expr D p /\ unshadowed_expr D e /\ Forall (unshadowed_dim D) ds /\ ~ D sym /\ unshadowed (also D sym) b
  | SConst sym _ b | SClone sym _ b | STranspose sym _ _ b => ~ D sym /\ unshadowed (also D sym) b
  | SCropBuffer sym _ l b => Forall (unshadowed_interval D) l /\ ~ D sym /\ unshadowed (also D sym) b
  | SCropDim sym _ _ i b => unshadowed_interval D i /\ ~ D sym /\ unshadowed (also D sym) b
  | SSliceBuffer sym _ at_ b => Forall (unshadowed_expr D) at_ /\ ~ D sym /\ unshadowed (also D sym) b
  | SSliceDim sym _ _ at_ b => unshadowed_expr D at_ /\ ~ D sym /\ unshadowed (also D sym) b
  | SAsync sym t b => let D' := match sym with Some x => also D x | None => D end in (forall x, sym = Some x -> ~ D x) /\ unshadowed D' t /\ unshadowed D' b
  | SCheck c => unshadowed_expr D c
  end.
