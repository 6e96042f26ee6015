(** Free occurrences of symbols, and what it means that changing a symbol has no effect. *)
From Coq Require Import ZArith List Bool.
From Verif Require Import Arith_Model Buf_Model Expr_Model Stmt_Model.
Import ListNotations.
Open Scope Z_scope.

(** What an occurrence of a symbol reads: a field of the buffer ([RField f_none]: the value
    itself), or the address of an element. *)
Inductive role := RField (f : field) | RAddress.

Section Lists.
  Variable P : expr -> Prop.
  Fixpoint any_of (l : list expr) : Prop := match l with [] => False | x :: l' => P x \/ any_of l' end.
  (** in the values of lets, or in their body: the values after a let, and the body, are in
      its scope *)
  Variable x : nat.
  Fixpoint in_lets (l : list (nat * expr)) (body : Prop) : Prop :=
    match l with [] => body | (s, v) :: l' => P v \/ (s <> x /\ in_lets l' body) end.
End Lists.

(** [x] occurs free in [e] in the role [ro] *)
Fixpoint occurs (x : nat) (ro : role) (e : expr) {struct e} : Prop :=
  match e with
  | EUndef | EConst _ => False
  | EVar s f _ => s = x /\ ro = RField f
  | ELet l b => in_lets (occurs x ro) x l (occurs x ro b)
  | EBin _ a b => occurs x ro a \/ occurs x ro b
  | ENot a => occurs x ro a
  | ESelect c t f => occurs x ro c \/ occurs x ro t \/ occurs x ro f
  | ECall i_buffer_at _ (EVar s f_none _ :: args) => s = x /\ ro = RAddress \/ any_of (occurs x ro) args
  | ECall i_buffer_at _ (_ :: args) => any_of (occurs x ro) args
  | ECall _ _ args => any_of (occurs x ro) args
  end.
Definition free (x : nat) (e : expr) : Prop := exists ro, occurs x ro e.
Definition free_interval (x : nat) (i : interval) : Prop := free x (fst i) \/ free x (snd i).
Definition free_dim (x : nat) (d : dim_expr) : Prop := free_interval x (de_bounds d) \/ free x (de_stride d) \/ free x (de_fold d).

(** [x] occurs free in the statement [s] *)
Fixpoint free_stmt (x : nat) (s : stmt) {struct s} : Prop :=
  match s with
  | SUndef => False
  | SCall _ ins outs sc => In x ins \/ In x outs \/ any_of (free x) sc
  | SCopy src src_x dst dst_x pad => src = x \/ dst = x \/ pad = Some x \/ (~ In x dst_x /\ any_of (free x) src_x)
  | SLet l b _ => in_lets (free x) x l (free_stmt x b)
  | SBlock l => (fix go (l : list stmt) := match l with [] => False | y :: l' => free_stmt x y \/ go l' end) l
  | SLoop sym w i st b => free_interval x i \/ free x st \/ free x w \/ (sym <> x /\ free_stmt x b)
  | SAllocate sym _ e ds b => free x e \/ Exists (free_dim x) ds \/ (sym <> x /\ free_stmt x b)
  | SMake sym p e ds b => free x p \/ free x e \/ Exists (free_dim x) ds \/ (sym <> x /\ free_stmt x b)
  | SConst sym _ b => sym <> x /\ free_stmt x b
  | SClone sym src b => src = x \/ (sym <> x /\ free_stmt x b)
  | SCropBuffer sym src l b => Exists (free_interval x) l \/ src = x \/ (sym <> x /\ free_stmt x b)
  | SCropDim sym src _ i b => free_interval x i \/ src = x \/ (sym <> x /\ free_stmt x b)
  | SSliceBuffer sym src at_ b => any_of (free x) at_ \/ src = x \/ (sym <> x /\ free_stmt x b)
  | SSliceDim sym src _ at_ b => free x at_ \/ src = x \/ (sym <> x /\ free_stmt x b)
  | STranspose sym src _ b => src = x \/ (sym <> x /\ free_stmt x b)
  | SAsync sym t b => free_stmt x t \/ (sym <> Some x /\ free_stmt x b)
  | SCheck c => free x c
  end.
(** ... as the source of a clone_buffer *)
Fixpoint cloned (x : nat) (s : stmt) {struct s} : Prop :=
  match s with
  | SUndef | SCall _ _ _ _ | SCopy _ _ _ _ _ | SCheck _ => False
  | SLet l b _ => ~ In x (map fst l) /\ cloned x b
  | SBlock l => (fix go (l : list stmt) := match l with [] => False | y :: l' => cloned x y \/ go l' end) l
  | SLoop sym _ _ _ b | SAllocate sym _ _ _ b | SMake sym _ _ _ b | SConst sym _ b
  | SCropBuffer sym _ _ b | SCropDim sym _ _ _ b | SSliceBuffer sym _ _ b | SSliceDim sym _ _ _ b | STranspose sym _ _ b =>
      sym <> x /\ cloned x b
  | SClone sym src b => src = x \/ (sym <> x /\ cloned x b)
  | SAsync sym t b => cloned x t \/ (sym <> Some x /\ cloned x b)
  end.

(** How calls and copies use a buffer. *)
Inductive access := a_input | a_output | a_copy_src | a_copy_dst.
(** A call or copy in [s] uses, in this way, the buffer that is named [x] outside of [s], or
    a crop, slice, transpose or clone made from it. *)
Fixpoint accesses (k : access) (x : nat) (s : stmt) {struct s} : Prop :=
  match s with
  | SUndef | SCheck _ => False
  | SCall _ ins outs _ => match k with a_input => In x ins | a_output => In x outs | _ => False end
  | SCopy src _ dst _ pad => match k with a_copy_src => src = x \/ pad = Some x | a_copy_dst => dst = x | _ => False end
  | SLet l b _ => ~ In x (map fst l) /\ accesses k x b
  | SBlock l => (fix go (l : list stmt) := match l with [] => False | y :: l' => accesses k x y \/ go l' end) l
  | SLoop sym _ _ _ b | SAllocate sym _ _ _ b | SMake sym _ _ _ b | SConst sym _ b => sym <> x /\ accesses k x b
  | SClone sym src b | SCropBuffer sym src _ b | SCropDim sym src _ _ b | SSliceBuffer sym src _ b
  | SSliceDim sym src _ _ b | STranspose sym src _ b => (sym <> x /\ accesses k x b) \/ (src = x /\ accesses k sym b)
  | SAsync sym t b => accesses k x t \/ (sym <> Some x /\ accesses k x b)
  end.

(** Two contexts give the same values to the symbols in [D]. *)
Definition agree (D : nat -> Prop) (c c' : context) : Prop := forall y, D y -> c y = c' y.
(** The outcomes of two evaluations: both undefined, or the same value and contexts that
    agree on [D]. *)
Definition same_outcome (D : nat -> Prop) (a b : res (Z * context)) : Prop :=
  match a, b with
  | UB, UB => True
  | Val (v, c), Val (v', c') => v = v' /\ agree D c c'
  | _, _ => False
  end.
(** The values [a] and [a'] cannot be told apart by reading in the role [ro]. *)
Definition same_for (W : world) (ro : role) (a a' : Z) : Prop :=
  match ro with
  | RField f_none => a = a'
  | RField f => match w_buf W a, w_buf W a' with
                | Some b, Some b' => forall d, field_value b f d a = field_value b' f d a'
                | None, None => True
                | _, _ => False
                end
  | RAddress => w_buf W a = w_buf W a'
  end.

(** The let_stmts that are closures only hand symbols of the parent context over under their
    own names, as optimizations.cc:1797-1809 makes them. *)
Definition plain_closure (l : list (nat * expr)) : Prop := Forall (fun p => exists d, snd p = EVar (fst p) f_none d) l.
Fixpoint plain_closures (s : stmt) : Prop :=
  match s with
  | SUndef | SCall _ _ _ _ | SCopy _ _ _ _ _ | SCheck _ => True
  | SLet l b c => (c = true -> plain_closure l) /\ plain_closures b
  | SBlock l => (fix go (l : list stmt) := match l with [] => True | y :: l' => plain_closures y /\ go l' end) l
  | SLoop _ _ _ _ b | SAllocate _ _ _ _ b | SMake _ _ _ _ b | SConst _ _ b | SClone _ _ b
  | SCropBuffer _ _ _ b | SCropDim _ _ _ _ b | SSliceBuffer _ _ _ b | SSliceDim _ _ _ _ b | STranspose _ _ _ b => plain_closures b
  | SAsync _ t b => plain_closures t /\ plain_closures b
  end.

Section Statements.
  Context {X : Type}.
  (** everything but the context is the same; the contexts agree on [D] *)
  Definition same_state (D : nat -> Prop) (s s' : state X) : Prop :=
    exists c', s' = set_ctx X s c' /\ agree D (s_ctx X s) c'.
  Definition same_result (D : nat -> Prop) (a b : res (Z * state X)) : Prop :=
    match a, b with
    | UB, UB => True
    | Val (v, s), Val (v', s') => v = v' /\ same_state D s s'
    | _, _ => False
    end.
  (** The function of a call statement only looks at the symbols that it is given as inputs
      and outputs, and at the symbols in its scalars. *)
  Definition reads_named (H : host X) (t : nat) (ins outs : list nat) (sc : list expr) : Prop :=
    forall c c' m ext, (forall y, In y ins \/ In y outs \/ any_of (free y) sc -> c y = c' y) ->
      h_call X H t ins outs sc c m ext = h_call X H t ins outs sc c' m ext.
  Fixpoint calls_read_named (H : host X) (s : stmt) : Prop :=
    match s with
    | SUndef | SCopy _ _ _ _ _ | SCheck _ => True
    | SCall t ins outs sc => reads_named H t ins outs sc
    | SBlock l => (fix go (l : list stmt) := match l with [] => True | y :: l' => calls_read_named H y /\ go l' end) l
    | SLet _ b _ | SLoop _ _ _ _ b | SAllocate _ _ _ _ b | SMake _ _ _ _ b | SConst _ _ b | SClone _ _ b
    | SCropBuffer _ _ _ b | SCropDim _ _ _ _ b | SSliceBuffer _ _ _ b | SSliceDim _ _ _ _ b | STranspose _ _ _ b => calls_read_named H b
    | SAsync _ t b => calls_read_named H t /\ calls_read_named H b
    end.
End Statements.
