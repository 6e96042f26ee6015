(** Capture: a let in [e] binds a symbol of the replacement (one in [F]), and the target [x]
    occurs free in the scope of that let. *)
From Coq Require Import ZArith List Bool.
From Verif Require Import Arith_Model Buf_Model Expr_Model Expr_Spec Stmt_Model Deps_Spec.
Import ListNotations.
Open Scope Z_scope.

Section Capture.
  Variable x : nat.
  Variable F : nat -> Prop.
  Section Lists.
    Variable nc : expr -> Prop.
    Variable body : expr.
    (** an inner binding of the target itself ends the substitution *)
    Fixpoint no_capture_lets (l : list (nat * expr)) : Prop :=
      match l with
      | [] => nc body
      | (s, v) :: l' =>
          nc v /\ (s = x \/ ((in_lets (free x) x l' (free x body) -> ~ F s) /\ no_capture_lets l'))
      end.
    Fixpoint no_capture_all (l : list expr) : Prop :=
      match l with [] => True | a :: l' => nc a /\ no_capture_all l' end.
  End Lists.
  Fixpoint no_capture (e : expr) : Prop :=
    match e with
    | EUndef | EConst _ | EVar _ _ _ => True
    | ELet l b => no_capture_lets no_capture b l
    | EBin _ a b => no_capture a /\ no_capture b
    | ENot a => no_capture a
    | ESelect c t f => no_capture c /\ no_capture t /\ no_capture f
    | ECall _ _ args => no_capture_all no_capture args
    end.
End Capture.

(** [e] computes the address of an element. *)
Fixpoint takes_address (e : expr) : Prop :=
  match e with
  | EUndef | EConst _ | EVar _ _ _ => False
  | ELet l b => (fix go (l : list (nat * expr)) := match l with [] => takes_address b | (_, v) :: l' => takes_address v \/ go l' end) l
  | EBin _ a b => takes_address a \/ takes_address b
  | ENot a => takes_address a
  | ESelect c t f => takes_address c \/ takes_address t \/ takes_address f
  | ECall i_buffer_at _ _ => True
  | ECall _ _ args => any_of takes_address args
  end.

(** The value of [e] in a context, [UB] when evaluating it is undefined behaviour. *)
Definition value (W : world) (c : context) (e : expr) : res Z := r <- eval W c e ;; Val (fst r).

(** ** Metadata of buffers *)
(** [b] has the metadata given by elem_size, [ds] and [def] in the environment [r], as far as
    the fields in [A] are concerned: a defined member says what the field is, an undefined one
    that the buffer [def] has the same.  Dimensions that are neither in [ds] nor in [def] are
    all zero. *)
Section Describe.
  Variable W : world.
  Variable r : env.
  Variable elem : expr.
  Variable ds : list dim_expr.
  Variable def : option nat.
  Variable b : buf.
  Definition same_as_default (f : field) (d : Z) : Prop :=
    match def with
    | Some y => exists p b0, r y = Fin p /\ w_buf W p = Some b0 /\ field_value b0 f d p = field_value b f d p
    | None => False
    end.
  Definition given (e : expr) (f : field) (d : Z) : Prop :=
    match e with EUndef => same_as_default f d | _ => meaning W r e = Fin (field_value b f d 0) end.
  Definition describes_dim (f : field) (get : dim_expr -> expr) : Prop := forall d,
    match nth_error ds d with
    | Some x => given (get x) f (Z.of_nat d)
    | None => match def with Some _ => same_as_default f (Z.of_nat d) | None => field_value b f (Z.of_nat d) 0 = 0 end
    end.
  Definition describes (A : field -> Prop) : Prop := forall f, A f ->
    match f with
    | f_none | f_size_bytes => False
    | f_rank => match def with Some _ => forall d, same_as_default f_rank d | None => rank b = length ds end
    | f_elem_size => forall d, given elem f_elem_size d
    | f_min => describes_dim f_min (fun x => fst (de_bounds x))
    | f_max => describes_dim f_max (fun x => snd (de_bounds x))
    | f_stride => describes_dim f_stride de_stride
    | f_fold_factor => describes_dim f_fold_factor de_fold
    end.
End Describe.
(** the symbols that occur free in the new metadata *)
Definition free_metadata (elem : expr) (ds : list dim_expr) (def : option nat) (s : nat) : Prop :=
  free s elem \/ Exists (free_dim s) ds \/ def = Some s.

(** [e] has a let that binds [s]. *)
Fixpoint binds (s : nat) (e : expr) : Prop :=
  match e with
  | EUndef | EConst _ | EVar _ _ _ => False
  | ELet l b => (fix go (l : list (nat * expr)) := match l with [] => binds s b | (t, v) :: l' => t = s \/ binds s v \/ go l' end) l
  | EBin _ a b => binds s a \/ binds s b
  | ENot a => binds s a
  | ESelect c t f => binds s c \/ binds s t \/ binds s f
  | ECall _ _ args => any_of (binds s) args
  end.

(** The buffer of every buffer_at in [e] is a plain variable: buffer_at takes a var. *)
Fixpoint plain_heads (e : expr) : Prop :=
  match e with
  | EUndef | EConst _ | EVar _ _ _ => True
  | ELet l b => (fix go (l : list (nat * expr)) := match l with [] => plain_heads b | (_, v) :: l' => plain_heads v /\ go l' end) l
  | EBin _ a b => plain_heads a /\ plain_heads b
  | ENot a => plain_heads a
  | ESelect c t f => plain_heads c /\ plain_heads t /\ plain_heads f
  | ECall fn _ args =>
      (fn = i_buffer_at -> match args with EVar _ f_none _ :: _ => True | _ => False end) /\
      (fix go (l : list expr) := match l with [] => True | a :: l' => plain_heads a /\ go l' end) args
  end.
