(** What it means that a call does not care about dimensions of extent one, and which statements C58 is about. *)
From Coq Require Import ZArith List Bool.
From Verif Require Import Arith_Model Buf_Model Expr_Model Stmt_Model Deps_Spec OptSym_Spec.
Import ListNotations.
Open Scope Z_scope.

(** The buffer without the dimensions [d] that have an index [f d], at that index: its base is moved there, or is null if the buffer does not contain it.  [d] is the number of the first of [ds]. *)
Fixpoint slice_dims (f : nat -> option Z) (d : nat) (p : ptr) (ds : list dim) : ptr * list dim :=
  match ds with
  | [] => (p, [])
  | x :: ds' =>
      match f d with
      | Some i => slice_dims f (S d) (if d_contains x i then offset_bytes p (d_offset x i) else None) ds'
      | None => let r := slice_dims f (S d) p ds' in (fst r, x :: snd r)
      end
  end.
Definition slice_at (f : nat -> option Z) (b : buf) : buf := let r := slice_dims f 0 (base b) (dims b) in Buf (fst r) (elem_size b) (snd r).
(** at most one index *)
Definition single (b : buf) (d : nat) : Prop := d_max (dim_at b d) <= d_min (dim_at b d).

Section Calls.
  Variable X : Type.
  Variable call_v : nat -> list buf -> list buf -> list Z -> X -> Z * X.
  (** [min_rank t]: the dimensions from there on can be sliced off.  [legal]: the calls for which the functions were written. *)
  Variable min_rank : nat -> option nat.
  Variable legal : nat -> list buf -> list buf -> Prop.
  (** A legal call does the same if dimensions from min_rank on, in which no output has more than one index, are sliced off all buffers, at the minimum of the first output. *)
  Definition pure_calls : Prop := forall t n bi o bo vs x f, min_rank t = Some n -> legal t bi (o :: bo) ->
    (forall d i, f d = Some i -> (n <= d)%nat /\ i = d_min (dim_at o d) /\ Forall (fun b => single b d) (o :: bo)) ->
    call_v t (map (slice_at f) bi) (map (slice_at f) (o :: bo)) vs x = call_v t bi (o :: bo) vs x.
  (** a call that is not legal fails *)
  Definition strict_calls : Prop := forall t bi bo vs x, fst (call_v t bi bo vs x) = 0 -> legal t bi bo.
End Calls.

(** The allocator gives a buffer of the same bounds. *)
Definition same_bounds (d d' : dim) : Prop := d_min d' = d_min d /\ d_max d' = d_max d.
Definition keeps_bounds {X} (H : host X) : Prop := forall sym b x b' p x', h_allocate X H sym b x = (b', p, x') -> Forall2 same_bounds (dims b) (dims b').

(** The scalars of the calls that have a min_rank do not depend on the buffers of the call. *)
Fixpoint scalars_apart (min_rank : nat -> option nat) (s : stmt) : Prop :=
  match s with
  | SUndef | SCopy _ _ _ _ _ | SCheck _ => True
  | SCall t ins outs sc => min_rank t = None \/ Forall (fun e => forall x, In x (outs ++ ins) -> ~ free x e) sc
  | SBlock l => (fix go (l : list stmt) := match l with [] => True | x :: l' => scalars_apart min_rank x /\ go l' end) l
  | SLet _ b _ | SLoop _ _ _ _ b | SAllocate _ _ _ _ b | SMake _ _ _ _ b | SConst _ _ b | SClone _ _ b
  | SCropBuffer _ _ _ b | SCropDim _ _ _ _ b | SSliceBuffer _ _ _ b | SSliceDim _ _ _ _ b | STranspose _ _ _ b => scalars_apart min_rank b
  | SAsync _ t b => scalars_apart min_rank t /\ scalars_apart min_rank b
  end.
(** No let, loop or crop_dim gives the name of a buffer that a statement around it declares (one of [D]) to something else; a crop_dim in place is fine. *)
Fixpoint not_stale (D : nat -> Prop) (s : stmt) : Prop :=
  match s with
  | SUndef | SCall _ _ _ _ | SCopy _ _ _ _ _ | SCheck _ => True
  | SBlock l => (fix go (l : list stmt) := match l with [] => True | x :: l' => not_stale D x /\ go l' end) l
  | SLet l b _ => Forall (fun x => ~ D x) (map fst l) /\ not_stale D b
  | SLoop x _ _ _ b => ~ D x /\ not_stale D b
  | SCropDim x src _ _ b => (x = src \/ ~ D x) /\ not_stale (also D x) b
  | SAllocate x _ _ _ b | SMake x _ _ _ b | SConst x _ b | SClone x _ b
  | SCropBuffer x _ _ b | SSliceBuffer x _ _ b | SSliceDim x _ _ _ b | STranspose x _ _ b => not_stale (also D x) b
  | SAsync x t b => (forall y, x = Some y -> ~ D y) /\ not_stale D t /\ not_stale D b
  end.

(** no buffer has more than 64 dimensions, and each call with a min_rank below 64 has an output *)
Fixpoint few_dims (min_rank : nat -> option nat) (consts : Z -> option buf) (s : stmt) : Prop :=
  match s with
  | SUndef | SCopy _ _ _ _ _ | SCheck _ => True
  | SCall t _ outs _ => outs = [] -> match min_rank t with Some n => (64 <= n)%nat | None => True end
  | SBlock l => (fix go (l : list stmt) := match l with [] => True | x :: l' => few_dims min_rank consts x /\ go l' end) l
  | SLet _ b _ | SLoop _ _ _ _ b | SClone _ _ b | SSliceBuffer _ _ _ b => few_dims min_rank consts b
  | SAllocate _ _ _ ds b | SMake _ _ _ ds b => (length ds <= 64)%nat /\ few_dims min_rank consts b
  | SConst _ c b => (exists q, consts c = Some q /\ (rank q <= 64)%nat) /\ few_dims min_rank consts b
  | SCropBuffer _ _ l b => (length l <= 64)%nat /\ few_dims min_rank consts b
  | SCropDim _ _ d _ b | SSliceDim _ _ d _ b => (d < 64)%nat /\ few_dims min_rank consts b
  | STranspose _ _ p b => (length p <= 64)%nat /\ Forall (fun d => (d < 64)%nat) p /\ few_dims min_rank consts b
  | SAsync _ t b => few_dims min_rank consts t /\ few_dims min_rank consts b
  end.
