(** What a pipeline reads.

    A function computes elements of its outputs for values [x] of its dimension variables; for
    these values it reads, of each of its inputs, the elements in the bounds that the user gave
    (and in the crop, if there is one).  The elements that are needed are those of the buffers
    of the pipeline outputs, and those that are read to compute needed elements. *)
From Coq Require Import ZArith List Bool.
From Verif Require Import Buf_Model Expr_Model Expr_Spec Interval_Model Interval_Spec Infer_Model.
Import ListNotations.
Open Scope Z_scope.

(** a position of an element: a coordinate for each dimension *)
Definition position := nat -> Z.

Section Spec.
  Variable W : world.
  Variable r : env.

  (** the buffer that a symbol denotes *)
  Definition buffer_of (s : nat) (b : buf) : Prop := exists p, r s = Fin p /\ w_buf W p = Some b.
  Definition inside (b : buf) (p : position) : Prop := forall d, (d < rank b)%nat -> d_min (dim_at b d) <= p d <= d_max (dim_at b d).
  (** All indices of a broadcast dimension denote the same element, at 0. *)
  Definition located (b : buf) (q p : position) : Prop :=
    forall d, p d = if is_broadcast (dim_at b d) then 0 else q d.

  (** the [d]-th dimension that is not sliced is the [k]-th dimension of the buffer *)
  Definition sliced (slices : list expr) (k : nat) : bool := defined (nth k slices EUndef).
  Definition nth_unsliced (slices : list expr) (d k : nat) : Prop :=
    sliced slices k = false /\ length (filter (fun j => negb (sliced slices j)) (seq 0 k)) = d.

  Definition dim_var (f : func) (v : nat) : Prop := exists o, In o (f_outputs f) /\ In v (o_dims o).
  Definition is_dim_var (f : func) (v : nat) : bool := existsb (fun o => existsb (Nat.eqb v) (o_dims o)) (f_outputs f).
  (** the values of the dimension variables of [f] *)
  Definition with_dims (f : func) (x : nat -> Z) : env := fun s => if is_dim_var f s then Fin (x s) else r s.

  (** [q] is in the bounds that the user gave, and in the crop *)
  Definition accesses (f : func) (i : input) (x : nat -> Z) (q : position) : Prop :=
    forall d, (d < in_rank i)%nat ->
      (exists b lo hi, nth_error (in_bounds i) d = Some b /\ finite_ends W (with_dims f x) b lo hi /\ lo <= q d <= hi) /\
      (forall c, nth_error (in_crop i) d = Some c -> contains W (with_dims f x) c (q d)).

  (** the elements that are needed *)
  Inductive needed (fs : list func) (outputs : list nat) : nat -> position -> Prop :=
  | needed_output s b p : In s outputs -> buffer_of s b -> inside b p -> needed fs outputs s p
  | needed_input f i x b q p : In f fs -> In i (f_inputs f) ->
      (** the value of each dimension variable is a coordinate of a needed element *)
      (forall v, dim_var f v -> exists o d k e, In o (f_outputs f) /\ nth_error (o_dims o) d = Some v /\
         nth_unsliced (in_slice i) d k /\ needed fs outputs (o_sym o) e /\ x v = e k) ->
      accesses f i x q -> buffer_of (in_sym i) b -> located b q p -> needed fs outputs (in_sym i) p.

  (** the dimensions of the buffer are those of the description *)
  Definition describes (ds : list dimx) (b : buf) : Prop :=
    length ds = rank b /\ forall d x, nth_error ds d = Some x ->
      meaning W r (i_min (dx_bounds x)) = Fin (d_min (dim_at b d)) /\ meaning W r (i_max (dx_bounds x)) = Fin (d_max (dim_at b d)) /\
      (defined (dx_stride x) = true -> meaning W r (dx_stride x) = Fin (d_stride (dim_at b d))).
  (** a check that holds *)
  Definition holds (e : expr) : Prop := exists z, meaning W r e = Fin z /\ z <> 0.
End Spec.
