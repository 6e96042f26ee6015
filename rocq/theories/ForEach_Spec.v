(** What iterating over a buffer means: the indices in its bounds. *)
From Coq Require Import ZArith List Bool Lia.
From Verif Require Import Buf_Model Buf_Spec.
Import ListNotations.
Open Scope Z_scope.

(** lo, lo + 1, ..., lo + n - 1 *)
Fixpoint run_from (lo : Z) (n : nat) : list Z :=
  match n with O => [] | S n' => lo :: run_from (lo + 1) n' end.

(** lo, ..., hi; nothing if hi < lo *)
Definition range (lo hi : Z) : list Z := run_from lo (Z.to_nat (hi - lo + 1)).

(** Every index within the bounds of the dimensions, the first dimension varying
    fastest. *)
Fixpoint box (ds : list dim) : list (list Z) :=
  match ds with
  | [] => [[]]
  | d :: ds' => flat_map (fun rest => map (fun i => i :: rest) (range (d_min d) (d_max d))) (box ds')
  end.

(** [idx] has a coordinate for every dimension, each within its bounds. *)
Fixpoint in_bounds (ds : list dim) (idx : list Z) : Prop :=
  match ds, idx with
  | [], [] => True
  | d :: ds', i :: idx' => d_min d <= i <= d_max d /\ in_bounds ds' idx'
  | _, _ => False
  end.

(** The fold factor of a dimension with a stride is positive, or says unfolded. *)
Definition dim_ok (d : dim) : Prop := d_stride d = 0 \/ d_fold d = unfolded \/ 0 < d_fold d.
Definition dims_ok (b : buf) : Prop := Forall dim_ok (dims b).

(** The flags that mark a buffer as the same object as the first are right. *)
Definition flags_ok (b0 : buf) (bs : list (bool * buf)) : Prop :=
  forall b, In (true, b) bs -> b = b0.

(** The addresses of the element at [idx] in all the buffers. *)
Definition addresses (b0 : buf) (bs : list (bool * buf)) (idx : list Z) : list ptr :=
  locate b0 (index idx) :: map (fun p => locate (snd p) (index idx)) bs.

(** The pointers to the k-th element of a contiguous run. *)
Definition nth_of_run (b0 : buf) (bs : list (bool * buf)) (k : Z) (ps : list ptr) : list ptr :=
  map (fun q => offset_bytes (fst q) (k * snd q)) (combine ps (elem_size b0 :: map (fun p => elem_size (snd p)) bs)).

(** At most one dimension that is more (or less) than a single index has the stride of
    the elements. *)
Definition one_contiguous_dim (b : buf) : Prop :=
  forall d1 d2, (d1 < rank b)%nat -> (d2 < rank b)%nat ->
    is_point (dim_at b d1) = false -> is_point (dim_at b d2) = false ->
    d_stride (dim_at b d1) = elem_size b -> d_stride (dim_at b d2) = elem_size b -> d1 = d2.
