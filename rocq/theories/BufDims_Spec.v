(** When fusing the dimensions of a buffer is safe, and what it should preserve. *)
From Coq Require Import ZArith List Bool Lia Permutation.
From Verif Require Import Buf_Model Buf_Spec ForEach_Spec.
Import ListNotations.
Open Scope Z_scope.

(** The two sets of buffers address the same elements together: over the indices of
    the first buffer, the tuples of addresses (one per buffer, null when out of
    bounds) are the same, each as many times. *)
Definition tuples (b0 : buf) (bs : list buf) : list (list ptr) :=
  map (fun idx => map (fun b => locate b (index idx)) (b0 :: bs)) (box (dims b0)).
Definition same_elements (b0 : buf) (bs : list buf) (b0' : buf) (bs' : list buf) : Prop :=
  Permutation (tuples b0 bs) (tuples b0' bs').

(** No dimension that is a single index has a stride. *)
Definition no_strided_points (b : buf) : Prop :=
  forall d, In d (dims b) -> is_point d = true -> d_stride d = 0.
(** No dimension is folded. *)
Definition no_folds (b : buf) : Prop :=
  forall d, In d (dims b) -> d_stride d = 0 \/ d_fold d = unfolded.
(** No dimension has stride 0. *)
Definition no_broadcasts (b : buf) : Prop := forall d, In d (dims b) -> d_stride d <> 0.
(** Every index of [b0] is in bounds of [b]. *)
Definition covered (b0 b : buf) : Prop :=
  forall idx, in_bounds (dims b0) idx -> base b <> None -> locate b (index idx) <> None.

Definition fusable (b0 b : buf) : Prop :=
  dims_ok b /\ (no_strided_points b \/ (no_folds b /\ (no_broadcasts b \/ covered b0 b))).
(** The first buffer: a dimension of stride 0 is a single index. *)
Definition fusable_first (b0 : buf) : Prop :=
  dims_ok b0 /\ (no_strided_points b0 \/ no_folds b0) /\
  (forall d, In d (dims b0) -> d_stride d = 0 -> is_point d = true).
