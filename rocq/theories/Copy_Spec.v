(** What copying elements means: a set of simultaneous assignments of elements. *)
From Coq Require Import ZArith List Bool Lia.
From Verif Require Import Buf_Model Buf_Spec ForEach_Spec Copy_Model.
Import ListNotations.
Open Scope Z_scope.

(** The [es] bytes at [p] and the [es] bytes at [q] have none in common. *)
Definition apart (es : Z) (p q : ptr) : Prop :=
  match p, q with Some a, Some b => a + es <= b \/ b + es <= a | _, _ => True end.

(** Memory [m'] is [m] with, for each (d, s) in [ops], the [es] bytes at [d] set to the
    [es] bytes at [s] in [m], and nothing else changed. *)
Definition assigned (es : Z) (ops : list (ptr * ptr)) (m m' : mem) : Prop :=
  (forall d s k, In (Some d, Some s) ops -> 0 <= k < es -> m' (d + k) = m (s + k)) /\
  (forall a, (forall d s, In (Some d, s) ops -> ~ (d <= a < d + es)) -> m' a = m a).

(** The assignments of a copy: each element of [dst] from the element of [src] at the
    same index. *)
Definition elementwise (dst src : buf) : list (ptr * ptr) :=
  map (fun idx => (locate dst (index idx), locate src (index idx))) (box (dims dst)).
(** ... or from [pad] where [src] has no element. *)
Definition elementwise_or (dst src pad : buf) : list (ptr * ptr) :=
  map (fun idx => (locate dst (index idx),
                   match locate src (index idx) with Some s => Some s | None => locate pad (index idx) end)) (box (dims dst)).
(** The elements of [dst] outside the bounds [ds], from [pad]. *)
Definition outside (ds : list dim) (idx : list Z) : bool :=
  existsb (fun p => negb ((d_min (fst p) <=? snd p) && (snd p <=? d_max (fst p)))) (combine ds idx).
Definition elementwise_outside (ds : list dim) (dst pad : buf) : list (ptr * ptr) :=
  map (fun idx => (locate dst (index idx), locate pad (index idx))) (filter (outside ds) (box (dims dst))).

(** [dst] has storage, and distinct indices have distinct, not overlapping, elements. *)
Definition separate (dst : buf) : Prop :=
  forall i j, in_bounds (dims dst) i -> in_bounds (dims dst) j -> i <> j ->
    apart (elem_size dst) (locate dst (index i)) (locate dst (index j)).
(** No element of [src] overlaps an element of [dst], over the indices of [dst]. *)
Definition no_overlap (dst src : buf) : Prop :=
  forall i j, in_bounds (dims dst) i -> in_bounds (dims dst) j ->
    apart (elem_size dst) (locate dst (index i)) (locate src (index j)).
