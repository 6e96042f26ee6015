(** What a buffer means, independently of the code: where each element lives.

    A buffer maps an index (one coordinate for each of infinitely many dimensions,
    all but the first [rank] of which are broadcasts) to the address of the element
    there, or to nothing when the index is out of bounds or the buffer is null. *)
From Coq Require Import ZArith List Bool Lia.
From Verif Require Import Buf_Model.
Import ListNotations.
Open Scope Z_scope.

(** Sum of two offsets, nothing if either is nothing. *)
Definition oadd (a b : option Z) : option Z :=
  match a, b with Some x, Some y => Some (x + y) | _, _ => None end.

(** Where coordinate [x] lands in a dimension: a dimension of stride 0 holds every
    coordinate at the same place; otherwise [x] must be within [min, max], and lies
    [stride] bytes after its predecessor, counted from min, or, in a folded
    dimension, counted from the last multiple of the fold factor. *)
Definition place (d : dim) (x : Z) : option Z :=
  if d_stride d =? 0 then Some 0
  else if (d_min d <=? x) && (x <=? d_max d)
       then Some (if d_fold d =? unfolded then (x - d_min d) * d_stride d else (x mod d_fold d) * d_stride d)
       else None.

Fixpoint place_all (ds : list dim) (idx : nat -> Z) : option Z :=
  match ds with
  | [] => Some 0
  | d :: ds' => oadd (place d (idx O)) (place_all ds' (fun k => idx (S k)))
  end.

(** The address of the element at [idx]. *)
Definition locate (b : buf) (idx : nat -> Z) : ptr := oadd (base b) (place_all (dims b) idx).

(** [idx] with coordinate [x] inserted as dimension [d]. *)
Definition insert_at (d : nat) (x : Z) (idx : nat -> Z) : nat -> Z :=
  fun k => if (k <? d)%nat then idx k else if (k =? d)%nat then x else idx (k - 1)%nat.

(** An index given as a finite list; the rest is 0. *)
Definition index (l : list Z) : nat -> Z := fun k => nth k l 0.
