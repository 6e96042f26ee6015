(** Model of slinky's buffers (slinky/runtime/buffer.h): dimensions, addressing,
    crop, slice, translate, transpose and fusion.

    Conventions.  A pointer is [option Z]: [None] is nullptr, [Some a] the byte
    address a.  The dims array is a list and rank is its length: moving the dims
    pointer forward (slicing dimension 0) is dropping the head.  index_t is
    unbounded here (Alloc_Model.v models the 64-bit overflow checks).  The
    asserted preconditions of the C++ are hypotheses of the theorems. *)
From Coq Require Import ZArith List Bool Lia.
Import ListNotations.
Open Scope Z_scope.

Definition ptr := option Z.

(** buffer.h:41-47, offset_bytes: a null pointer stays null.
    offset_bytes_non_null (buffer.h:30-38) is the same on non-null pointers. *)
Definition offset_bytes (p : ptr) (o : Z) : ptr :=
  match p with Some a => Some (a + o) | None => None end.

(** ** buffer.h:60-144, class dim *)
Record dim := Dim { d_min : Z; d_max : Z; d_stride : Z; d_fold : Z }.

Definition auto_stride : Z := 2 ^ 63 - 1.          (* buffer.h:69 *)
Definition unfolded : Z := -1.                     (* buffer.h:70 *)
Definition broadcast : dim := Dim 0 0 0 0.         (* buffer.h:148 *)

(** buffer.h:87-93 *)
Definition d_begin (d : dim) : Z := d_min d.
Definition d_end (d : dim) : Z := d_max d + 1.
Definition extent (d : dim) : Z := if d_begin d <? d_end d then d_end d - d_begin d else 0.
Definition empty (d : dim) : bool := d_max d <? d_min d.
(** buffer.h:95-112 *)
Definition set_bounds (d : dim) (lo hi : Z) : dim := Dim lo hi (d_stride d) (d_fold d).
Definition set_point (d : dim) (x : Z) : dim := set_bounds d x x.
Definition set_range (d : dim) (b e : Z) : dim := set_bounds d b (e - 1).
Definition set_stride (d : dim) (s : Z) : dim := Dim (d_min d) (d_max d) s (d_fold d).
Definition set_fold (d : dim) (f : Z) : dim := Dim (d_min d) (d_max d) (d_stride d) f.
(** buffer.h:114-117 *)
Definition d_translate (d : dim) (o : Z) : dim := set_bounds d (d_min d + o) (d_max d + o).
(** buffer.h:120-122 *)
Definition d_contains2 (d : dim) (a b : Z) : bool := (d_stride d =? 0) || ((d_min d <=? a) && (b <=? d_max d)).
Definition d_contains (d : dim) (x : Z) : bool := d_contains2 d x x.
Definition d_contains_dim (d o : dim) : bool := d_contains2 d (d_min o) (d_max o).
(** buffer.h:124-131.  euclidean_mod_positive_modulus is [Z.modulo] for a positive
    modulus (C01_positive_divisor_variants). *)
Definition d_offset (d : dim) (i : Z) : Z :=
  if (d_stride d =? 0) || (d_fold d =? unfolded)
  then (i - d_min d) * d_stride d
  else (i mod d_fold d) * d_stride d.
(** buffer.h:134-139 *)
Definition is_folded2 (d : dim) (lo hi : Z) : bool :=
  if (d_stride d =? 0) || (d_fold d <=? 0) then false
  else negb (lo / d_fold d =? hi / d_fold d).
Definition is_folded_dim (d o : dim) : bool := is_folded2 d (d_min o) (d_max o).
Definition is_folded (d : dim) : bool := is_folded2 d (d_min d) (d_max d).
(** buffer.h:141-144 *)
Definition is_broadcast (d : dim) : bool := (d_min d =? 0) && (d_max d =? 0) && (d_stride d =? 0).
Definition is_point (d : dim) : bool := d_min d =? d_max d.
Definition is_point_at (d : dim) (x : Z) : bool := (d_min d =? x) && (d_max d =? x).

(** ** buffer.h:176-480, class raw_buffer *)
Record buf := Buf { base : ptr; elem_size : Z; dims : list dim }.
Definition rank (b : buf) : nat := length (dims b).
(** buffer.h:250, dim(i): dimensions past the rank are broadcasts *)
Definition dim_at (b : buf) (i : nat) : dim := nth i (dims b) broadcast.

(** buffer.h:178-203, flat_offset_bytes_impl.  An index is a number or [slice]
    ([None]).  The C++ recursion is over the argument pack and the rank. *)
Fixpoint flat_offset_impl (ds : list dim) (idx : list (option Z)) : Z :=
  match idx, ds with
  | [], _ => 0
  | _, [] => 0                                    (* the rest are broadcasts *)
  | Some i :: idx', d :: ds' => d_offset d i + flat_offset_impl ds' idx'
  | None :: idx', _ :: ds' => flat_offset_impl ds' idx'
  end.
(** buffer.h:205-213, contains_impl *)
Fixpoint contains_impl (ds : list dim) (idx : list Z) : bool :=
  match idx, ds with
  | [], _ => true
  | _, [] => true
  | i :: idx', d :: ds' => d_contains d i && contains_impl ds' idx'
  end.
(** buffer.h:264-270, address_at *)
Definition address_at (b : buf) (idx : list (option Z)) : ptr := offset_bytes (base b) (flat_offset_impl (dims b) idx).

(** buffer.h:285-299: the overloads that take a span loop over
    i < min(indices.size(), rank) *)
Fixpoint sum_loop (f : nat -> Z) (i n : nat) : Z :=
  match n with O => 0 | S n' => f i + sum_loop f (S i) n' end.
Definition flat_offset_span (b : buf) (idx : list Z) : Z :=
  sum_loop (fun i => d_offset (dim_at b i) (nth i idx 0)) 0 (Nat.min (length idx) (rank b)).
Fixpoint and_loop (f : nat -> bool) (i n : nat) : bool :=
  match n with O => true | S n' => f i && and_loop f (S i) n' end.
Definition contains_span (b : buf) (idx : list Z) : bool :=
  and_loop (fun i => d_contains (dim_at b i) (nth i idx 0)) 0 (Nat.min (length idx) (rank b)).

(** buffer.h:301-311, translate; asserts |offsets| <= rank *)
Fixpoint translate_dims (ds : list dim) (os : list Z) : list dim :=
  match ds, os with
  | d :: ds', o :: os' => d_translate d o :: translate_dims ds' os'
  | _, _ => ds
  end.
Definition translate (b : buf) (os : list Z) : buf := Buf (base b) (elem_size b) (translate_dims (dims b) os).

(** list helpers for the dims array *)
Fixpoint remove_nth {A} (l : list A) (d : nat) : list A :=
  match l, d with
  | [], _ => []
  | _ :: l', O => l'
  | x :: l', S d' => x :: remove_nth l' d'
  end.
Fixpoint set_nth {A} (l : list A) (d : nat) (v : A) : list A :=
  match l, d with
  | [], _ => []
  | _ :: l', O => v :: l'
  | x :: l', S d' => x :: set_nth l' d' v
  end.

(** The shifting loop of buffer.h:356-358: dims[i] = dims[i + 1] for i = i0, ...,
    i0 + n - 1, in place. *)
Fixpoint shift_loop (ds : list dim) (i n : nat) : list dim :=
  match n with
  | O => ds
  | S n' => shift_loop (set_nth ds i (nth (S i) ds broadcast)) (S i) n'
  end.
(** buffer.h:344-360, slice(d) *)
Definition slice1 (b : buf) (d : nat) : buf :=
  if (rank b <=? d)%nat then b
  else if (d =? 0)%nat then Buf (base b) (elem_size b) (tl (dims b))
  else let r := (rank b - 1)%nat in
       Buf (base b) (elem_size b) (firstn r (shift_loop (dims b) d (r - d))).
(** buffer.h:361-375, slice(d, at) *)
Definition slice_at (b : buf) (d : nat) (at_ : Z) : buf :=
  if (rank b <=? d)%nat then b
  else let base' := match base b with
                    | None => None
                    | Some a => let dd := dim_at b d in
                                if d_contains dd at_ then Some (a + d_offset dd at_) else None
                    end in
       slice1 (Buf base' (elem_size b) (dims b)) d.
(** buffer.h:378-391, slice(d, in_bounds): asserts that base is not null and at is
    contained *)
Definition slice_in_bounds (b : buf) (d : nat) (at_ : Z) : buf :=
  if (rank b <=? d)%nat then b
  else slice1 (Buf (offset_bytes (base b) (d_offset (dim_at b d) at_)) (elem_size b) (dims b)) d.

(** buffer.h:313-339, slice(span).  [None] is an access outside the dims array
    (undefined behaviour; with assertions on, next_d <= rank fails there). *)
Fixpoint count_leading (ds : list nat) (k : nat) : nat :=        (* :321-328 *)
  match ds with
  | [] => k
  | d :: ds' => if (d =? k)%nat then count_leading ds' (S k) else k
  end.
Fixpoint move_loop (a : list dim) (off j n : nat) : option (list dim) :=   (* :333-335; off = i - slice_leading *)
  match n with
  | O => Some a
  | S n' => match nth_error a (S j) with
            | None => None
            | Some v => if ((off <=? j) && (j - off <? length a))%nat
                        then move_loop (set_nth a (j - off) v) off (S j) n'
                        else None
            end
  end.
Fixpoint slice_many_loop (rank : nat) (a : list dim) (off : nat) (ds : list nat) (total : nat) : option (list dim * nat) :=
  match ds with                                                   (* :325-336 *)
  | [] => Some (a, total)
  | d :: ds' =>
      if (rank <=? d)%nat then Some (a, total)
      else let next_d := match ds' with d2 :: _ => d2 | [] => rank end in
           match move_loop a off d (next_d - 1 - d) with
           | None => None
           | Some a' => slice_many_loop rank a' (S off) ds' (S total)
           end
  end.
Definition slice_many (b : buf) (ds : list nat) : option buf :=
  match ds with
  | [d] => Some (slice1 b d)
  | _ => let lead := Nat.min (count_leading ds 0) (rank b) in
         match slice_many_loop (rank b) (dims b) 0 (skipn lead ds) lead with
         | None => None
         | Some (a, total) => Some (Buf (base b) (elem_size b) (firstn (rank b - total) (skipn lead a)))
         end
  end.

(** buffer.h:393-418, crop *)
Definition crop (b : buf) (d : nat) (lo hi : Z) : buf :=
  if (rank b <=? d)%nat then b
  else
    let dd := dim_at b d in
    let lo' := Z.max lo (d_min dd) in
    let hi' := Z.min hi (d_max dd) in
    let base' :=
      match base b with
      | None => None
      | Some a => if lo' <=? hi'
                  then if d_fold dd =? unfolded then Some (a + d_offset dd lo') else Some a
                  else None
      end in
    Buf base' (elem_size b) (set_nth (dims b) d (set_bounds dd lo' hi')).

(** evaluate.cc:201-219, eval_buffer_at: the arguments after the buffer are
    defined indices ([Some]) or undefined ([None]). *)
Fixpoint buffer_at_loop (result : ptr) (ds : list dim) (args : list (option Z)) : ptr :=
  match ds, args with
  | d :: ds', Some x :: args' =>
      buffer_at_loop (match result with
                      | Some a => if d_contains d x then Some (a + d_offset d x) else None
                      | None => None
                      end) ds' args'
  | _ :: ds', None :: args' => buffer_at_loop result ds' args'
  | _, _ => result
  end.
Definition buffer_at (b : buf) (args : list (option Z)) : ptr := buffer_at_loop (base b) (dims b) args.

(** evaluate.cc:796-823, slice_buffer: the loop over the dimensions *)
Fixpoint slice_buffer_loop (result : ptr) (ds : list dim) (at_ : list (option Z)) : ptr * list dim :=
  match ds with
  | [] => (result, [])
  | d :: ds' =>
      match at_ with
      | Some x :: at' =>
          slice_buffer_loop (match result with
                             | Some a => if d_contains d x then Some (a + d_offset d x) else None
                             | None => None
                             end) ds' at'
      | None :: at' => let '(r, l) := slice_buffer_loop result ds' at' in (r, d :: l)
      | [] => let '(r, l) := slice_buffer_loop result ds' [] in (r, d :: l)
      end
  end.
Definition slice_buffer (b : buf) (at_ : list (option Z)) : buf :=
  let '(r, l) := slice_buffer_loop (base b) (dims b) at_ in Buf r (elem_size b) l.

(** evaluate.cc:62-66, remove_trailing_broadcasts *)
Definition remove_trailing_broadcasts (ds : list dim) : list dim :=
  rev ((fix go l := match l with [] => [] | d :: l' => if is_broadcast d then go l' else l end) (rev ds)).
(** evaluate.cc:856-896, the buffer a transpose statement makes *)
Definition transpose (b : buf) (p : list nat) : buf :=
  Buf (base b) (elem_size b) (remove_trailing_broadcasts (map (dim_at b) p)).

(** ** buffer.h:763-788, can_fuse and fuse of two dimensions *)
Definition can_fuse (inner outer : dim) : bool :=
  if empty inner then false
  else if (d_min outer =? d_max outer) && negb (d_stride outer =? 0) then true
  else let next_stride := d_stride inner * (d_max inner - d_min inner + 1) in
       if negb (next_stride =? d_stride outer) then false
       else (next_stride =? 0) || (d_fold inner =? unfolded).
Definition fuse (inner outer : dim) : dim :=
  if is_broadcast outer then outer
  else let e := extent inner in
       let inner' := if negb (d_fold outer =? unfolded) then set_fold inner (d_fold outer * e) else inner in
       set_range inner' (d_begin outer * e) (d_end outer * e).

(** buffer.h:800-829, fuse<remove>(inner, outer, buf), inner < outer *)
Definition fuse_remove (inner outer : nat) (b : buf) : buf :=
  if (rank b <=? outer)%nat then b
  else if (rank b <=? inner)%nat then slice1 b outer
  else slice1 (Buf (base b) (elem_size b)
                   (set_nth (dims b) inner (fuse (dim_at b inner) (dim_at b outer)))) outer.

(** buffer.h:833-841, same_bounds *)
Definition same_bounds1 (a b : dim) : bool := (d_min a =? d_min b) && (d_max a =? d_max b).
Definition same_bounds (d : nat) (b0 : buf) (bs : list buf) : bool :=
  forallb (fun b => (rank b0 <=? d)%nat || (rank b <=? d)%nat || same_bounds1 (dim_at b0 d) (dim_at b d)) bs.
(** buffer.h:843-848 *)
Definition can_fuse_all (inner outer : nat) (bs : list buf) : bool :=
  forallb (fun b => can_fuse (dim_at b inner) (dim_at b outer)) bs.
(** buffer.h:859-867, attempt_fuse; the first buffer is the head of the list *)
Definition attempt_fuse (inner outer : nat) (b0 : buf) (bs : list buf) : option (buf * list buf) :=
  if same_bounds inner b0 bs && can_fuse_all inner outer (b0 :: bs)
  then Some (fuse_remove inner outer b0, map (fuse_remove inner outer) bs)
  else None.
(** buffer.h:869-877, attempt_fuse with dim_sets (a list of set numbers).  The
    overloads without dim_sets are the same with an empty list. *)
Definition attempt_fuse_sets (sets : list Z) (inner outer : nat) (b0 : buf) (bs : list buf) : option (buf * list buf) :=
  if (outer <? length sets)%nat && negb (nth outer sets 0 =? nth inner sets 0) then None
  else attempt_fuse inner outer b0 bs.
(** buffer.h:927-942, fuse_contiguous_dims: d = rank - 1, ..., 1.  [d] counts down. *)
Fixpoint fuse_contiguous_loop (sets : list Z) (d : nat) (b0 : buf) (bs : list buf) : buf * list buf :=
  match d with
  | O => (b0, bs)
  | S d' => match attempt_fuse_sets sets d' d b0 bs with
            | Some (b0', bs') => fuse_contiguous_loop sets d' b0' bs'
            | None => fuse_contiguous_loop sets d' b0 bs
            end
  end.
Definition fuse_contiguous_dims (sets : list Z) (b0 : buf) (bs : list buf) : buf * list buf :=
  fuse_contiguous_loop sets (rank b0 - 1) b0 bs.

(** buffer.h:879-884, swap_dims *)
Definition swap_dims (i j : nat) (b : buf) : buf :=
  Buf (base b) (elem_size b)
      (set_nth (set_nth (dims b) i (dim_at b j)) j (dim_at b i)).
(** buffer.h:893-925, sort_dims.  sets[i] is within the array because i < j. *)
Fixpoint sort_inner (sets : list Z) (i j n : nat) (b0 : buf) (bs : list buf) (m : bool) : buf * list buf * bool :=
  match n with
  | O => (b0, bs, m)
  | S n' => if (j <? length sets)%nat && negb (nth i sets 0 =? nth j sets 0)
            then sort_inner sets i (S j) n' b0 bs m
            else if d_stride (dim_at b0 j) <? d_stride (dim_at b0 i)
            then sort_inner sets i (S j) n' (swap_dims i j b0) (map (swap_dims i j) bs) true
            else sort_inner sets i (S j) n' b0 bs m
  end.
Fixpoint sort_outer (sets : list Z) (r i n : nat) (b0 : buf) (bs : list buf) (m : bool) : buf * list buf * bool :=
  match n with
  | O => (b0, bs, m)
  | S n' => let '(b0', bs', m') := sort_inner sets i (S i) (r - S i) b0 bs m in sort_outer sets r (S i) n' b0' bs' m'
  end.
Definition min_rank (b0 : buf) (bs : list buf) : nat := fold_left (fun r b => Nat.min r (rank b)) bs (rank b0).
Definition sort_dims (sets : list Z) (b0 : buf) (bs : list buf) : buf * list buf * bool :=
  let r := min_rank b0 bs in sort_outer sets r 0 (r - 1) b0 bs false.

(** buffer.h:944-955, optimize_dims with dim_sets *)
Definition optimize_dims_sets (sets : list Z) (b0 : buf) (bs : list buf) : buf * list buf :=
  let '(b1, bs1) := fuse_contiguous_dims sets b0 bs in
  let '(b2, bs2, modified) := sort_dims sets b1 bs1 in
  if modified then fuse_contiguous_dims sets b2 bs2 else (b2, bs2).

(** buffer.h:956-983, optimize_dims without dim_sets *)
Fixpoint slice_points (d : nat) (b0 : buf) (bs : list buf) : buf * list buf :=
  match d with                                 (* d - 1 is the dimension looked at *)
  | O => (b0, bs)
  | S d' => let at_ := d_min (dim_at b0 d') in
            if is_point (dim_at b0 d') && forallb (fun b => is_point_at (dim_at b d') at_) bs
            then slice_points d' (slice_at b0 d' at_) (map (fun b => slice_at b d' at_) bs)
            else slice_points d' b0 bs
  end.
Definition max_rank (b0 : buf) (bs : list buf) : nat := fold_left (fun r b => Nat.max r (rank b)) bs (rank b0).
Definition optimize_dims (b0 : buf) (bs : list buf) : buf * list buf :=
  let '(b1, bs1) := slice_points (max_rank b0 bs) b0 bs in
  let '(b2, bs2) := fuse_contiguous_dims [] b1 bs1 in
  let '(b3, bs3) := fuse_contiguous_dims [] b2 bs2 in
  let '(b4, bs4, modified) := sort_dims [] b3 bs3 in
  if modified then fuse_contiguous_dims [] b4 bs4 else (b4, bs4).
