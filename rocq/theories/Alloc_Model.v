(** Model of the choice of strides and of allocation sizes
    (slinky/runtime/buffer.cc:19-259, slinky/runtime/buffer.h:422-454).

    index_t is 64 bits: products and sums go through the overflow-checked
    operations of Arith_Model.v.  Extents (max - min + 1, or the fold factor) are
    computed exactly: that they are representable is a hypothesis of the theorems.
    elem_size is a std::size_t, 0 <= elem_size < 2^64. *)
From Coq Require Import ZArith List Bool Lia.
From Verif Require Import Arith_Model Buf_Model.
Import ListNotations.
Open Scope Z_scope.

(** [overflow = overflow || op(..., out)]: when the flag is already set the
    operation is not run and [out] keeps its value. *)
Definition ov (o : bool) (r : bool * Z) (old : Z) : bool * Z := if o then (true, old) else r.

(** buffer.cc:19-26 *)
Definition alloc_extent (d : dim) : Z := if 0 <? d_fold d then d_fold d else extent d.

(** buffer.cc:28-56; [Some (flat_min, flat_max)] when it returns true. *)
Fixpoint flat_bounds_loop (ds : list dim) (lo hi : Z) (o : bool) : option (Z * Z) :=
  match ds with
  | [] => if o then None else Some (lo, hi)
  | d :: ds' =>
      if d_stride d =? 0 then flat_bounds_loop ds' lo hi o
      else
        let e := alloc_extent d in
        if e =? 0 then Some (0, 0)
        else
          let s := d_stride d in
          let o := o || ((s =? auto_stride) && (1 <? e)) in
          let '(o, e1) := ov o (sub_with_overflow 64 e 1) 0 in
          let '(o, tmin) := ov o (mul_with_overflow 64 e1 (Z.min 0 s)) 0 in
          let '(o, lo) := ov o (add_with_overflow 64 lo tmin) lo in
          let '(o, tmax) := ov o (mul_with_overflow 64 e1 (Z.max 0 s)) 0 in
          let '(o, hi) := ov o (add_with_overflow 64 hi tmax) hi in
          flat_bounds_loop ds' lo hi o
  end.
Definition calculate_flat_bounds (ds : list dim) : option (Z * Z) := flat_bounds_loop ds 0 0 false.

(** add_with_overflow on std::size_t *)
Definition uadd_with_overflow (a b : Z) : bool * Z := if a + b <? 2 ^ 64 then (false, a + b) else (true, 0).

(** buffer.cc:58-77 alloc_size, and buffer.cc:81 size_bytes *)
Definition alloc_size (elem_size : Z) (ds : list dim) : Z :=
  if existsb (fun d => alloc_extent d =? 0) ds then 0
  else match calculate_flat_bounds ds with
       | None => 0
       | Some (lo, hi) =>
           let '(o, span) := sub_with_overflow 64 hi lo in
           if o then 0
           else let '(o2, size) := uadd_with_overflow span elem_size in if o2 then 0 else size
       end.
Definition size_bytes (b : buf) : Z := alloc_size (elem_size b) (dims b).
(** buffer.cc:83-89, elem_count; the product is modulo 2^64 *)
Definition elem_count (b : buf) : Z := fold_left (fun r d => (r * Z.max 0 (extent d)) mod 2 ^ 64) (dims b) 1.

(** buffer.h:49-56, align_up of a pointer: (p + a - 1) & ~(a - 1), a a power of 2;
    null stays null *)
Definition align_mask (x a : Z) : Z := Z.land x (Z.lnot (a - 1)).
Definition align_up_ptr (p : ptr) (a : Z) : ptr := match p with Some x => Some (align_mask (x + a - 1) a) | None => None end.

(** buffer.cc:91-111, make.  [hdr] = sizeof(raw_buffer), [dsz] = sizeof(dim), [dal] =
    alignof(dim); [mem] is what malloc returned.  The result is the buffer and the
    number of bytes requested.  [dims] null is [None].  The size is a std::size_t sum
    (modulo 2^64). *)
Definition make (hdr dsz dal : Z) (rank : nat) (elem_size : Z) (ds : option (list dim)) (alignment mem : Z) : buf * Z * Z :=
  let data_size := match ds with
                   | Some l => alloc_size elem_size l
                   | None => if (rank =? 0)%nat then alloc_size elem_size [] else 0
                   end in
  let unaligned := hdr + dsz * Z.of_nat rank + data_size in
  let size := (unaligned + dal - 1 + alignment - 1) mod 2 ^ 64 in
  let mem1 := align_mask (mem + hdr + dal - 1) dal in
  let '(dims', mem2) := match ds with
                        | Some l => if (0 <? rank)%nat then (l, mem1 + dsz * Z.of_nat rank) else (l, mem1)
                        | None => (repeat (Dim 0 (-1) auto_stride unfolded) rank, mem1)
                        end in
  let base := if 0 <? data_size then Some mem2 else None in
  (Buf (align_up_ptr base alignment) elem_size dims', size, data_size).

(** ** Strides *)
(** buffer.cc:134-142, init_stride_dim *)
Record known := Known { k_stride : Z; k_dim_stride : Z }.

(** buffer.cc:144-160, is_stride_ok: the result and the new overflow flag *)
Definition stride_fits (stride dim_stride : Z) (k : known) : bool :=
  (dim_stride <=? k_stride k) || (k_dim_stride k <=? stride).
Definition is_stride_ok (stride e : Z) (ks : list known) (o : bool) : bool * bool :=
  let '(o1, ds) := mul_with_overflow 64 stride e in
  if o1 then (false, true) else (forallb (stride_fits stride ds) ks, o).

(** std::lower_bound by dim_stride: the elements before and from the position *)
Fixpoint lower_bound (ks : list known) (x : Z) : list known * list known :=
  match ks with
  | [] => ([], [])
  | k :: ks' => if k_dim_stride k <? x then let '(a, b) := lower_bound ks' x in (k :: a, b) else ([], ks)
  end.

(** buffer.h:533-543, copy_small_n_backward(dims_end, n, dims_end + 1): up to 4
    elements are shifted by one; more (the default case) calls std::copy_backward
    with the wrong ends: it copies from past the end of the known elements, which
    are uninitialised and in general outside the array, so [UB]. *)
Definition shift_insert (before tail : list known) (d : known) : res (list known) :=
  if (length tail <=? 4)%nat then Val (before ++ d :: tail) else UB.

(** The state of init_strides_impl: the known dims, flat_max, the overflow flag. *)
Record sstate := SState { s_known : list known; s_max : Z; s_over : bool }.

(** buffer.cc:173-187, learn_dim *)
Definition learn_dim (st : sstate) (stride e : Z) : res sstate :=
  let '(o, ds) := ov (s_over st) (mul_with_overflow 64 stride e) 0 in
  let d := Known stride ds in
  let '(a, b) := lower_bound (s_known st) ds in
  ks <- shift_insert a b d ;;
  let '(o, diff) := ov o (sub_with_overflow 64 ds stride) 0 in
  let '(o, m) := ov o (add_with_overflow 64 (s_max st) diff) (s_max st) in
  Val (SState ks m o).

(** buffer.cc:189-211, the first loop: the new dims and the state.  The range of
    unknown dimensions is not kept: the second loop skips the others itself. *)
Fixpoint learn_known (es : Z) (ds : list dim) (st : sstate) : res (list dim * sstate) :=
  match ds with
  | [] => Val ([], st)
  | d :: ds' =>
      if d_stride d =? 0 then
        r <- learn_known es ds' st ;; let '(l, st') := r in Val (d :: l, st')
      else if alloc_extent d <=? 1 then
        r <- learn_known es ds' st ;; let '(l, st') := r in
        Val ((if d_stride d =? auto_stride then set_stride d es else d) :: l, st')
      else if negb (d_stride d =? auto_stride) then
        let '(st1, s) := if d_stride d =? imin 64 then (SState (s_known st) (s_max st) true, 0) else (st, d_stride d) in
        st2 <- learn_dim st1 (Z.abs s) (alloc_extent d) ;;
        r <- learn_known es ds' st2 ;; let '(l, st') := r in Val (d :: l, st')
      else
        r <- learn_known es ds' st ;; let '(l, st') := r in Val (d :: l, st')
  end.

(** buffer.cc:229-240: the candidates just outside each known dimension; [all] is
    the whole list of known dims, [ks] what remains of the loop.  [None]: the loop ended
    without a choice. *)
Fixpoint find_candidate (e al : Z) (all ks : list known) (o : bool) : option Z * bool :=
  match ks with
  | [] => (None, o)
  | k :: ks' =>
      let '(o, padded) := ov o (add_with_overflow 64 (k_dim_stride k) (al - 1)) 0 in
      let c := align_mask padded al in
      match ks' with
      | [] => (Some c, o)                              (* the last one is taken as it is *)
      | _ => let '(ok, o) := is_stride_ok c e all o in
             if ok then (Some c, o) else find_candidate e al all ks' o
      end
  end.

(** buffer.cc:213-242, the second loop *)
Fixpoint assign_unknown (es al : Z) (ds : list dim) (st : sstate) : res (list dim * sstate) :=
  match ds with
  | [] => Val ([], st)
  | d :: ds' =>
      if negb (d_stride d =? auto_stride) then
        r <- assign_unknown es al ds' st ;; let '(l, st') := r in Val (d :: l, st')
      else
        let e := alloc_extent d in
        let '(ok, o) := is_stride_ok es e (s_known st) (s_over st) in
        let st := SState (s_known st) (s_max st) o in
        if ok then
          st1 <- learn_dim st es e ;;
          r <- assign_unknown es al ds' st1 ;; let '(l, st') := r in Val (set_stride d es :: l, st')
        else
          let '(c, o) := find_candidate e al (s_known st) (s_known st) (s_over st) in
          let st := SState (s_known st) (s_max st) o in
          match c with
          | Some c =>
              st1 <- learn_dim st c e ;;
              r <- assign_unknown es al ds' st1 ;; let '(l, st') := r in Val (set_stride d c :: l, st')
          | None =>
              r <- assign_unknown es al ds' st ;; let '(l, st') := r in Val (d :: l, st')
          end
  end.

(** buffer.cc:244-250 and buffer.h:444-449: the size, rounded down to the alignment
    after adding alignment - 1; [None] is std::nullopt *)
Definition finish_size (es al size : Z) (o : bool) : option Z :=
  let '(o, size) := ov o (add_with_overflow 64 size es) size in
  let '(o, size) := ov o (add_with_overflow 64 size (al - 1)) size in
  if o then None else Some (align_mask size al).

(** buffer.cc:164-251.  The size_t elem_size is used as an index_t ([es]); sizes that
    do not fit set the overflow flag. *)
Definition as_index (x : Z) : Z := wrap 64 x.
Definition init_strides_impl (b : buf) (al : Z) : res (buf * option Z) :=
  let es := as_index (elem_size b) in
  r1 <- learn_known es (dims b) (SState [] 0 (es <? 0)) ;;
  let '(ds1, st1) := r1 in
  r2 <- assign_unknown es al ds1 st1 ;;
  let '(ds2, st2) := r2 in
  Val (Buf (base b) (elem_size b) ds2, finish_size es al (s_max st2) (s_over st2)).

(** buffer.h:422-454 *)
Definition init_strides (b : buf) (al : Z) : res (buf * option Z) :=
  let es := as_index (elem_size b) in
  match dims b with
  | [] => Val (b, finish_size es al 0 (es <? 0))
  | [d] =>
      if (d_fold d =? unfolded) && (0 <=? d_stride d) then
        let d' := if d_stride d =? auto_stride then set_stride d es else d in
        let '(o, size) := ov (es <? 0) (sub_with_overflow 64 (d_max d) (d_min d)) 0 in
        let '(o, size) := ov o (mul_with_overflow 64 (Z.max size 0) (d_stride d')) size in
        Val (Buf (base b) (elem_size b) [d'], finish_size es al size o)
      else init_strides_impl b al
  | _ => init_strides_impl b al
  end.

(** buffer.cc:253-259, allocate: [mem] is what malloc returned; the result is the
    buffer and the number of bytes requested ([None]: returned nullptr) *)
Definition allocate (b : buf) (base_al stride_al mem : Z) : res (buf * option Z) :=
  r <- init_strides b stride_al ;;
  let '(b', size) := r in
  match size with
  | None => Val (b', None)
  | Some n => Val (Buf (Some (align_mask (mem + base_al - 1) base_al)) (elem_size b') (dims b'), Some (n + base_al - 1))
  end.
