(** Model of copy and pad of slinky (slinky/runtime/buffer.cc:261-483).

    Conventions and simplifications (besides those of Buf_Model.v and ForEach_Model.v).
    - Memory is a function from byte addresses to bytes; a buffer's bytes are in it.
      The local array of a fill (fill_value_buffer) is a list of its initialized
      prefix, outside of this memory.
    - [None] is undefined behaviour: memcpy or memset with a null pointer, a negative
      size or overlapping ranges, reading uninitialized locals, a failed assert.
    - src, dst and pad are different raw_buffer objects, so the address comparisons of
      for_each_element ("is this the same object as the first buffer") are false.
    - copy_impl restores the buffers it slices, so only memory is its result. *)
From Coq Require Import ZArith List Bool Lia.
From Verif Require Import Buf_Model ForEach_Model.
Import ListNotations.
Open Scope Z_scope.

Definition mem := Z -> Z.

(** the C library's memcpy *)
Definition memcpy (m : mem) (dst src : ptr) (n : Z) : option mem :=
  match dst, src with
  | Some d, Some s =>
      if n <? 0 then None
      else if (0 <? n) && (d <? s + n) && (s <? d + n) then None
      else Some (fun a => if (d <=? a) && (a <? d + n) then m (s + (a - d)) else m a)
  | _, _ => None
  end.
(** the C library's memset *)
Definition memset (m : mem) (dst : ptr) (byte n : Z) : option mem :=
  match dst with
  | Some d => if n <? 0 then None else Some (fun a => if (d <=? a) && (a <? d + n) then byte else m a)
  | None => None
  end.

(** A fill value: a pointer into memory, or the local array. *)
Inductive value := VPtr (p : ptr) | VArray (bytes : list Z).
(** memcpy from a fill value *)
Definition memcpy_value (m : mem) (dst : ptr) (v : value) (n : Z) : option mem :=
  match v with
  | VPtr p => memcpy m dst p n
  | VArray l =>
      match dst with
      | Some d => if (n <? 0) || (Z.of_nat (length l) <? n) then None
                  else Some (fun a => if (d <=? a) && (a <? d + n) then nth (Z.to_nat (a - d)) l 0 else m a)
      | None => None
      end
  end.
Definition first_byte (m : mem) (v : value) : option Z :=
  match v with VPtr (Some p) => Some (m p) | VPtr None => None | VArray l => hd_error l end.

(** buffer.cc:264-273, is_repeated_byte: the loop from i with n iterations left *)
Fixpoint is_repeated_from (m : mem) (p i : Z) (n : nat) : bool :=
  match n with
  | O => true
  | S n' => if negb (m p =? m (p + i)) then false else is_repeated_from m p (i + 1) n'
  end.
Definition is_repeated_byte (m : mem) (p size : Z) : bool := is_repeated_from m p 1 (Z.to_nat (size - 1)).

(** buffer.cc:275-288, fill *)
Fixpoint fill_loop (fuel : nat) (m : mem) (dst : ptr) (v : value) (es size : Z) : option mem :=
  match fuel with
  | O => None
  | S fuel' =>
      if es <=? size
      then match memcpy_value m dst v es with
           | Some m' => fill_loop fuel' m' (offset_bytes dst es) v es (size - es)
           | None => None
           end
      else memcpy_value m dst v size
  end.
Definition fill (m : mem) (dst : ptr) (v : value) (es size : Z) : option mem :=
  if es =? 1
  then match first_byte m v with Some b => memset m dst b size | None => None end
  else if es <=? 0 then None
  else fill_loop (S (Z.to_nat size)) m dst v es size.

(** buffer.cc:293-310, optimize_fill_value; the array has 64 bytes *)
Definition read_bytes (m : mem) (p n : Z) : list Z := map (fun k => m (p + Z.of_nat k)) (seq 0 (Z.to_nat n)).
Fixpoint double_loop (fuel : nat) (arr : list Z) (es target : Z) : list Z * Z :=
  match fuel with
  | O => (arr, es)
  | S fuel' => if es * 2 <=? target
               then double_loop fuel' (firstn (Z.to_nat es) arr ++ firstn (Z.to_nat es) arr) (es * 2) target
               else (arr, es)
  end.
Definition optimize_fill_value (m : mem) (p : ptr) (es fill_size : Z) : option (value * Z) :=
  match p with
  | None => None
  | Some a =>
      if is_repeated_byte m a es then Some (VPtr p, 1)
      else let target := Z.min 64 fill_size in
           if es * 2 <=? target
           then let '(arr, es') := double_loop (Z.to_nat target) (read_bytes m a es) es target in Some (VArray arr, es')
           else Some (VPtr p, es)
  end.

(** buffer.cc:312-319, slice_dim0, on the buffer (the dimension is [dim_at b 0]) *)
Definition slice_dim0 (b : buf) : buf := Buf (base b) (elem_size b) (tl (dims b)).

Definition ptr_eqb (p q : ptr) : bool :=
  match p, q with Some a, Some b => a =? b | None, None => true | _, _ => false end.

(** The callbacks of copy_impl, run for each call of for_each_*.
    buffer.cc:344-345, memcpy of a contiguous slice *)
Fixpoint run_slices (es : Z) (calls : list (Z * list ptr)) (m : mem) : option mem :=
  match calls with
  | [] => Some m
  | (n, [d; s]) :: rest => match memcpy m d s (n * es) with Some m' => run_slices es rest m' | None => None end
  | _ => None
  end.
(** buffer.cc:352-368, fill of the innermost dimension, with the cached value *)
Fixpoint run_fills (es size : Z) (calls : list (list ptr)) (cached : ptr) (val : option (value * Z)) (m : mem) : option mem :=
  match calls with
  | [] => Some m
  | [d; s] :: rest =>
      let '(cached', val') := if ptr_eqb cached s then (cached, val) else (s, optimize_fill_value m s es size) in
      match val' with
      | Some (v, e) => match fill m d v e size with Some m' => run_fills es size rest cached' val' m' | None => None end
      | None => None
      end
  | _ => None
  end.
(** buffer.cc:377, memcpy of the innermost dimension *)
Fixpoint run_copies (size : Z) (calls : list (list ptr)) (m : mem) : option mem :=
  match calls with
  | [] => Some m
  | [d; s] :: rest => match memcpy m d s size with Some m' => run_copies size rest m' | None => None end
  | _ => None
  end.

(** buffer.cc:331-383, copy_impl *)
Definition copy_impl (m : mem) (src dst : buf) : option mem :=
  let es := elem_size dst in
  let d0 := dim_at dst 0 in
  let s0 := dim_at src 0 in
  if empty d0 then Some m
  else if (0 <? d_fold d0) || (0 <? d_fold s0) || negb (d_stride d0 =? es) ||
          (negb (d_stride s0 =? 0) && negb (d_stride s0 =? es))
  then run_slices es (for_each_contiguous_slice dst [(false, src)]) m
  else
    let dst' := slice_dim0 dst in
    let src' := slice_dim0 src in
    let dst_size := extent d0 * es in
    if d_stride s0 =? 0
    then run_fills es dst_size (for_each_element dst' [(false, src')]) None None m
    else let src'' := Buf (offset_bytes (base src') (d_offset s0 (d_min d0))) (elem_size src') (dims src') in
         run_copies dst_size (for_each_element dst' [(false, src'')]) m.

(** buffer.cc:392-420, pad_impl; [d] counts down, dimension [d - 1] is next.  The
    result has the cropped src and dst. *)
Fixpoint pad_loop (d : nat) (m : mem) (src dst pad : buf) : option (mem * buf * buf) :=
  match d with
  | O => Some (m, src, dst)
  | S d' =>
      let sd := dim_at src d' in
      if is_broadcast sd then pad_loop d' m src dst pad
      else
        let dd := dim_at dst d' in
        match (if d_min dd <? d_min sd then copy_impl m pad (crop dst d' (d_min dd) (d_min sd - 1)) else Some m) with
        | None => None
        | Some m1 =>
            match (if d_max sd <? d_max dd then copy_impl m1 pad (crop dst d' (d_max sd + 1) (d_max dd)) else Some m1) with
            | None => None
            | Some m2 =>
                pad_loop d' m2 (crop src d' (d_min dd) (d_max dd)) (crop dst d' (d_min sd) (d_max sd)) pad
            end
        end
  end.
Definition pad_impl (m : mem) (src dst pad : buf) : option (mem * buf * buf) :=
  pad_loop (Nat.min (rank src) (rank dst)) m src dst pad.

(** buffer.cc:424-457, copy *)
Definition copy (m : mem) (src dst pad : buf) : option mem :=
  if (0 <? rank src)%nat && match base pad with None => false | Some _ => true end
  then match optimize_dims dst [src; pad] with
       | (dst', [src'; pad']) =>
           match pad_impl m src' dst' pad' with
           | None => None
           | Some (m', src'', dst'') => if ptr_eqb (base src'') (base dst'') then Some m' else copy_impl m' src'' dst''
           end
       | _ => None
       end
  else match optimize_dims dst [src] with
       | (dst', [src']) => copy_impl m src' dst'
       | _ => None
       end.

(** buffer.cc:459-483, pad *)
Definition pad_bounds (es : Z) (n : nat) (in_bounds : list dim) : buf :=
  Buf None es (map (fun d => Dim (d_min d) (d_max d) 0 (d_fold d)) (firstn n in_bounds)).
Definition pad (m : mem) (in_bounds : list dim) (dst pad : buf) : option mem :=
  if (rank dst =? 0)%nat then Some m
  else if (length in_bounds <? rank dst)%nat then None
  else match optimize_dims dst [pad_bounds (elem_size dst) (rank dst) in_bounds; pad] with
       | (dst', [src'; pad']) =>
           match pad_impl m src' dst' pad' with Some (m', _, _) => Some m' | None => None end
       | _ => None
       end.
