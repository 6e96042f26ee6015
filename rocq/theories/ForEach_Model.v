(** Model of the buffer iteration of slinky (slinky/runtime/buffer.cc:513-925 and
    slinky/runtime/buffer.h:984-1060): for_each_element and
    for_each_contiguous_slice.

    Conventions and simplifications (besides those of Buf_Model.v).
    - The plan, an array of for_each_loop records of run-time size in the C++, is a
      list of loops, outermost first; "the last loop" is the end of the list.  The
      impl pointer of a record is the constructor of the loop; the replacement of the
      impl of the last loop (for_each_impl_call_f, CallF = true) is the match on the
      rest of the plan in [run_plan].
    - The first buffer is separate; every other buffer carries a flag that says
      whether it is the same object (&buf_n == &buf) as the first.
    - Callbacks do not change the buffers; a run is the list of its calls, in order.
    - The type erased callback gets (slice_extent, bases, extent, strides); the
      wrappers of buffer.h:1025-1060 are [unroll].
    - index_t is unbounded. *)
From Coq Require Import ZArith List Bool Lia.
From Verif Require Import Buf_Model.
Import ListNotations.
Open Scope Z_scope.

(** buffer.cc:513-533, is_contiguous_slice *)
Definition is_contiguous_slice (b0 : buf) (bs : list (bool * buf)) (d : nat) : bool :=
  if negb (d_stride (dim_at b0 d) =? elem_size b0) then false
  else forallb (fun p => let '(same, b) := p in
                 if same || match base b with None => true | _ => false end then true
                 else d_stride (dim_at b d) =? elem_size b) bs.

(** buffer.cc:535-580, can_fuse; d > 0 *)
Definition can_fuse_bufs (b0 : buf) (bs : list (bool * buf)) (d : nat) : bool :=
  let base_inner := dim_at b0 (d - 1) in
  let base_outer := dim_at b0 d in
  let inner_extent := extent base_inner in
  if negb (d_stride base_inner * inner_extent =? d_stride base_outer) then false
  else if negb (d_stride base_outer =? 0) && (0 <? d_fold base_inner) then false
  else forallb (fun p => let '(same, b) := p in
                 if same || match base b with None => true | _ => false end then true
                 else if (rank b <? d)%nat then true
                 else
                   let inner := dim_at b (d - 1) in
                   if negb (d_min inner =? d_min base_inner) || negb (d_max inner =? d_max base_inner) then false
                   else
                     let outer_stride := d_stride (dim_at b d) in
                     if negb (d_stride inner * inner_extent =? outer_stride) then false
                     else negb (negb (outer_stride =? 0) && (0 <? d_fold inner))) bs.

(** buffer.cc:586-613, use_nonlinear_loop *)
Definition use_nonlinear_loop (b0 : buf) (bs : list (bool * buf)) (d : nat) : bool :=
  let buf_dim := dim_at b0 d in
  if is_folded buf_dim then true
  else existsb (fun p => let '(same, b) := p in
                 if same || match base b with None => true | _ => false end then false
                 else if (rank b <=? d)%nat then false
                 else let dn := dim_at b d in
                      is_folded_dim dn buf_dim || negb (d_contains_dim dn buf_dim)) bs.

(** buffer.cc:627-640, for_each_loop *)
Inductive loop :=
| Linear (extent : Z) (strides : list Z)
| Nonlinear (fold_factor : Z) (dims : list dim) (contiguous : bool).

(** buffer.cc:660-668, a call of the type erased callback *)
Record call := Call { c_slice_extent : Z; c_bases : list ptr; c_extent : Z; c_strides : list Z }.

(** buffer.h:986-995, increment_bases *)
Fixpoint increment_bases (bases : list ptr) (strides : list Z) : list ptr :=
  match bases, strides with
  | p :: bases', s :: strides' => offset_bytes p s :: increment_bases bases' strides'
  | _, _ => bases
  end.

(** buffer.cc:679-694, call_impl_linear: the loop body runs at least once *)
Fixpoint linear_loop {A} (n : nat) (bases : list ptr) (strides : list Z) (impl : list ptr -> list A) : list A :=
  match n with
  | O => []
  | S n' => impl bases ++ match n' with
                          | O => []
                          | _ => linear_loop n' (increment_bases bases strides) strides impl
                          end
  end.
Definition call_impl_linear {A} (extent : Z) (bases : list ptr) (strides : list Z) (impl : list ptr -> list A) : list A :=
  linear_loop (Z.to_nat (Z.max 1 extent)) bases strides impl.

(** buffer.cc:733-752, the loop over the buffers n >= 1 that computes the bases of a
    chunk which starts at i, and its end *)
Fixpoint chunk_bases (bases : list ptr) (ds : list dim) (i max_i : Z) : list ptr * Z :=
  match bases, ds with
  | None :: bases', _ :: ds' =>
      let '(r, m) := chunk_bases bases' ds' i max_i in (None :: r, m)
  | Some a :: bases', dn :: ds' =>
      let '(p, max_i') :=
        if d_stride dn =? 0 then (Some a, max_i)
        else if d_contains dn i then (Some (a + d_offset dn i), Z.min max_i (d_max dn))
        else (None, if i <? d_min dn then Z.min max_i (d_min dn - 1) else max_i) in
      let '(r, m) := chunk_bases bases' ds' i max_i' in (p :: r, m)
  | _, _ => ([], max_i)
  end.

(** buffer.cc:728-767, run_one_fold.  [body] gets the bases, the extent and the slice
    extent factor of each chunk.  A chunk has at least one index, so max - min + 1
    iterations suffice. *)
Fixpoint run_one_fold {A} (fuel : nat) (dim_0 : dim) (ds : list dim) (contiguous : bool) (base0 : ptr) (bases : list ptr)
    (i max : Z) (body : list ptr -> Z -> Z -> list A) : list A :=
  match fuel with
  | O => []
  | S fuel' =>
      if i <=? max then
        let b0 := offset_bytes base0 (d_offset dim_0 i) in
        let '(bi, max_i) := chunk_bases bases ds i max in
        let n := max_i - i + 1 in
        body (b0 :: bi) (if contiguous then 1 else n) (if contiguous then n else 1)
          ++ run_one_fold fuel' dim_0 ds contiguous base0 bases (max_i + 1) max body
      else []
  end.

(** slinky/runtime/arithmetic.h align_up *)
Definition align_up (x n : Z) : Z := ((x + n - 1) / n) * n.

(** buffer.cc:783-786, the loop over the whole folds *)
Fixpoint fold_loop {A} (fuel : nat) (fold_factor i max : Z) (one : Z -> Z -> list A) : list A :=
  match fuel with
  | O => []
  | S fuel' => if i <=? max
               then one i (Z.min (i + fold_factor - 1) max) ++ fold_loop fuel' fold_factor (i + fold_factor) max one
               else []
  end.

Definition size (lo hi : Z) : nat := Z.to_nat (hi - lo + 1).

(** buffer.cc:709-788, for_each_impl_nonlinear *)
Definition nonlinear_loop {A} (fold_factor : Z) (ds : list dim) (contiguous : bool) (bases : list ptr)
    (body : list ptr -> Z -> Z -> list A) : list A :=
  match ds, bases with
  | dim_0 :: ds', base0 :: bases' =>
      let lo := d_min dim_0 in
      let hi := d_max dim_0 in
      let one a b := run_one_fold (size a b) dim_0 ds' contiguous base0 bases' a b body in
      if fold_factor <=? 0 then one lo hi
      else let first_fold := align_up lo fold_factor in
           (if negb (lo =? first_fold) then one lo (Z.min (first_fold - 1) hi) else [])
             ++ fold_loop (size first_fold hi) fold_factor first_fold hi one
  | _, _ => []
  end.

(** buffer.cc:670-707, for_each_impl_linear and for_each_impl_call_f, and the two
    forms of the body of for_each_impl_nonlinear (:758-763) *)
Fixpoint run_plan (plan : list loop) (bases : list ptr) (slice_extent : Z) : list call :=
  match plan with
  | [] => [Call slice_extent bases 1 []]              (* :903, no loops *)
  | Linear e strides :: rest =>
      match rest with
      | [] => [Call slice_extent bases e strides]
      | _ => call_impl_linear e bases strides (fun b => run_plan rest b slice_extent)
      end
  | Nonlinear fold ds contiguous :: rest =>
      let strides := map d_stride ds in
      nonlinear_loop fold ds contiguous bases
        (fun b extent_i factor =>
           match rest with
           | [] => [Call (factor * slice_extent) b extent_i strides]
           | _ => call_impl_linear extent_i b strides (fun b' => run_plan rest b' (factor * slice_extent))
           end)
  end.

(** buffer.cc:790-794, gcd_fold_factor.  gcd is Z.gcd on positive numbers (C04). *)
Definition gcd_fold_factor (a b : Z) : Z :=
  if a <=? 0 then b else if b <=? 0 then a else Z.gcd a b.

(** buffer.cc:837-848, the dims and fold factor of a nonlinear loop *)
Definition loop_dims (b0 : buf) (bs : list (bool * buf)) (d : nat) : list dim :=
  dim_at b0 d :: map (fun p => if (d <? rank (snd p))%nat then dim_at (snd p) d else broadcast) bs.
Definition loop_fold (b0 : buf) (bs : list (bool * buf)) (d : nat) : Z :=
  fold_left (fun f p => if (d <? rank (snd p))%nat then gcd_fold_factor f (d_fold (dim_at (snd p) d)) else f)
            bs (d_fold (dim_at b0 d)).

(** buffer.cc:857-880, aligning the bases *)
Definition align_base0 (bd : dim) (p : ptr) : ptr :=
  if 0 <? d_fold bd then offset_bytes p (d_offset bd (d_min bd)) else p.
Definition align_base (bd : dim) (d : nat) (b : buf) (p : ptr) : ptr :=
  match p with
  | None => None
  | Some a => if (d <? rank b)%nat
              then let dn := dim_at b d in
                   if d_contains_dim dn bd then Some (a + d_offset dn (d_min bd)) else None
              else Some a
  end.
Fixpoint align_bases (bd : dim) (d : nat) (bs : list (bool * buf)) (ps : list ptr) : list ptr :=
  match bs, ps with
  | (_, b) :: bs', p :: ps' => align_base bd d b p :: align_bases bd d bs' ps'
  | _, _ => []
  end.

(** buffer.cc:814-901, the planning loop: dimension [d - 1] down to 0.  Returns the
    plan (the loops from here inwards), the aligned bases and the slice extent. *)
Fixpoint plan_loop (skip_contiguous : bool) (b0 : buf) (bs : list (bool * buf)) (d : nat)
    (base0 : ptr) (bases : list ptr) (ext slice_extent : Z) : list loop * (ptr * list ptr) * Z :=
  match d with
  | O => ([], (base0, bases), slice_extent)
  | S d' =>
      let bd := dim_at b0 d' in
      let contig := skip_contiguous && is_contiguous_slice b0 bs d' in
      if negb (d_min bd =? d_max bd) && ((d_max bd <? d_min bd) || use_nonlinear_loop b0 bs d')
      then let '(plan, bb, se) := plan_loop skip_contiguous b0 bs d' base0 bases 1 slice_extent in
           (Nonlinear (loop_fold b0 bs d') (loop_dims b0 bs d') contig :: plan, bb, se)
      else
        let ext' := if d_min bd =? d_max bd then ext else ext * (d_max bd - d_min bd + 1) in
        let base0' := align_base0 bd base0 in
        let bases' := align_bases bd d' bs bases in
        if (ext' =? 1) || ((0 <? d')%nat && can_fuse_bufs b0 bs d')
        then plan_loop skip_contiguous b0 bs d' base0' bases' ext' slice_extent
        else if contig
        then plan_loop skip_contiguous b0 bs d' base0' bases' 1 (slice_extent * ext')
        else let '(plan, bb, se) := plan_loop skip_contiguous b0 bs d' base0' bases' 1 slice_extent in
             (Linear ext' (d_stride bd :: map (fun p => d_stride (dim_at (snd p) d')) bs) :: plan, bb, se)
  end.

(** buffer.cc:796-925, for_each_impl *)
Definition for_each_rank (b0 : buf) (bs : list (bool * buf)) : nat :=
  fold_left (fun r p => Nat.max r (rank (snd p))) bs (rank b0).
Definition for_each_impl (skip_contiguous : bool) (b0 : buf) (bs : list (bool * buf)) : list call :=
  let '(plan, (p0, ps), slice_extent) :=
    plan_loop skip_contiguous b0 bs (for_each_rank b0 bs) (base b0) (map (fun p => base (snd p)) bs) 1 1 in
  run_plan plan (p0 :: ps) slice_extent.

(** buffer.h:1025-1060, the wrappers: each erased call is a loop of calls of f.  The
    list is of the arguments of f: the slice extent (for contiguous slices) and the
    pointers. *)
Definition unroll (c : call) : list (Z * list ptr) :=
  call_impl_linear (c_extent c) (c_bases c) (c_strides c) (fun b => [(c_slice_extent c, b)]).
Definition for_each_contiguous_slice (b0 : buf) (bs : list (bool * buf)) : list (Z * list ptr) :=
  flat_map unroll (for_each_impl true b0 bs).
Definition for_each_element (b0 : buf) (bs : list (bool * buf)) : list (list ptr) :=
  map snd (flat_map unroll (for_each_impl false b0 bs)).
