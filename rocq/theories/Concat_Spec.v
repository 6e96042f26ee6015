(** What copies from several sources to parts of one destination mean. *)
From Coq Require Import ZArith List Bool Arith.
From Verif Require Import Arith_Model Buf_Model Buf_Spec ForEach_Spec Copy_Model Copy_Spec Expr_Model Stmt_Model Deps_Spec Const_Model VSem_Spec CopyStmt_Spec Concat_Model.
Import ListNotations.
Open Scope Z_scope.

(** Coordinates that are fixed ([Some]); [idx] has them, and what is left of a list without the fixed places. *)
Fixpoint agrees (sl : list (option Z)) (idx : list Z) : Prop :=
  match sl, idx with
  | Some v :: sl', x :: idx' => x = v /\ agrees sl' idx'
  | None :: sl', _ :: idx' => agrees sl' idx'
  | _, _ => True
  end.
Fixpoint unsliced {B} (sl : list (option Z)) (l : list B) : list B :=
  match sl, l with
  | Some _ :: sl', _ :: l' => unsliced sl' l'
  | None :: sl', x :: l' => x :: unsliced sl' l'
  | _, _ => l
  end.
(** Lower and upper limits of coordinates; [None] is no limit. *)
Definition limits : Type := option Z * option Z.
Definition limited (l : limits) (x : Z) : Prop :=
  match fst l with Some lo => lo <= x | None => True end /\ match snd l with Some hi => x <= hi | None => True end.
Fixpoint within (ls : list limits) (idx : list Z) : Prop :=
  match ls, idx with l :: ls', x :: idx' => limited l x /\ within ls' idx' | _, _ => True end.

(** The part that one input plays. *)
Record piece := Piece {
  p_slice : list (option Z);          (* where in the destination *)
  p_out : list limits;                (* limits of the destination, in the dimensions that are left *)
  p_in : list limits;                 (* limits of the source *)
  p_src : buf;
  p_coord : list Z -> list Z;         (* the coordinates in the source *)
  p_pad : option buf }.
(** The elements of the destination that the piece provides. *)
Definition covered (p : piece) (idx : list Z) : Prop := agrees (p_slice p) idx /\ within (p_out p) (unsliced (p_slice p) idx).
(** There is something of dimension [d] within the limits; and it has the coordinate [x], or is a broadcast. *)
Definition reach1 (d : dim) (l : limits) (x : Z) : bool :=
  let lo := match fst l with Some lo => lo | None => d_min d end in
  let hi := match snd l with Some hi => hi | None => d_max d end in
  (Z.max lo (d_min d) <=? Z.min hi (d_max d)) && ((d_stride d =? 0) || ((lo <=? x) && (x <=? hi))).
Fixpoint reach (ds : list dim) (ls : list limits) (c : nat -> Z) : bool :=
  match ds, ls with d :: ds', l :: ls' => reach1 d l (c O) && reach ds' ls' (fun k => c (S k)) | _, _ => true end.
(** The element that the piece has for an element of the destination. *)
Definition source (p : piece) (idx : list Z) : ptr :=
  let r := unsliced (p_slice p) idx in
  match (if reach (dims (p_src p)) (p_in p) (index (p_coord p r)) then locate (p_src p) (index (p_coord p r)) else None) with
  | Some s => Some s
  | None => match p_pad p with Some b => locate b (index r) | None => None end
  end.

(** Memory [m'] is [m] with each element of [bd] set to what the last of the pieces that cover it has for it, and nothing else changed. *)
Definition combined (bd : buf) (ps : list piece) (m m' : mem) : Prop :=
  (forall idx d l1 p l2 s k, in_bounds (dims bd) idx -> ps = l1 ++ p :: l2 -> covered p idx -> (forall q, In q l2 -> ~ covered q idx) ->
     locate bd (index idx) = Some d -> source p idx = Some s -> 0 <= k < elem_size bd -> m' (d + k) = m (s + k)) /\
  (forall a, (forall idx p d, in_bounds (dims bd) idx -> In p ps -> covered p idx -> locate bd (index idx) = Some d -> ~ (d <= a < d + elem_size bd)) -> m' a = m a).

(** The fixed coordinates are in the bounds of the destination; what the piece covers is there, and the piece has elements for it, which do
    not overlap the destination. *)
Record provided (bd : buf) (p : piece) : Prop := {
  pv_slice : forall k v, nth_error (p_slice p) k = Some (Some v) -> (k < rank bd)%nat -> d_min (dim_at bd k) <= v <= d_max (dim_at bd k);
  pv_there : forall idx, in_bounds (dims bd) idx -> covered p idx -> locate bd (index idx) <> None /\ source p idx <> None;
  pv_apart : forall idx idx', in_bounds (dims bd) idx -> in_bounds (dims bd) idx' -> covered p idx' -> apart (elem_size bd) (locate bd (index idx)) (source p idx') }.

(** A function that copies as slinky::copy does when there is something to copy for each element. *)
Definition copied_of (bd bs : buf) (pad : option buf) (f : list Z -> list Z) : list (ptr * ptr) :=
  match pad with Some bp => copied_or bd bs bp f | None => copied bd bs f end.
Definition does_copies (copy_v : buf -> buf -> option buf -> (list Z -> option (list Z)) -> mem -> mem) : Prop :=
  forall bs bd pad coord f m,
    (forall idx, in_bounds (dims bd) idx -> coord idx = Some (f idx)) ->
    (forall d s, In (d, s) (copied_of bd bs pad f) -> d <> None /\ s <> None) ->
    separate bd ->
    (forall d s d' s', In (d, s) (copied_of bd bs pad f) -> In (d', s') (copied_of bd bs pad f) -> apart (elem_size bd) d s') ->
    assigned (elem_size bd) (copied_of bd bs pad f) m (copy_v bs bd pad coord m).

(** How the expressions of an input give a piece. *)
Section Pieces.
  Variable X : Type.
  Variable H : host X.
  Definition gives (E : venv) (e : expr) (v : option Z) : Prop :=
    match v with Some z => defined e = true /\ veval X H E e = Val z | None => defined e = false end.
  Definition gives_limits (E : venv) (i : interval) (l : limits) : Prop := gives E (fst i) (fst l) /\ gives E (snd i) (snd l).
  Definition unused (x : nat) (i : interval) : Prop := ~ free x (fst i) /\ ~ free x (snd i).
  (** The symbols of the buffers are distinct, only they refer to the buffers that are cropped in place; the crops and the coordinates
      do not use the buffers (pipelines replace metadata of buffers by other symbols). *)
  Record piece_of (E : venv) (i : copy_input) (dst : copy_output) (bd : buf) (p : piece) : Prop := {
    po_src : exists k, E (ci_sym i) = Buffer k (p_src p) /\ (ci_input_crop i <> [] -> alone k = true);
    po_syms : ci_sym i <> co_sym dst /\ ~ In (ci_sym i) (co_dims dst) /\ ~ In (co_sym dst) (co_dims dst);
    po_points : Forall (fun x => same (fst x) (snd x) = true) (ci_bounds i);
    po_slice : Forall2 (gives E) (ci_output_slice i) (p_slice p);
    po_out : Forall2 (gives_limits E) (ci_output_crop i) (p_out p);
    po_in : Forall2 (gives_limits E) (ci_input_crop i) (p_in p);
    po_unused : Forall (fun x => unused (ci_sym i) x /\ unused (co_sym dst) x) (ci_output_crop i ++ ci_input_crop i ++ ci_bounds i);
    po_coord : forall idx, in_bounds (dims bd) idx -> covered p idx -> let r := unsliced (p_slice p) idx in
      vlist X H (at_values E (co_dims dst) r) (map fst (ci_bounds i)) = Val (p_coord p r) }.
End Pieces.

(** *** Concatenation and stacks *)
(** [bs] concatenated along dimension [dim]: the i-th buffer, starting at 0, is at [bounds i, bounds (i + 1)). *)
Definition concat_at (bounds : list Z) (dim : nat) (i : nat) (idx : list Z) : Prop :=
  nth i bounds 0 <= nth dim idx 0 < nth (S i) bounds 0.
Definition concat_source (bs : list buf) (bounds : list Z) (dim : nat) (i : nat) (idx : list Z) : ptr :=
  locate (nth i bs (Buf None 0 [])) (index (set_nth idx dim (nth dim idx 0 - nth i bounds 0))).
(** The i-th buffer of a stack is at index i of dimension [dim]; its dimensions are the first of the others. *)
Definition stack_source (bs : list buf) (dim : nat) (i : nat) (idx : list Z) : ptr :=
  locate (nth i bs (Buf None 0 [])) (index (remove_nth idx dim)).

(** What the sources and the destination of a concatenation must be: [srcs] are the symbols and ranks of the sources, [bs] their buffers,
    [bd] the one of the destination, [bz] the values of [bounds]. The bounds do not use the buffers or the coordinates; each element of a source's
    part of the destination is there and has an element of the source; and no source overlaps the destination. *)
Record concat_ready (H : host mem) (E : venv) (srcs : list (nat * nat)) (dst : copy_output) (rank_ dim : nat) (bounds : list expr) (bz : list Z) (bs : list buf) (bd : buf) : Prop := {
  cr_some : srcs <> [];
  cr_count : length bounds = S (length srcs);
  cr_dim : (dim < rank_)%nat /\ Forall (fun s => snd s = rank_) srcs;
  cr_rank : length (co_dims dst) = rank_ /\ rank bd = rank_;
  cr_dims : NoDup (co_dims dst) /\ ~ In (co_sym dst) (co_dims dst);
  cr_dst : (exists k, E (co_sym dst) = Buffer k bd /\ alone k = true) /\ separate bd;
  cr_src : Forall2 (fun s b => (exists k, E (fst s) = Buffer k b /\ alone k = true) /\ (rank b <= rank_)%nat /\ fst s <> co_sym dst /\ ~ In (fst s) (co_dims dst) /\
    (forall d, In d (dims b) -> d_stride d = 0 -> d_min d <= 0 <= d_max d)) srcs bs;
  cr_bounds : Forall2 (fun e z => veval mem H E e = Val z /\ - 2 ^ 62 < z < 2 ^ 62) bounds bz;
  cr_free : forall e x, In e bounds -> free x e -> x <> co_sym dst /\ ~ In x (co_dims dst) /\ ~ In x (map fst srcs);
  cr_there : forall i idx, (i < length srcs)%nat -> in_bounds (dims bd) idx -> concat_at bz dim i idx -> locate bd (index idx) <> None /\ concat_source bs bz dim i idx <> None;
  cr_apart : forall i idx idx', (i < length srcs)%nat -> in_bounds (dims bd) idx -> in_bounds (dims bd) idx' -> concat_at bz dim i idx' ->
    apart (elem_size bd) (locate bd (index idx)) (concat_source bs bz dim i idx') }.
(** The same of a stack, along dimension [dim]; the destination has the indices 0, ..., n - 1 of that dimension. *)
Record stack_ready (E : venv) (srcs : list (nat * nat)) (dst : copy_output) (rank_ dim : nat) (bs : list buf) (bd : buf) : Prop := {
  sr_some : srcs <> [];
  sr_dim : (dim < rank_)%nat;
  sr_rank : length (co_dims dst) = rank_ /\ rank bd = rank_;
  sr_dims : NoDup (co_dims dst) /\ ~ In (co_sym dst) (co_dims dst);
  sr_dst : (exists k, E (co_sym dst) = Buffer k bd /\ alone k = true) /\ separate bd;
  sr_src : Forall2 (fun s b => (exists k, E (fst s) = Buffer k b) /\ (rank b <= snd s)%nat /\ fst s <> co_sym dst /\ ~ In (fst s) (co_dims dst)) srcs bs;
  sr_in : d_min (dim_at bd dim) <= 0 /\ Z.of_nat (length srcs) - 1 <= d_max (dim_at bd dim);
  sr_there : forall i idx, (i < length srcs)%nat -> in_bounds (dims bd) idx -> nth dim idx 0 = Z.of_nat i -> locate bd (index idx) <> None /\ stack_source bs dim i idx <> None;
  sr_apart : forall i idx idx', (i < length srcs)%nat -> in_bounds (dims bd) idx -> in_bounds (dims bd) idx' -> nth dim idx' 0 = Z.of_nat i ->
    apart (elem_size bd) (locate bd (index idx)) (stack_source bs dim i idx') }.
