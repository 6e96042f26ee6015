(** C26: fusing, sorting and optimizing the dimensions of buffers (buffer.h:763-983). *)
From Coq Require Import ZArith List Bool Lia Permutation.
From Verif Require Import Buf_Model Buf_Spec ForEach_Spec BufDims_Spec BufDims_Proofs.
Import ListNotations.
Open Scope Z_scope.

(** Fusing one pair of dimensions: the element at [x] of the inner and [y] of the outer
    dimension is the one at [y * extent + (x - min)] of the fused dimension. *)
Theorem C26_fuse_dim : forall inner outer x y,
  can_fuse inner outer = true -> dim_ok inner -> dim_ok outer ->
  d_min inner <= x <= d_max inner ->
  (is_point outer = true -> d_stride outer <> 0 ->
     d_fold inner = unfolded /\ d_stride inner <> 0 /\ d_fold outer = unfolded) ->
  oadd (place inner x) (place outer y) =
  place (fuse inner outer) (y * (d_max inner - d_min inner + 1) + (x - d_min inner)).
Proof.
  intros i o x y H Hi Ho Hx Hp. destruct (can_fuse_extent i o H) as [_ E]. rewrite <- E.
  apply fuse_place; try assumption.
  destruct (Z.eq_dec (d_stride o) 0) as [S|S]; [now left|]. destruct (Z.eq_dec (d_min o) (d_max o)) as [P|P]; [|now right; left].
  right. right. unfold is_point in Hp. destruct (Hp ltac:(lia) S) as (A & B & C). split; [now left|]. split; [assumption|now left].
Qed.

(** attempt_fuse: if it fuses a pair of dimensions of all the buffers, the first has one
    dimension less and the elements are the same. *)
Theorem C26_attempt_fuse : forall inner outer b0 bs b0' bs',
  (inner < outer < rank b0)%nat -> fusable_first b0 -> Forall (fusable b0) bs ->
  attempt_fuse inner outer b0 bs = Some (b0', bs') ->
  same_elements b0 bs b0' bs' /\ rank b0 = S (rank b0').
Proof.
  intros inner outer b0 bs b0' bs' H F Fs E. destruct (attempt_fuse_step _ _ _ _ _ _ H (conj F Fs) E) as (_ & S & R & _).
  split; [assumption|]. lia.
Qed.

Theorem C26_fuse_contiguous_dims : forall sets b0 bs b0' bs',
  fusable_first b0 -> Forall (fusable b0) bs ->
  fuse_contiguous_dims sets b0 bs = (b0', bs') -> same_elements b0 bs b0' bs'.
Proof. intros sets b0 bs b0' bs' F Fs E. now apply (fuse_contiguous_dims_step _ _ _ _ _ (conj F Fs)) in E. Qed.

(** sort_dims needs nothing: all buffers have the dimensions it swaps. *)
Theorem C26_sort_dims : forall sets b0 bs b0' bs' m,
  sort_dims sets b0 bs = (b0', bs', m) ->
  same_elements b0 bs b0' bs' /\ Permutation (dims b0) (dims b0') /\
  (sets = [] -> forall i j, (i < j < min_rank b0 bs)%nat -> d_stride (dim_at b0' i) <= d_stride (dim_at b0' j)).
Proof.
  intros sets b0 bs b0' bs' m E. split; [|split].
  - unfold sort_dims in E.
    destruct (sort_outer_rel (fun b1 bs1 => same_elements b0 bs b1 bs1)
      (min_rank b0 bs) sets (min_rank b0 bs - 1) 0 b0 bs false b0' bs' m) as [G _]; try assumption; [|lia|apply min_rank_ranks|apply Permutation_refl].
    intros i j b1 bs1 H [R1 R2] G2.
    eapply Permutation_trans; [exact G2|]. apply swap_visits; [lia|].
    eapply Forall_impl; [|exact R2]; cbn beta; intros; lia.
  - eapply sort_dims_permutation. exact E.
  - intros ->. eapply sort_dims_sorted. exact E.
Qed.

Theorem C26_optimize_dims : forall b0 bs b0' bs',
  fusable_first b0 -> Forall (fusable b0) bs ->
  optimize_dims b0 bs = (b0', bs') -> same_elements b0 bs b0' bs'.
Proof. intros b0 bs b0' bs' F Fs E. now apply (optimize_dims_step _ _ _ _ (conj F Fs)) in E. Qed.
Theorem C26_optimize_dims_sets : forall sets b0 bs b0' bs',
  fusable_first b0 -> Forall (fusable b0) bs ->
  optimize_dims_sets sets b0 bs = (b0', bs') -> same_elements b0 bs b0' bs'.
Proof. intros sets b0 bs b0' bs' F Fs E. now apply (optimize_dims_sets_step _ _ _ _ _ (conj F Fs)) in E. Qed.

(** A 2 x 3 x 1 buffer of 4-byte elements and one that broadcasts its dimension 1, both
    optimized together: only the first has contiguous dimensions 0 and 1, so they are
    not fused; two copies of the first fuse to one dimension; with a third buffer that
    is folded in dimension 1, dimensions 0 and 1 fuse to a folded one. *)
Definition ex_b0 : buf := Buf (Some 100) 4 [Dim 1 2 4 unfolded; Dim 0 2 8 unfolded; Dim 5 5 24 unfolded].
Definition ex_b1 : buf := Buf (Some 500) 4 [Dim 1 2 4 unfolded; Dim 0 2 0 unfolded].
Definition ex_b2 : buf := Buf (Some 900) 4 [Dim 1 2 (-4) unfolded; Dim 0 4 (-8) 2; Dim 0 9 100 unfolded].
Lemma ex_b0_first : fusable_first ex_b0.
Proof.
  split; [repeat constructor; right; left; reflexivity|]. split; [right|]; intros d [<-|[<-|[<-|[]]]]; cbn [d_stride d_fold]; auto; lia.
Qed.
Lemma ex_b1_fusable : fusable ex_b0 ex_b1.
Proof. split; [repeat constructor; right; left; reflexivity|]. left. intros d [<-|[<-|[]]]; cbn; try discriminate; auto. Qed.
Lemma ex_b2_fusable : fusable ex_b0 ex_b2.
Proof.
  split; [repeat constructor; unfold dim_ok, unfolded; cbn; lia|]. left. intros d [<-|[<-|[<-|[]]]]; cbn; try discriminate; auto.
Qed.
Lemma ex_b0_fusable : fusable ex_b0 ex_b0.
Proof.
  split; [repeat constructor; right; left; reflexivity|]. right. split; [|left]; intros d [<-|[<-|[<-|[]]]]; cbn [d_stride d_fold]; auto; lia.
Qed.
Example C26_ex_fused : optimize_dims ex_b0 [ex_b0] =
  (Buf (Some 100) 4 [Dim 0 5 4 unfolded], [Buf (Some 100) 4 [Dim 0 5 4 unfolded]]).
Proof. reflexivity. Qed.
Example C26_ex_fold : fuse_contiguous_dims [] ex_b0 [ex_b2] =
  (Buf (Some 100) 4 [Dim 0 5 4 unfolded; Dim 5 5 24 unfolded], [Buf (Some 900) 4 [Dim 0 9 (-4) 4; Dim 0 9 100 unfolded]]).
Proof. reflexivity. Qed.
Example C26_ex_same : same_elements ex_b0 [ex_b1; ex_b2; ex_b0] (fst (optimize_dims ex_b0 [ex_b1; ex_b2; ex_b0])) (snd (optimize_dims ex_b0 [ex_b1; ex_b2; ex_b0])).
Proof.
  apply C26_optimize_dims; [exact ex_b0_first| |apply surjective_pairing].
  constructor; [exact ex_b1_fusable|]. constructor; [exact ex_b2_fusable|]. constructor; [exact ex_b0_fusable|constructor].
Qed.

(** ** Where the claim fails: a point with a stride always fuses, whatever its stride *)

(** ... into a folded dimension: the elements at (2, 0) and (3, 0) are then found at
    other addresses. *)
Definition bad_fold : buf := Buf (Some 0) 1 [Dim 2 3 1 3; Dim 0 0 6 unfolded].
Theorem C26_folded_point_refuted :
  let '(b', _) := fuse_contiguous_dims [] bad_fold [] in
  rank b' = 1%nat /\ tuples bad_fold [] = [[Some 2]; [Some 0]] /\ tuples b' [] = [[Some 0]; [Some 1]].
Proof. cbn. auto. Qed.

(** ... into a broadcast dimension: indices of the first buffer that are out of bounds
    of the second are in bounds after optimizing. *)
Definition bad_dst : buf := Buf (Some 0) 1 [Dim 0 1 1 unfolded; Dim 0 1 2 unfolded].
Definition bad_src : buf := Buf (Some 50) 1 [Dim 0 1 0 unfolded; Dim 0 0 2 unfolded].
Theorem C26_broadcast_point_refuted :
  let '(b', bs') := optimize_dims bad_dst [bad_src] in
  tuples bad_dst [bad_src] = [[Some 0; Some 50]; [Some 1; Some 50]; [Some 2; None]; [Some 3; None]] /\
  tuples b' bs' = [[Some 0; Some 50]; [Some 1; Some 50]; [Some 2; Some 50]; [Some 3; Some 50]].
Proof. cbn. auto. Qed.

(** ... and a broadcast of more than one index in the first buffer, fused with an outer
    broadcast, loses its other indices. *)
Definition bad_first : buf := Buf (Some 0) 1 [Dim 0 1 0 unfolded; broadcast].
Theorem C26_first_broadcast_refuted :
  let '(b', bs') := optimize_dims bad_first [bad_dst] in
  tuples bad_first [bad_dst] = [[Some 0; Some 0]; [Some 0; Some 1]] /\ tuples b' bs' = [[Some 0; Some 0]].
Proof. cbn. auto. Qed.

(** The sets of dimensions that may be fused or sorted together are not kept after a
    fuse: here dimensions 0, 1 are one set, 2, 3 another, and all four are fused. *)
Definition four_dims : buf :=
  Buf (Some 0) 1 [Dim 0 1 4 unfolded; Dim 0 1 8 unfolded; Dim 0 1 1 unfolded; Dim 0 1 2 unfolded].
Theorem C26_dim_sets_refuted :
  optimize_dims_sets [0; 0; 1; 1] four_dims [] = (Buf (Some 0) 1 [Dim 0 15 1 unfolded], []).
Proof. reflexivity. Qed.
