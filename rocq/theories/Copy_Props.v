(** C24, C25: copy and pad (buffer.h:749-757, buffer.cc:261-483). *)
From Coq Require Import ZArith List Bool Lia.
From Verif Require Import Buf_Model Buf_Spec ForEach_Spec BufDims_Spec Copy_Model Copy_Spec Copy_Proofs CopyPad_Proofs.
Import ListNotations.
Open Scope Z_scope.

(** A copy without padding (no padding buffer, or a source of rank 0, which has an
    element at every index): every element of [dst] gets the element of [src] at the
    same index and nothing else changes, for any shapes, strides, broadcasts and folds
    - [dst]'s elements are separate, and the source does not overlap them;
    - every index of [dst] is in bounds of [src] (the documented requirement);
    - a dimension of stride 0 of [dst] is a single index, and neither buffer has both a
      folded dimension and a single-index dimension with a stride (C26: those are fused
      wrongly);
    - a folded [dst] has at most one contiguous dimension (C23). *)
Theorem C24_copy : forall m src dst pad,
  0 < elem_size dst -> elem_size src = elem_size dst -> fusable_first dst -> dims_ok src ->
  no_strided_points src \/ no_folds src ->
  no_folds dst \/ one_contiguous_dim dst ->
  (forall idx, in_bounds (dims dst) idx -> locate dst (index idx) <> None /\ locate src (index idx) <> None) ->
  separate dst -> no_overlap dst src -> base pad = None \/ rank src = O ->
  exists m', copy m src dst pad = Some m' /\ assigned (elem_size dst) (elementwise dst src) m m'.
Proof. exact copy_unpadded. Qed.

(** A padded copy: elements in bounds of [src] get [src]'s, the others [pad]'s, and
    nothing else changes; [src] does not overlap [dst], or is in place: where it is in
    bounds, at the same address.  The source's dimensions of stride 0 are broadcasts
    ([0, 0], which have every index in bounds), and it does not have both those and
    single-index dimensions with a stride. *)
Theorem C24_copy_padded : forall m src dst pad,
  0 < elem_size dst -> elem_size src = elem_size dst -> elem_size pad = elem_size dst ->
  fusable_first dst -> no_folds dst ->
  dims_ok src -> no_folds src -> base src <> None -> (rank src <= rank dst)%nat ->
  (forall d, In d (dims src) -> d_stride d = 0 -> is_broadcast d = true) ->
  no_strided_points src \/ no_broadcasts src ->
  dims_ok pad -> no_strided_points pad \/ no_folds pad -> base pad <> None ->
  (forall idx, in_bounds (dims dst) idx -> locate dst (index idx) <> None /\ locate pad (index idx) <> None) ->
  separate dst -> no_overlap dst pad ->
  no_overlap dst src \/
  ((0 < rank src)%nat /\ forall idx, in_bounds (dims dst) idx -> locate src (index idx) <> None -> locate src (index idx) = locate dst (index idx)) ->
  exists m', copy m src dst pad = Some m' /\ assigned (elem_size dst) (elementwise_or dst src pad) m m'.
Proof. intros. apply copy_padded; auto. repeat (split; [assumption|]). assumption. Qed.

(** pad: elements of [dst] out of [bounds] get [pad]'s and nothing else changes; bounds
    [0, 0] are taken for a broadcast, so there [dst] is within them. *)
Theorem C24_pad : forall m bounds dst pad,
  0 < elem_size dst -> elem_size pad = elem_size dst -> (rank dst <= length bounds)%nat ->
  fusable_first dst -> no_folds dst \/ one_contiguous_dim dst -> dims_ok pad -> no_strided_points pad \/ no_folds pad ->
  (forall idx, in_bounds (dims dst) idx -> locate dst (index idx) <> None /\ locate pad (index idx) <> None) ->
  separate dst -> no_overlap dst pad ->
  (forall k, (k < rank dst)%nat -> d_min (nth k bounds broadcast) = 0 -> d_max (nth k bounds broadcast) = 0 ->
     0 <= d_min (dim_at dst k) /\ d_max (dim_at dst k) <= 0) ->
  exists m', Copy_Model.pad m bounds dst pad = Some m' /\ assigned (elem_size dst) (elementwise_outside bounds dst pad) m m'.
Proof. exact pad_ok. Qed.

(** Filling [size] bytes at [d] with the [es] bytes at [s], whichever way is chosen: as
    bytes, as words of up to 64 bytes, or element by element. *)
Theorem C25_fill : forall m es s d size, 0 < es -> 0 <= size ->
  (forall a, d <= a < d + size -> ~ (s <= a < s + es)) ->
  exists v e m', optimize_fill_value m (Some s) es size = Some (v, e) /\ fill m (Some d) v e size = Some m' /\
    (forall j, 0 <= j < size -> m' (d + j) = m (s + j mod es)) /\
    (forall a, ~ (d <= a < d + size) -> m' a = m a).
Proof.
  intros m es s d size Hes Hs Ha. destruct (optimize_fill_ok m es s size Hes) as (v & e & E & St).
  destruct (fill_ok m es s v e d size Hes St Hs Ha) as (m' & F & A & B). exists v, e, m'. auto.
Qed.
(** Filling a buffer: copying a single element, at [v], to it. *)
Theorem C25_fill_buffer : forall m v dst pad,
  0 < elem_size dst -> fusable_first dst -> no_folds dst \/ one_contiguous_dim dst ->
  (forall idx, in_bounds (dims dst) idx -> exists d, locate dst (index idx) = Some d /\ (d + elem_size dst <= v \/ v + elem_size dst <= d)) ->
  separate dst ->
  exists m', copy m (Buf (Some v) (elem_size dst) []) dst pad = Some m' /\
    (forall idx d k, in_bounds (dims dst) idx -> locate dst (index idx) = Some d -> 0 <= k < elem_size dst -> m' (d + k) = m (v + k)) /\
    (forall a, (forall idx d, in_bounds (dims dst) idx -> locate dst (index idx) = Some d -> ~ (d <= a < d + elem_size dst)) -> m' a = m a).
Proof.
  intros m v dst pad Hes Hf Hone Hin Hsep.
  assert (Lv : forall idx, locate (Buf (Some v) (elem_size dst) []) (index idx) = Some v).
  { intros idx. unfold locate. cbn [base dims place_all oadd]. f_equal. lia. }
  destruct (C24_copy m (Buf (Some v) (elem_size dst) []) dst pad) as (m' & R & A1 & A2); auto.
  - constructor.
  - left. intros d [].
  - intros idx Hi. rewrite Lv. destruct (Hin idx Hi) as (d & -> & _). split; discriminate.
  - intros i j Hi Hj. rewrite Lv. destruct (Hin i Hi) as (d & -> & H). exact H.
  - exists m'. split; [assumption|]. split.
    + intros idx d k Hi Hd Hk. apply A1; [|assumption]. apply in_elementwise. exists idx. rewrite Hd, Lv. auto.
    + intros a Ha. apply A2. intros d s Ho. apply in_elementwise in Ho. destruct Ho as (idx & Hi & E). injection E as E _. now apply (Ha idx).
Qed.

(** ** Examples: a 3 x 2 destination of 4-byte elements with a row stride of 16, at 1000,
    copied from a transposed source at 2000 and padded from a single element at 3000. *)
Definition ex_dst : buf := Buf (Some 1000) 4 [Dim 0 2 4 unfolded; Dim 0 1 16 unfolded].
Definition ex_src : buf := Buf (Some 2000) 4 [Dim 0 4 8 unfolded; Dim (-1) 1 40 unfolded].
Definition ex_psrc : buf := Buf (Some 2000) 4 [Dim 1 4 8 unfolded; Dim 1 7 40 unfolded].
Definition ex_pad : buf := Buf (Some 3000) 4 [].
Lemma ex_in : forall idx, in_bounds (dims ex_dst) idx -> exists x y, idx = [x; y] /\ 0 <= x <= 2 /\ 0 <= y <= 1 /\ locate ex_dst (index idx) = Some (1000 + 4 * x + 16 * y).
Proof.
  intros [|x [|y [|z l]]] H; cbn in H; try tauto. exists x, y. split; [reflexivity|]. split; [lia|]. split; [lia|].
  unfold locate. cbn [ex_dst base dims place_all index nth]. rewrite !BufDims_Proofs.place_some by (cbn; lia). cbn [d_stride d_fold d_min]. cbv [Z.eqb Pos.eqb unfolded oadd]. f_equal. lia.
Qed.
Lemma ex_dst_ok : fusable_first ex_dst /\ no_folds ex_dst /\ separate ex_dst.
Proof.
  split; [|split].
  - split; [repeat constructor; right; left; reflexivity|]. split; [right|]; intros d [<-|[<-|[]]]; cbn [d_stride d_fold]; auto; lia.
  - intros d [<-|[<-|[]]]; cbn; auto.
  - intros i j Hi Hj N. destruct (ex_in i Hi) as (x & y & -> & Hx & Hy & ->). destruct (ex_in j Hj) as (x' & y' & -> & Hx' & Hy' & ->).
    cbn [apart elem_size ex_dst]. assert (x <> x' \/ y <> y') by (destruct (Z.eq_dec x x'); [destruct (Z.eq_dec y y'); [subst; congruence|auto]|auto]). lia.
Qed.
Lemma ex_src_loc : forall x y, 0 <= x <= 2 -> 0 <= y <= 1 -> locate ex_src (index [x; y]) = Some (2040 + 8 * x + 40 * y).
Proof.
  intros x y Hx Hy. unfold locate. cbn [ex_src base dims place_all index nth]. rewrite !BufDims_Proofs.place_some by (cbn; lia). cbn [d_stride d_fold d_min]. cbv [Z.eqb Pos.eqb unfolded oadd]. f_equal. lia.
Qed.
Example C24_ex_copy : forall m, exists m', copy m ex_src ex_dst (Buf None 0 []) = Some m' /\
  assigned 4 (elementwise ex_dst ex_src) m m' /\ m' 1020 = m 2088.
Proof.
  intros m. destruct ex_dst_ok as (F & NF & S).
  destruct (C24_copy m ex_src ex_dst (Buf None 0 [])) as (m' & R & A); auto.
  - cbn; lia.
  - repeat constructor; right; left; reflexivity.
  - right. intros d [<-|[<-|[]]]; cbn; auto.
  - intros idx Hi. destruct (ex_in idx Hi) as (x & y & -> & Hx & Hy & ->). rewrite ex_src_loc by assumption. split; discriminate.
  - intros i j Hi Hj. destruct (ex_in i Hi) as (x & y & -> & Hx & Hy & ->). destruct (ex_in j Hj) as (x' & y' & -> & Hx' & Hy' & _).
    rewrite ex_src_loc by assumption. cbn [apart elem_size ex_dst]. lia.
  - exists m'. split; [assumption|]. split; [exact A|]. destruct A as [A _]. specialize (A 1020 2088 0).
    cbn [elem_size ex_dst] in A. change (1020 + 0) with 1020 in A. change (2088 + 0) with 2088 in A. apply A; [|lia].
    apply in_elementwise. exists [1; 1]. split; [cbn; lia|reflexivity].
Qed.
Lemma ex_psrc_loc : forall x y p, 0 <= x <= 2 -> 0 <= y <= 1 -> locate ex_psrc (index [x; y]) = Some p -> p = 2000 + 8 * (x - 1) + 40 * (y - 1) /\ 1 <= x /\ 1 <= y.
Proof.
  intros x y p Hx Hy H.
  assert (X : 1 <= x).
  { destruct (Z_le_dec 1 x) as [X|X]; [assumption|exfalso]. apply (BufDims_Proofs.locate_place ex_psrc (index [x; y]) 0 ltac:(cbn; lia)); [congruence|].
    apply BufDims_Proofs.place_none; cbn; lia. }
  assert (Y : 1 <= y).
  { destruct (Z_le_dec 1 y) as [Y|Y]; [assumption|exfalso]. apply (BufDims_Proofs.locate_place ex_psrc (index [x; y]) 1 ltac:(cbn; lia)); [congruence|].
    apply BufDims_Proofs.place_none; cbn; lia. }
  unfold locate in H. cbn [ex_psrc base dims place_all index nth] in H.
  rewrite !BufDims_Proofs.place_some in H by (cbn; lia). cbn [d_stride d_fold d_min] in H. cbv [Z.eqb Pos.eqb unfolded oadd] in H. assert (E : forall a b : Z, Some a = Some b -> a = b) by congruence. apply E in H. lia.
Qed.
Example C24_ex_padded : forall m, exists m', copy m ex_psrc ex_dst ex_pad = Some m' /\
  assigned 4 (elementwise_or ex_dst ex_psrc ex_pad) m m' /\ m' 1020 = m 2000 /\ m' 1016 = m 3000.
Proof.
  intros m. destruct ex_dst_ok as (F & NF & S).
  destruct (C24_copy_padded m ex_psrc ex_dst ex_pad) as (m' & R & A); auto.
  - cbn; lia.
  - repeat constructor; right; left; reflexivity.
  - intros d [<-|[<-|[]]]; cbn; auto.
  - discriminate.
  - intros d [<-|[<-|[]]]; cbn; lia.
  - right. intros d [<-|[<-|[]]]; cbn; lia.
  - constructor.
  - left. intros d [].
  - discriminate.
  - intros idx Hi. destruct (ex_in idx Hi) as (x & y & -> & Hx & Hy & ->). split; discriminate.
  - intros i j Hi Hj. destruct (ex_in i Hi) as (x & y & -> & Hx & Hy & ->). change (locate ex_pad (index j)) with (Some 3000). cbn [apart elem_size ex_dst]. lia.
  - left. intros i j Hi Hj. destruct (ex_in i Hi) as (x & y & -> & Hx & Hy & ->). destruct (ex_in j Hj) as (x' & y' & -> & Hx' & Hy' & _).
    destruct (locate ex_psrc (index [x'; y'])) as [p|] eqn:E; [|exact I]. apply ex_psrc_loc in E; [|assumption|assumption]. cbn [apart elem_size ex_dst]. lia.
  - exists m'. split; [assumption|]. split; [exact A|]. destruct A as [A _]. cbn [elem_size ex_dst] in A. split.
    + specialize (A 1020 2000 0). change (1020 + 0) with 1020 in A. change (2000 + 0) with 2000 in A. apply A; [|lia].
      apply in_elementwise_or. exists [1; 1]. split; [cbn; lia|reflexivity].
    + specialize (A 1016 3000 0). change (1016 + 0) with 1016 in A. change (3000 + 0) with 3000 in A. apply A; [|lia].
      apply in_elementwise_or. exists [0; 1]. split; [cbn; lia|reflexivity].
Qed.
Example C24_ex_pad : forall m, exists m', Copy_Model.pad m [Dim 1 1 0 unfolded; Dim (-5) 0 0 unfolded] ex_dst ex_pad = Some m' /\
  m' 1000 = m 3000 /\ m' 1004 = m 1004 /\ m' 1020 = m 3000.
Proof.
  intros m. destruct ex_dst_ok as (F & NF & S).
  destruct (C24_pad m [Dim 1 1 0 unfolded; Dim (-5) 0 0 unfolded] ex_dst ex_pad) as (m' & R & A & B); auto.
  - cbn; lia.
  - constructor.
  - left. intros d [].
  - intros idx Hi. destruct (ex_in idx Hi) as (x & y & -> & Hx & Hy & ->). split; discriminate.
  - intros i j Hi Hj. destruct (ex_in i Hi) as (x & y & -> & Hx & Hy & ->). change (locate ex_pad (index j)) with (Some 3000). cbn [apart elem_size ex_dst]. lia.
  - intros [|[|k]] Hk; cbn in *; lia.
  - assert (W : forall x y, 0 <= x <= 2 -> 0 <= y <= 1 -> outside [Dim 1 1 0 unfolded; Dim (-5) 0 0 unfolded] [x; y] = true ->
      m' (1000 + 4 * x + 16 * y) = m 3000).
    { intros x y Hx Hy Ho. specialize (A (1000 + 4 * x + 16 * y) 3000 0). rewrite !Z.add_0_r in A. apply A; [|cbn; lia].
      unfold elementwise_outside. apply in_map_iff. exists [x; y].
      assert (Hi : in_bounds (dims ex_dst) [x; y]) by (cbn; lia).
      split; [|apply filter_In; split; [apply ForEach_Props.in_box; exact Hi|assumption]].
      destruct (ex_in _ Hi) as (x' & y' & E & _ & _ & ->). injection E as -> ->. reflexivity. }
    exists m'. split; [exact R|]. split; [apply (W 0 0); [lia|lia|reflexivity]|]. split; [|apply (W 1 1); [lia|lia|reflexivity]].
    apply B. intros d s Ho. unfold elementwise_outside in Ho. apply in_map_iff in Ho. destruct Ho as (idx & E & Hi).
    apply filter_In in Hi. destruct Hi as [Hi Hout]. apply ForEach_Props.in_box in Hi. destruct (ex_in _ Hi) as (x & y & -> & Hx & Hy & L). rewrite L in E.
    assert (D : d = 1000 + 4 * x + 16 * y) by congruence. clear E L. cbn [elem_size ex_dst]. assert (x <> 1 \/ y <> 0); [|lia]. destruct (Z.eq_dec x 1) as [->|]; [|auto]. destruct (Z.eq_dec y 0) as [->|]; [discriminate|auto].
Qed.
Example C25_ex_fill : forall m, exists m', copy m ex_pad ex_dst (Buf None 0 []) = Some m' /\ m' 1021 = m 3001 /\ m' 1012 = m 1012.
Proof.
  intros m. destruct ex_dst_ok as (F & NF & S).
  destruct (C25_fill_buffer m 3000 ex_dst (Buf None 0 [])) as (m' & R & A & B); auto.
  - cbn; lia.
  - intros idx Hi. destruct (ex_in idx Hi) as (x & y & -> & Hx & Hy & ->). eexists. split; [reflexivity|]. cbn [elem_size ex_dst]. lia.
  - exists m'. split; [exact R|]. split.
    + specialize (A [1; 1] 1020 1). cbn [elem_size ex_dst] in A. apply A; [cbn; lia|reflexivity|lia].
    + apply B. intros idx d Hi Hd. destruct (ex_in idx Hi) as (x & y & -> & Hx & Hy & E). rewrite E in Hd. assert (D : d = 1000 + 4 * x + 16 * y) by congruence. cbn [elem_size ex_dst]. lia.
Qed.

(** ** Where the claims fail *)
Definition same : mem := fun a => a.
(** pad with bounds [0, 0]: [0, 0] without a stride looks like a broadcast, so index 1 is
    not padded. *)
Theorem C24_pad_point_refuted : exists m',
  Copy_Model.pad same [Dim 0 0 1 unfolded] (Buf (Some 10) 1 [Dim 0 1 1 unfolded]) (Buf (Some 90) 1 []) = Some m' /\
  outside [Dim 0 0 1 unfolded] [1] = true /\ locate (Buf (Some 10) 1 [Dim 0 1 1 unfolded]) (index [1]) = Some 11 /\ m' 11 = 11.
Proof. eexists. split; [reflexivity|]. repeat split. Qed.
(** A padded copy from a source with a dimension of stride 0 and a single index with a
    stride: they are fused to a broadcast, and elements out of bounds are not padded. *)
Definition bad_src : buf := Buf (Some 50) 1 [Dim 5 5 0 unfolded; Dim 0 0 1 unfolded].
Definition bad_dst : buf := Buf (Some 10) 1 [Dim 5 5 1 unfolded; Dim 0 3 1 unfolded].
Theorem C24_padded_broadcast_refuted : exists m',
  copy same bad_src bad_dst (Buf (Some 90) 1 []) = Some m' /\
  locate bad_src (index [5; 3]) = None /\ locate bad_dst (index [5; 3]) = Some 13 /\ m' 13 = 50.
Proof. eexists. split; [reflexivity|]. split; [reflexivity|]. split; reflexivity. Qed.
(** A padded copy from a source whose dimension of stride 0 is not [0, 0]: every index is
    in bounds of it (dim::contains, buffer.h:107-110), but those out of its range are padded. *)
Theorem C24_padded_stride0_refuted : exists m',
  copy same (Buf (Some 50) 1 [Dim 0 1 0 unfolded]) (Buf (Some 10) 1 [Dim 0 2 1 unfolded]) (Buf (Some 90) 1 []) = Some m' /\
  locate (Buf (Some 50) 1 [Dim 0 1 0 unfolded]) (index [2]) = Some 50 /\ m' 12 = 90.
Proof. eexists. split; [reflexivity|]. split; reflexivity. Qed.
(** A padded copy of one element from [src] at 50 to a folded [dst] at 51, whose storage
    begins at 50: the buffers are taken to be the same, and nothing is copied. *)
Theorem C24_padded_folded_refuted : exists m',
  copy same (Buf (Some 50) 1 [Dim 1 1 1 unfolded; Dim 0 1 7 unfolded]) (Buf (Some 50) 1 [Dim 1 1 1 2; Dim 0 1 2 unfolded]) (Buf (Some 90) 1 []) = Some m' /\
  locate (Buf (Some 50) 1 [Dim 1 1 1 2; Dim 0 1 2 unfolded]) (index [1; 0]) = Some 51 /\ m' 51 <> 50.
Proof. eexists. split; [reflexivity|]. split; [reflexivity|]. vm_compute. discriminate. Qed.
