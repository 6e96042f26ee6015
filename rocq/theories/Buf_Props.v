(** Properties of cropping, slicing, translating, transposing and addressing
    buffers (C18, C19, C20, C38, C40, C42), stated with the specification of
    Buf_Spec.v: [locate b idx] is the address of the element of [b] at [idx]. *)
From Coq Require Import ZArith List Bool Lia Sorted.
From Verif Require Import Buf_Model Buf_Spec Buf_Proofs BufSlice_Proofs.
Import ListNotations.
Open Scope Z_scope.

(** A three dimensional example used below: dimension 1 is folded by 4. *)
Definition ex_buf : buf := Buf (Some 1000) 2 [Dim 0 9 2 unfolded; Dim 3 8 20 4; Dim (-1) 5 80 unfolded].

(** ** C18: crop *)
Theorem C18_crop_bounds : forall b d lo hi k, (d < rank b)%nat ->
  rank (crop b d lo hi) = rank b /\ elem_size (crop b d lo hi) = elem_size b /\
  d_min (dim_at (crop b d lo hi) k) = (if (k =? d)%nat then Z.max lo (d_min (dim_at b k)) else d_min (dim_at b k)) /\
  d_max (dim_at (crop b d lo hi) k) = (if (k =? d)%nat then Z.min hi (d_max (dim_at b k)) else d_max (dim_at b k)) /\
  d_stride (dim_at (crop b d lo hi) k) = d_stride (dim_at b k) /\
  d_fold (dim_at (crop b d lo hi) k) = d_fold (dim_at b k).
Proof.
  intros b d lo hi k L. split; [apply crop_rank|]. split.
  { unfold crop. destruct (rank b <=? d)%nat; reflexivity. }
  assert (dim_at (crop b d lo hi) k = if (k =? d)%nat
    then set_bounds (dim_at b d) (Z.max lo (d_min (dim_at b d))) (Z.min hi (d_max (dim_at b d))) else dim_at b k) as ->.
  { unfold dim_at at 1. rewrite crop_dims by exact L. apply nth_set_nth. exact L. }
  destruct (Nat.eqb_spec k d) as [->|N]; cbn [set_bounds d_min d_max d_stride d_fold]; auto.
Qed.

(** Every element with its coordinate within the crop stays where it was, and the
    cropped buffer has no other elements. *)
Theorem C18_crop_keeps_addresses : forall b d lo hi idx, (d < rank b)%nat ->
  lo <= idx d <= hi -> d_min (dim_at b d) <= idx d <= d_max (dim_at b d) ->
  locate (crop b d lo hi) idx = locate b idx.
Proof.
  intros b d lo hi f L A B. rewrite locate_crop by exact L. cbn zeta.
  destruct (Z.leb_spec (Z.max lo (d_min (dim_at b d))) (Z.min hi (d_max (dim_at b d)))); [|lia].
  destruct (Z.leb_spec lo (f d)), (Z.leb_spec (f d) hi); try lia. rewrite orb_true_r. reflexivity.
Qed.
Theorem C18_crop_adds_nothing : forall b d lo hi idx a,
  locate (crop b d lo hi) idx = Some a ->
  locate b idx = Some a /\ ((d < rank b)%nat -> d_stride (dim_at b d) <> 0 -> lo <= idx d <= hi).
Proof.
  intros b d lo hi f a H. destruct (le_lt_dec (rank b) d) as [L|L].
  - unfold crop in H. destruct (Nat.leb_spec (rank b) d); [|lia]. split; [exact H|lia].
  - rewrite locate_crop in H by exact L. cbn zeta in H. destruct (_ && _) eqn:E; [|discriminate].
    split; [exact H|]. intros _ S0. apply andb_true_iff in E. destruct E as [_ E].
    destruct (Z.eqb_spec (d_stride (dim_at b d)) 0); [contradiction|]. cbn [orb] in E.
    apply andb_true_iff in E. lia.
Qed.
Theorem C18_crop_empty_is_null : forall b d lo hi, (d < rank b)%nat ->
  Z.min hi (d_max (dim_at b d)) < Z.max lo (d_min (dim_at b d)) -> base (crop b d lo hi) = None.
Proof.
  intros b d lo hi L E. unfold crop. destruct (Nat.leb_spec (rank b) d); [lia|]. cbn zeta. cbn [base].
  destruct (base b); [|reflexivity]. destruct (Z.leb_spec (Z.max lo (d_min (dim_at b d))) (Z.min hi (d_max (dim_at b d)))); [lia|reflexivity].
Qed.
Theorem C18_crop_nonempty_not_null : forall b d lo hi, base b <> None ->
  ((d < rank b)%nat -> Z.max lo (d_min (dim_at b d)) <= Z.min hi (d_max (dim_at b d))) -> base (crop b d lo hi) <> None.
Proof.
  intros b d lo hi N E. unfold crop. destruct (Nat.leb_spec (rank b) d); [exact N|]. cbn zeta. cbn [base].
  specialize (E H). destruct (base b); [|contradiction].
  destruct (Z.leb_spec (Z.max lo (d_min (dim_at b d))) (Z.min hi (d_max (dim_at b d)))); [|lia].
  destruct (_ =? _); discriminate.
Qed.
Theorem C18_crop_past_rank : forall b d lo hi, (rank b <= d)%nat -> crop b d lo hi = b.
Proof. intros b d lo hi L. unfold crop. destruct (Nat.leb_spec (rank b) d); [reflexivity|lia]. Qed.

(** Cropping twice is cropping to the intersection; in particular crop is idempotent. *)
Theorem C18_crop_crop : forall b d lo hi lo2 hi2,
  crop (crop b d lo hi) d lo2 hi2 = crop b d (Z.max lo lo2) (Z.min hi hi2).
Proof.
  intros b d lo hi lo2 hi2. destruct (le_lt_dec (rank b) d) as [L|L].
  { rewrite !C18_crop_past_rank; auto. rewrite C18_crop_past_rank by exact L. exact L. }
  unfold crop at 1. rewrite crop_rank. destruct (Nat.leb_spec (rank b) d); [lia|].
  assert (dim_at (crop b d lo hi) d = set_bounds (dim_at b d) (Z.max lo (d_min (dim_at b d))) (Z.min hi (d_max (dim_at b d)))) as ->.
  { unfold dim_at at 1. rewrite crop_dims by exact L. rewrite nth_set_nth by exact L. rewrite Nat.eqb_refl. reflexivity. }
  cbn zeta. rewrite crop_dims by exact L. unfold crop. destruct (Nat.leb_spec (rank b) d); [lia|]. cbn zeta. cbn [base elem_size].
  set (e := dim_at b d). cbn [set_bounds d_min d_max d_fold d_stride].
  assert (forall (l : list dim) k u v, set_nth (set_nth l k u) k v = set_nth l k v) as SS.
  { induction l as [|x l IH]; intros [|k] u v; cbn; auto. f_equal. apply IH. }
  rewrite SS. unfold set_bounds. cbn [d_min d_max d_fold d_stride].
  replace (Z.max lo2 (Z.max lo (d_min e))) with (Z.max (Z.max lo lo2) (d_min e)) by lia.
  replace (Z.min hi2 (Z.min hi (d_max e))) with (Z.min (Z.min hi hi2) (d_max e)) by lia.
  f_equal. destruct (base b) as [a|]; [|reflexivity].
  destruct (Z.leb_spec (Z.max lo (d_min e)) (Z.min hi (d_max e))) as [N1|N1].
  2:{ destruct (Z.leb_spec (Z.max (Z.max lo lo2) (d_min e)) (Z.min (Z.min hi hi2) (d_max e))); [lia|reflexivity]. }
  destruct (Z.leb_spec (Z.max (Z.max lo lo2) (d_min e)) (Z.min (Z.min hi hi2) (d_max e))) as [N2|N2].
  2:{ destruct (d_fold e =? unfolded); reflexivity. }
  destruct (d_fold e =? unfolded) eqn:F; [|reflexivity]. f_equal.
  unfold d_offset. cbn [d_min d_max d_fold d_stride]. rewrite F, !orb_true_r. lia.
Qed.
Corollary C18_crop_idempotent : forall b d lo hi, crop (crop b d lo hi) d lo hi = crop b d lo hi.
Proof. intros. rewrite C18_crop_crop, Z.max_id, Z.min_id. reflexivity. Qed.

Example C18_example : locate (crop ex_buf 0 2 5) (index [3; 4; 0]) = Some 1086 /\ locate (crop ex_buf 0 2 5) (index [1; 4; 0]) = None
  /\ locate (crop ex_buf 1 4 7) (index [3; 7; 0]) = locate ex_buf (index [3; 7; 0]).
Proof. repeat split; reflexivity. Qed.

(** ** C19: slice *)
Theorem C19_slice_at_address : forall b d x idx, locate (slice_at b d x) idx = locate b (insert_at d x idx).
Proof. exact locate_slice_at. Qed.
Theorem C19_slice_rank : forall b d x, (d < rank b)%nat -> rank (slice_at b d x) = (rank b - 1)%nat /\
  forall k, dim_at (slice_at b d x) k = dim_at b (if (k <? d)%nat then k else S k).
Proof.
  intros b d x L. unfold slice_at. destruct (Nat.leb_spec (rank b) d); [lia|].
  unfold rank, dim_at. rewrite slice1_dims. cbn [dims]. split; [apply remove_nth_length; exact L|].
  intros k. rewrite nth_remove_nth. destruct (k <? d)%nat; reflexivity.
Qed.
(** Out of bounds slices are null, in bounds slices are not. *)
Theorem C19_slice_null_iff : forall b d x, (d < rank b)%nat ->
  (base (slice_at b d x) = None <->
   base b = None \/ (d_stride (dim_at b d) <> 0 /\ ~ (d_min (dim_at b d) <= x <= d_max (dim_at b d)))).
Proof.
  intros b d x L. unfold slice_at. destruct (Nat.leb_spec (rank b) d); [lia|]. rewrite slice1_base. cbn [base].
  destruct (base b) as [a|]; [|tauto].
  unfold d_contains, d_contains2. destruct (Z.eqb_spec (d_stride (dim_at b d)) 0) as [E|E]; cbn [orb].
  - split; [discriminate|]. intros [F|[F _]]; [discriminate|contradiction].
  - destruct (Z.leb_spec (d_min (dim_at b d)) x), (Z.leb_spec x (d_max (dim_at b d))); cbn [andb];
      split; intros Q; try discriminate; try (right; split; [exact E|lia]); try reflexivity.
    destruct Q as [F|[_ F]]; [discriminate|lia].
Qed.
(** slice(d, in_bounds) is slice(d, at) wherever its assertions hold. *)
Theorem C19_slice_in_bounds : forall b d x, base b <> None ->
  ((d < rank b)%nat -> d_stride (dim_at b d) = 0 \/ d_min (dim_at b d) <= x <= d_max (dim_at b d)) ->
  slice_in_bounds b d x = slice_at b d x.
Proof.
  intros b d x N H. unfold slice_in_bounds, slice_at. destruct (Nat.leb_spec (rank b) d) as [L|L]; [reflexivity|].
  specialize (H L). destruct (base b) as [a|]; [|contradiction]. cbn [offset_bytes].
  replace (d_contains (dim_at b d) x) with true; [reflexivity|].
  unfold d_contains, d_contains2. destruct H as [H|H]; [rewrite H; reflexivity|].
  destruct (Z.leb_spec (d_min (dim_at b d)) x), (Z.leb_spec x (d_max (dim_at b d))); try lia.
Qed.
(** slice(d) slices at the minimum, if the dimension is not folded or empty. *)
Theorem C19_slice_default : forall b d idx, (d < rank b)%nat ->
  d_stride (dim_at b d) = 0 \/ (d_fold (dim_at b d) = unfolded /\ d_min (dim_at b d) <= d_max (dim_at b d)) ->
  locate (slice1 b d) idx = locate b (insert_at d (d_min (dim_at b d)) idx).
Proof.
  intros b d f L H. unfold locate. rewrite slice1_base, slice1_dims, place_all_insert by exact L.
  fold (dim_at b d). replace (place (dim_at b d) (d_min (dim_at b d))) with (Some 0); [rewrite oadd_0_l; reflexivity|].
  unfold place. destruct (Z.eqb_spec (d_stride (dim_at b d)) 0) as [E|E]; [reflexivity|].
  destruct H as [H|[H1 H2]]; [contradiction|]. rewrite H1, Z.eqb_refl.
  destruct (Z.leb_spec (d_min (dim_at b d)) (d_min (dim_at b d))), (Z.leb_spec (d_min (dim_at b d)) (d_max (dim_at b d))); try lia.
  cbn [andb]. f_equal. lia.
Qed.
(** ... but in a folded dimension it does not: the base is not moved to the minimum. *)
Theorem C19_slice_default_folded_refuted : exists b d idx, (d < rank b)%nat /\
  locate (slice1 b d) idx <> locate b (insert_at d (d_min (dim_at b d)) idx).
Proof. exists ex_buf, 1%nat, (index [0; 0]). split; [cbn; lia|]. vm_compute. discriminate. Qed.

(** Slicing several dimensions is slicing them one at a time, the last first. *)
Theorem C19_slice_many : forall b ds, StronglySorted lt ds -> (forall d, In d ds -> (d < rank b)%nat) ->
  slice_many b ds = Some (fold_left slice1 (rev ds) b).
Proof. exact slice_many_spec. Qed.
(** A list that names a dimension past the rank (documented as a no-op for a
    single dimension) reads and writes outside the dims array. *)
Theorem C19_slice_many_past_rank_refuted : exists b ds, StronglySorted lt ds /\ slice_many b ds = None.
Proof. exists ex_buf, [1%nat; 5%nat]. split; [repeat constructor|reflexivity]. Qed.

(** The slice_buffer statement: dimension k of the input takes the given
    coordinate, or the next coordinate of the result. *)
Theorem C19_slice_buffer : forall b at_ idx, locate (slice_buffer b at_) idx = locate b (fill_in at_ idx).
Proof.
  intros b at_ f. unfold slice_buffer. pose proof (slice_buffer_loop_spec (dims b) at_ (base b) f) as H.
  destruct (slice_buffer_loop (base b) (dims b) at_) as [r l]. exact H.
Qed.
Example C19_example : locate (slice_at ex_buf 1 5) (index [4; 2]) = Some (1000 + 8 + 20 + 240) /\
  base (slice_at ex_buf 1 9) = None /\ slice_many ex_buf [0; 2]%nat = Some (Buf (Some 1000) 2 [Dim 3 8 20 4]).
Proof. repeat split; reflexivity. Qed.

(** ** C20: translate *)
Theorem C20_translate_address : forall b os idx, (length os <= rank b)%nat ->
  (forall k, (k < length os)%nat -> d_fold (dim_at b k) = unfolded \/ d_stride (dim_at b k) = 0) ->
  locate (translate b os) (fun k => idx k + nth k os 0) = locate b idx.
Proof.
  intros b os f _ H. unfold locate, translate. cbn [base dims]. f_equal. unfold dim_at in H. revert os f H.
  induction (dims b) as [|d ds IH]; intros os f H; [reflexivity|].
  destruct os as [|o os]; cbn [translate_dims place_all].
  - f_equal; [f_equal; cbn; lia|]. apply place_all_ext. intros k _. destruct k; cbn; lia.
  - cbn [nth]. rewrite translate_place by (apply (H O); cbn; lia). f_equal.
    apply (IH os (fun k => f (S k))). intros k Lk. apply (H (S k)). cbn. lia.
Qed.
Theorem C20_translate_bounds : forall b os k, (k < rank b)%nat ->
  rank (translate b os) = rank b /\
  d_min (dim_at (translate b os) k) = d_min (dim_at b k) + nth k os 0 /\
  d_max (dim_at (translate b os) k) = d_max (dim_at b k) + nth k os 0 /\
  d_stride (dim_at (translate b os) k) = d_stride (dim_at b k) /\
  d_fold (dim_at (translate b os) k) = d_fold (dim_at b k).
Proof.
  intros b os k L. unfold translate, dim_at, rank in *. cbn [dims]. revert os k L.
  induction (dims b) as [|d ds IH]; intros os k L; [cbn in L; lia|].
  destruct os as [|o os].
  - cbn [translate_dims]. split; [reflexivity|]. destruct k; cbn [nth]; repeat split; lia.
  - destruct k as [|k]; cbn [translate_dims nth length] in *.
    + split; [|cbn; auto]. f_equal. destruct ds as [|e ds]; [reflexivity|]. apply (IH os O). cbn. lia.
    + destruct (IH os k ltac:(lia)) as (A & B). split; [rewrite A; reflexivity|exact B].
Qed.
(** In a folded dimension, translating moves elements to other addresses. *)
Theorem C20_translate_folded_refuted : exists b os idx, (length os <= rank b)%nat /\
  locate (translate b os) (fun k => idx k + nth k os 0) <> locate b idx.
Proof. exists ex_buf, [0; 1], (index [0; 4; 0]). split; [cbn; lia|]. vm_compute. discriminate. Qed.
Example C20_example : locate (translate ex_buf [7]) (index [10; 4; 0]) = locate ex_buf (index [3; 4; 0]) /\ locate ex_buf (index [3; 4; 0]) = Some 1086.
Proof. split; reflexivity. Qed.

(** ** C38: addressing.  [in_bounds_at b k x]: coordinate x of dimension k is in bounds. *)
Definition in_bounds_at (b : buf) (k : nat) (x : Z) : Prop :=
  d_stride (dim_at b k) = 0 \/ d_min (dim_at b k) <= x <= d_max (dim_at b k).
Lemma d_contains_iff : forall d x, d_contains d x = true <-> (d_stride d = 0 \/ d_min d <= x <= d_max d).
Proof.
  intros d x. unfold d_contains, d_contains2. rewrite orb_true_iff, andb_true_iff, Z.eqb_eq, !Z.leb_le. tauto.
Qed.
Theorem C38_contains_iff : forall b idx,
  contains_impl (dims b) idx = true <-> (forall k x, (k < rank b)%nat -> nth_error idx k = Some x -> in_bounds_at b k x).
Proof.
  intros b idx. unfold in_bounds_at, dim_at, rank. generalize (dims b) as ds. intros ds. revert idx.
  induction ds as [|d ds IH]; intros idx.
  - split; [intros _ k x L; cbn in L; lia|]. intros _. destruct idx; reflexivity.
  - destruct idx as [|i idx]; cbn [contains_impl].
    + split; [|reflexivity]. intros _ k x _ E. destruct k; discriminate.
    + rewrite andb_true_iff, d_contains_iff, IH. split.
      * intros [A B] k x L E. destruct k as [|k]; cbn in *; [injection E as <-; exact A|]. apply B; [lia|exact E].
      * intros H. split; [apply (H O i); [cbn; lia|reflexivity]|]. intros k x L E. apply (H (S k) x); [cbn; lia|exact E].
Qed.
Lemma and_loop_shift : forall n f i, and_loop f (S i) n = and_loop (fun k => f (S k)) i n.
Proof. induction n as [|n IH]; intros f i; cbn [and_loop]; [reflexivity|]. rewrite IH. reflexivity. Qed.
Lemma sum_loop_shift : forall n f i, sum_loop f (S i) n = sum_loop (fun k => f (S k)) i n.
Proof. induction n as [|n IH]; intros f i; cbn [sum_loop]; [reflexivity|]. rewrite IH. reflexivity. Qed.
Theorem C38_overloads_agree : forall b idx,
  contains_span b idx = contains_impl (dims b) idx /\ flat_offset_span b idx = flat_offset_impl (dims b) (map Some idx).
Proof.
  intros b idx. unfold contains_span, flat_offset_span, dim_at, rank. generalize (dims b) as ds. intros ds. revert idx.
  induction ds as [|d ds IH]; intros idx.
  - cbn [length]. rewrite Nat.min_0_r. destruct idx; split; reflexivity.
  - destruct idx as [|i idx]; [split; reflexivity|]. destruct (IH idx) as [A B].
    cbn [length Nat.min and_loop sum_loop contains_impl flat_offset_impl map nth].
    rewrite and_loop_shift, sum_loop_shift. cbn [nth]. rewrite A, B. split; reflexivity.
Qed.
(** address_at of an in-bounds index is where the element lives. *)
Theorem C38_address_at : forall b idx, (rank b <= length idx)%nat -> contains_impl (dims b) idx = true ->
  address_at b (map Some idx) = locate b (index idx).
Proof.
  intros b idx L C. unfold address_at, locate, rank in *.
  assert (place_all (dims b) (index idx) = Some (flat_offset_impl (dims b) (map Some idx))) as ->.
  2:{ destruct (base b); reflexivity. }
  revert idx L C. induction (dims b) as [|d ds IH]; intros idx L C.
  - destruct idx; reflexivity.
  - destruct idx as [|i idx]; [cbn in L; lia|]. cbn [contains_impl] in C. apply andb_true_iff in C. destruct C as [C1 C2].
    cbn [place_all map flat_offset_impl]. unfold index at 1. cbn [nth].
    rewrite d_contains_place, C1.
    change (fun k => index (i :: idx) (S k)) with (index idx). rewrite IH; [reflexivity|cbn in L; lia|exact C2].
Qed.
(** buffer_at of a full index is where the element lives, null if there is none. *)
Theorem C38_buffer_at : forall b idx, (rank b <= length idx)%nat ->
  buffer_at b (map Some idx) = locate b (index idx).
Proof.
  intros b idx. unfold buffer_at, locate, rank. generalize (base b) as p. generalize (dims b) as ds.
  intros ds. revert idx. induction ds as [|d ds IH]; intros idx p L.
  - cbn. rewrite oadd_0_r. destruct idx; reflexivity.
  - destruct idx as [|i idx]; [cbn in L; lia|]. cbn [map buffer_at_loop place_all].
    rewrite IH by (cbn in L; lia). rewrite place_step. unfold index at 2. cbn [nth].
    change (fun k => index (i :: idx) (S k)) with (index idx). symmetry. apply oadd_assoc.
Qed.
(** With any subset of the coordinates given, buffer_at is null exactly when the
    buffer is null or a given coordinate is out of bounds. *)
Theorem C38_buffer_at_null_iff : forall b args,
  buffer_at b args = None <->
  base b = None \/ exists k x, (k < rank b)%nat /\ nth_error args k = Some (Some x) /\ ~ in_bounds_at b k x.
Proof.
  intros b args. unfold buffer_at, in_bounds_at, dim_at, rank. generalize (base b) as p. generalize (dims b) as ds.
  intros ds. revert args. induction ds as [|d ds IH]; intros args p.
  - cbn. split; [|intros [H|(k & x & L & _)]; [exact H|lia]]. intros H. left. exact H.
  - destruct args as [|[x|] args]; cbn [buffer_at_loop].
    + split; [intros H; left; exact H|]. intros [H|(k & x & _ & E & _)]; [exact H|destruct k; discriminate].
    + rewrite IH. split.
      * intros [H|(k & y & L & E & N)].
        -- destruct p as [a|]; [|left; reflexivity]. right. exists O, x. split; [cbn; lia|]. split; [reflexivity|].
           cbn [nth]. rewrite <- d_contains_iff. destruct (d_contains d x); [discriminate|congruence].
        -- right. exists (S k), y. split; [cbn; lia|]. split; [exact E|exact N].
      * intros [->|(k & y & L & E & N)]; [left; reflexivity|]. destruct k as [|k].
        -- cbn in E, N. injection E as <-. left. destruct p as [a|]; [|reflexivity].
           rewrite <- d_contains_iff in N. destruct (d_contains d x); [contradiction N; reflexivity|reflexivity].
        -- right. exists k, y. split; [cbn in L; lia|]. split; [exact E|exact N].
    + rewrite IH. split; (intros [H|(k & y & L & E & N)]; [left; exact H|right]).
      * exists (S k), y. split; [cbn; lia|]. split; [exact E|exact N].
      * destruct k as [|k]; [discriminate|]. exists k, y. split; [cbn in L; lia|]. split; [exact E|exact N].
Qed.
Example C38_example : buffer_at ex_buf [None; Some 5] = Some 1020 /\ buffer_at ex_buf [Some 10] = None /\
  contains_span ex_buf [9; 3; -1] = true /\ contains_span ex_buf [9; 3; -2] = false.
Proof. repeat split; reflexivity. Qed.

(** ** C40: storage folding *)
(** Two coordinates share a slot exactly when they differ by a multiple of the fold factor. *)
Theorem C40_fold_shares_iff : forall d x y, d_stride d <> 0 -> 0 < d_fold d ->
  (d_offset d x = d_offset d y <-> (d_fold d | x - y)).
Proof.
  intros d x y S0 F. unfold d_offset, unfolded.
  destruct (Z.eqb_spec (d_stride d) 0); [contradiction|]. destruct (Z.eqb_spec (d_fold d) (-1)); [lia|]. cbn [orb].
  rewrite Z.mul_cancel_r by exact S0. rewrite <- Z.mod_divide by lia. split; intros H.
  - rewrite Zminus_mod, H, Z.sub_diag. apply Z.mod_0_l. lia.
  - apply Z.mod_divide in H; [|lia]. destruct H as [k H]. replace x with (y + k * d_fold d) by lia. apply Z.mod_add. lia.
Qed.
(** Inside a window of at most fold-factor coordinates, elements of up to [e <=
    |stride|] bytes do not overlap, wherever the window is. *)
Theorem C40_window_disjoint : forall d e x y, 0 < d_fold d -> 0 < e <= Z.abs (d_stride d) ->
  x <> y -> Z.abs (x - y) < d_fold d ->
  d_offset d x + e <= d_offset d y \/ d_offset d y + e <= d_offset d x.
Proof.
  intros d e x y F E N W.
  assert (d_stride d <> 0) as S0 by lia.
  assert (d_offset d x <> d_offset d y) as NE.
  { rewrite C40_fold_shares_iff by assumption. intros [k H]. assert (k <> 0) by (intros ->; lia). nia. }
  unfold d_offset, unfolded in *.
  destruct (Z.eqb_spec (d_stride d) 0); [contradiction|]. destruct (Z.eqb_spec (d_fold d) (-1)); [lia|]. cbn [orb] in *.
  set (a := x mod d_fold d) in *. set (b := y mod d_fold d) in *.
  assert (a <> b) by (intros Q; rewrite Q in NE; contradiction).
  destruct (Z.lt_total a b) as [Q|[Q|Q]]; [|contradiction|]; destruct (Z.lt_total (d_stride d) 0) as [P|[P|P]]; try lia; nia.
Qed.
(** A folded dimension never reaches past fold-factor slots. *)
Theorem C40_fold_slots : forall d x, 0 < d_fold d ->
  exists k, 0 <= k < d_fold d /\ (d_stride d <> 0 -> d_offset d x = k * d_stride d).
Proof.
  intros d x F. exists (x mod d_fold d). split; [apply Z.mod_pos_bound; exact F|]. intros S0. unfold d_offset, unfolded.
  destruct (Z.eqb_spec (d_stride d) 0); [contradiction|]. destruct (Z.eqb_spec (d_fold d) (-1)); [lia|]. reflexivity.
Qed.
Example C40_example : d_offset (Dim 3 8 20 4) 7 = d_offset (Dim 3 8 20 4) 3 /\ d_offset (Dim 3 8 20 4) 6 = 40.
Proof. split; reflexivity. Qed.

(** ** C42: transpose.  Coordinate i of the result is coordinate p[i] of the input,
    if p names every dimension of the input once (it may name others: broadcasts). *)
Theorem C42_transpose_address : forall b p idx idx', NoDup p -> (forall d, (d < rank b)%nat -> In d p) ->
  (forall i, (i < length p)%nat -> idx' i = idx (nth i p O)) ->
  locate (transpose b p) idx' = locate b idx.
Proof. intros b p idx idx' A B C. exact (locate_transpose b p idx' idx A B C). Qed.
Theorem C42_transpose_dims : forall b p i, dim_at (transpose b p) i =
  (if (i <? rank (transpose b p))%nat then dim_at b (nth i p O) else broadcast).
Proof.
  intros b p i. unfold transpose, dim_at, rank. cbn [dims].
  destruct (Nat.ltb_spec i (length (remove_trailing_broadcasts (map (fun k => nth k (dims b) broadcast) p)))) as [L|L].
  2:{ apply nth_overflow. exact L. }
  assert (forall l, exists t, l = remove_trailing_broadcasts l ++ t) as PRE.
  { intros l. unfold remove_trailing_broadcasts. set (go := fix go l := match l with [] => [] | d :: l' => if is_broadcast d then go l' else l end).
    assert (forall r, exists t, rev r = rev (go r) ++ t) as G.
    { induction r as [|d r [t IH]]; [exists []; reflexivity|]. cbn [rev].
      change (go (d :: r)) with (if is_broadcast d then go r else d :: r). destruct (is_broadcast d).
      - exists (t ++ [d]). rewrite app_assoc, <- IH. reflexivity.
      - exists []. rewrite app_nil_r. reflexivity. }
    destruct (G (rev l)) as [t E]. exists t. rewrite rev_involutive in E. exact E. }
  destruct (PRE (map (fun k => nth k (dims b) broadcast) p)) as [t E].
  set (l := remove_trailing_broadcasts _) in *.
  transitivity (nth i (map (fun k => nth k (dims b) broadcast) p) broadcast).
  - rewrite E. rewrite app_nth1 by exact L. reflexivity.
  - assert (i < length p)%nat as LP.
    { rewrite <- (map_length (fun k => nth k (dims b) broadcast) p), E, app_length. lia. }
    rewrite (nth_indep _ broadcast (nth O (dims b) broadcast)) by (rewrite map_length; exact LP).
    rewrite (map_nth (fun k => nth k (dims b) broadcast) p O i). reflexivity.
Qed.
Example C42_example : locate (transpose ex_buf [2; 0; 7; 1]%nat) (index [0; 3; 99; 4]) = locate ex_buf (index [3; 4; 0]).
Proof. reflexivity. Qed.
