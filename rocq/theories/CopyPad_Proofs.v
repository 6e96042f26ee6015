(** Proofs about copying and padding: what optimizing the dimensions keeps, padding. *)
From Coq Require Import ZArith List Bool Lia Permutation Arith.
From Verif Require Import Buf_Model Buf_Spec Buf_Proofs ForEach_Model ForEach_Spec ForEach_Props BufDims_Spec BufDims_Proofs
  Copy_Model Copy_Spec Copy_Proofs.
Import ListNotations.
Open Scope Z_scope.

(** ** what optimize_dims preserves *)
Section Rel.
Variable P : buf -> list buf -> Prop.
Hypothesis Pfuse : forall inner outer b0 bs, (inner < outer < rank b0)%nat -> same_bounds inner b0 bs = true ->
  can_fuse_all inner outer (b0 :: bs) = true -> P b0 bs -> P (fuse_remove inner outer b0) (map (fuse_remove inner outer) bs).
Hypothesis Pswap : forall i j b0 bs, (i < j < rank b0)%nat -> Forall (fun b => (j < rank b)%nat) bs ->
  P b0 bs -> P (swap_dims i j b0) (map (swap_dims i j) bs).
Hypothesis Pslice : forall d b0 bs, is_point (dim_at b0 d) = true ->
  Forall (fun b => is_point_at (dim_at b d) (d_min (dim_at b0 d)) = true) bs ->
  P b0 bs -> P (slice_at b0 d (d_min (dim_at b0 d))) (map (fun b => slice_at b d (d_min (dim_at b0 d))) bs).

Lemma fuse_rank0 : forall inner outer b0, (inner < outer < rank b0)%nat -> rank (fuse_remove inner outer b0) = (rank b0 - 1)%nat.
Proof.
  intros inner outer b0 H. unfold rank in *. rewrite fuse_remove_dims by lia. destruct (Nat.leb_spec (rank b0) outer); unfold rank in *; [lia|].
  rewrite remove_nth_length, set_nth_length by (rewrite set_nth_length; lia). lia.
Qed.
Lemma fuse_loop_rel : forall sets d b0 bs b0' bs', P b0 bs -> (d < rank b0)%nat \/ d = O ->
  fuse_contiguous_loop sets d b0 bs = (b0', bs') -> P b0' bs'.
Proof.
  intros sets. induction d as [|d IH]; intros b0 bs b0' bs' Hp Hd E; cbn [fuse_contiguous_loop] in E.
  - now injection E as <- <-.
  - destruct Hd as [Hd|Hd]; [|lia]. unfold attempt_fuse_sets in E.
    destruct ((S d <? length sets)%nat && negb (nth (S d) sets 0 =? nth d sets 0)).
    + apply IH in E; [assumption|assumption|lia].
    + unfold attempt_fuse in E. destruct (same_bounds d b0 bs) eqn:Hsb; cbn [andb] in E; [|apply IH in E; [assumption|assumption|lia]].
      destruct (can_fuse_all d (S d) (b0 :: bs)) eqn:Hca; [|apply IH in E; [assumption|assumption|lia]].
      apply IH in E; [assumption| |rewrite fuse_rank0 by lia; lia]. apply Pfuse; auto.
Qed.
Lemma fuse_dims_rel : forall sets b0 bs b0' bs', P b0 bs -> fuse_contiguous_dims sets b0 bs = (b0', bs') -> P b0' bs'.
Proof. intros sets b0 bs b0' bs' Hp E. eapply fuse_loop_rel; [exact Hp| |exact E]. lia. Qed.
Lemma slice_points_rel : forall d b0 bs b0' bs', P b0 bs -> slice_points d b0 bs = (b0', bs') -> P b0' bs'.
Proof.
  induction d as [|d IH]; intros b0 bs b0' bs' Hp E; cbn [slice_points] in E; [now injection E as <- <-|].
  destruct (is_point (dim_at b0 d)) eqn:I; cbn [andb] in E; [|now apply IH in E].
  destruct (forallb _ bs) eqn:F; [|now apply IH in E].
  apply IH in E; [assumption|]. apply Pslice; [assumption| |assumption]. rewrite forallb_forall in F. now apply Forall_forall.
Qed.
Lemma optimize_rel : forall b0 bs b0' bs', P b0 bs -> optimize_dims b0 bs = (b0', bs') -> P b0' bs'.
Proof.
  intros b0 bs b0' bs' Hp E. unfold optimize_dims in E.
  destruct (slice_points (max_rank b0 bs) b0 bs) as [b1 bs1] eqn:E1. apply slice_points_rel in E1; [|assumption].
  destruct (fuse_contiguous_dims [] b1 bs1) as [b2 bs2] eqn:E2. apply fuse_dims_rel in E2; [|assumption].
  destruct (fuse_contiguous_dims [] b2 bs2) as [b3 bs3] eqn:E3. apply fuse_dims_rel in E3; [|assumption].
  destruct (sort_dims [] b3 bs3) as [[b4 bs4] m] eqn:E4.
  assert (P b4 bs4).
  { unfold sort_dims in E4.
    destruct (sort_outer_rel P (min_rank b3 bs3) [] (min_rank b3 bs3 - 1) 0 b3 bs3 false b4 bs4 m) as [G _]; try assumption; [|lia|apply min_rank_ranks].
    intros i j b bs0 H [R1 R2] G. apply Pswap; [lia| |assumption]. eapply Forall_impl; [|exact R2]; cbn beta; intros; lia. }
  destruct m; [now apply fuse_dims_rel in E|now injection E as <- <-].
Qed.
End Rel.

(** one contiguous dimension, by counting *)
Definition contig (es : Z) (d : dim) : bool := negb (is_point d) && (d_stride d =? es).
Definition cnt (es : Z) (l : list dim) : nat := length (filter (contig es) l).
Definition b2n (b : bool) : nat := if b then 1%nat else 0%nat.
Lemma cnt_cons : forall es d l, cnt es (d :: l) = (b2n (contig es d) + cnt es l)%nat.
Proof. intros. unfold cnt. cbn [filter]. destruct (contig es d); reflexivity. Qed.
Lemma cnt_remove : forall es l d, (d < length l)%nat -> cnt es l = (cnt es (remove_nth l d) + b2n (contig es (nth d l broadcast)))%nat.
Proof.
  induction l as [|x l IH]; intros [|d] H; cbn [length remove_nth nth] in *; try lia; rewrite !cnt_cons; [lia|].
  rewrite (IH d) by lia. lia.
Qed.
Lemma cnt_set : forall es l d v, (d < length l)%nat ->
  (cnt es (set_nth l d v) + b2n (contig es (nth d l broadcast)) = cnt es l + b2n (contig es v))%nat.
Proof.
  induction l as [|x l IH]; intros [|d] v H; cbn [length set_nth nth] in *; try lia; rewrite !cnt_cons; [lia|].
  specialize (IH d v ltac:(lia)). lia.
Qed.
Lemma cnt_in : forall es l, (exists d, (d < length l)%nat /\ contig es (nth d l broadcast) = true) <-> (1 <= cnt es l)%nat.
Proof.
  induction l as [|x l IH].
  - cbn. split; [intros (d & ? & _); lia|lia].
  - rewrite cnt_cons. split.
    + intros ([|d] & H & C); cbn [nth length] in *; [rewrite C; cbn; lia|].
      assert (1 <= cnt es l)%nat by (apply IH; exists d; split; [lia|assumption]). lia.
    + intros H. destruct (contig es x) eqn:C; [exists O; cbn; split; [lia|assumption]|].
      cbn [b2n] in H. destruct (proj2 IH ltac:(lia)) as (d & H1 & H2). exists (S d). cbn [length nth]. split; [lia|assumption].
Qed.
Lemma one_contiguous_cnt : forall b, one_contiguous_dim b <-> (cnt (elem_size b) (dims b) <= 1)%nat.
Proof.
  intros b. unfold one_contiguous_dim, rank, dim_at. set (es := elem_size b). generalize (dims b). intros l.
  assert (C : forall d, contig es (nth d l broadcast) = true <-> is_point (nth d l broadcast) = false /\ d_stride (nth d l broadcast) = es).
  { intros d. unfold contig. destruct (is_point _); cbn [negb andb]; split; intros H; try discriminate; try (destruct H; discriminate); try lia. }
  transitivity (forall d1 d2, (d1 < length l)%nat -> (d2 < length l)%nat -> contig es (nth d1 l broadcast) = true -> contig es (nth d2 l broadcast) = true -> d1 = d2).
  { split.
    - intros H d1 d2 H1 H2 C1 C2. apply C in C1. apply C in C2. apply H; tauto.
    - intros H d1 d2 H1 H2 P1 P2 S1 S2. apply H; auto; apply C; auto. }
  clear C. induction l as [|x l IH].
  - cbn. split; [lia|intros; lia].
  - rewrite cnt_cons. split.
    + intros H. destruct (contig es x) eqn:C; cbn [b2n].
      * destruct (le_lt_dec 1 (cnt es l)) as [L|L]; [|lia]. apply cnt_in in L. destruct L as (d & L1 & L2).
        specialize (H O (S d)). cbn [nth length] in H. specialize (H ltac:(lia) ltac:(lia) C L2). discriminate.
      * cbn [Nat.add]. apply IH. intros d1 d2 H1 H2 C1 C2. specialize (H (S d1) (S d2)). cbn [nth length] in H.
        specialize (H ltac:(lia) ltac:(lia) C1 C2). lia.
    + intros H [|d1] [|d2] H1 H2 C1 C2; cbn [nth length] in *; auto.
      * exfalso. rewrite C1 in H. cbn [b2n] in H. assert (1 <= cnt es l)%nat by (apply cnt_in; exists d2; split; [lia|assumption]). lia.
      * exfalso. rewrite C2 in H. cbn [b2n] in H. assert (1 <= cnt es l)%nat by (apply cnt_in; exists d1; split; [lia|assumption]). lia.
      * f_equal. apply (proj2 IH); try lia; assumption.
Qed.
Lemma fuse_contig : forall es i o, 0 < es -> can_fuse i o = true -> contig es (fuse i o) = true -> contig es i = true \/ contig es o = true.
Proof.
  intros es i o Hes H C. destruct (can_fuse_extent i o H) as [E1 E2].
  destruct (fuse_cases i o) as [[E Ef]|(E & Es & Ef & Emin & Emax)].
  - rewrite Ef in C. now right.
  - unfold contig, is_point in *. rewrite Es, Emin, Emax in C. apply can_fuse_inv in H.
    destruct (Z.eqb_spec (d_stride i) es) as [S|S]; [|rewrite andb_false_r in C; discriminate].
    destruct (Z.eqb_spec (d_min i) (d_max i)) as [M|M]; [|left; reflexivity]. right.
    assert (X : extent i = 1) by lia. rewrite X in *. destruct H as [[H _]|[H _]]; [exfalso; lia|lia].
Qed.
Lemma fuse_cnt : forall es inner outer b, 0 < es -> (inner < outer)%nat -> can_fuse (dim_at b inner) (dim_at b outer) = true ->
  (cnt es (dims (fuse_remove inner outer b)) <= cnt es (dims b))%nat.
Proof.
  intros es inner outer b Hes H Hc. rewrite fuse_remove_dims by assumption. destruct (Nat.leb_spec (rank b) outer); [lia|]. unfold rank in *.
  pose proof (cnt_set es (dims b) inner (fuse (dim_at b inner) (dim_at b outer)) ltac:(lia)) as X.
  pose proof (cnt_remove es (set_nth (dims b) inner (fuse (dim_at b inner) (dim_at b outer))) outer ltac:(rewrite set_nth_length; lia)) as Y.
  rewrite nth_set_nth in Y by lia. destruct (Nat.eqb_spec outer inner); [lia|]. fold (dim_at b outer) in Y. fold (dim_at b inner) in X.
  destruct (contig es (fuse _ _)) eqn:F; cbn [b2n] in *; [|destruct (contig es (dim_at b inner)); cbn [b2n] in *; lia].
  apply (fuse_contig es _ _ Hes Hc) in F. destruct F as [F|F]; rewrite F in *; cbn [b2n] in *; lia.
Qed.
Lemma swap_cnt : forall es i j b, (i < j < rank b)%nat -> cnt es (dims (swap_dims i j b)) = cnt es (dims b).
Proof.
  intros es i j b H. unfold rank in *. cbn [swap_dims dims].
  pose proof (cnt_set es (dims b) i (dim_at b j) ltac:(lia)) as X.
  pose proof (cnt_set es (set_nth (dims b) i (dim_at b j)) j (dim_at b i) ltac:(rewrite set_nth_length; lia)) as Y.
  rewrite nth_set_nth in Y by lia. destruct (Nat.eqb_spec j i); [lia|]. fold (dim_at b i) in *. fold (dim_at b j) in *. lia.
Qed.
Lemma slice_cnt : forall es d x b, (cnt es (dims (slice_at b d x)) <= cnt es (dims b))%nat.
Proof.
  intros. rewrite slice_at_dims. destruct (Nat.lt_ge_cases d (length (dims b))) as [L|L].
  - rewrite (cnt_remove es (dims b) d L). lia.
  - rewrite remove_nth_out by assumption. lia.
Qed.
Lemma fuse_elem : forall inner outer b, elem_size (fuse_remove inner outer b) = elem_size b.
Proof. intros. unfold fuse_remove. destruct (_ <=? _)%nat; [reflexivity|]. destruct (_ <=? _)%nat; now rewrite slice1_elem. Qed.
Lemma slice_elem : forall d x b, elem_size (slice_at b d x) = elem_size b.
Proof. intros. unfold slice_at. destruct (_ <=? _)%nat; [reflexivity|]. now rewrite slice1_elem. Qed.

Lemma optimize_elem : forall b0 bs b0' bs', optimize_dims b0 bs = (b0', bs') ->
  elem_size b0' = elem_size b0 /\ map elem_size bs' = map elem_size bs.
Proof.
  intros b0 bs b0' bs' E.
  apply (optimize_rel (fun b1 bs1 => elem_size b1 = elem_size b0 /\ map elem_size bs1 = map elem_size bs)) in E; auto.
  - intros inner outer b1 bs1 _ _ _ [H1 H2]. rewrite fuse_elem, map_map. split; [assumption|]. rewrite <- H2. apply map_ext. intros. apply fuse_elem.
  - intros i j b1 bs1 _ _ [H1 H2]. rewrite map_map. cbn [swap_dims elem_size]. auto.
  - intros d b1 bs1 _ _ [H1 H2]. rewrite slice_elem, map_map. split; [assumption|]. rewrite <- H2. apply map_ext. intros. apply slice_elem.
Qed.
Lemma can_fuse_first : forall inner outer b0 bs, can_fuse_all inner outer (b0 :: bs) = true -> can_fuse (dim_at b0 inner) (dim_at b0 outer) = true.
Proof. intros inner outer b0 bs H. unfold can_fuse_all in H. cbn [forallb] in H. now apply andb_true_iff in H. Qed.
Lemma can_fuse_in : forall inner outer b0 bs b, can_fuse_all inner outer (b0 :: bs) = true -> In b bs -> can_fuse (dim_at b inner) (dim_at b outer) = true.
Proof. intros inner outer b0 bs b H Hb. unfold can_fuse_all in H. rewrite forallb_forall in H. apply H. now right. Qed.
Lemma optimize_one_contiguous : forall b0 bs b0' bs', 0 < elem_size b0 -> one_contiguous_dim b0 -> optimize_dims b0 bs = (b0', bs') -> one_contiguous_dim b0'.
Proof.
  intros b0 bs b0' bs' Hes H E. destruct (optimize_elem _ _ _ _ E) as [He _]. apply one_contiguous_cnt. rewrite He.
  apply one_contiguous_cnt in H.
  apply (optimize_rel (fun b1 _ => (cnt (elem_size b0) (dims b1) <= 1)%nat)) in E; auto.
  - intros inner outer b1 bs1 H1 _ H2 H3. etransitivity; [apply fuse_cnt; [assumption|lia|]|assumption]. eapply can_fuse_first; eassumption.
  - intros i j b1 bs1 H1 _ H2. now rewrite swap_cnt.
  - intros d b1 bs1 _ _ H1. etransitivity; [apply slice_cnt|assumption].
Qed.

(** ** a copy without padding *)
Lemma elementwise_tuples : forall dst src, elementwise dst src = map pair_of (tuples dst [src]).
Proof. intros. unfold elementwise, tuples. rewrite map_map. reflexivity. Qed.
Lemma elementwise_same : forall dst src dst' src', same_elements dst [src] dst' [src'] ->
  forall o, In o (elementwise dst src) <-> In o (elementwise dst' src').
Proof.
  intros dst src dst' src' H o. rewrite !elementwise_tuples.
  apply (Permutation_map pair_of) in H. split; apply Permutation_in; [assumption|now apply Permutation_sym].
Qed.
Lemma apart_sym : forall es p q, apart es p q -> apart es q p.
Proof. intros es [a|] [b|]; cbn; lia. Qed.
Lemma index_list_dec : forall i j : list Z, i = j \/ i <> j.
Proof. intros i j. destruct (list_eq_dec Z.eq_dec i j); auto. Qed.

(** Ops over the indices of [dst]: [sel] says from where. *)
Lemma clean_map : forall es dst (sel : list Z -> ptr) l, (forall idx, In idx l -> in_bounds (dims dst) idx) ->
  es = elem_size dst -> separate dst ->
  (forall idx, In idx l -> locate dst (index idx) <> None /\ sel idx <> None) ->
  (forall i j, In i l -> In j l -> apart es (locate dst (index i)) (sel j)) ->
  clean es (map (fun idx => (locate dst (index idx), sel idx)) l).
Proof.
  intros es dst sel l Hl -> Hs H1 H2. split; [|split].
  - intros o Ho. apply in_map_iff in Ho. destruct Ho as (i & <- & Hi). cbn [fst snd]. auto.
  - intros o o' Ho Ho'. apply in_map_iff in Ho. destruct Ho as (i & <- & Hi). apply in_map_iff in Ho'. destruct Ho' as (j & <- & Hj).
    cbn [fst]. destruct (index_list_dec i j) as [->|N]; [now left|right]. apply Hs; auto.
  - intros o o' Ho Ho'. apply in_map_iff in Ho. destruct Ho as (i & <- & Hi). apply in_map_iff in Ho'. destruct Ho' as (j & <- & Hj).
    cbn [fst snd]. auto.
Qed.

Lemma box_same_empty : forall dst bs dst' bs', same_elements dst bs dst' bs' -> box (dims dst) = [] -> box (dims dst') = [].
Proof.
  intros dst bs dst' bs' H E. unfold same_elements, tuples in H. rewrite E in H. cbn [map] in H. apply Permutation_nil in H.
  destruct (box (dims dst')); [reflexivity|discriminate].
Qed.

(** without folds, separate elements leave one contiguous dimension *)
Lemma place_all_zero : forall ds f, (forall d k, (k < length ds)%nat -> d = nth k ds broadcast -> place d (f k) = Some 0) -> place_all ds f = Some 0.
Proof.
  induction ds as [|d ds IH]; intros f H; cbn [place_all]; [reflexivity|].
  rewrite (H d O) by (cbn; auto; lia). rewrite (IH (fun k => f (S k))); [reflexivity|].
  intros e k Hk E. apply (H e (S k)); cbn [length nth]; [lia|assumption].
Qed.
Lemma place_min : forall d, dim_ok d -> d_stride d = 0 \/ d_fold d = unfolded -> d_min d <= d_max d -> place d (d_min d) = Some 0.
Proof.
  intros d H1 H2 H3. rewrite place_some by lia. f_equal. destruct (d_stride d =? 0) eqn:E; [reflexivity|]. destruct H2 as [H2|H2]; [lia|].
  rewrite H2, Z.eqb_refl. lia.
Qed.
Lemma place_next : forall d, d_stride d <> 0 -> d_fold d = unfolded -> d_min d < d_max d -> place d (d_min d + 1) = Some (d_stride d).
Proof.
  intros d H1 H2 H3. rewrite place_some by lia. f_equal. destruct (Z.eqb_spec (d_stride d) 0); [lia|]. rewrite H2, Z.eqb_refl. lia.
Qed.
Lemma locate_next : forall b k, dims_ok b -> no_folds b -> (k < rank b)%nat -> Forall (fun d => d_min d <= d_max d) (dims b) ->
  d_min (dim_at b k) < d_max (dim_at b k) -> d_stride (dim_at b k) <> 0 ->
  locate b (index (set_nth (map d_min (dims b)) k (d_min (dim_at b k) + 1))) = oadd (base b) (Some (d_stride (dim_at b k))).
Proof.
  intros b k H1 H2 Hk Hne Hlt Hs. unfold locate. f_equal. rewrite (place_all_split (dims b) k) by exact Hk. fold (dim_at b k).
  unfold rank in Hk.
  assert (I : forall q, (q < length (dims b))%nat -> index (set_nth (map d_min (dims b)) k (d_min (dim_at b k) + 1)) q =
    if (q =? k)%nat then d_min (dim_at b k) + 1 else d_min (nth q (dims b) broadcast)).
  { intros q Hq. unfold index. rewrite nth_set_nth by (rewrite map_length; lia). destruct (q =? k)%nat; [reflexivity|].
    change 0 with (d_min broadcast). now rewrite map_nth. }
  rewrite I, Nat.eqb_refl by assumption.
  assert (F : d_fold (dim_at b k) = unfolded) by (destruct (H2 _ (dim_at_in b k Hk)); [contradiction|assumption]).
  rewrite place_next by assumption. rewrite place_all_zero; [cbn; f_equal; lia|].
  rewrite remove_nth_length by assumption. intros d q Hq ->. rewrite nth_remove_nth. unfold dims_ok in *. rewrite Forall_forall in *.
  destruct (Nat.ltb_spec q k).
  - rewrite I by lia. destruct (Nat.eqb_spec q k); [lia|].
    assert (IN : In (nth q (dims b) broadcast) (dims b)) by (apply nth_In; lia). apply place_min; auto.
  - rewrite I by lia. destruct (Nat.eqb_spec (S q) k); [lia|].
    assert (IN : In (nth (S q) (dims b) broadcast) (dims b)) by (apply nth_In; lia). apply place_min; auto.
Qed.
Lemma in_bounds_next : forall b k, (k < rank b)%nat -> Forall (fun d => d_min d <= d_max d) (dims b) ->
  d_min (dim_at b k) < d_max (dim_at b k) -> in_bounds (dims b) (set_nth (map d_min (dims b)) k (d_min (dim_at b k) + 1)).
Proof.
  intros b k Hk Hne Hlt. unfold rank in Hk. apply in_bounds_nth. rewrite set_nth_length, map_length. split; [reflexivity|].
  intros q Hq. rewrite nth_set_nth by (rewrite map_length; lia). destruct (Nat.eqb_spec q k); [subst; unfold dim_at in *; lia|].
  change 0 with (d_min broadcast). rewrite map_nth. rewrite Forall_forall in Hne. specialize (Hne _ (nth_In (dims b) broadcast Hq)). lia.
Qed.
Lemma in_bounds_nonempty : forall ds idx, in_bounds ds idx -> Forall (fun d => d_min d <= d_max d) ds.
Proof. induction ds as [|d ds IH]; intros [|i idx] H; cbn [in_bounds] in H; try contradiction; constructor; [lia|]. apply (IH idx). tauto. Qed.
Lemma separate_one_contiguous : forall b, 0 < elem_size b -> dims_ok b -> no_folds b -> separate b ->
  (forall idx, in_bounds (dims b) idx -> locate b (index idx) <> None) -> box (dims b) = [] \/ one_contiguous_dim b.
Proof.
  intros b Hes Hd Hf Hs Hn. destruct (box (dims b)) as [|idx l] eqn:E; [now left|right].
  assert (Hi : in_bounds (dims b) idx) by (apply in_box; rewrite E; now left).
  pose proof (in_bounds_nonempty _ _ Hi) as Hne.
  assert (NE : forall k, (k < rank b)%nat -> is_point (dim_at b k) = false -> d_min (dim_at b k) < d_max (dim_at b k)).
  { intros k Hk Hp. rewrite Forall_forall in Hne. specialize (Hne _ (dim_at_in b k Hk)). unfold is_point in Hp. lia. }
  intros d1 d2 H1 H2 P1 P2 S1 S2. destruct (Nat.eq_dec d1 d2) as [|N]; [assumption|exfalso].
  pose proof (NE d1 H1 P1) as L1. pose proof (NE d2 H2 P2) as L2.
  set (i := set_nth (map d_min (dims b)) d1 (d_min (dim_at b d1) + 1)).
  set (j := set_nth (map d_min (dims b)) d2 (d_min (dim_at b d2) + 1)).
  assert (Bi : in_bounds (dims b) i) by (apply in_bounds_next; assumption).
  assert (Bj : in_bounds (dims b) j) by (apply in_bounds_next; assumption).
  assert (Nij : i <> j).
  { intros X. apply (f_equal (fun l => nth d1 l 0)) in X. unfold i, j in X. unfold rank in *.
    rewrite !nth_set_nth in X by (rewrite map_length; lia). rewrite Nat.eqb_refl in X.
    destruct (Nat.eqb_spec d1 d2); [lia|]. change 0 with (d_min broadcast) in X. rewrite map_nth in X. fold (dim_at b d1) in X. lia. }
  specialize (Hs i j Bi Bj Nij). unfold i, j in Hs. rewrite !locate_next in Hs by (try assumption; lia). rewrite S1, S2 in Hs.
  assert (base b <> None) by (intros X; apply (Hn idx Hi); unfold locate; rewrite X; reflexivity).
  destruct (base b) as [a|]; [|congruence]. cbn [oadd apart] in Hs. lia.
Qed.

Lemma copy_unpadded : forall m src dst pad,
  0 < elem_size dst -> elem_size src = elem_size dst -> fusable_first dst -> dims_ok src ->
  (no_strided_points src \/ no_folds src) ->
  (no_folds dst \/ one_contiguous_dim dst) ->
  (forall idx, in_bounds (dims dst) idx -> locate dst (index idx) <> None /\ locate src (index idx) <> None) ->
  separate dst -> no_overlap dst src -> base pad = None \/ rank src = O ->
  exists m', copy m src dst pad = Some m' /\ assigned (elem_size dst) (elementwise dst src) m m'.
Proof.
  intros m src dst pad Hes Hsz Hd Hs Hp Hone Hin Hsep Hno Hpad. unfold copy.
  replace ((0 <? rank src)%nat && _) with false.
  2:{ symmetry. destruct Hpad as [->| ->]; [apply andb_false_r|reflexivity]. }
  destruct (optimize_dims dst [src]) as [dst' bs'] eqn:E.
  assert (G : good dst [src]).
  { split; [assumption|]. constructor; [|constructor]. split; [assumption|]. destruct Hp as [Hp|Hp]; [now left|right; split; [assumption|right]].
    intros idx Hi _. now apply Hin. }
  destruct (optimize_dims_step _ _ _ _ G E) as ([F Fs] & S & L). destruct (optimize_elem _ _ _ _ E) as [E1 E2].
  destruct bs' as [|src' [|? ?]]; cbn [length] in L; try lia. cbn [map] in E2. injection E2 as E2.
  assert (C : clean (elem_size dst) (elementwise dst src)).
  { unfold elementwise. apply clean_map; try assumption; try reflexivity.
    - intros idx H. now apply in_box.
    - intros idx H. apply Hin. now apply in_box.
    - intros i j Hi Hj. apply Hno; now apply in_box. }
  assert (O : box (dims dst') = [] \/ one_contiguous_dim dst').
  { assert (O : box (dims dst) = [] \/ one_contiguous_dim dst).
    { destruct Hone as [Hone|Hone]; [|now right]. destruct Hd. apply separate_one_contiguous; auto. intros. now apply Hin. }
    destruct O as [O|O]; [left; now apply (box_same_empty _ _ _ _ S)|right; now apply (optimize_one_contiguous _ _ _ _ Hes O E)]. }
  inversion Fs as [|x l [Fs1 _] Fs2]. subst. destruct F as [F1 _].
  pose proof (elementwise_same _ _ _ _ S) as HI.
  destruct (copy_impl_ok m src' dst') as (m' & R & A); try assumption; try lia.
  { rewrite E1. eapply clean_incl; [|exact C]. intros o. apply HI. }
  exists m'. split; [exact R|]. rewrite <- E1. eapply assigned_equiv; [|exact A]. intros o. symmetry. apply HI.
Qed.

(** ** padding *)
(** in bounds of the first [d] dimensions, as pad_impl sees them *)
Definition inside1 (s : dim) (x : Z) : bool := is_broadcast s || ((d_min s <=? x) && (x <=? d_max s)).
Fixpoint inside (d : nat) (src : buf) (idx : list Z) : bool :=
  match d with O => true | S d' => inside1 (dim_at src d') (nth d' idx 0) && inside d' src idx end.
Definition pads (d : nat) (src dst pad : buf) : list (ptr * ptr) :=
  map (fun idx => (locate dst (index idx), locate pad (index idx))) (filter (fun idx => negb (inside d src idx)) (box (dims dst))).

Lemma inside_ext : forall d src src' idx, (forall k, (k < d)%nat -> dim_at src' k = dim_at src k) -> inside d src' idx = inside d src idx.
Proof. induction d as [|d IH]; intros src src' idx H; cbn [inside]; [reflexivity|]. rewrite H by lia. f_equal. apply IH. intros. apply H. lia. Qed.
Lemma in_crop : forall b d lo hi idx, (d < rank b)%nat ->
  in_bounds (dims (crop b d lo hi)) idx <-> in_bounds (dims b) idx /\ lo <= nth d idx 0 <= hi.
Proof.
  intros b d lo hi idx H. rewrite crop_dims by assumption. rewrite !in_bounds_nth, set_nth_length. unfold rank in H. split.
  - intros [HL Hb]. split; [split; [assumption|]|].
    + intros k Hk. specialize (Hb k Hk). rewrite nth_set_nth in Hb by assumption. destruct (Nat.eqb_spec k d); [|assumption].
      subst. cbn [set_bounds d_min d_max] in Hb. unfold dim_at in Hb. lia.
    + specialize (Hb d H). rewrite nth_set_nth, Nat.eqb_refl in Hb by assumption. cbn [set_bounds d_min d_max] in Hb. lia.
  - intros [[HL Hb] Hx]. split; [assumption|]. intros k Hk. rewrite nth_set_nth by assumption. specialize (Hb k Hk).
    destruct (Nat.eqb_spec k d); [|assumption]. subst. cbn [set_bounds d_min d_max]. unfold dim_at. lia.
Qed.
Lemma crop_locate : forall b d lo hi idx, (d < rank b)%nat -> in_bounds (dims (crop b d lo hi)) idx ->
  locate (crop b d lo hi) (index idx) = locate b (index idx).
Proof.
  intros b d lo hi idx H Hi. pose proof Hi as Hc. apply in_crop in Hc; [|assumption]. destruct Hc as [Hb Hx].
  rewrite locate_crop by assumption. cbn zeta. apply in_bounds_nth in Hb. destruct Hb as [_ Hb]. specialize (Hb d H). fold (dim_at b d) in Hb.
  unfold index at 1 2. replace (_ && _) with true by lia. reflexivity.
Qed.
Lemma dim_at_crop : forall b d lo hi k, (d < rank b)%nat -> dim_at (crop b d lo hi) k =
  if (k =? d)%nat then set_bounds (dim_at b d) (Z.max lo (d_min (dim_at b d))) (Z.min hi (d_max (dim_at b d))) else dim_at b k.
Proof. intros. unfold dim_at at 1. rewrite crop_dims by assumption. now apply nth_set_nth. Qed.
Lemma crop_elem : forall b d lo hi, elem_size (crop b d lo hi) = elem_size b.
Proof. intros. unfold crop. destruct (_ <=? _)%nat; reflexivity. Qed.
Lemma crop_in_dim : forall b d lo hi e, (d < rank b)%nat -> In e (dims (crop b d lo hi)) -> exists e', In e' (dims b) /\ d_stride e = d_stride e' /\ d_fold e = d_fold e'.
Proof.
  intros b d lo hi e H He. rewrite crop_dims in He by assumption. apply in_set_nth in He. destruct He as [->|He].
  - exists (dim_at b d). split; [now apply dim_at_in|]. split; reflexivity.
  - exists e. auto.
Qed.
Lemma crop_dims_ok : forall b d lo hi, (d < rank b)%nat -> dims_ok b -> dims_ok (crop b d lo hi).
Proof.
  intros b d lo hi H Hok. unfold dims_ok in *. rewrite Forall_forall in *. intros e He.
  destruct (crop_in_dim _ _ _ _ _ H He) as (e' & H1 & H2 & H3). specialize (Hok e' H1). unfold dim_ok in *. rewrite H2, H3. assumption.
Qed.
Lemma crop_no_folds : forall b d lo hi, (d < rank b)%nat -> no_folds b -> no_folds (crop b d lo hi).
Proof. intros b d lo hi H Hok e He. destruct (crop_in_dim _ _ _ _ _ H He) as (e' & H1 & H2 & H3). rewrite H2, H3. auto. Qed.
Lemma box_empty_dec : forall ds, box ds = [] \/ exists idx, in_bounds ds idx.
Proof. intros ds. destruct (box ds) as [|i l] eqn:E; [now left|right; exists i; apply in_box; rewrite E; now left]. Qed.
Lemma box_empty_iff : forall ds, box ds = [] <-> forall idx, ~ in_bounds ds idx.
Proof.
  intros ds. split; intros H.
  - intros idx Hi. apply in_box in Hi. rewrite H in Hi. contradiction.
  - destruct (box_empty_dec ds) as [E|[i Hi]]; [assumption|]. exfalso. now apply (H i).
Qed.
Lemma crop_one_contiguous : forall b d lo hi, (d < rank b)%nat -> box (dims b) = [] \/ one_contiguous_dim b ->
  box (dims (crop b d lo hi)) = [] \/ one_contiguous_dim (crop b d lo hi).
Proof.
  intros b d lo hi H [Hb|Hb].
  - left. rewrite box_empty_iff in *. intros idx Hi. apply in_crop in Hi; [|assumption]. now apply (Hb idx).
  - destruct (box_empty_dec (dims (crop b d lo hi))) as [E|[i Hi]]; [now left|right].
    apply in_crop in Hi; [|assumption]. destruct Hi as [Hi Hx]. pose proof (proj1 (in_bounds_nth _ _) Hi) as [_ Hk]. specialize (Hk d H).
    intros d1 d2 H1 H2 P1 P2 S1 S2. rewrite crop_rank in H1, H2. rewrite crop_elem in *.
    assert (X : forall k, (k < rank b)%nat -> is_point (dim_at (crop b d lo hi) k) = false -> d_stride (dim_at (crop b d lo hi) k) = elem_size b ->
       is_point (dim_at b k) = false /\ d_stride (dim_at b k) = elem_size b).
    { intros k HK P S. rewrite dim_at_crop in P, S by assumption. destruct (Nat.eqb_spec k d); [|auto]. subst k.
      cbn [set_bounds d_stride] in S. split; [|assumption]. unfold is_point in *. cbn [set_bounds d_min d_max] in P. fold (dim_at b d) in Hk. lia. }
    destruct (X d1 H1 P1 S1), (X d2 H2 P2 S2). now apply Hb.
Qed.

Lemma pad_loop_ok : forall d m src dst pad,
  0 < elem_size dst -> elem_size pad = elem_size dst -> dims_ok dst -> dims_ok pad -> (d <= rank src)%nat -> (d <= rank dst)%nat ->
  box (dims dst) = [] \/ one_contiguous_dim dst -> clean (elem_size dst) (pads d src dst pad) ->
  exists m' src' dst', pad_loop d m src dst pad = Some (m', src', dst') /\
    assigned (elem_size dst) (pads d src dst pad) m m' /\
    (forall idx, in_bounds (dims dst') idx <-> in_bounds (dims dst) idx /\ inside d src idx = true) /\
    (forall idx, in_bounds (dims dst') idx -> locate dst' (index idx) = locate dst (index idx) /\ locate src' (index idx) = locate src (index idx)) /\
    (box (dims dst') = [] \/ one_contiguous_dim dst') /\ dims_ok dst' /\ (dims_ok src -> dims_ok src') /\
    (no_folds dst -> no_folds dst') /\ (no_folds src -> no_folds src') /\
    elem_size dst' = elem_size dst /\ elem_size src' = elem_size src /\ rank dst' = rank dst /\ rank src' = rank src /\
    (forall k, (d <= k)%nat -> dim_at src' k = dim_at src k /\ dim_at dst' k = dim_at dst k) /\
    (forall k, (k < d)%nat -> (is_broadcast (dim_at src k) = true /\ dim_at src' k = dim_at src k) \/
       (is_broadcast (dim_at src k) = false /\ d_min (dim_at src' k) = d_min (dim_at dst' k) /\ d_max (dim_at src' k) = d_max (dim_at dst' k))).
Proof.
  induction d as [|d IH]; intros m src dst pad Hes Hsz Hd Hp Hrs Hrd Hone Hc; cbn [pad_loop].
  - exists m, src, dst. split; [reflexivity|]. split.
    { unfold pads. cbn [inside negb]. replace (filter (fun _ => false) (box (dims dst))) with (@nil (list Z)); [apply assigned_nil|]. clear. induction (box (dims dst)); cbn [filter]; auto. }
    split; [intros; cbn [inside]; tauto|]. split; [auto|]. do 9 (split; [auto|]). split; [auto|]. intros; lia.
  - set (sd := dim_at src d) in *. set (dd := dim_at dst d) in *.
    destruct (is_broadcast sd) eqn:EB.
    + assert (Ep : pads (S d) src dst pad = pads d src dst pad).
      { unfold pads. f_equal. apply filter_ext. intros idx. cbn [inside]. fold sd. unfold inside1. now rewrite EB. }
      rewrite Ep in *. destruct (IH m src dst pad) as (m' & src' & dst' & R & A & I & L & C & D1 & D2 & D3 & D4 & E1 & E2 & E3 & E4 & U & V); auto; try lia.
      exists m', src', dst'. split; [assumption|]. split; [assumption|]. split.
      { intros idx. rewrite I. cbn [inside]. fold sd. unfold inside1. rewrite EB. reflexivity. }
      split; [assumption|]. do 9 (split; [assumption|]). split; [intros; apply U; lia|].
      intros k Hk. destruct (Nat.eq_dec k d) as [->|]; [|apply V; lia]. left. split; [assumption|]. apply U. lia.
    + assert (Hin1 : forall x, inside1 sd x = (d_min sd <=? x) && (x <=? d_max sd)) by (intros; unfold inside1; now rewrite EB).
      (* one side *)
      assert (Side : forall m0 lo hi, (forall x, lo <= x <= hi -> inside1 sd x = false) ->
        exists m', copy_impl m0 pad (crop dst d lo hi) = Some m' /\ assigned (elem_size dst) (elementwise (crop dst d lo hi) pad) m0 m' /\
          (forall o, In o (elementwise (crop dst d lo hi) pad) <->
             exists idx, in_bounds (dims dst) idx /\ lo <= nth d idx 0 <= hi /\ o = (locate dst (index idx), locate pad (index idx)))).
      { intros m0 lo hi Hout.
        assert (X : forall o, In o (elementwise (crop dst d lo hi) pad) <->
             exists idx, in_bounds (dims dst) idx /\ lo <= nth d idx 0 <= hi /\ o = (locate dst (index idx), locate pad (index idx))).
        { intros o. unfold elementwise. rewrite in_map_iff. split.
          - intros (idx & <- & Hi). apply in_box in Hi. rewrite crop_locate by (try assumption; lia). apply in_crop in Hi; [|lia].
            exists idx. tauto.
          - intros (idx & H1 & H2 & ->). exists idx.
            assert (Hi : in_bounds (dims (crop dst d lo hi)) idx) by (apply in_crop; [lia|auto]).
            split; [now rewrite crop_locate by (try assumption; lia)|now apply in_box]. }
        destruct (copy_impl_ok m0 pad (crop dst d lo hi)) as (m' & R & A); rewrite ?crop_elem; auto.
        - apply crop_dims_ok; [lia|assumption].
        - apply crop_one_contiguous; [lia|assumption].
        - eapply clean_incl; [|exact Hc]. intros o Ho. apply X in Ho. destruct Ho as (idx & H1 & H2 & ->).
          unfold pads. apply in_map_iff. exists idx. split; [reflexivity|]. apply filter_In. split; [now apply in_box|].
          cbn [inside]. fold sd. now rewrite Hout.
        - exists m'. rewrite crop_elem in A. auto. }
      (* both sides *)
      assert (B : exists m1 opsB, (if d_min dd <? d_min sd then copy_impl m pad (crop dst d (d_min dd) (d_min sd - 1)) else Some m) = Some m1 /\
         assigned (elem_size dst) opsB m m1 /\
         forall o, In o opsB <-> exists idx, in_bounds (dims dst) idx /\ nth d idx 0 < d_min sd /\ o = (locate dst (index idx), locate pad (index idx))).
      { destruct (Z.ltb_spec (d_min dd) (d_min sd)).
        - destruct (Side m (d_min dd) (d_min sd - 1)) as (m1 & R & A & X); [intros x Hx; rewrite Hin1; lia|].
          exists m1, (elementwise (crop dst d (d_min dd) (d_min sd - 1)) pad). split; [assumption|]. split; [assumption|].
          intros o. rewrite X. split; intros (idx & H1 & H2 & H3); exists idx; (split; [assumption|]); (split; [|assumption]); [lia|].
          apply in_bounds_nth in H1. destruct H1 as [_ H1]. specialize (H1 d ltac:(unfold rank in *; lia)). fold (dim_at dst d) in H1. fold dd in H1. lia.
        - exists m, []. split; [reflexivity|]. split; [apply assigned_nil|]. intros o. split; [intros []|].
          intros (idx & H1 & H2 & _). apply in_bounds_nth in H1. destruct H1 as [_ H1]. specialize (H1 d ltac:(unfold rank in *; lia)). fold (dim_at dst d) in H1. fold dd in H1. lia. }
      destruct B as (m1 & opsB & RB & AB & XB). rewrite RB.
      assert (B : exists m2 opsA, (if d_max sd <? d_max dd then copy_impl m1 pad (crop dst d (d_max sd + 1) (d_max dd)) else Some m1) = Some m2 /\
         assigned (elem_size dst) opsA m1 m2 /\
         forall o, In o opsA <-> exists idx, in_bounds (dims dst) idx /\ d_max sd < nth d idx 0 /\ o = (locate dst (index idx), locate pad (index idx))).
      { destruct (Z.ltb_spec (d_max sd) (d_max dd)).
        - destruct (Side m1 (d_max sd + 1) (d_max dd)) as (m2 & R & A & X); [intros x Hx; rewrite Hin1; lia|].
          exists m2, (elementwise (crop dst d (d_max sd + 1) (d_max dd)) pad). split; [assumption|]. split; [assumption|].
          intros o. rewrite X. split; intros (idx & H1 & H2 & H3); exists idx; (split; [assumption|]); (split; [|assumption]); [lia|].
          apply in_bounds_nth in H1. destruct H1 as [_ H1]. specialize (H1 d ltac:(unfold rank in *; lia)). fold (dim_at dst d) in H1. fold dd in H1. lia.
        - exists m1, []. split; [reflexivity|]. split; [apply assigned_nil|]. intros o. split; [intros []|].
          intros (idx & H1 & H2 & _). apply in_bounds_nth in H1. destruct H1 as [_ H1]. specialize (H1 d ltac:(unfold rank in *; lia)). fold (dim_at dst d) in H1. fold dd in H1. lia. }
      destruct B as (m2 & opsA & RA & AA & XA). rewrite RA.
      set (dst1 := crop dst d (d_min sd) (d_max sd)). set (src1 := crop src d (d_min dd) (d_max dd)).
      assert (Hext : forall idx, inside d src1 idx = inside d src idx).
      { intros idx. apply inside_ext. intros k Hk. unfold src1. rewrite dim_at_crop by lia. destruct (Nat.eqb_spec k d); [lia|reflexivity]. }
      assert (XP : forall o, In o (pads d src1 dst1 pad) <-> exists idx, in_bounds (dims dst) idx /\ d_min sd <= nth d idx 0 <= d_max sd /\ inside d src idx = false /\
         o = (locate dst (index idx), locate pad (index idx))).
      { intros o. unfold pads. rewrite in_map_iff. split.
        - intros (idx & <- & Hi). apply filter_In in Hi. destruct Hi as [Hi Hn]. apply in_box in Hi. rewrite Hext in Hn. apply negb_true_iff in Hn.
          unfold dst1 in *. rewrite crop_locate by (try assumption; lia). apply in_crop in Hi; [|lia]. exists idx. tauto.
        - intros (idx & H1 & H2 & H3 & ->). exists idx. assert (Hi : in_bounds (dims dst1) idx) by (apply in_crop; [lia|auto]).
          split; [unfold dst1; now rewrite crop_locate by (try assumption; lia)|]. apply filter_In. rewrite Hext, H3. split; [now apply in_box|reflexivity]. }
      assert (XS : forall o, In o (pads (S d) src dst pad) <-> exists idx, in_bounds (dims dst) idx /\ (inside1 sd (nth d idx 0) && inside d src idx) = false /\
         o = (locate dst (index idx), locate pad (index idx))).
      { intros o. unfold pads. rewrite in_map_iff. cbn [inside]. fold sd. split.
        - intros (idx & <- & Hi). apply filter_In in Hi. destruct Hi as [Hi Hn]. apply in_box in Hi. apply negb_true_iff in Hn. exists idx. auto.
        - intros (idx & H1 & H2 & ->). exists idx. split; [reflexivity|]. apply filter_In. rewrite H2. split; [now apply in_box|reflexivity]. }
      assert (Uni : forall o, In o ((opsB ++ opsA) ++ pads d src1 dst1 pad) <-> In o (pads (S d) src dst pad)).
      { intros o. rewrite !in_app_iff, XB, XA, XP, XS. split.
        - intros [[(idx & H1 & H2 & ->)|(idx & H1 & H2 & ->)]|(idx & H1 & H2 & H3 & ->)]; exists idx; (split; [assumption|]); (split; [|reflexivity]); rewrite Hin1.
          + replace (d_min sd <=? nth d idx 0) with false by lia. reflexivity.
          + replace (nth d idx 0 <=? d_max sd) with false by lia. now rewrite andb_false_r.
          + rewrite H3. apply andb_false_r.
        - intros (idx & H1 & H2 & ->). rewrite Hin1 in H2.
          destruct (Z.leb_spec (d_min sd) (nth d idx 0)); [|left; left; exists idx; auto].
          destruct (Z.leb_spec (nth d idx 0) (d_max sd)); [|left; right; exists idx; auto].
          cbn [andb] in H2. right. exists idx. auto. }
      destruct (IH m2 src1 dst1 pad) as (m' & src' & dst' & R & A & I & L & C & D1 & D2 & D3 & D4 & E1 & E2 & E3 & E4 & U & V); auto; unfold dst1, src1 in *; rewrite ?crop_elem, ?crop_rank in *; auto; try lia.
      { apply crop_dims_ok; [lia|assumption]. }
      { apply crop_one_contiguous; [lia|assumption]. }
      { eapply clean_incl; [|exact Hc]. intros o Ho. apply Uni. rewrite !in_app_iff. auto. }
      exists m', src', dst'. split; [exact R|]. split.
      { eapply assigned_equiv; [exact Uni|]. apply assigned_app with (m1 := m2).
        - eapply clean_incl; [|exact Hc]. intros o Ho. now apply Uni.
        - apply assigned_app with (m1 := m1); try assumption. eapply clean_incl; [|exact Hc]. intros o Ho. apply Uni. apply in_app_iff. now left.
        - assumption. }
      assert (I' : forall idx, in_bounds (dims dst') idx <-> in_bounds (dims dst) idx /\ inside (S d) src idx = true).
      { intros idx. rewrite I, Hext. rewrite in_crop by lia. cbn [inside]. fold sd. rewrite Hin1. rewrite !andb_true_iff, !Z.leb_le. tauto. }
      split; [exact I'|]. split.
      { intros idx Hi. destruct (L idx Hi) as [L1 L2]. pose proof Hi as HJ. apply I in HJ. destruct HJ as [HJ _]. rewrite L1, L2.
        split; [apply crop_locate; [lia|assumption]|]. apply in_crop in HJ; [|lia]. destruct HJ as [HJ Hx].
        apply in_bounds_nth in HJ. destruct HJ as [_ HJ]. specialize (HJ d ltac:(unfold rank in *; lia)). fold (dim_at dst d) in HJ. fold dd in HJ.
        rewrite locate_crop by lia. fold sd. cbn zeta. unfold index at 1 2. replace (_ && _) with true by lia. reflexivity. }
      split; [assumption|]. split; [assumption|]. split; [intros; apply D2; apply crop_dims_ok; [lia|assumption]|].
      split; [intros; apply D3; apply crop_no_folds; [lia|assumption]|]. split; [intros; apply D4; apply crop_no_folds; [lia|assumption]|].
      do 4 (split; [assumption|]). split.
      { intros k Hk. destruct (U k ltac:(lia)) as [U1 U2]. rewrite U1, U2, !dim_at_crop by lia. destruct (Nat.eqb_spec k d); [lia|auto]. }
      intros k Hk. destruct (Nat.eq_dec k d) as [->|N].
      { right. split; [assumption|]. destruct (U d ltac:(lia)) as [U1 U2]. rewrite U1, U2, !dim_at_crop, Nat.eqb_refl by lia. fold sd dd.
        cbn [set_bounds d_min d_max]. lia. }
      { specialize (V k ltac:(lia)). rewrite dim_at_crop in V by lia. destruct (Nat.eqb_spec k d); [lia|]. exact V. }
Qed.

(** ** a padded copy *)
Definition pad_dim_ok (src : buf) : Prop := forall d, In d (dims src) -> d_stride d = 0 -> is_broadcast d = true.
Lemma place_all_some : forall ds f, (forall k, (k < length ds)%nat -> place (nth k ds broadcast) (f k) <> None) -> place_all ds f <> None.
Proof.
  induction ds as [|d ds IH]; intros f H; cbn [place_all]; [discriminate|].
  pose proof (H O ltac:(cbn; lia)) as H0. cbn [nth] in H0. specialize (IH (fun k => f (S k))).
  destruct (place d (f O)); [|congruence]. destruct (place_all ds (fun k => f (S k))); [discriminate|]. exfalso. apply IH; [|reflexivity].
  intros k Hk. apply (H (S k)). cbn [length]. lia.
Qed.
Lemma inside_all : forall d src idx, inside d src idx = true <-> forall k, (k < d)%nat -> inside1 (dim_at src k) (nth k idx 0) = true.
Proof.
  induction d as [|d IH]; intros src idx; cbn [inside]; [split; [intros; lia|reflexivity]|].
  rewrite andb_true_iff, IH. split.
  - intros [H1 H2] k Hk. destruct (Nat.eq_dec k d) as [->|]; [assumption|]. apply H2. lia.
  - intros H. split; [apply H; lia|]. intros k Hk. apply H. lia.
Qed.
Lemma inside_locate : forall src idx, base src <> None -> pad_dim_ok src ->
  inside (rank src) src idx = true <-> locate src (index idx) <> None.
Proof.
  intros src idx Hb Hp.
  assert (P : forall k, (k < rank src)%nat -> inside1 (dim_at src k) (nth k idx 0) = true <-> place (dim_at src k) (index idx k) <> None).
  { intros k Hk. unfold inside1, index. destruct (Z.eq_dec (d_stride (dim_at src k)) 0) as [S|S].
    - rewrite (Hp _ (dim_at_in src k Hk) S), place_stride0 by assumption. split; [discriminate|reflexivity].
    - assert (B : is_broadcast (dim_at src k) = false) by (unfold is_broadcast; lia). rewrite B. cbn [orb].
      destruct ((d_min (dim_at src k) <=? nth k idx 0) && (nth k idx 0 <=? d_max (dim_at src k))) eqn:E.
      + rewrite place_some by lia. split; [discriminate|reflexivity].
      + rewrite place_none by lia. split; [discriminate|congruence]. }
  rewrite inside_all. split.
  - intros H. unfold locate. destruct (base src) as [a|]; [|congruence].
    assert (X : place_all (dims src) (index idx) <> None) by (apply place_all_some; intros k Hk; apply P; [assumption|]; now apply H).
    destruct (place_all (dims src) (index idx)); [discriminate|congruence].
  - intros H k Hk. apply P; [assumption|]. now apply locate_place.
Qed.
Lemma corner_in : forall ds, (exists idx, in_bounds ds idx) -> in_bounds ds (map d_min ds).
Proof.
  intros ds [idx H]. apply in_bounds_nonempty in H. induction H; cbn [map in_bounds]; [exact I|]. split; [lia|assumption].
Qed.
Lemma nth_map_min : forall ds k, nth k (map d_min ds) 0 = d_min (nth k ds broadcast).
Proof. intros. change 0 with (d_min broadcast). apply map_nth. Qed.
Lemma locate_corner : forall b f, dims_ok b -> no_folds b -> (forall k, (k < rank b)%nat ->
   d_stride (dim_at b k) = 0 \/ (d_min (dim_at b k) <= d_max (dim_at b k) /\ f k = d_min (dim_at b k))) -> locate b f = base b.
Proof.
  intros b f Hd Hf H. unfold locate. rewrite place_all_zero; [apply oadd_0_r|]. intros d k Hk ->. fold (dim_at b k).
  destruct (H k Hk) as [S|[H1 H2]]; [now apply place_stride0|]. rewrite H2. apply place_min; [|apply Hf; now apply dim_at_in|assumption].
  unfold dims_ok in Hd. rewrite Forall_forall in Hd. apply Hd. now apply dim_at_in.
Qed.
Lemma in_elementwise_or : forall dst src pad o, In o (elementwise_or dst src pad) <->
  exists idx, in_bounds (dims dst) idx /\ o = (locate dst (index idx), match locate src (index idx) with Some s => Some s | None => locate pad (index idx) end).
Proof.
  intros. unfold elementwise_or. rewrite in_map_iff. split.
  - intros (idx & <- & H). exists idx. split; [now apply in_box|reflexivity].
  - intros (idx & H & ->). exists idx. split; [reflexivity|now apply in_box].
Qed.
Lemma in_pads : forall d dst src pad o, In o (pads d src dst pad) <->
  exists idx, in_bounds (dims dst) idx /\ inside d src idx = false /\ o = (locate dst (index idx), locate pad (index idx)).
Proof.
  intros. unfold pads. rewrite in_map_iff. split.
  - intros (idx & <- & H). apply filter_In in H. destruct H as [H1 H2]. apply negb_true_iff in H2. exists idx. split; [now apply in_box|auto].
  - intros (idx & H1 & H2 & ->). exists idx. split; [reflexivity|]. apply filter_In. rewrite H2. split; [now apply in_box|reflexivity].
Qed.
Lemma in_elementwise : forall dst src o, In o (elementwise dst src) <->
  exists idx, in_bounds (dims dst) idx /\ o = (locate dst (index idx), locate src (index idx)).
Proof.
  intros. unfold elementwise. rewrite in_map_iff. split.
  - intros (idx & <- & H). exists idx. split; [now apply in_box|reflexivity].
  - intros (idx & H & ->). exists idx. split; [reflexivity|now apply in_box].
Qed.

Lemma padded_core : forall m src dst pad es, es = elem_size dst ->
  0 < es -> elem_size src = es -> elem_size pad = es -> dims_ok dst -> dims_ok src -> dims_ok pad ->
  no_folds dst -> no_folds src -> (rank src <= rank dst)%nat -> base src <> None -> pad_dim_ok src ->
  box (dims dst) = [] \/ one_contiguous_dim dst ->
  (forall i j, in_bounds (dims dst) i -> in_bounds (dims dst) j ->
     (locate dst (index i) = locate dst (index j) /\ locate src (index i) = locate src (index j) /\ locate pad (index i) = locate pad (index j)) \/
     apart es (locate dst (index i)) (locate dst (index j))) ->
  (forall i, in_bounds (dims dst) i -> locate dst (index i) <> None /\ locate pad (index i) <> None) ->
  (forall i j, in_bounds (dims dst) i -> in_bounds (dims dst) j -> apart es (locate dst (index i)) (locate pad (index j))) ->
  ((forall i j, in_bounds (dims dst) i -> in_bounds (dims dst) j -> apart es (locate dst (index i)) (locate src (index j))) \/
   (forall i, in_bounds (dims dst) i -> locate src (index i) <> None -> locate src (index i) = locate dst (index i))) ->
  exists m1 src1 dst1, pad_impl m src dst pad = Some (m1, src1, dst1) /\
    exists m', (if ptr_eqb (base src1) (base dst1) then Some m1 else copy_impl m1 src1 dst1) = Some m' /\
      assigned es (elementwise_or dst src pad) m m'.
Proof.
  intros m src dst pad es -> Hes Hsz Hpz Hd Hs Hp Fd Fs Hr Hb Hpd Hone H1 H2 H3 H4.
  unfold pad_impl. replace (Nat.min (rank src) (rank dst)) with (rank src) by lia.
  set (es := elem_size dst) in *.
  assert (Cp : clean es (pads (rank src) src dst pad)).
  { split; [|split].
    - intros o Ho. apply in_pads in Ho. destruct Ho as (i & Hi & _ & ->). cbn [fst snd]. now apply H2.
    - intros o o' Ho Ho'. apply in_pads in Ho. destruct Ho as (i & Hi & _ & ->). apply in_pads in Ho'. destruct Ho' as (j & Hj & _ & ->). cbn [fst snd].
      destruct (H1 i j Hi Hj) as [(E1 & E2 & E3)|E]; [left; now rewrite E1, E3|now right].
    - intros o o' Ho Ho'. apply in_pads in Ho. destruct Ho as (i & Hi & _ & ->). apply in_pads in Ho'. destruct Ho' as (j & Hj & _ & ->). cbn [fst snd]. auto. }
  destruct (pad_loop_ok (rank src) m src dst pad Hes Hpz Hd Hp (le_n _) Hr Hone Cp) as
    (m1 & src1 & dst1 & R & A & I & L & C & D1 & D2 & D3 & D4 & E1 & E2 & E3 & E4 & U & V).
  exists m1, src1, dst1. split; [exact R|].
  pose proof (fun idx => inside_locate src idx Hb Hpd) as Ins.
  (* the corner of what is left *)
  assert (Corner : (exists idx, in_bounds (dims dst1) idx) ->
     in_bounds (dims dst1) (map d_min (dims dst1)) /\ locate dst1 (index (map d_min (dims dst1))) = base dst1 /\
     locate src1 (index (map d_min (dims dst1))) = base src1).
  { intros Hex. pose proof (corner_in _ Hex) as Hc. destruct Hex as [idx Hidx]. pose proof (in_bounds_nonempty _ _ Hidx) as Hne. rewrite Forall_forall in Hne.
    split; [assumption|]. split; apply locate_corner; auto.
    - intros k Hk. right. split; [apply Hne; now apply dim_at_in|]. unfold index. now rewrite nth_map_min.
    - intros k Hk. rewrite E4 in Hk. destruct (V k Hk) as [[V1 V2]|(V1 & V2 & V3)].
      + left. rewrite V2. now apply is_broadcast_stride in V1.
      + right. rewrite V2, V3. split; [apply Hne; apply dim_at_in; lia|]. unfold index. now rewrite nth_map_min. }
  assert (Split : forall o, In o (pads (rank src) src dst pad ++ elementwise dst1 src1) <-> In o (elementwise_or dst src pad)).
  { intros o. rewrite in_app_iff, in_pads, in_elementwise, in_elementwise_or. split.
    - intros [(i & Hi & Hn & ->)|(i & Hi & ->)]; exists i.
      + split; [assumption|]. destruct (locate src (index i)) eqn:E; [|reflexivity].
        assert (X : inside (rank src) src i = true) by (apply Ins; congruence). congruence.
      + destruct (L i Hi) as [L1 L2]. apply I in Hi. destruct Hi as [Hi Hn]. split; [assumption|]. rewrite L1, L2.
        apply Ins in Hn. destruct (locate src (index i)); [reflexivity|congruence].
    - intros (i & Hi & ->). destruct (inside (rank src) src i) eqn:E.
      + right. exists i. assert (Hi1 : in_bounds (dims dst1) i) by (apply I; auto). split; [assumption|]. destruct (L i Hi1) as [-> ->].
        apply Ins in E. destruct (locate src (index i)); [reflexivity|congruence].
      + left. exists i. split; [assumption|]. split; [assumption|]. destruct (locate src (index i)) eqn:EL; [|reflexivity].
        assert (X : inside (rank src) src i = true) by (apply Ins; congruence). congruence. }
  assert (Empty : box (dims dst1) = [] -> assigned es (elementwise_or dst src pad) m m1).
  { intros EB. eapply assigned_equiv; [|exact A]. intros o. rewrite <- Split, in_app_iff.
    assert (X : ~ In o (elementwise dst1 src1)) by (rewrite in_elementwise; intros (i & Hi & _); apply in_box in Hi; rewrite EB in Hi; contradiction). tauto. }
  assert (EmptyCopy : box (dims dst1) = [] -> exists m', copy_impl m1 src1 dst1 = Some m' /\ assigned es (elementwise_or dst src pad) m m').
  { intros EB. assert (Ew : elementwise dst1 src1 = []) by (unfold elementwise; now rewrite EB).
    destruct (copy_impl_ok m1 src1 dst1) as (m' & Rc & Ac); auto; try (unfold es in *; lia).
    { rewrite Ew. split; [intros o []|]. split; intros o o' []. }
    exists m'. split; [assumption|]. rewrite Ew in Ac. destruct (Empty EB) as [X1 X2]. destruct Ac as [_ X3].
    assert (M : forall a, m' a = m1 a) by (intros a; apply X3; intros d s []).
    split; intros; rewrite M; auto. }
  destruct H4 as [H4|H4].
  - (* no overlap *)
    destruct (ptr_eqb (base src1) (base dst1)) eqn:EP.
    + exists m1. split; [reflexivity|]. apply Empty. destruct (box_empty_dec (dims dst1)) as [EB|EB]; [assumption|exfalso].
      destruct (Corner EB) as (Hc & Lc & Ls). destruct (L _ Hc) as [L1 L2]. pose proof (proj1 (I _) Hc) as [Hc0 _].
      specialize (H4 _ _ Hc0 Hc0). rewrite <- L1, <- L2, Lc, Ls in H4.
      assert (N : base dst1 <> None) by (rewrite <- Lc, L1; now apply H2).
      destruct (base dst1), (base src1); cbn [ptr_eqb apart] in *; try congruence. lia.
    + assert (Ct : clean es (pads (rank src) src dst pad ++ elementwise dst1 src1)).
      { apply (clean_incl es _ (elementwise_or dst src pad)); [intros o Ho; now apply Split|]. split; [|split].
        - intros o Ho. apply in_elementwise_or in Ho. destruct Ho as (i & Hi & ->). cbn [fst snd]. destruct (H2 i Hi). split; [assumption|].
          destruct (locate src (index i)); [discriminate|assumption].
        - intros o o' Ho Ho'. apply in_elementwise_or in Ho. destruct Ho as (i & Hi & ->). apply in_elementwise_or in Ho'. destruct Ho' as (j & Hj & ->). cbn [fst snd].
          destruct (H1 i j Hi Hj) as [(X1 & X2 & X3)|E]; [left; now rewrite X1, X2, X3|now right].
        - intros o o' Ho Ho'. apply in_elementwise_or in Ho. destruct Ho as (i & Hi & ->). apply in_elementwise_or in Ho'. destruct Ho' as (j & Hj & ->). cbn [fst snd].
          specialize (H4 i j Hi Hj). specialize (H3 i j Hi Hj). destruct (locate src (index j)); assumption. }
      destruct (copy_impl_ok m1 src1 dst1) as (m' & Rc & Ac); auto; try (unfold es in *; lia).
      { rewrite E1. eapply clean_incl; [|exact Ct]. intros o Ho. apply in_app_iff. now right. }
      exists m'. split; [assumption|]. rewrite E1 in Ac. eapply assigned_equiv; [exact Split|].
      eapply assigned_app; eassumption.
  - (* in place *)
    destruct (box_empty_dec (dims dst1)) as [EB|EB].
    + destruct (ptr_eqb (base src1) (base dst1)); [|now apply EmptyCopy]. exists m1. split; [reflexivity|now apply Empty].
    + destruct (Corner EB) as (Hc & Lc & Ls). destruct (L _ Hc) as [L1 L2]. pose proof (proj1 (I _) Hc) as [Hc0 Hc1]. apply Ins in Hc1.
      specialize (H4 _ Hc0 Hc1) as H4c. rewrite <- L1, <- L2, Lc, Ls in H4c. rewrite H4c.
      replace (ptr_eqb (base dst1) (base dst1)) with true by (destruct (base dst1); cbn [ptr_eqb]; [symmetry; apply Z.eqb_refl|reflexivity]).
      exists m1. split; [reflexivity|]. destruct A as [A1 A2]. split.
      * intros d s k Ho Hk. apply in_elementwise_or in Ho. destruct Ho as (i & Hi & Ei). destruct (locate src (index i)) as [s'|] eqn:Es.
        { (* already in place *)
          injection Ei as Ed ->. assert (Ese : locate src (index i) = locate dst (index i)) by (apply H4; [assumption|congruence]).
          rewrite Es, <- Ed in Ese. injection Ese as ->. apply A2. intros d' s Hp' Hin'.
          apply in_pads in Hp'. destruct Hp' as (j & Hj & Hn & Ej). injection Ej as Ej _.
          destruct (H1 i j Hi Hj) as [(_ & X2 & _)|X].
          - assert (inside (rank src) src j = true) by (apply Ins; rewrite <- X2, Es; discriminate). congruence.
          - rewrite <- Ed, <- Ej in X. cbn [apart] in X. lia. }
        { apply A1; [|assumption]. apply in_pads. exists i. split; [assumption|]. split; [|exact Ei].
          destruct (inside (rank src) src i) eqn:X; [|reflexivity]. apply Ins in X. congruence. }
      * intros a Ha. apply A2. intros d s Ho. apply (Ha d s). apply Split. apply in_app_iff. now left.
Qed.

Lemma fuse_rank_le : forall inner outer b0 b, (inner < outer < rank b0)%nat -> (rank b <= rank b0)%nat ->
  (rank (fuse_remove inner outer b) <= rank (fuse_remove inner outer b0))%nat.
Proof.
  intros inner outer b0 b H Hr. rewrite (fuse_rank0 inner outer b0) by assumption. destruct (Nat.lt_ge_cases outer (rank b)).
  - rewrite fuse_rank0 by lia. lia.
  - unfold rank at 1. rewrite fuse_remove_dims by lia. destruct (Nat.leb_spec (rank b) outer); [unfold rank in *; lia|lia].
Qed.
Lemma slice_rank : forall d x b, rank (slice_at b d x) = if (d <? rank b)%nat then (rank b - 1)%nat else rank b.
Proof.
  intros. unfold rank at 1. rewrite slice_at_dims. destruct (Nat.ltb_spec d (rank b)); unfold rank in *.
  - now rewrite remove_nth_length.
  - now rewrite remove_nth_out.
Qed.
(** What padding needs of the source, kept by fusing. *)
Definition pad_src_ok (dst src : buf) : Prop :=
  pad_dim_ok src /\ (no_strided_points src \/ no_broadcasts src) /\ no_folds src /\ dims_ok src /\ base src <> None /\
  (rank src <= rank dst)%nat /\ no_folds dst.
Lemma optimize_pad_src : forall dst src pad dst' src' pad', pad_src_ok dst src ->
  optimize_dims dst [src; pad] = (dst', [src'; pad']) -> pad_src_ok dst' src'.
Proof.
  intros dst src pad dst' src' pad' H E.
  apply (optimize_rel (fun b bs => exists s p, bs = [s; p] /\ pad_src_ok b s)) in E.
  - destruct E as (s & p & X & E). now injection X as <- <-.
  - intros inner outer b0 bs H1 _ Hc (s & p & -> & (P1 & P2 & P3 & P4 & P5 & P6 & P7)).
    exists (fuse_remove inner outer s), (fuse_remove inner outer p). split; [reflexivity|].
    pose proof (can_fuse_first _ _ _ _ Hc) as Hc0. pose proof (can_fuse_in _ _ _ _ s Hc ltac:(now left)) as Hcs.
    split; [|split; [|split; [|split; [|split; [|split]]]]].
    + intros d Hd Hst. apply fused_dim_in in Hd; [|lia]. destruct Hd as [Hd|[Hr ->]]; [now apply P1|].
      destruct (can_fuse_extent _ _ Hcs) as [E1 E2].
      destruct (fuse_cases (dim_at s inner) (dim_at s outer)) as [[Eb Ef]|(Eb & Es & Ef & Emin & Emax)]; [now rewrite Ef|].
      exfalso. rewrite Es in Hst. pose proof (dim_at_in s inner ltac:(lia)) as Ini. pose proof (dim_at_in s outer Hr) as Ino.
      destruct P2 as [P2|P2]; [|now apply (P2 _ Ini)].
      apply can_fuse_inv in Hcs. destruct Hcs as [[C1 C2]|[C1 _]].
      * apply C2. apply P2; [assumption|]. unfold is_point. lia.
      * rewrite Hst in C1. rewrite (P1 _ Ino) in Eb; [discriminate|lia].
    + destruct P2 as [P2|P2]; [left; apply fuse_no_strided_points; auto; lia|right; apply fuse_no_broadcasts; auto; lia].
    + apply fuse_no_folds; auto; lia.
    + apply fuse_dims_ok; auto; lia.
    + now rewrite fuse_remove_base.
    + now apply fuse_rank_le.
    + apply fuse_no_folds; auto; lia.
  - intros i j b0 bs H1 H2 (s & p & -> & (P1 & P2 & P3 & P4 & P5 & P6 & P7)). inversion H2 as [|x l H3 H4]. subst.
    exists (swap_dims i j s), (swap_dims i j p). split; [reflexivity|].
    assert (S := fun d => swap_in i j s d ltac:(lia)). assert (S0 := fun d => swap_in i j b0 d ltac:(lia)).
    split; [intros d Hd; auto|]. split; [destruct P2 as [P2|P2]; [left|right]; intros d Hd; auto|].
    split; [intros d Hd; auto|]. split; [unfold dims_ok in *; rewrite Forall_forall in *; auto|]. split; [assumption|].
    split; [now rewrite !swap_rank|intros d Hd; auto].
  - intros d b0 bs H1 H2 (s & p & -> & (P1 & P2 & P3 & P4 & P5 & P6 & P7)). inversion H2 as [|y l H3 H4]. subst. clear H4.
    set (x := d_min (dim_at b0 d)) in *.
    exists (slice_at s d x), (slice_at p d x). split; [reflexivity|].
    pose proof (slice_in d x s) as S. pose proof (slice_in d x b0) as S0.
    split; [intros e He; auto|]. split; [destruct P2 as [P2|P2]; [left|right]; intros e He; auto|].
    split; [intros e He; auto|]. split; [unfold dims_ok in *; rewrite Forall_forall in *; auto|].
    split; [|split; [|intros e He; auto]].
    + unfold slice_at. destruct (Nat.leb_spec (rank s) d); [assumption|]. rewrite slice1_base. cbn [base]. destruct (base s); [|congruence].
      replace (d_contains (dim_at s d) x) with true; [discriminate|]. symmetry. unfold d_contains, d_contains2, is_point_at in *. lia.
    + rewrite !slice_rank. destruct (Nat.ltb_spec d (rank s)), (Nat.ltb_spec d (rank b0)); lia.
  - exists src, pad. auto.
Qed.

Definition or_of (t : list ptr) : ptr * ptr :=
  match t with [d; s; p] => (d, match s with Some _ => s | None => p end) | _ => (None, None) end.
Lemma elementwise_or_tuples : forall dst src pad, elementwise_or dst src pad = map or_of (tuples dst [src; pad]).
Proof. intros. unfold elementwise_or, tuples. rewrite map_map. apply map_ext. intros idx. cbn [map or_of]. destruct (locate src (index idx)); reflexivity. Qed.
Lemma same_elements_back : forall dst s p dst' s' p' i', same_elements dst [s; p] dst' [s'; p'] -> in_bounds (dims dst') i' ->
  exists i, in_bounds (dims dst) i /\ locate dst' (index i') = locate dst (index i) /\
    locate s' (index i') = locate s (index i) /\ locate p' (index i') = locate p (index i).
Proof.
  intros dst s p dst' s' p' i' H Hi.
  assert (X : In (map (fun b => locate b (index i')) (dst' :: [s'; p'])) (tuples dst [s; p])).
  { eapply Permutation_in; [apply Permutation_sym; exact H|]. unfold tuples. apply in_map_iff. exists i'. split; [reflexivity|now apply in_box]. }
  unfold tuples in X. apply in_map_iff in X. destruct X as (i & E & Hin). cbn [map] in E. injection E as E1 E2 E3.
  exists i. split; [now apply in_box|auto].
Qed.

Lemma copy_padded : forall m src dst pad,
  0 < elem_size dst -> elem_size src = elem_size dst -> elem_size pad = elem_size dst ->
  fusable_first dst -> pad_src_ok dst src -> dims_ok pad -> no_strided_points pad \/ no_folds pad ->
  (forall idx, in_bounds (dims dst) idx -> locate dst (index idx) <> None /\ locate pad (index idx) <> None) ->
  base pad <> None ->
  separate dst -> no_overlap dst pad ->
  (no_overlap dst src \/
   ((0 < rank src)%nat /\ forall idx, in_bounds (dims dst) idx -> locate src (index idx) <> None -> locate src (index idx) = locate dst (index idx))) ->
  exists m', copy m src dst pad = Some m' /\ assigned (elem_size dst) (elementwise_or dst src pad) m m'.
Proof.
  intros m src dst pad Hes Hsz Hpz Hd Hs Hp Hp2 Hin Hbp Hsep Hnp Hns.
  pose proof Hs as (P1 & P2 & P3 & P4 & P5 & P6 & P7).
  destruct (Nat.eq_dec (rank src) 0) as [R0|R0].
  { (* rank 0 *)
    assert (Hl : forall idx, locate src (index idx) <> None).
    { intros idx. unfold locate, rank in *. destruct (dims src); [|discriminate]. cbn [place_all]. now rewrite oadd_0_r. }
    destruct Hns as [Hns|[X _]]; [|lia].
    destruct (copy_unpadded m src dst pad) as (m' & R & A); auto.
    { intros idx Hi. split; [now apply Hin|apply Hl]. }
    exists m'. split; [assumption|]. eapply assigned_equiv; [|exact A]. intros o. unfold elementwise, elementwise_or.
    replace (map (fun idx => (locate dst (index idx), match locate src (index idx) with Some s => Some s | None => locate pad (index idx) end)) (box (dims dst)))
      with (map (fun idx => (locate dst (index idx), locate src (index idx))) (box (dims dst))); [reflexivity|].
    apply map_ext. intros idx. specialize (Hl idx). destruct (locate src (index idx)); [reflexivity|congruence]. }
  unfold copy. replace (0 <? rank src)%nat with true by (symmetry; apply Nat.ltb_lt; lia).
  destruct (base pad) as [bp|] eqn:EBP; [|congruence]. cbn [andb].
  destruct (optimize_dims dst [src; pad]) as [dst' bs'] eqn:E.
  assert (G : good dst [src; pad]).
  { split; [assumption|]. constructor; [|constructor; [|constructor]].
    - split; [assumption|]. destruct P2 as [P2|P2]; [now left|right]. split; [assumption|now left].
    - split; [assumption|]. destruct Hp2 as [X|X]; [now left|right; split; [assumption|right]]. intros idx Hi _. now apply Hin. }
  destruct (optimize_dims_step _ _ _ _ G E) as ([F Fs] & S & L). destruct (optimize_elem _ _ _ _ E) as [E1 E2].
  destruct bs' as [|src' [|pad' [|? ?]]]; cbn [length] in L; try lia. cbn [map] in E2. injection E2 as E2 E3.
  destruct (optimize_pad_src _ _ _ _ _ _ Hs E) as (Q1 & Q2 & Q3 & Q4 & Q5 & Q6 & Q7).
  inversion Fs as [|x l Fs1 Fs2 X1]. subst. inversion Fs2 as [|x l Fs3 Fs4 X2]. subst. destruct Fs3 as [Fs3 _]. destruct F as [F1 _].
  pose proof (fun i Hi => same_elements_back _ _ _ _ _ _ i S Hi) as Back.
  destruct (padded_core m src' dst' pad' (elem_size dst)) as (m1 & src1 & dst1 & Rp & m' & Rc & A); auto; try lia.
  - assert (O : box (dims dst) = [] \/ one_contiguous_dim dst).
    { destruct Hd. apply separate_one_contiguous; auto. intros. now apply Hin. }
    destruct O as [O|O]; [left; now apply (box_same_empty _ _ _ _ S)|right; now apply (optimize_one_contiguous _ _ _ _ Hes O E)].
  - intros i j Hi Hj. destruct (Back i Hi) as (i0 & I0 & I1 & I2 & I3). destruct (Back j Hj) as (j0 & J0 & J1 & J2 & J3).
    rewrite I1, I2, I3, J1, J2, J3. destruct (index_list_dec i0 j0) as [->|N]; [now left|right]. now apply Hsep.
  - intros i Hi. destruct (Back i Hi) as (i0 & I0 & I1 & I2 & I3). rewrite I1, I3. now apply Hin.
  - intros i j Hi Hj. destruct (Back i Hi) as (i0 & I0 & I1 & I2 & I3). destruct (Back j Hj) as (j0 & J0 & J1 & J2 & J3).
    rewrite I1, J3. now apply Hnp.
  - destruct Hns as [Hns|[_ Hns]]; [left|right].
    + intros i j Hi Hj. destruct (Back i Hi) as (i0 & I0 & I1 & I2 & I3). destruct (Back j Hj) as (j0 & J0 & J1 & J2 & J3).
      rewrite I1, J2. now apply Hns.
    + intros i Hi. destruct (Back i Hi) as (i0 & I0 & I1 & I2 & I3). rewrite I1, I2. now apply Hns.
  - rewrite Rp. exists m'. split; [exact Rc|]. eapply assigned_equiv; [|exact A]. intros o. rewrite !elementwise_or_tuples.
    apply (Permutation_map or_of) in S. split; apply Permutation_in; [now apply Permutation_sym|assumption].
Qed.

(** ** pad *)
(** what pad sees: whether an index is inside, and the addresses *)
Definition flagged (b0 s p : buf) : list (bool * ptr * ptr) :=
  map (fun idx => (inside (rank s) s idx, locate b0 (index idx), locate p (index idx))) (box (dims b0)).
Definition strideless (s : buf) : Prop := forall d, In d (dims s) -> d_stride d = 0.
Lemma flag_step : forall b0 s p b0' s' p' (f g : list Z -> list Z),
  (forall idx, in_bounds (dims b0) idx -> in_bounds (dims b0') (f idx) /\ g (f idx) = idx) ->
  (forall idx, in_bounds (dims b0') idx -> in_bounds (dims b0) (g idx) /\ f (g idx) = idx) ->
  (forall idx, in_bounds (dims b0) idx -> inside (rank s) s idx = inside (rank s') s' (f idx) /\
     locate b0 (index idx) = locate b0' (index (f idx)) /\ locate p (index idx) = locate p' (index (f idx))) ->
  Permutation (flagged b0 s p) (flagged b0' s' p').
Proof.
  intros b0 s p b0' s' p' f g Hf Hg H. unfold flagged.
  eapply Permutation_trans; [|apply Permutation_map; exact (box_map_perm _ _ f g Hf Hg)].
  rewrite map_map. replace (map (fun idx => (inside (rank s) s idx, locate b0 (index idx), locate p (index idx))) (box (dims b0)))
    with (map (fun x => (inside (rank s') s' (f x), locate b0' (index (f x)), locate p' (index (f x)))) (box (dims b0))); [apply Permutation_refl|].
  apply map_ext_in. intros idx Hi. apply in_box in Hi. destruct (H idx Hi) as (A & B & C). now rewrite A, B, C.
Qed.
Lemma dim_at_fuse : forall inner outer b k, (inner < outer < rank b)%nat ->
  dim_at (fuse_remove inner outer b) k = if (k =? inner)%nat then fuse (dim_at b inner) (dim_at b outer)
    else if (k <? outer)%nat then dim_at b k else dim_at b (S k).
Proof.
  intros inner outer b k H. unfold dim_at at 1. rewrite fuse_remove_dims by lia. destruct (Nat.leb_spec (rank b) outer); [lia|]. unfold rank in *.
  rewrite nth_remove_nth. destruct (Nat.ltb_spec k outer).
  - rewrite nth_set_nth by lia. reflexivity.
  - rewrite nth_set_nth by lia. destruct (Nat.eqb_spec (S k) inner); [lia|]. destruct (Nat.eqb_spec k inner); [lia|reflexivity].
Qed.
Lemma fuse_inside : forall inner outer b0 s idx, (inner < outer < rank b0)%nat -> rank s = rank b0 -> strideless s ->
  same_bounds1 (dim_at b0 inner) (dim_at s inner) = true -> can_fuse (dim_at s inner) (dim_at s outer) = true ->
  in_bounds (dims b0) idx ->
  inside (rank s) s idx = inside (rank (fuse_remove inner outer s)) (fuse_remove inner outer s)
    (fuse_index inner outer (d_min (dim_at b0 inner)) (extent (dim_at b0 inner)) idx).
Proof.
  intros inner outer b0 s idx H Hr Hs Hb Hc Hi.
  pose proof (proj1 (in_bounds_nth _ _) Hi) as [HL Hin].
  assert (Ee : extent (dim_at b0 inner) = extent (dim_at s inner)).
  { unfold same_bounds1 in Hb. unfold extent, d_begin, d_end. replace (d_min (dim_at b0 inner)) with (d_min (dim_at s inner)) by lia.
    replace (d_max (dim_at b0 inner)) with (d_max (dim_at s inner)) by lia. reflexivity. }
  destruct (can_fuse_extent _ _ Hc) as [E1 E2]. rewrite Ee. set (e := extent (dim_at s inner)) in *.
  assert (Hx := Hin inner ltac:(unfold rank in *; lia)). fold (dim_at b0 inner) in Hx.
  set (x := nth inner idx 0) in *. set (y := nth outer idx 0).
  assert (Ii : inside1 (dim_at s inner) x = true) by (unfold inside1, same_bounds1 in *; lia).
  assert (If : inside1 (fuse (dim_at s inner) (dim_at s outer)) (y * e + (x - d_min (dim_at b0 inner))) = inside1 (dim_at s outer) y).
  { destruct (fuse_cases (dim_at s inner) (dim_at s outer)) as [[Eb Ef]|(Eb & Es & Ef & Emin & Emax)].
    - rewrite Ef. unfold inside1. now rewrite Eb.
    - assert (So : d_stride (dim_at s outer) = 0) by (apply Hs, dim_at_in; lia). unfold inside1. rewrite Eb. cbn [orb].
      fold e in Emin, Emax. unfold same_bounds1 in Hb.
      replace (is_broadcast (fuse (dim_at s inner) (dim_at s outer))) with false.
      2:{ symmetry. unfold is_broadcast in *. rewrite Emin, Emax. destruct (d_min (dim_at s outer) * e =? 0) eqn:X1; cbn [andb]; [|reflexivity].
          destruct ((d_max (dim_at s outer) + 1) * e - 1 =? 0) eqn:X2; cbn [andb]; [|reflexivity]. exfalso.
          assert (e = 1) by nia. rewrite So in Eb. lia. }
      cbn [orb]. rewrite Emin, Emax. apply eq_true_iff_eq. rewrite !andb_true_iff, !Z.leb_le. nia. }
  rewrite fuse_rank0 by lia. apply eq_true_iff_eq. rewrite !inside_all. split; intros Hk k K.
  - rewrite dim_at_fuse by lia. rewrite nth_fuse_index by (unfold rank in *; lia).
    destruct (Nat.eqb_spec k inner) as [->|N]; [fold x y; rewrite If; unfold y; apply Hk; lia|].
    destruct (k <? outer)%nat; apply Hk; lia.
  - destruct (Nat.eq_dec k inner) as [->|N]; [exact Ii|]. destruct (Nat.eq_dec k outer) as [->|N2].
    + specialize (Hk inner ltac:(lia)). rewrite dim_at_fuse, Nat.eqb_refl in Hk by lia. rewrite nth_fuse_index, Nat.eqb_refl in Hk by (unfold rank in *; lia).
      fold x y in Hk. now rewrite If in Hk.
    + destruct (Nat.lt_ge_cases k outer) as [K2|K2].
      * specialize (Hk k ltac:(lia)). rewrite dim_at_fuse in Hk by lia. rewrite nth_fuse_index in Hk by (unfold rank in *; lia).
        destruct (Nat.eqb_spec k inner); [lia|]. destruct (Nat.ltb_spec k outer); [assumption|lia].
      * specialize (Hk (k - 1)%nat ltac:(lia)). rewrite dim_at_fuse in Hk by lia. rewrite nth_fuse_index in Hk by (unfold rank in *; lia).
        destruct (Nat.eqb_spec (k - 1) inner); [lia|]. destruct (Nat.ltb_spec (k - 1) outer); [lia|].
        replace (S (k - 1)) with k in Hk by lia. assumption.
Qed.
Definition pad_state (dst0 s0 p0 : buf) (b : buf) (bs : list buf) : Prop :=
  exists s p, bs = [s; p] /\ good b [p] /\ strideless s /\ rank s = rank b /\ Permutation (flagged dst0 s0 p0) (flagged b s p).
Lemma optimize_pad_state : forall dst s p dst' bs', good dst [p] -> strideless s -> rank s = rank dst ->
  optimize_dims dst [s; p] = (dst', bs') -> pad_state dst s p dst' bs'.
Proof.
  intros dst s0 p0 dst' bs' G0 S0 R0 E. apply (optimize_rel (pad_state dst s0 p0)) in E; [assumption| | | |].
  - intros inner outer b0 bs H1 Hb Hc (s & p & -> & G & Sl & R & P).
    exists (fuse_remove inner outer s), (fuse_remove inner outer p). split; [reflexivity|].
    pose proof (can_fuse_first _ _ _ _ Hc) as Hc0. pose proof (can_fuse_in _ _ _ _ s Hc ltac:(now left)) as Hcs.
    pose proof (can_fuse_in _ _ _ _ p Hc ltac:(right; now left)) as Hcp.
    assert (Hb1 : same_bounds inner b0 [p] = true).
    { unfold same_bounds in *. cbn [forallb] in *. apply andb_true_iff in Hb. tauto. }
    assert (Hbs : same_bounds1 (dim_at b0 inner) (dim_at s inner) = true).
    { unfold same_bounds in Hb. cbn [forallb] in Hb. apply andb_true_iff in Hb. destruct Hb as [Hb _].
      destruct (Nat.leb_spec (rank b0) inner); [lia|]. destruct (Nat.leb_spec (rank s) inner); [lia|]. exact Hb. }
    assert (A : attempt_fuse inner outer b0 [p] = Some (fuse_remove inner outer b0, [fuse_remove inner outer p])).
    { unfold attempt_fuse. rewrite Hb1. unfold can_fuse_all. cbn [forallb]. now rewrite Hc0, Hcp. }
    destruct (attempt_fuse_step _ _ _ _ _ _ H1 G A) as (G' & _).
    split; [exact G'|]. split.
    { intros d Hd. apply fused_dim_in in Hd; [|lia]. destruct Hd as [Hd|[Hr ->]]; [now apply Sl|].
      destruct (fuse_cases (dim_at s inner) (dim_at s outer)) as [[Eb Ef]|(Eb & Es & _)]; [rewrite Ef|rewrite Es]; apply Sl; apply dim_at_in; lia. }
    split; [rewrite !fuse_rank0 by lia; lia|]. eapply Permutation_trans; [exact P|].
    destruct G as [F Fp]. destruct (fuse_box inner outer b0 H1 F Hc0) as [B1 B2].
    eapply flag_step; [exact B1|exact B2|]. intros idx Hi. split; [now apply fuse_inside|].
    split; [apply (fuse_locate inner outer b0 [p] b0 idx H1 (conj F Fp) Hb1 Hc0 ltac:(now left) Hc0 Hi)|].
    apply (fuse_locate inner outer b0 [p] p idx H1 (conj F Fp) Hb1 Hc0 ltac:(right; now left) Hcp Hi).
  - intros i j b0 bs H1 H2 (s & p & -> & G & Sl & R & P). inversion H2 as [|x l H3 H4]. subst. inversion H4 as [|x l H5 H6]. subst.
    exists (swap_dims i j s), (swap_dims i j p). split; [reflexivity|]. split; [apply (swap_good i j b0 [p]); auto|].
    split; [intros d Hd; apply Sl; apply (swap_in i j s d); [lia|assumption]|]. split; [now rewrite !swap_rank|].
    eapply Permutation_trans; [exact P|]. apply flag_step with (f := swap_list 0 i j) (g := swap_list 0 i j).
    + intros idx Hb. unfold rank in *. rewrite swap_dims_dims. split; [apply swap_in_bounds; [lia|assumption]|].
      apply in_bounds_nth in Hb. apply swap_list_twice. lia.
    + intros idx Hb. unfold rank in *. rewrite swap_dims_dims in Hb.
      pose proof Hb as HL. apply in_bounds_nth in HL. rewrite swap_list_length in HL.
      apply (swap_in_bounds i j) in Hb; [|rewrite swap_list_length; lia]. rewrite swap_list_twice in Hb by lia.
      split; [assumption|]. apply swap_list_twice. lia.
    + intros idx Hb. pose proof (proj1 (in_bounds_nth _ _) Hb) as [HL _]. fold (rank b0) in HL.
      split; [|split; apply swap_locate; lia].
      rewrite swap_rank. apply eq_true_iff_eq. rewrite !inside_all. split; intros Hk k K.
      * rewrite dim_at_swap by lia. rewrite nth_swap_list by lia. destruct (k =? j)%nat; [apply Hk; lia|]. destruct (k =? i)%nat; apply Hk; lia.
      * assert (Hk' := fun q Q => Hk q Q). setoid_rewrite dim_at_swap in Hk'; [|lia]. setoid_rewrite nth_swap_list in Hk'; [|lia].
        destruct (Nat.eq_dec k i) as [->|]; [specialize (Hk' j ltac:(lia)); now rewrite Nat.eqb_refl in Hk'|].
        destruct (Nat.eq_dec k j) as [->|].
        { specialize (Hk' i ltac:(lia)). destruct (Nat.eqb_spec i j); [lia|]. now rewrite Nat.eqb_refl in Hk'. }
        { specialize (Hk' k K). destruct (Nat.eqb_spec k j); [lia|]. destruct (Nat.eqb_spec k i); [lia|]. assumption. }
  - intros d b0 bs H1 H2 (s & p & -> & G & Sl & R & P). inversion H2 as [|x0 l H3 H4]. subst. clear H4.
    set (x := d_min (dim_at b0 d)) in *.
    exists (slice_at s d x), (slice_at p d x). split; [reflexivity|]. split; [apply (slice_good d x b0 [p]); auto|].
    split; [intros e He; apply Sl; now apply slice_in in He|]. split; [rewrite !slice_rank, R; reflexivity|].
    eapply Permutation_trans; [exact P|].
    destruct (Nat.lt_ge_cases d (rank b0)) as [L|L].
    + apply flag_step with (f := fun idx => remove_nth idx d) (g := fun idx => insert_nth d x idx).
      * intros idx Hb. unfold rank in L. rewrite slice_at_dims. apply in_bounds_nth in Hb. destruct Hb as [HL Hb]. split.
        { apply in_bounds_nth. rewrite !remove_nth_length by lia. split; [lia|]. intros k Hk. rewrite !nth_remove_nth.
          destruct (k <? d)%nat eqn:KD; apply Hb; lia. }
        { replace x with (nth d idx 0); [apply insert_remove; lia|]. specialize (Hb d L). fold (dim_at b0 d) in Hb. unfold is_point in H1. lia. }
      * intros idx Hb. unfold rank in L. rewrite slice_at_dims in Hb. apply in_bounds_nth in Hb. rewrite remove_nth_length in Hb by lia. destruct Hb as [HL Hb]. split.
        { apply in_bounds_nth. rewrite insert_nth_length by lia. split; [lia|]. intros k Hk. rewrite nth_insert_nth by lia.
          destruct (Nat.ltb_spec k d).
          - specialize (Hb k ltac:(lia)). rewrite nth_remove_nth in Hb. destruct (Nat.ltb_spec k d); [assumption|lia].
          - destruct (Nat.eqb_spec k d); [subst k; fold (dim_at b0 d); unfold is_point in *; lia|].
            specialize (Hb (k - 1)%nat ltac:(lia)). rewrite nth_remove_nth in Hb. destruct (Nat.ltb_spec (k - 1) d); [lia|].
            replace (S (k - 1)) with k in Hb by lia. assumption. }
        { apply remove_insert. lia. }
      * intros idx Hb. pose proof (proj1 (in_bounds_nth _ _) Hb) as [HL Hb']. specialize (Hb' d L). fold (dim_at b0 d) in Hb'. fold (rank b0) in HL.
        assert (Ex : nth d idx 0 = x) by (unfold is_point in H1; lia).
        assert (LS : forall b, locate b (index idx) = locate (slice_at b d x) (index (remove_nth idx d))).
        { intros b. rewrite slice_locate by (rewrite remove_nth_length by lia; lia). rewrite <- Ex, insert_remove by lia. reflexivity. }
        split; [|split; apply LS].
        assert (DA : forall k, dim_at (slice_at s d x) k = if (k <? d)%nat then dim_at s k else dim_at s (S k)).
        { intros k. unfold dim_at at 1. rewrite slice_at_dims. rewrite nth_remove_nth. destruct (k <? d)%nat; reflexivity. }
        rewrite slice_rank. destruct (Nat.ltb_spec d (rank s)); [|lia]. apply eq_true_iff_eq. rewrite !inside_all. split; intros Hk k K.
        { rewrite DA, nth_remove_nth. destruct (k <? d)%nat eqn:KD; apply Hk; lia. }
        { destruct (Nat.lt_trichotomy k d) as [KD|[KD|KD]].
          - specialize (Hk k ltac:(lia)). rewrite DA, nth_remove_nth in Hk. destruct (Nat.ltb_spec k d); [assumption|lia].
          - subst k. rewrite Ex. unfold inside1, is_point_at in *. lia.
          - specialize (Hk (k - 1)%nat ltac:(lia)). rewrite DA, nth_remove_nth in Hk. destruct (Nat.ltb_spec (k - 1) d); [lia|].
            replace (S (k - 1)) with k in Hk by lia. assumption. }
    + assert (Ex : x = 0) by (unfold x, dim_at; now rewrite nth_overflow by assumption).
      rewrite !(slice_at_out b0), !(slice_at_out s) by lia.
      apply flag_step with (f := fun i => i) (g := fun i => i); auto. intros idx Hb. split; [reflexivity|]. split; [reflexivity|].
      rewrite locate_slice_at. apply locate_ext. intros k _. pose proof (proj1 (in_bounds_nth _ _) Hb) as [HL _]. fold (rank b0) in HL.
      unfold insert_at, index. rewrite Ex. destruct (Nat.ltb_spec k d); [reflexivity|]. destruct (Nat.eqb_spec k d); rewrite (nth_overflow idx) by lia; [reflexivity|].
      now rewrite nth_overflow by lia.
  - exists s0, p0. split; [reflexivity|]. split; [assumption|]. split; [assumption|]. split; [assumption|]. apply Permutation_refl.
Qed.

Lemma nth_firstn_lt : forall A (l : list A) n k (def : A), (k < n)%nat -> nth k (firstn n l) def = nth k l def.
Proof. induction l as [|x l IH]; intros [|n] [|k] def H; cbn [firstn nth]; auto; try lia. apply IH. lia. Qed.
Lemma combine_nth_min : forall A B (l : list A) (l' : list B) k a b, (k < length l)%nat -> (k < length l')%nat -> nth k (combine l l') (a, b) = (nth k l a, nth k l' b).
Proof. induction l as [|x l IH]; intros [|y l'] [|k] a b H H'; cbn [combine nth length] in *; auto; try lia. apply IH; lia. Qed.
Lemma outside_inside : forall es n ds idx, (n <= length ds)%nat -> length idx = n ->
  (forall k, (k < n)%nat -> d_min (nth k ds broadcast) = 0 -> d_max (nth k ds broadcast) = 0 -> nth k idx 0 = 0) ->
  outside ds idx = negb (inside n (pad_bounds es n ds) idx).
Proof.
  intros es n ds idx Hn HL Hz.
  assert (DA : forall k, (k < n)%nat -> d_min (dim_at (pad_bounds es n ds) k) = d_min (nth k ds broadcast) /\
     d_max (dim_at (pad_bounds es n ds) k) = d_max (nth k ds broadcast) /\ d_stride (dim_at (pad_bounds es n ds) k) = 0).
  { intros k Hk. unfold dim_at, pad_bounds. cbn [dims].
    assert (X : nth k (map (fun d => Dim (d_min d) (d_max d) 0 (d_fold d)) (firstn n ds)) broadcast =
      (fun d => Dim (d_min d) (d_max d) 0 (d_fold d)) (nth k (firstn n ds) broadcast)).
    { rewrite nth_indep with (d' := (fun d => Dim (d_min d) (d_max d) 0 (d_fold d)) broadcast) by (rewrite map_length, firstn_length; lia).
      apply (map_nth (fun d => Dim (d_min d) (d_max d) 0 (d_fold d))). }
    rewrite X. rewrite nth_firstn_lt by assumption. cbn [d_min d_max d_stride]. auto. }
  apply eq_true_iff_eq. unfold outside. rewrite existsb_exists, negb_true_iff. split.
  - intros ([e x] & Hin & Hx). cbn [fst snd] in Hx. apply negb_true_iff in Hx.
    apply In_nth with (d := (broadcast, 0)) in Hin. destruct Hin as (k & Hk & E). rewrite combine_length in Hk.
    rewrite combine_nth_min in E by lia. injection E as <- <-.
    destruct (inside n (pad_bounds es n ds) idx) eqn:I; [|reflexivity]. rewrite inside_all in I. specialize (I k ltac:(lia)).
    destruct (DA k ltac:(lia)) as (D1 & D2 & D3). unfold inside1, is_broadcast in I. rewrite D1, D2, D3 in I. specialize (Hz k ltac:(lia)). lia.
  - intros I. destruct (existsb (fun k => negb (inside1 (dim_at (pad_bounds es n ds) k) (nth k idx 0))) (seq 0 n)) eqn:EX.
    + apply existsb_exists in EX. destruct EX as (k & Hk & Hx). apply in_seq in Hk. apply negb_true_iff in Hx.
      exists (nth k ds broadcast, nth k idx 0). split.
      * rewrite <- combine_nth_min by lia. apply nth_In. rewrite combine_length. lia.
      * cbn [fst snd]. apply negb_true_iff. destruct (DA k ltac:(lia)) as (D1 & D2 & D3). unfold inside1 in Hx. rewrite D1, D2 in Hx.
        apply orb_false_iff in Hx. tauto.
    + exfalso. assert (X : inside n (pad_bounds es n ds) idx = true); [|congruence]. apply inside_all. intros k Hk.
      destruct (inside1 (dim_at (pad_bounds es n ds) k) (nth k idx 0)) eqn:Y; [reflexivity|]. exfalso.
      assert (Z : existsb (fun k => negb (inside1 (dim_at (pad_bounds es n ds) k) (nth k idx 0))) (seq 0 n) = true); [|congruence].
      apply existsb_exists. exists k. split; [apply in_seq; lia|]. now rewrite Y.
Qed.

Lemma in_flagged : forall b s p x, In x (flagged b s p) <->
  exists idx, in_bounds (dims b) idx /\ x = (inside (rank s) s idx, locate b (index idx), locate p (index idx)).
Proof.
  intros. unfold flagged. rewrite in_map_iff. split.
  - intros (idx & <- & H). exists idx. split; [now apply in_box|reflexivity].
  - intros (idx & H & ->). exists idx. split; [reflexivity|now apply in_box].
Qed.
Lemma flagged_back : forall b s p b' s' p', Permutation (flagged b s p) (flagged b' s' p') ->
  forall idx', in_bounds (dims b') idx' -> exists idx, in_bounds (dims b) idx /\
    inside (rank s') s' idx' = inside (rank s) s idx /\ locate b' (index idx') = locate b (index idx) /\ locate p' (index idx') = locate p (index idx).
Proof.
  intros b s p b' s' p' P idx' Hi.
  assert (X : In (inside (rank s') s' idx', locate b' (index idx'), locate p' (index idx')) (flagged b s p)).
  { eapply Permutation_in; [apply Permutation_sym; exact P|]. apply in_flagged. exists idx'. auto. }
  apply in_flagged in X. destruct X as (idx & H & E). injection E as E1 E2 E3. exists idx. auto.
Qed.
Lemma pad_ok : forall m bounds dst pad,
  0 < elem_size dst -> elem_size pad = elem_size dst -> (rank dst <= length bounds)%nat ->
  fusable_first dst -> no_folds dst \/ one_contiguous_dim dst -> dims_ok pad -> no_strided_points pad \/ no_folds pad ->
  (forall idx, in_bounds (dims dst) idx -> locate dst (index idx) <> None /\ locate pad (index idx) <> None) ->
  separate dst -> no_overlap dst pad ->
  (forall k, (k < rank dst)%nat -> d_min (nth k bounds broadcast) = 0 -> d_max (nth k bounds broadcast) = 0 ->
     0 <= d_min (dim_at dst k) /\ d_max (dim_at dst k) <= 0) ->
  exists m', Copy_Model.pad m bounds dst pad = Some m' /\ assigned (elem_size dst) (elementwise_outside bounds dst pad) m m'.
Proof.
  intros m bounds dst pad Hes Hpz Hlen Hd Hone Hp Hp2 Hin Hsep Hnp Hz. unfold Copy_Model.pad.
  assert (EO : elementwise_outside bounds dst pad = pads (rank dst) (pad_bounds (elem_size dst) (rank dst) bounds) dst pad).
  { unfold elementwise_outside, pads. f_equal. apply filter_ext_in. intros idx Hi. apply in_box in Hi.
    pose proof (proj1 (in_bounds_nth _ _) Hi) as [HL Hb]. apply outside_inside; auto.
    intros k Hk K1 K2. specialize (Hz k Hk K1 K2). specialize (Hb k Hk). fold (dim_at dst k) in Hb. lia. }
  destruct (Nat.eqb_spec (rank dst) 0) as [R0|R0].
  { exists m. split; [reflexivity|]. rewrite EO, R0. unfold pads. cbn [inside negb].
    replace (filter (fun _ => false) (box (dims dst))) with (@nil (list Z)); [apply assigned_nil|].
    clear. induction (box (dims dst)); cbn [filter]; auto. }
  destruct (Nat.ltb_spec (length bounds) (rank dst)) as [X|_]; [lia|].
  set (s := pad_bounds (elem_size dst) (rank dst) bounds) in *.
  assert (Rs : rank s = rank dst).
  { unfold s, pad_bounds, rank at 1. cbn [dims]. rewrite map_length, firstn_length. lia. }
  assert (Ss : strideless s).
  { intros d H. unfold s, pad_bounds in H. cbn [dims] in H. apply in_map_iff in H. destruct H as (e & <- & _). reflexivity. }
  assert (G : good dst [pad]).
  { split; [assumption|]. constructor; [|constructor]. split; [assumption|]. destruct Hp2 as [X|X]; [now left|right; split; [assumption|right]].
    intros idx Hi _. now apply Hin. }
  destruct (optimize_dims dst [s; pad]) as [dst' bs'] eqn:E.
  destruct (optimize_pad_state _ _ _ _ _ G Ss Rs E) as (s' & pad' & -> & [G1 G2] & S' & R' & P).
  inversion G2 as [|x l [G3 _] _]. subst. destruct (optimize_elem _ _ _ _ E) as [E1 E2]. cbn [map] in E2. injection E2 as E2 E3.
  pose proof (fun i Hi => flagged_back _ _ _ _ _ _ P i Hi) as Back.
  assert (O : box (dims dst') = [] \/ one_contiguous_dim dst').
  { assert (O : box (dims dst) = [] \/ one_contiguous_dim dst).
    { destruct Hone as [Hone|Hone]; [|now right]. destruct Hd. apply separate_one_contiguous; auto. intros. now apply Hin. }
    destruct O as [O|O]; [left|right; now apply (optimize_one_contiguous _ _ _ _ Hes O E)].
    rewrite box_empty_iff in *. intros i Hi. destruct (Back i Hi) as (i0 & I0 & _). now apply (O i0). }
  unfold pad_impl. replace (Nat.min (rank s') (rank dst')) with (rank s') by lia. destruct G1 as [G1 _].
  assert (Same : forall o, In o (pads (rank s') s' dst' pad') <-> In o (pads (rank dst) s dst pad)).
  { intros o. rewrite !in_pads. split.
    - intros (i & Hi & Hn & ->). destruct (Back i Hi) as (i0 & I0 & I1 & I2 & I3). exists i0. rewrite I2, I3, <- Rs, <- I1. auto.
    - intros (i & Hi & Hn & ->). destruct (flagged_back _ _ _ _ _ _ (Permutation_sym P) i Hi) as (i0 & I0 & I1 & I2 & I3). exists i0.
      rewrite I2, I3, <- I1. rewrite <- Rs in Hn. auto. }
  destruct (pad_loop_ok (rank s') m s' dst' pad') as (m' & s1 & d1 & Rl & A & _); auto; try lia.
  { rewrite E1. apply (clean_incl _ _ (pads (rank dst) s dst pad)); [intros o; apply Same|].
    apply clean_map; auto.
    - intros i Hi. apply filter_In in Hi. now apply in_box.
    - intros i Hi. apply filter_In in Hi. apply Hin. now apply in_box.
    - intros i j Hi Hj. apply filter_In in Hi. apply filter_In in Hj. apply Hnp; now apply in_box. }
  rewrite Rl. exists m'. split; [reflexivity|]. rewrite EO. rewrite E1 in A. eapply assigned_equiv; [exact Same|exact A].
Qed.
