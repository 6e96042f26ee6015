(** Proofs about fusing, sorting and slicing the dimensions of sets of buffers. *)
From Coq Require Import ZArith List Bool Lia Permutation Arith.
From Verif Require Import Buf_Model Buf_Spec Buf_Proofs ForEach_Spec ForEach_Proofs ForEach_Props BufDims_Spec.
Import ListNotations.
Open Scope Z_scope.

(** ** bounds by position *)
Lemma in_bounds_nth : forall ds idx, in_bounds ds idx <->
  length idx = length ds /\ forall k, (k < length ds)%nat -> d_min (nth k ds broadcast) <= nth k idx 0 <= d_max (nth k ds broadcast).
Proof.
  induction ds as [|d ds IH]; destruct idx as [|i idx]; cbn [in_bounds length].
  - split; [intros _; split; [reflexivity|intros; lia]|auto].
  - split; [contradiction|intros [? _]; lia].
  - split; [contradiction|intros [? _]; lia].
  - rewrite IH. split.
    + intros (H1 & H2 & H3). split; [lia|]. intros [|k] Hk; cbn [nth]; [assumption|]. apply H3. lia.
    + intros (H1 & H2). split; [apply (H2 O); lia|]. split; [lia|]. intros k Hk. apply (H2 (S k)). lia.
Qed.

Lemma box_map_perm : forall ds ds' (f g : list Z -> list Z),
  (forall idx, in_bounds ds idx -> in_bounds ds' (f idx) /\ g (f idx) = idx) ->
  (forall idx, in_bounds ds' idx -> in_bounds ds (g idx) /\ f (g idx) = idx) ->
  Permutation (map f (box ds)) (box ds').
Proof.
  intros ds ds' f g Hf Hg. apply NoDup_Permutation.
  - pose proof (box_NoDup ds) as N.
    assert (G : forall l, (forall i, In i l -> in_bounds ds i) -> NoDup l -> NoDup (map f l)).
    { induction l as [|i l IH]; intros Hl Hn; cbn [map]; [constructor|]. inversion Hn. subst. constructor.
      - intros X. apply in_map_iff in X. destruct X as (j & E & Hj).
        assert (j = i).
        { destruct (Hf j) as [_ <-]; [apply Hl; now right|]. destruct (Hf i) as [_ <-]; [apply Hl; now left|]. now rewrite E. }
        now subst.
      - apply IH; [|assumption]. intros. apply Hl. now right. }
    apply G; [|assumption]. intros. now apply in_box.
  - apply box_NoDup.
  - intros x. rewrite in_map_iff. split.
    + intros (i & <- & Hi). apply in_box. apply Hf. now apply in_box.
    + intros Hx. exists (g x). apply in_box in Hx. destruct (Hg x Hx). split; [assumption|]. now apply in_box.
Qed.

Notation visits := tuples (only parsing).

Lemma visits_step : forall b0 bs b0' bs' (f g : list Z -> list Z),
  (forall idx, in_bounds (dims b0) idx -> in_bounds (dims b0') (f idx) /\ g (f idx) = idx) ->
  (forall idx, in_bounds (dims b0') idx -> in_bounds (dims b0) (g idx) /\ f (g idx) = idx) ->
  (forall idx, in_bounds (dims b0) idx ->
     map (fun b => locate b (index idx)) (b0 :: bs) = map (fun b => locate b (index (f idx))) (b0' :: bs')) ->
  Permutation (visits b0 bs) (visits b0' bs').
Proof.
  intros b0 bs b0' bs' f g Hf Hg H. unfold tuples.
  apply Permutation_trans with (map (fun idx => map (fun b => locate b (index idx)) (b0' :: bs')) (map f (box (dims b0)))).
  - rewrite map_map. apply Permutation_refl'. apply map_ext_in. intros idx Hi. apply H. now apply in_box.
  - apply Permutation_map. apply box_map_perm with (g := g); assumption.
Qed.

Lemma remove_set_comm : forall A (l : list A) i j v, (i < j)%nat ->
  remove_nth (set_nth l i v) j = set_nth (remove_nth l j) i v.
Proof.
  induction l as [|x l IH]; intros [|i] [|j] v H; cbn [remove_nth set_nth]; auto; try lia.
  rewrite IH by lia. reflexivity.
Qed.
Lemma set_nth_out : forall A (l : list A) i v, (length l <= i)%nat -> set_nth l i v = l.
Proof. induction l as [|x l IH]; intros [|i] v H; cbn [set_nth length] in *; auto; [lia|]. f_equal. apply IH. lia. Qed.
Lemma in_set_nth : forall A (l : list A) i v x, In x (set_nth l i v) -> x = v \/ In x l.
Proof.
  induction l as [|y l IH]; intros [|i] v x H; cbn [set_nth In] in *; try tauto.
  - destruct H; auto.
  - destruct H as [->|H]; [auto|]. apply IH in H. tauto.
Qed.
Lemma in_remove_nth : forall A (l : list A) i x, In x (remove_nth l i) -> In x l.
Proof.
  induction l as [|y l IH]; intros [|i] x H; cbn [remove_nth In] in *; try tauto.
  destruct H as [->|H]; [auto|]. apply IH in H. tauto.
Qed.
Lemma nth_set_nth_z : forall (l : list Z) d v k, nth k (set_nth l d v) 0 = if (k =? d)%nat && (d <? length l)%nat then v else nth k l 0.
Proof.
  intros. destruct (Nat.ltb_spec d (length l)).
  - rewrite nth_set_nth by assumption. now rewrite andb_true_r.
  - rewrite set_nth_out by assumption. now rewrite andb_false_r.
Qed.

(** ** swapping *)
Definition swap_list {A} (def : A) (i j : nat) (l : list A) : list A :=
  set_nth (set_nth l i (nth j l def)) j (nth i l def).
Lemma swap_dims_dims : forall i j b, dims (swap_dims i j b) = swap_list broadcast i j (dims b).
Proof. reflexivity. Qed.
Lemma swap_list_length : forall A (def : A) i j l, length (swap_list def i j l) = length l.
Proof. intros. unfold swap_list. now rewrite !set_nth_length. Qed.
Lemma nth_swap_list : forall A (def : A) i j l k, (i < j < length l)%nat ->
  nth k (swap_list def i j l) def = if (k =? j)%nat then nth i l def else if (k =? i)%nat then nth j l def else nth k l def.
Proof.
  intros. unfold swap_list. rewrite !nth_set_nth by (try rewrite set_nth_length; lia). reflexivity.
Qed.
Lemma swap_list_twice : forall A (def : A) i j l, (i < j < length l)%nat -> swap_list def i j (swap_list def i j l) = l.
Proof.
  intros A def i j l H. apply nth_ext with (d := def) (d' := def); [now rewrite !swap_list_length|].
  intros k _. rewrite nth_swap_list by (rewrite swap_list_length; lia). rewrite !nth_swap_list by lia.
  rewrite Nat.eqb_refl. destruct (Nat.eqb_spec i j); [lia|]. rewrite Nat.eqb_refl.
  destruct (Nat.eqb_spec k j); [now subst|]. destruct (Nat.eqb_spec k i); [now subst|reflexivity].
Qed.
Lemma swap_in_bounds : forall i j ds idx, (i < j < length ds)%nat -> in_bounds ds idx ->
  in_bounds (swap_list broadcast i j ds) (swap_list 0 i j idx).
Proof.
  intros i j ds idx H Hb. apply in_bounds_nth in Hb. destruct Hb as [HL Hb]. apply in_bounds_nth.
  rewrite !swap_list_length. split; [assumption|]. intros k Hk. rewrite !nth_swap_list by lia.
  destruct (k =? j)%nat; [apply Hb; lia|]. destruct (k =? i)%nat; apply Hb; lia.
Qed.
Lemma place_all_swap : forall i j ds f g, (i < j < length ds)%nat ->
  (forall k, g k = if (k =? j)%nat then f i else if (k =? i)%nat then f j else f k) ->
  place_all (swap_list broadcast i j ds) g = place_all ds f.
Proof.
  intros i j ds f g H Hg. unfold swap_list.
  rewrite place_all_set by (rewrite set_nth_length; lia).
  rewrite remove_set_comm by lia.
  rewrite place_all_set by (rewrite remove_nth_length by lia; lia).
  rewrite (place_all_split ds j f) by lia.
  rewrite (place_all_split (remove_nth ds j) i) by (rewrite remove_nth_length by lia; lia).
  rewrite nth_remove_nth. replace (i <? j)%nat with true by (symmetry; apply Nat.ltb_lt; lia).
  rewrite !Hg. rewrite Nat.eqb_refl. destruct (Nat.eqb_spec i j); [lia|]. rewrite Nat.eqb_refl.
  rewrite oadd_swap. f_equal. f_equal.
  apply place_all_ext. intros k _. cbn beta. rewrite Hg.
  repeat match goal with |- context [(?a <? ?b)%nat] => destruct (Nat.ltb_spec a b) end; try lia;
  repeat (match goal with |- context [(?a =? ?b)%nat] => destruct (Nat.eqb_spec a b) end; try lia); try rewrite Hg;
  repeat (match goal with |- context [(?a =? ?b)%nat] => destruct (Nat.eqb_spec a b) end; try lia); reflexivity.
Qed.
Lemma swap_visits : forall i j b0 bs, (i < j < rank b0)%nat -> Forall (fun b => (j < rank b)%nat) bs ->
  Permutation (visits b0 bs) (visits (swap_dims i j b0) (map (swap_dims i j) bs)).
Proof.
  intros i j b0 bs H0 Hs. unfold rank in *.
  apply visits_step with (f := swap_list 0 i j) (g := swap_list 0 i j).
  - intros idx Hb. rewrite swap_dims_dims. split; [now apply swap_in_bounds|].
    apply in_bounds_nth in Hb. apply swap_list_twice. lia.
  - intros idx Hb. rewrite swap_dims_dims in Hb. split.
    + apply (swap_in_bounds i j) in Hb; [|rewrite swap_list_length; lia]. now rewrite swap_list_twice in Hb.
    + apply in_bounds_nth in Hb. rewrite swap_list_length in Hb. apply swap_list_twice. lia.
  - intros idx Hb. apply in_bounds_nth in Hb. destruct Hb as [HL Hb].
    assert (G : forall b, (j < length (dims b))%nat -> locate b (index idx) = locate (swap_dims i j b) (index (swap_list 0 i j idx))).
    { intros b Hj. unfold locate. rewrite swap_dims_dims. cbn [base swap_dims]. f_equal. symmetry. apply place_all_swap; [lia|].
      intros k. unfold index. apply nth_swap_list. lia. }
    cbn [map]. f_equal; [apply G; lia|]. rewrite map_map. apply map_ext_in. intros b Hin. apply G.
    rewrite Forall_forall in Hs. now apply Hs.
Qed.

(** ** slicing a dimension that is the same point in all buffers *)
Lemma index_remove : forall idx d k, index (remove_nth idx d) k = if (k <? d)%nat then index idx k else index idx (S k).
Proof. intros. unfold index. apply nth_remove_nth. Qed.
Fixpoint insert_nth (d : nat) (x : Z) (l : list Z) : list Z :=
  match d, l with
  | O, _ => x :: l
  | S d', y :: l' => y :: insert_nth d' x l'
  | S d', [] => [x]
  end.
Lemma insert_remove : forall l d, (d < length l)%nat -> insert_nth d (nth d l 0) (remove_nth l d) = l.
Proof. induction l as [|x l IH]; intros [|d] H; cbn [length insert_nth remove_nth nth] in *; try lia; [reflexivity|]. rewrite IH by lia. reflexivity. Qed.
Lemma remove_insert : forall l d x, (d <= length l)%nat -> remove_nth (insert_nth d x l) d = l.
Proof. induction l as [|y l IH]; intros [|d] x H; cbn [length insert_nth remove_nth] in *; try lia; auto. rewrite IH by lia. reflexivity. Qed.
Lemma nth_insert_nth : forall l d x k, (d <= length l)%nat ->
  nth k (insert_nth d x l) 0 = if (k <? d)%nat then nth k l 0 else if (k =? d)%nat then x else nth (k - 1) l 0.
Proof.
  induction l as [|y l IH]; intros [|d] x [|k] H; cbn [length insert_nth nth] in *; auto; try lia.
  - destruct k; reflexivity.
  - cbn. now rewrite Nat.sub_0_r.
  - rewrite IH by lia. change (S k <? S d)%nat with (k <? d)%nat. change (S k =? S d)%nat with (k =? d)%nat.
    destruct (Nat.ltb_spec k d); [reflexivity|]. destruct (Nat.eqb_spec k d); [reflexivity|].
    destruct k; [lia|]. cbn [Nat.sub]. rewrite Nat.sub_0_r. reflexivity.
Qed.
Lemma insert_nth_length : forall l d x, (d <= length l)%nat -> length (insert_nth d x l) = S (length l).
Proof. induction l as [|y l IH]; intros [|d] x H; cbn [length insert_nth] in *; auto; try lia. rewrite IH; lia. Qed.

Lemma slice_at_dims : forall b d x, dims (slice_at b d x) = remove_nth (dims b) d.
Proof.
  intros. unfold slice_at. destruct (Nat.leb_spec (rank b) d).
  - symmetry. now apply remove_nth_out.
  - now rewrite slice1_dims.
Qed.

Lemma slice_visits : forall d b0 bs x, d_min (dim_at b0 d) = x -> is_point (dim_at b0 d) = true ->
  Permutation (visits b0 bs) (visits (slice_at b0 d x) (map (fun b => slice_at b d x) bs)).
Proof.
  intros d b0 bs x Hx Hp. destruct (Nat.lt_ge_cases d (rank b0)) as [L|L]; unfold rank in L.
  - apply visits_step with (f := fun idx => remove_nth idx d) (g := fun idx => insert_nth d x idx).
    + intros idx Hb. rewrite slice_at_dims. apply in_bounds_nth in Hb. destruct Hb as [HL Hb]. split.
      * apply in_bounds_nth. rewrite !remove_nth_length by lia. split; [lia|]. intros k Hk. rewrite !nth_remove_nth.
        destruct (k <? d)%nat; apply Hb; lia.
      * assert (nth d idx 0 = x) as <-; [|apply insert_remove; lia].
        specialize (Hb d L). unfold is_point, dim_at in *. lia.
    + intros idx Hb. rewrite slice_at_dims in Hb. apply in_bounds_nth in Hb. rewrite remove_nth_length in Hb by lia.
      destruct Hb as [HL Hb]. split; [|apply remove_insert; lia].
      apply in_bounds_nth. rewrite insert_nth_length by lia. split; [lia|]. intros k Hk. rewrite nth_insert_nth by lia.
      destruct (Nat.ltb_spec k d).
      * specialize (Hb k ltac:(lia)). rewrite nth_remove_nth in Hb. replace (k <? d)%nat with true in Hb by (symmetry; apply Nat.ltb_lt; lia). exact Hb.
      * destruct (Nat.eqb_spec k d).
        { subst k. unfold is_point, dim_at in *. lia. }
        { specialize (Hb (k - 1)%nat ltac:(lia)). rewrite nth_remove_nth in Hb.
          replace (k - 1 <? d)%nat with false in Hb by (symmetry; apply Nat.ltb_ge; lia).
          replace (S (k - 1)) with k in Hb by lia. exact Hb. }
    + intros idx Hb. apply in_bounds_nth in Hb. destruct Hb as [HL Hb].
      assert (E : nth d idx 0 = x) by (specialize (Hb d L); unfold is_point, dim_at in *; lia).
      assert (G : forall b, locate b (index idx) = locate (slice_at b d x) (index (remove_nth idx d))).
      { intros b. rewrite locate_slice_at. apply locate_ext. intros k _. unfold insert_at. rewrite !index_remove.
        destruct (Nat.ltb_spec k d); [reflexivity|]. destruct (Nat.eqb_spec k d); [subst k; exact E|].
        destruct (Nat.ltb_spec (k - 1) d); [lia|]. f_equal. lia. }
      cbn [map]. f_equal; [apply G|]. rewrite map_map. apply map_ext. intros b. apply G.
  - assert (E0 : slice_at b0 d x = b0).
    { unfold slice_at, rank. now destruct (Nat.leb_spec (length (dims b0)) d); [|lia]. }
    assert (Ex : x = 0) by (rewrite <- Hx; unfold dim_at; now rewrite nth_overflow). 
    rewrite E0.
    apply visits_step with (f := fun idx => idx) (g := fun idx => idx); [auto|auto|].
    intros idx Hb. apply in_bounds_nth in Hb. destruct Hb as [HL Hb].
    cbn [map]. f_equal. rewrite map_map. apply map_ext. intros b. rewrite locate_slice_at. apply locate_ext.
    intros k _. unfold insert_at, index. rewrite Ex.
    destruct (Nat.ltb_spec k d); [reflexivity|]. destruct (Nat.eqb_spec k d); rewrite (nth_overflow idx) by lia; [reflexivity|].
    now rewrite nth_overflow by lia.
Qed.

(** ** fusing two dimensions *)
Lemma can_fuse_extent : forall i o, can_fuse i o = true -> 1 <= extent i /\ extent i = d_max i - d_min i + 1.
Proof.
  intros i o H. unfold can_fuse, empty in H. unfold extent, d_begin, d_end.
  destruct (d_max i <? d_min i) eqn:E; [discriminate|]. replace (d_min i <? d_max i + 1) with true by lia. lia.
Qed.
(** [can_fuse] spelled out *)
Lemma can_fuse_inv : forall i o, can_fuse i o = true ->
  (d_min o = d_max o /\ d_stride o <> 0) \/
  (d_stride o = d_stride i * extent i /\ (d_stride i = 0 \/ d_fold i = unfolded)).
Proof.
  intros i o H. destruct (can_fuse_extent i o H) as [E1 E2]. unfold can_fuse in H.
  destruct (empty i); [discriminate|].
  destruct ((d_min o =? d_max o) && negb (d_stride o =? 0)) eqn:E; [left; lia|right].
  rewrite E2. destruct (d_stride i * (d_max i - d_min i + 1) =? d_stride o) eqn:E3; [|discriminate]. cbn [negb] in H.
  apply orb_true_iff in H. split; [lia|]. destruct H as [H|H]; [|right; lia].
  left. apply Z.eqb_eq in H. apply Z.mul_eq_0 in H. lia.
Qed.

Lemma place_stride0 : forall d x, d_stride d = 0 -> place d x = Some 0.
Proof. intros d x H. unfold place. now rewrite H. Qed.
Lemma place_none : forall d x, d_stride d <> 0 -> ~ (d_min d <= x <= d_max d) -> place d x = None.
Proof.
  intros d x H1 H2. unfold place. replace (d_stride d =? 0) with false by lia.
  replace ((d_min d <=? x) && (x <=? d_max d)) with false by lia. reflexivity.
Qed.
Lemma place_some : forall d x, d_min d <= x <= d_max d ->
  place d x = Some (if d_stride d =? 0 then 0 else if d_fold d =? unfolded then (x - d_min d) * d_stride d else (x mod d_fold d) * d_stride d).
Proof.
  intros d x H. unfold place. destruct (d_stride d =? 0); [reflexivity|].
  replace ((d_min d <=? x) && (x <=? d_max d)) with true by lia. reflexivity.
Qed.

Lemma fused_mod : forall x y e f, 0 < e -> 0 < f -> 0 <= y < e -> (x * e + y) mod (f * e) = (x mod f) * e + y.
Proof.
  intros x y e f He Hf Hy. symmetry. apply Z.mod_unique with (q := x / f).
  - left. pose proof (Z.mod_pos_bound x f Hf). nia.
  - pose proof (Z.div_mod x f ltac:(lia)). nia.
Qed.

Lemma fuse_place : forall i o x y, can_fuse i o = true -> dim_ok i -> dim_ok o -> d_min i <= x <= d_max i ->
  (d_stride o = 0 \/ d_min o <> d_max o \/
   (d_fold i = unfolded \/ d_stride i = 0) /\ d_fold o = unfolded /\ (d_stride i <> 0 \/ y = d_min o)) ->
  oadd (place i x) (place o y) = place (fuse i o) (y * extent i + (x - d_min i)).
Proof.
  intros i o x y H Hi Ho Hx Hs.
  destruct (can_fuse_extent i o H) as [E1 E2]. apply can_fuse_inv in H.
  unfold fuse. destruct (is_broadcast o) eqn:EB.
  { unfold is_broadcast in EB. assert (d_stride o = 0) by lia.
    assert (d_stride i = 0). { destruct H as [H|[H _]]; [lia|]. rewrite H0 in H. symmetry in H. apply Z.mul_eq_0 in H. lia. }
    now rewrite !place_stride0. }
  set (e := extent i) in *.
  destruct (Z.eq_dec (d_stride i) 0) as [I0|I0].
  { (* the inner dimension is a broadcast *)
    rewrite (place_stride0 i) by assumption. rewrite oadd_0_l.
    rewrite (place_stride0 (set_range _ _ _)) by (destruct (negb (d_fold o =? unfolded)); exact I0).
    destruct H as [[H1 H2]|[H1 _]].
    - destruct Hs as [Hs|[Hs|(_ & Hf & [Hs|Hs])]]; try lia. subst y. rewrite place_some by lia.
      replace (d_stride o =? 0) with false by lia. rewrite Hf. cbn [Z.eqb unfolded Pos.eqb]. f_equal. lia.
    - apply place_stride0. lia. }
  rewrite (place_some i) by lia. replace (d_stride i =? 0) with false by lia.
  assert (Hif : d_fold i = unfolded).
  { destruct H as [[H1 H2]|[_ [H|H]]]; [|lia|assumption]. destruct Hs as [Hs|[Hs|([Hs|Hs] & _)]]; try lia; assumption. }
  rewrite Hif. rewrite Z.eqb_refl.
  assert (Ho0 : d_stride o <> 0). { destruct H as [[H1 H2]|[H1 _]]; [assumption|]. rewrite H1. apply Z.neq_mul_0. lia. }
  set (z := y * e + (x - d_min i)).
  assert (Hz : d_min o <= y <= d_max o <-> d_min o * e <= z <= (d_max o + 1) * e - 1) by (subst z; nia).
  destruct (Z_le_dec (d_min o) y) as [Y1|Y1]; [destruct (Z_le_dec y (d_max o)) as [Y2|Y2]|].
  - rewrite place_some by lia. replace (d_stride o =? 0) with false by lia.
    assert (Hnf : d_fold o = unfolded \/ (0 < d_fold o /\ d_stride o = d_stride i * e)).
    { destruct (Z.eq_dec (d_fold o) unfolded) as [E|E]; [now left|right]. destruct Ho as [Ho|[Ho|Ho]]; [lia|lia|].
      split; [assumption|]. destruct H as [[H1 H2]|[H1 _]]; [|assumption]. destruct Hs as [Hs|[Hs|(_ & Hs & _)]]; lia. }
    destruct Hnf as [Hnf|[Hnf Hst]].
    + rewrite Hnf. cbn [negb Z.eqb unfolded Pos.eqb].
      rewrite place_some by (cbn [set_range set_bounds d_min d_max]; unfold d_begin, d_end; lia).
      cbn [set_range set_bounds d_min d_max d_stride d_fold]. replace (d_stride i =? 0) with false by lia. rewrite Hif, Z.eqb_refl.
      cbn [oadd]. f_equal. unfold d_begin. subst z.
      destruct H as [[H1 H2]|[H1 _]].
      * assert (y = d_min o) by lia. subst y. lia.
      * rewrite H1. lia.
    + replace (d_fold o =? unfolded) with false by (unfold unfolded; lia). cbn [negb].
      rewrite place_some by (cbn [set_range set_bounds set_fold d_min d_max]; unfold d_begin, d_end; lia).
      cbn [set_range set_bounds set_fold d_min d_max d_stride d_fold]. replace (d_stride i =? 0) with false by lia.
      replace (d_fold o * e =? unfolded) with false by (unfold unfolded; nia).
      cbn [oadd]. f_equal. subst z. rewrite fused_mod by lia. rewrite Hst. lia.
  - rewrite (place_none o) by lia. cbn [oadd]. symmetry. apply place_none.
    + destruct (negb (d_fold o =? unfolded)); exact I0.
    + destruct (negb (d_fold o =? unfolded)); cbn [set_range set_bounds set_fold d_min d_max]; unfold d_begin, d_end; lia.
  - rewrite (place_none o) by lia. cbn [oadd]. symmetry. apply place_none.
    + destruct (negb (d_fold o =? unfolded)); exact I0.
    + destruct (negb (d_fold o =? unfolded)); cbn [set_range set_bounds set_fold d_min d_max]; unfold d_begin, d_end; lia.
Qed.

Lemma fuse_bounds : forall i o, can_fuse i o = true -> (is_broadcast o = true -> extent i = 1) ->
  d_min (fuse i o) = d_min o * extent i /\ d_max (fuse i o) = (d_max o + 1) * extent i - 1.
Proof.
  intros i o H HB. unfold fuse. destruct (is_broadcast o) eqn:E.
  - rewrite HB by reflexivity. lia.
  - destruct (negb (d_fold o =? unfolded)); cbn [set_range set_bounds set_fold d_min d_max]; unfold d_begin, d_end; lia.
Qed.

Definition fuse_index (inner outer : nat) (lo e : Z) (idx : list Z) : list Z :=
  remove_nth (set_nth idx inner (nth outer idx 0 * e + (nth inner idx 0 - lo))) outer.
Definition unfuse_index (inner outer : nat) (lo e : Z) (idx : list Z) : list Z :=
  insert_nth outer (nth inner idx 0 / e) (set_nth idx inner (nth inner idx 0 mod e + lo)).

Lemma fuse_remove_dims : forall inner outer b, (inner < outer)%nat ->
  dims (fuse_remove inner outer b) =
  if (rank b <=? outer)%nat then dims b
  else remove_nth (set_nth (dims b) inner (fuse (dim_at b inner) (dim_at b outer))) outer.
Proof.
  intros inner outer b H. unfold fuse_remove. destruct (Nat.leb_spec (rank b) outer); [reflexivity|].
  destruct (Nat.leb_spec (rank b) inner); [lia|]. now rewrite slice1_dims.
Qed.
Lemma fuse_remove_base : forall inner outer b, base (fuse_remove inner outer b) = base b.
Proof.
  intros. unfold fuse_remove. destruct (_ <=? _)%nat; [reflexivity|]. destruct (_ <=? _)%nat; now rewrite slice1_base.
Qed.

Lemma nth_fuse_index : forall inner outer lo e idx k, (inner < outer < length idx)%nat ->
  nth k (fuse_index inner outer lo e idx) 0 =
  if (k =? inner)%nat then nth outer idx 0 * e + (nth inner idx 0 - lo)
  else if (k <? outer)%nat then nth k idx 0 else nth (S k) idx 0.
Proof.
  intros inner outer lo e idx k H. unfold fuse_index. rewrite nth_remove_nth, !nth_set_nth by lia.
  destruct (Nat.eqb_spec k inner).
  - subst k. replace (inner <? outer)%nat with true by (symmetry; apply Nat.ltb_lt; lia). reflexivity.
  - destruct (Nat.eqb_spec (S k) inner); [|reflexivity].
    replace (k <? outer)%nat with true by (symmetry; apply Nat.ltb_lt; lia). reflexivity.
Qed.

Lemma locate_fuse_remove : forall inner outer b idx lo e,
  (inner < outer < length idx)%nat -> dims_ok b ->
  can_fuse (dim_at b inner) (dim_at b outer) = true ->
  ((inner < rank b)%nat -> d_min (dim_at b inner) = lo /\ extent (dim_at b inner) = e /\ lo <= nth inner idx 0 < lo + e) ->
  (base b <> None -> (outer < rank b)%nat ->
   d_stride (dim_at b outer) = 0 \/ d_min (dim_at b outer) <> d_max (dim_at b outer) \/
   (d_fold (dim_at b inner) = unfolded \/ d_stride (dim_at b inner) = 0) /\ d_fold (dim_at b outer) = unfolded /\
   (d_stride (dim_at b inner) <> 0 \/ nth outer idx 0 = d_min (dim_at b outer))) ->
  locate b (index idx) = locate (fuse_remove inner outer b) (index (fuse_index inner outer lo e idx)).
Proof.
  intros inner outer b idx lo e H Hok Hc Hin Hs. unfold locate. rewrite fuse_remove_base.
  destruct (base b) as [a|] eqn:EB; [|reflexivity]. f_equal.
  rewrite fuse_remove_dims by lia. destruct (Nat.leb_spec (rank b) outer) as [L|L].
  - destruct (Nat.lt_ge_cases inner (rank b)) as [L2|L2].
    + (* the outer dimension is an implicit broadcast, so the inner one has stride 0 *)
      assert (S0 : d_stride (dim_at b inner) = 0).
      { destruct (can_fuse_extent _ _ Hc) as [E1 _]. apply can_fuse_inv in Hc.
        assert (E : dim_at b outer = broadcast) by (unfold dim_at; apply nth_overflow; unfold rank in *; lia). rewrite E in Hc.
        cbn [broadcast d_stride d_min d_max] in Hc. destruct Hc as [Hc|[Hc _]]; [lia|]. symmetry in Hc. apply Z.mul_eq_0 in Hc. lia. }
      unfold rank in *. rewrite !(place_all_split (dims b) inner) by assumption.
      fold (dim_at b inner). rewrite !place_stride0 by assumption. f_equal. apply place_all_ext.
      intros k Hk. rewrite remove_nth_length in Hk by assumption. unfold index. rewrite !nth_fuse_index by lia.
      destruct (Nat.ltb_spec k inner).
      * destruct (Nat.eqb_spec k inner); [lia|]. replace (k <? outer)%nat with true by (symmetry; apply Nat.ltb_lt; lia). reflexivity.
      * destruct (Nat.eqb_spec (S k) inner); [lia|]. replace (S k <? outer)%nat with true by (symmetry; apply Nat.ltb_lt; lia). reflexivity.
    + apply place_all_ext. intros k Hk. unfold index. rewrite nth_fuse_index by lia. unfold rank in *.
      destruct (Nat.eqb_spec k inner); [lia|]. replace (k <? outer)%nat with true by (symmetry; apply Nat.ltb_lt; lia). reflexivity.
  - unfold rank in *. destruct (Hin ltac:(lia)) as (Hlo & He & Hi).
    rewrite remove_set_comm by lia.
    rewrite place_all_set by (rewrite remove_nth_length by lia; lia).
    rewrite (place_all_split (dims b) outer) by assumption.
    rewrite (place_all_split (remove_nth (dims b) outer) inner) by (rewrite remove_nth_length by lia; lia).
    rewrite nth_remove_nth. replace (inner <? outer)%nat with true by (symmetry; apply Nat.ltb_lt; lia).
    fold (dim_at b inner) (dim_at b outer).
    rewrite oadd_swap, oadd_assoc. f_equal.
    + assert (Hmax : d_min (dim_at b inner) <= index idx inner <= d_max (dim_at b inner)).
      { destruct (can_fuse_extent _ _ Hc) as [_ E2]. unfold index. lia. }
      assert (dim_ok (dim_at b inner) /\ dim_ok (dim_at b outer)) as [O1 O2].
      { unfold dims_ok in Hok. rewrite Forall_forall in Hok. split; apply Hok; unfold dim_at; apply nth_In; lia. }
      unfold index at 3. rewrite nth_fuse_index by lia. rewrite Nat.eqb_refl.
      rewrite (fuse_place _ _ _ _ Hc O1 O2 Hmax).
      * rewrite He, Hlo. unfold index. reflexivity.
      * unfold index. apply Hs; [congruence|lia].
    + apply place_all_ext. intros k _. cbn beta. unfold index. rewrite !nth_fuse_index by lia.
      repeat match goal with |- context [(?a <? ?b)%nat] => destruct (Nat.ltb_spec a b) end; try lia;
      repeat (match goal with |- context [(?a =? ?b)%nat] => destruct (Nat.eqb_spec a b) end; try lia); reflexivity.
Qed.

Lemma fuse_index_in : forall inner outer ds idx lo e d', (inner < outer < length ds)%nat -> 1 <= e ->
  lo = d_min (nth inner ds broadcast) -> e = d_max (nth inner ds broadcast) - lo + 1 ->
  d_min d' = d_min (nth outer ds broadcast) * e -> d_max d' = (d_max (nth outer ds broadcast) + 1) * e - 1 ->
  in_bounds ds idx ->
  in_bounds (remove_nth (set_nth ds inner d') outer) (fuse_index inner outer lo e idx) /\
  unfuse_index inner outer lo e (fuse_index inner outer lo e idx) = idx.
Proof.
  intros inner outer ds idx lo e d' H He Hlo Hee Hmin Hmax Hb. apply in_bounds_nth in Hb. destruct Hb as [HL Hb].
  assert (Bi := Hb inner ltac:(lia)). assert (Bo := Hb outer ltac:(lia)).
  split.
  - apply in_bounds_nth. unfold fuse_index at 1. rewrite !remove_nth_length, !set_nth_length by (rewrite set_nth_length; lia).
    split; [lia|]. intros k Hk. rewrite nth_fuse_index by lia. rewrite nth_remove_nth, !nth_set_nth by lia.
    destruct (Nat.eqb_spec k inner).
    + subst k. replace (inner <? outer)%nat with true by (symmetry; apply Nat.ltb_lt; lia). rewrite Hmin, Hmax. nia.
    + destruct (Nat.eqb_spec (S k) inner).
      * replace (k <? outer)%nat with true by (symmetry; apply Nat.ltb_lt; lia). apply Hb; lia.
      * destruct (Nat.ltb_spec k outer); apply Hb; lia.
  - unfold unfuse_index. rewrite nth_fuse_index by lia. rewrite Nat.eqb_refl.
    set (x := nth inner idx 0) in *. set (y := nth outer idx 0) in *.
    assert (Eq : (y * e + (x - lo)) / e = y) by (symmetry; apply Z.div_unique with (r := x - lo); lia).
    assert (Er : (y * e + (x - lo)) mod e = x - lo) by (symmetry; apply Z.mod_unique with (q := y); lia).
    rewrite Eq, Er. replace (x - lo + lo) with x by lia.
    assert (Es : set_nth (fuse_index inner outer lo e idx) inner x = remove_nth idx outer).
    { apply nth_ext with (d := 0) (d' := 0).
      - unfold fuse_index. now rewrite set_nth_length, !remove_nth_length, set_nth_length by (try rewrite set_nth_length; lia).
      - intros k _. rewrite nth_set_nth; [|unfold fuse_index; rewrite remove_nth_length; rewrite set_nth_length; lia].
        rewrite nth_fuse_index by lia. rewrite nth_remove_nth.
        destruct (Nat.eqb_spec k inner); [|reflexivity]. subst k. replace (inner <? outer)%nat with true by (symmetry; apply Nat.ltb_lt; lia). reflexivity. }
    rewrite Es. apply insert_remove. lia.
Qed.
Lemma unfuse_index_in : forall inner outer ds idx lo e d', (inner < outer < length ds)%nat -> 1 <= e ->
  lo = d_min (nth inner ds broadcast) -> e = d_max (nth inner ds broadcast) - lo + 1 ->
  d_min d' = d_min (nth outer ds broadcast) * e -> d_max d' = (d_max (nth outer ds broadcast) + 1) * e - 1 ->
  in_bounds (remove_nth (set_nth ds inner d') outer) idx ->
  in_bounds ds (unfuse_index inner outer lo e idx) /\
  fuse_index inner outer lo e (unfuse_index inner outer lo e idx) = idx.
Proof.
  intros inner outer ds idx lo e d' H He Hlo Hee Hmin Hmax Hb. apply in_bounds_nth in Hb.
  rewrite remove_nth_length, set_nth_length in Hb by (rewrite set_nth_length; lia). destruct Hb as [HL Hb].
  assert (Bi := Hb inner ltac:(lia)). rewrite nth_remove_nth, !nth_set_nth in Bi by lia. rewrite Nat.eqb_refl in Bi.
  replace (inner <? outer)%nat with true in Bi by (symmetry; apply Nat.ltb_lt; lia). rewrite Hmin, Hmax in Bi.
  set (z := nth inner idx 0) in *.
  pose proof (Z.div_mod z e ltac:(lia)) as DM. pose proof (Z.mod_pos_bound z e ltac:(lia)) as MB.
  assert (HLu : length (unfuse_index inner outer lo e idx) = length ds).
  { unfold unfuse_index. rewrite insert_nth_length; rewrite set_nth_length; lia. }
  assert (Hn : forall k, nth k (unfuse_index inner outer lo e idx) 0 =
     if (k =? outer)%nat then z / e else if (k =? inner)%nat then z mod e + lo
     else if (k <? outer)%nat then nth k idx 0 else nth (k - 1) idx 0).
  { intros k. unfold unfuse_index. fold z. rewrite nth_insert_nth by (rewrite set_nth_length; lia).
    rewrite !nth_set_nth by lia.
    repeat match goal with |- context [(?a <? ?b)%nat] => destruct (Nat.ltb_spec a b) end; try lia;
    repeat (match goal with |- context [(?a =? ?b)%nat] => destruct (Nat.eqb_spec a b) end; try lia); reflexivity. }
  split.
  - apply in_bounds_nth. split; [assumption|]. intros k Hk. rewrite Hn.
    destruct (Nat.eqb_spec k outer); [subst k; nia|]. destruct (Nat.eqb_spec k inner); [subst k; lia|].
    destruct (Nat.ltb_spec k outer).
    + specialize (Hb k ltac:(lia)). rewrite nth_remove_nth, !nth_set_nth in Hb by lia.
      replace (k <? outer)%nat with true in Hb by (symmetry; apply Nat.ltb_lt; lia).
      replace (k =? inner)%nat with false in Hb by (symmetry; apply Nat.eqb_neq; lia). exact Hb.
    + specialize (Hb (k - 1)%nat ltac:(lia)). rewrite nth_remove_nth, !nth_set_nth in Hb by lia.
      replace (k - 1 <? outer)%nat with false in Hb by (symmetry; apply Nat.ltb_ge; lia).
      replace (S (k - 1)) with k in Hb by lia.
      replace (k =? inner)%nat with false in Hb by (symmetry; apply Nat.eqb_neq; lia). exact Hb.
  - apply nth_ext with (d := 0) (d' := 0).
    + unfold fuse_index. rewrite remove_nth_length, set_nth_length by (rewrite set_nth_length; lia). lia.
    + intros k _. rewrite nth_fuse_index by lia. rewrite !Hn.
      destruct (Nat.eqb_spec k inner).
      * subst k. rewrite Nat.eqb_refl. replace (inner =? outer)%nat with false by (symmetry; apply Nat.eqb_neq; lia). rewrite Nat.eqb_refl.
        fold z. lia.
      * destruct (Nat.ltb_spec k outer).
        { replace (k =? outer)%nat with false by (symmetry; apply Nat.eqb_neq; lia). reflexivity. }
        { replace (S k =? outer)%nat with false by (symmetry; apply Nat.eqb_neq; lia).
          replace (S k =? inner)%nat with false by (symmetry; apply Nat.eqb_neq; lia).
          replace (S k <? outer)%nat with false by (symmetry; apply Nat.ltb_ge; lia).
          f_equal. lia. }
Qed.

(** ** a step: the buffers address the same elements and are still fusable *)
Definition good (b0 : buf) (bs : list buf) : Prop := fusable_first b0 /\ Forall (fusable b0) bs.

Lemma fused_dim_in : forall inner outer b d, (inner < outer)%nat ->
  In d (dims (fuse_remove inner outer b)) ->
  In d (dims b) \/ ((outer < rank b)%nat /\ d = fuse (dim_at b inner) (dim_at b outer)).
Proof.
  intros inner outer b d H Hd. rewrite fuse_remove_dims in Hd by assumption. destruct (Nat.leb_spec (rank b) outer); [now left|].
  apply in_remove_nth in Hd. apply in_set_nth in Hd. destruct Hd as [->|Hd]; [right; auto|now left].
Qed.
Lemma dim_at_in : forall b k, (k < rank b)%nat -> In (dim_at b k) (dims b).
Proof. intros. unfold dim_at. apply nth_In. assumption. Qed.
Lemma can_fuse_stride0 : forall i o, can_fuse i o = true -> d_stride o = 0 -> d_stride i = 0.
Proof.
  intros i o H H0. destruct (can_fuse_extent i o H) as [E1 _]. apply can_fuse_inv in H.
  destruct H as [[_ H]|[H _]]; [lia|]. rewrite H0 in H. symmetry in H. apply Z.mul_eq_0 in H. lia.
Qed.
Lemma fuse_cases : forall i o, (is_broadcast o = true /\ fuse i o = o) \/
  (is_broadcast o = false /\ d_stride (fuse i o) = d_stride i /\
   d_fold (fuse i o) = (if d_fold o =? unfolded then d_fold i else d_fold o * extent i) /\
   d_min (fuse i o) = d_min o * extent i /\ d_max (fuse i o) = (d_max o + 1) * extent i - 1).
Proof.
  intros i o. unfold fuse. destruct (is_broadcast o); [left; auto|right].
  destruct (d_fold o =? unfolded); cbn [negb set_range set_bounds set_fold d_min d_max d_stride d_fold]; unfold d_begin, d_end; auto.
Qed.
Lemma is_broadcast_stride : forall d, is_broadcast d = true -> d_stride d = 0 /\ is_point d = true.
Proof. intros d H. unfold is_broadcast, is_point in *. lia. Qed.

Lemma fuse_dims_ok : forall inner outer b, (inner < outer)%nat -> can_fuse (dim_at b inner) (dim_at b outer) = true ->
  dims_ok b -> dims_ok (fuse_remove inner outer b).
Proof.
  intros inner outer b H Hc Hok. unfold dims_ok in *. rewrite Forall_forall in *. intros d Hd.
  apply fused_dim_in in Hd; [|assumption]. destruct Hd as [Hd|[Hr ->]]; [auto|].
  assert (Oi := Hok _ (dim_at_in b inner ltac:(lia))). assert (Oo := Hok _ (dim_at_in b outer Hr)).
  destruct (can_fuse_extent _ _ Hc) as [E1 _]. pose proof (can_fuse_stride0 _ _ Hc) as S0.
  destruct (fuse_cases (dim_at b inner) (dim_at b outer)) as [[E ->]|(E & Es & Ef & _)]; [assumption|].
  unfold dim_ok in *. rewrite Es, Ef. destruct (Z.eqb_spec (d_fold (dim_at b outer)) unfolded); [assumption|].
  destruct Oo as [Oo|[Oo|Oo]]; [left; auto|contradiction|]. right. right. apply Z.mul_pos_pos; lia.
Qed.
Lemma fuse_no_strided_points : forall inner outer b, (inner < outer)%nat -> can_fuse (dim_at b inner) (dim_at b outer) = true ->
  no_strided_points b -> no_strided_points (fuse_remove inner outer b).
Proof.
  intros inner outer b H Hc Hn d Hd Hp. apply fused_dim_in in Hd; [|assumption]. destruct Hd as [Hd|[Hr ->]]; [auto|].
  destruct (can_fuse_extent _ _ Hc) as [E1 E2].
  destruct (fuse_cases (dim_at b inner) (dim_at b outer)) as [[E Ef]|(E & Es & Ef & Emin & Emax)].
  - rewrite Ef in *. now apply is_broadcast_stride in E.
  - rewrite Es. apply Hn; [apply dim_at_in; lia|]. unfold is_point in *. rewrite Emin, Emax in Hp.
    apply Z.eqb_eq in Hp. apply Z.eqb_eq.
    assert (HH : extent (dim_at b inner) * (d_max (dim_at b outer) - d_min (dim_at b outer) + 1) = 1) by lia.
    assert (extent (dim_at b inner) = 1); [|lia].
    apply Z.mul_eq_1 in HH. lia.
Qed.
Lemma fuse_no_folds : forall inner outer b, (inner < outer)%nat -> can_fuse (dim_at b inner) (dim_at b outer) = true ->
  no_folds b -> no_folds (fuse_remove inner outer b).
Proof.
  intros inner outer b H Hc Hn d Hd. apply fused_dim_in in Hd; [|assumption]. destruct Hd as [Hd|[Hr ->]]; [auto|].
  pose proof (can_fuse_stride0 _ _ Hc) as S0.
  destruct (fuse_cases (dim_at b inner) (dim_at b outer)) as [[E Ef]|(E & Es & Ef & Emin & Emax)].
  - rewrite Ef in *. left. now apply is_broadcast_stride in E.
  - rewrite Es, Ef. destruct (Hn _ (dim_at_in b inner ltac:(lia))) as [?|Fi]; [now left|].
    destruct (Hn _ (dim_at_in b outer Hr)) as [So|Fo]; [left; auto|right]. rewrite Fo, Z.eqb_refl. assumption.
Qed.
Lemma fuse_no_broadcasts : forall inner outer b, (inner < outer)%nat ->
  no_broadcasts b -> no_broadcasts (fuse_remove inner outer b).
Proof.
  intros inner outer b H Hn d Hd. apply fused_dim_in in Hd; [|assumption]. destruct Hd as [Hd|[Hr ->]]; [auto|].
  destruct (fuse_cases (dim_at b inner) (dim_at b outer)) as [[E Ef]|(E & Es & Ef & Emin & Emax)].
  - rewrite Ef in *. apply Hn. now apply dim_at_in.
  - rewrite Es. apply Hn. apply dim_at_in. lia.
Qed.

Lemma same_bounds_in : forall d b0 bs b, same_bounds d b0 bs = true -> In b bs -> (d < rank b0)%nat -> (d < rank b)%nat ->
  d_min (dim_at b d) = d_min (dim_at b0 d) /\ d_max (dim_at b d) = d_max (dim_at b0 d).
Proof.
  intros d b0 bs b H Hb H0 H1. unfold same_bounds in H. rewrite forallb_forall in H. specialize (H b Hb). unfold same_bounds1 in H.
  destruct (Nat.leb_spec (rank b0) d); [lia|]. destruct (Nat.leb_spec (rank b) d); [lia|]. cbn [orb] in H. lia.
Qed.
Lemma in_bounds_locate : forall b idx, base b <> None -> in_bounds (dims b) idx -> locate b (index idx) <> None.
Proof.
  intros b idx Hb Hi. unfold locate. destruct (base b) as [a|]; [|congruence].
  assert (G : forall ds l f, in_bounds ds l -> (forall k, f k = nth k l 0) -> place_all ds f <> None).
  { induction ds as [|d ds IH]; intros l f Hl Hf; cbn [place_all]; [discriminate|].
    destruct l as [|i l]; [contradiction|]. destruct Hl as [H1 H2]. rewrite Hf. cbn [nth].
    rewrite place_some by assumption. specialize (IH l (fun k => f (S k)) H2 ltac:(intros; cbn beta; rewrite Hf; reflexivity)).
    destruct (place_all ds (fun k => f (S k))); [discriminate|congruence]. }
  specialize (G _ _ (index idx) Hi ltac:(reflexivity)). destruct (place_all (dims b) (index idx)); [discriminate|congruence].
Qed.
Lemma locate_place : forall b idx k, (k < rank b)%nat -> locate b idx <> None -> place (dim_at b k) (idx k) <> None.
Proof.
  intros b idx k Hk Hl E. apply Hl. unfold locate. rewrite (place_all_split (dims b) k) by assumption. fold (dim_at b k).
  rewrite E. cbn [oadd]. destruct (base b); reflexivity.
Qed.

(** Everything about one fuse: an index map under which all the buffers agree. *)
Lemma fuse_locate : forall inner outer b0 bs b idx, (inner < outer < rank b0)%nat -> good b0 bs ->
  same_bounds inner b0 bs = true -> can_fuse (dim_at b0 inner) (dim_at b0 outer) = true ->
  In b (b0 :: bs) -> can_fuse (dim_at b inner) (dim_at b outer) = true ->
  in_bounds (dims b0) idx ->
  locate b (index idx) =
  locate (fuse_remove inner outer b)
         (index (fuse_index inner outer (d_min (dim_at b0 inner)) (extent (dim_at b0 inner)) idx)).
Proof.
  intros inner outer b0 bs b idx H [(F1 & F2 & F3) Fs] Hsb Hc0 Hin Hc Hb.
  pose proof Hb as Hb'. apply in_bounds_nth in Hb'. destruct Hb' as [HL Hn].
  destruct (can_fuse_extent _ _ Hc0) as [E1 E2]. destruct (can_fuse_extent _ _ Hc) as [E3 E4].
  assert (Hi0 := Hn inner ltac:(unfold rank in H; lia)). assert (Ho0 := Hn outer ltac:(unfold rank in H; lia)).
  assert (Ok : dims_ok b) by (destruct Hin as [<-|Hin]; [assumption|rewrite Forall_forall in Fs; now apply Fs]).
  apply locate_fuse_remove; [unfold rank in H; lia|assumption|assumption| |].
  - intros Hr. destruct Hin as [<-|Hin]; [unfold dim_at in *; repeat split; lia|].
    destruct (same_bounds_in _ _ _ _ Hsb Hin ltac:(lia) Hr) as [M1 M2]. unfold dim_at in *. repeat split; lia.
  - intros Hbase Hr. destruct Hin as [<-|Hin].
    + destruct F2 as [F2|F2].
      * destruct (is_point (dim_at b0 outer)) eqn:P; [left; apply F2; [now apply dim_at_in|assumption]|].
        right. left. unfold is_point in P. lia.
      * destruct (F2 _ (dim_at_in b0 outer Hr)) as [S|Fo]; [now left|].
        destruct (Z.eq_dec (d_min (dim_at b0 outer)) (d_max (dim_at b0 outer))) as [P|P]; [|now right; left].
        right. right. split; [destruct (F2 _ (dim_at_in b0 inner ltac:(lia))); auto|]. split; [assumption|].
        right. unfold dim_at in *. lia.
    + rewrite Forall_forall in Fs. destruct (Fs b Hin) as [_ [G|[G1 G2]]].
      * destruct (is_point (dim_at b outer)) eqn:P; [left; apply G; [now apply dim_at_in|assumption]|].
        right. left. unfold is_point in P. lia.
      * destruct (G1 _ (dim_at_in b outer Hr)) as [S|Fo]; [now left|].
        destruct (Z.eq_dec (d_min (dim_at b outer)) (d_max (dim_at b outer))) as [P|P]; [|now right; left].
        destruct (Z.eq_dec (d_stride (dim_at b outer)) 0) as [So|So]; [now left|].
        right. right. split; [destruct (G1 _ (dim_at_in b inner ltac:(lia))); auto|]. split; [assumption|].
        destruct G2 as [G2|G2]; [left; apply G2; apply dim_at_in; lia|right].
        specialize (G2 idx Hb Hbase). apply locate_place with (k := outer) in G2; [|assumption].
        destruct (Z_le_dec (d_min (dim_at b outer)) (index idx outer)); [destruct (Z_le_dec (index idx outer) (d_max (dim_at b outer)))|].
        { unfold index in *. lia. }
        { exfalso. apply G2. apply place_none; [assumption|lia]. }
        { exfalso. apply G2. apply place_none; [assumption|lia]. }
Qed.

Lemma fuse_box : forall inner outer b0, (inner < outer < rank b0)%nat -> fusable_first b0 ->
  can_fuse (dim_at b0 inner) (dim_at b0 outer) = true ->
  let f := fuse_index inner outer (d_min (dim_at b0 inner)) (extent (dim_at b0 inner)) in
  let g := unfuse_index inner outer (d_min (dim_at b0 inner)) (extent (dim_at b0 inner)) in
  (forall idx, in_bounds (dims b0) idx -> in_bounds (dims (fuse_remove inner outer b0)) (f idx) /\ g (f idx) = idx) /\
  (forall idx, in_bounds (dims (fuse_remove inner outer b0)) idx -> in_bounds (dims b0) (g idx) /\ f (g idx) = idx).
Proof.
  intros inner outer b0 H (F1 & F2 & F3) Hc f g. subst f g.
  destruct (can_fuse_extent _ _ Hc) as [E1 E2].
  destruct (fuse_bounds _ _ Hc) as [M1 M2].
  { intros HB. apply is_broadcast_stride in HB. destruct HB as [HB _].
    assert (P := F3 _ (dim_at_in b0 inner ltac:(lia)) (can_fuse_stride0 _ _ Hc HB)). unfold is_point in P. lia. }
  rewrite fuse_remove_dims by lia. destruct (Nat.leb_spec (rank b0) outer); [lia|].
  unfold rank in H. split; intros idx Hb.
  - apply fuse_index_in; try assumption; try reflexivity; unfold dim_at in *; lia.
  - eapply unfuse_index_in; try eassumption; try reflexivity; unfold dim_at in *; lia.
Qed.

Lemma fuse_first : forall inner outer b0, (inner < outer < rank b0)%nat -> fusable_first b0 ->
  can_fuse (dim_at b0 inner) (dim_at b0 outer) = true -> fusable_first (fuse_remove inner outer b0).
Proof.
  intros inner outer b0 H (F1 & F2 & F3) Hc. split; [apply fuse_dims_ok; auto; lia|]. split.
  - destruct F2 as [F2|F2]; [left; apply fuse_no_strided_points; auto; lia|right; apply fuse_no_folds; auto; lia].
  - intros d Hd Hs. apply fused_dim_in in Hd; [|lia]. destruct Hd as [Hd|[Hr ->]]; [auto|].
    destruct (can_fuse_extent _ _ Hc) as [E1 E2].
    destruct (fuse_cases (dim_at b0 inner) (dim_at b0 outer)) as [[E Ef]|(E & Es & Ef & Emin & Emax)].
    + rewrite Ef. now apply is_broadcast_stride in E.
    + rewrite Es in Hs. assert (P := F3 _ (dim_at_in b0 inner ltac:(lia)) Hs). unfold is_point in P |- *.
      assert (e1 : extent (dim_at b0 inner) = 1) by lia. rewrite Emin, Emax, e1.
      apply can_fuse_inv in Hc. destruct Hc as [[Hc _]|[Hc _]]; [lia|].
      assert (P2 := F3 _ (dim_at_in b0 outer Hr) ltac:(rewrite Hc, Hs; reflexivity)). unfold is_point in P2. lia.
Qed.

Lemma attempt_fuse_step : forall inner outer b0 bs b0' bs', (inner < outer < rank b0)%nat -> good b0 bs ->
  attempt_fuse inner outer b0 bs = Some (b0', bs') ->
  good b0' bs' /\ same_elements b0 bs b0' bs' /\ rank b0' = (rank b0 - 1)%nat /\ length bs' = length bs.
Proof.
  intros inner outer b0 bs b0' bs' H Hg E. unfold attempt_fuse in E.
  destruct (same_bounds inner b0 bs) eqn:Hsb; [|discriminate]. destruct (can_fuse_all inner outer (b0 :: bs)) eqn:Hca; [|discriminate].
  cbn [andb] in E. injection E as <- <-. unfold can_fuse_all in Hca. rewrite forallb_forall in Hca.
  assert (Hc0 : can_fuse (dim_at b0 inner) (dim_at b0 outer) = true) by (apply Hca; now left).
  pose proof Hg as [F Fs]. destruct (fuse_box inner outer b0 H F Hc0) as [B1 B2].
  pose proof (fun b idx Hin => fuse_locate inner outer b0 bs b idx H Hg Hsb Hc0 Hin (Hca b Hin)) as HLoc.
  split; [split|split; [|split]].
  - now apply fuse_first.
  - rewrite Forall_forall in *. intros b' Hb'. apply in_map_iff in Hb'. destruct Hb' as (b & <- & Hb).
    destruct (Fs b Hb) as [G0 G]. assert (Hc := Hca b (or_intror Hb)).
    split; [apply fuse_dims_ok; auto; lia|]. destruct G as [G|[G1 G2]]; [left; apply fuse_no_strided_points; auto; lia|right].
    split; [apply fuse_no_folds; auto; lia|]. destruct G2 as [G2|G2]; [left; apply fuse_no_broadcasts; auto; lia|right].
    intros idx Hi Hbase. rewrite fuse_remove_base in Hbase. destruct (B2 idx Hi) as [Hgi Efg].
    rewrite <- Efg. rewrite <- (HLoc b _ (or_intror Hb) Hgi). now apply G2.
  - unfold same_elements. eapply visits_step; [exact B1|exact B2|].
    intros idx Hi. cbn [map]. f_equal; [apply HLoc; [now left|assumption]|]. rewrite map_map. apply map_ext_in.
    intros b Hb. apply HLoc; [now right|assumption].
  - unfold rank in *. rewrite fuse_remove_dims by lia. destruct (Nat.leb_spec (rank b0) outer); unfold rank in *; [lia|].
    rewrite remove_nth_length, set_nth_length by (rewrite set_nth_length; lia). lia.
  - apply map_length.
Qed.

Lemma fuse_contiguous_step : forall sets d b0 bs b0' bs', good b0 bs -> (d < rank b0)%nat \/ d = O ->
  fuse_contiguous_loop sets d b0 bs = (b0', bs') ->
  good b0' bs' /\ same_elements b0 bs b0' bs' /\ length bs' = length bs.
Proof.
  induction d as [|d IH]; intros b0 bs b0' bs' Hg Hd E; cbn [fuse_contiguous_loop] in E.
  - injection E as <- <-. split; [assumption|]. split; [apply Permutation_refl|reflexivity].
  - destruct Hd as [Hd|Hd]; [|lia]. unfold attempt_fuse_sets in E.
    destruct ((S d <? length sets)%nat && negb (nth (S d) sets 0 =? nth d sets 0)).
    + apply IH in E; [assumption|assumption|lia].
    + destruct (attempt_fuse d (S d) b0 bs) as [[b1 bs1]|] eqn:A; [|apply IH in E; [assumption|assumption|lia]].
      destruct (attempt_fuse_step d (S d) b0 bs b1 bs1 ltac:(lia) Hg A) as (G1 & G2 & G3 & G4).
      apply IH in E; [|assumption|lia]. destruct E as (E1 & E2 & E3).
      split; [assumption|]. split; [eapply Permutation_trans; eassumption|congruence].
Qed.
Lemma fuse_contiguous_dims_step : forall sets b0 bs b0' bs', good b0 bs ->
  fuse_contiguous_dims sets b0 bs = (b0', bs') -> good b0' bs' /\ same_elements b0 bs b0' bs' /\ length bs' = length bs.
Proof. intros sets b0 bs b0' bs' Hg E. eapply fuse_contiguous_step; [exact Hg| |exact E]. lia. Qed.

(** ** sorting *)
Lemma swap_in : forall i j b d, (i < j < rank b)%nat -> In d (dims (swap_dims i j b)) -> In d (dims b).
Proof.
  intros i j b d H Hd. cbn [swap_dims dims] in Hd. apply in_set_nth in Hd. destruct Hd as [->|Hd]; [apply dim_at_in; lia|].
  apply in_set_nth in Hd. destruct Hd as [->|Hd]; [apply dim_at_in; lia|assumption].
Qed.
Lemma swap_locate : forall i j b idx, (i < j < rank b)%nat -> (j < length idx)%nat ->
  locate b (index idx) = locate (swap_dims i j b) (index (swap_list 0 i j idx)).
Proof.
  intros i j b idx H HL. unfold locate. rewrite swap_dims_dims. cbn [base swap_dims]. f_equal. symmetry. apply place_all_swap; [unfold rank in *; lia|].
  intros k. unfold index. apply nth_swap_list. lia.
Qed.
Lemma swap_rank : forall i j b, rank (swap_dims i j b) = rank b.
Proof. intros. unfold rank. rewrite swap_dims_dims. apply swap_list_length. Qed.
Lemma swap_fusable : forall i j b0 b, (i < j < rank b0)%nat -> (j < rank b)%nat ->
  fusable b0 b -> fusable (swap_dims i j b0) (swap_dims i j b).
Proof.
  intros i j b0 b H0 H1 [G0 G]. assert (S := fun d => swap_in i j b d ltac:(lia)).
  split; [unfold dims_ok in *; rewrite Forall_forall in *; auto|].
  destruct G as [G|[G1 G2]]; [left; intros d Hd; auto|right]. split; [intros d Hd; auto|].
  destruct G2 as [G2|G2]; [left; intros d Hd; auto|right].
  intros idx Hi Hb. rewrite swap_dims_dims in Hi.
  pose proof Hi as HL. apply in_bounds_nth in HL. rewrite swap_list_length in HL. unfold rank in *.
  apply (swap_in_bounds i j) in Hi; [|rewrite swap_list_length; lia]. rewrite swap_list_twice in Hi by lia.
  specialize (G2 _ Hi Hb). rewrite (swap_locate i j) in G2 by (unfold rank; rewrite ?swap_list_length; lia).
  rewrite swap_list_twice in G2 by lia. assumption.
Qed.
Lemma swap_good : forall i j b0 bs, (i < j < rank b0)%nat -> Forall (fun b => (j < rank b)%nat) bs -> good b0 bs ->
  good (swap_dims i j b0) (map (swap_dims i j) bs).
Proof.
  intros i j b0 bs H0 H1 [(F1 & F2 & F3) Fs]. assert (S := fun d => swap_in i j b0 d ltac:(lia)). split.
  - split; [unfold dims_ok in *; rewrite Forall_forall in *; auto|]. split; [destruct F2 as [F2|F2]; [left|right]; intros d Hd; auto|].
    intros d Hd. auto.
  - rewrite Forall_forall in *. intros b' Hb'. apply in_map_iff in Hb'. destruct Hb' as (b & <- & Hb).
    apply swap_fusable; auto.
Qed.

Definition ranks (r : nat) (b0 : buf) (bs : list buf) : Prop := (r <= rank b0)%nat /\ Forall (fun b => (r <= rank b)%nat) bs.
Lemma swap_ranks : forall i j r b0 bs, ranks r b0 bs -> ranks r (swap_dims i j b0) (map (swap_dims i j) bs).
Proof.
  intros i j r b0 bs [H1 H2]. split; [now rewrite swap_rank|]. rewrite Forall_forall in *. intros b Hb.
  apply in_map_iff in Hb. destruct Hb as (b1 & <- & Hb). rewrite swap_rank. auto.
Qed.

(** A relation that every swap within the first [r] dimensions respects, so does sorting. *)
Lemma sort_inner_rel : forall (P : buf -> list buf -> Prop) r sets i n j b0 bs m b0' bs' m',
  (forall i j b0 bs, (i < j < r)%nat -> ranks r b0 bs -> P b0 bs -> P (swap_dims i j b0) (map (swap_dims i j) bs)) ->
  (i < j)%nat -> (j + n <= r)%nat -> ranks r b0 bs -> P b0 bs -> sort_inner sets i j n b0 bs m = (b0', bs', m') ->
  P b0' bs' /\ ranks r b0' bs'.
Proof.
  intros P r sets i n. induction n as [|n IH]; intros j b0 bs m b0' bs' m' HP Hij Hn HR H E; cbn [sort_inner] in E.
  - injection E as <- <- <-. auto.
  - destruct ((j <? length sets)%nat && _).
    + eapply IH in E; eauto; lia.
    + destruct (_ <? _).
      * eapply IH in E; eauto; try lia; [now apply swap_ranks|]. apply HP; auto. lia.
      * eapply IH in E; eauto; lia.
Qed.
Lemma sort_outer_rel : forall (P : buf -> list buf -> Prop) r sets n i b0 bs m b0' bs' m',
  (forall i j b0 bs, (i < j < r)%nat -> ranks r b0 bs -> P b0 bs -> P (swap_dims i j b0) (map (swap_dims i j) bs)) ->
  (i + n <= r - 1)%nat -> ranks r b0 bs -> P b0 bs -> sort_outer sets r i n b0 bs m = (b0', bs', m') ->
  P b0' bs' /\ ranks r b0' bs'.
Proof.
  intros P r sets n. induction n as [|n IH]; intros i b0 bs m b0' bs' m' HP Hn HR H E; cbn [sort_outer] in E.
  - injection E as <- <- <-. auto.
  - destruct (sort_inner sets i (S i) (r - S i) b0 bs m) as [[b1 bs1] m1] eqn:E1.
    destruct (sort_inner_rel P r sets i (r - S i) (S i) b0 bs m b1 bs1 m1 HP ltac:(lia) ltac:(lia) HR H E1).
    eapply IH in E; eauto. lia.
Qed.
Lemma min_rank_ranks : forall b0 bs, ranks (min_rank b0 bs) b0 bs.
Proof.
  intros b0 bs. unfold ranks, min_rank.
  assert (G : forall bs r, (fold_left (fun r b => Nat.min r (rank b)) bs r <= r)%nat /\
     Forall (fun b => (fold_left (fun r b => Nat.min r (rank b)) bs r <= rank b)%nat) bs).
  { induction bs0 as [|b bs' IH]; intros r; cbn [fold_left]; [split; [lia|constructor]|].
    destruct (IH (Nat.min r (rank b))) as [I1 I2]. split; [lia|]. constructor; [lia|assumption]. }
  apply G.
Qed.
Lemma sort_dims_step : forall sets b0 bs b0' bs' m, good b0 bs -> sort_dims sets b0 bs = (b0', bs', m) ->
  good b0' bs' /\ same_elements b0 bs b0' bs' /\ length bs' = length bs.
Proof.
  intros sets b0 bs b0' bs' m Hg E. unfold sort_dims in E.
  destruct (sort_outer_rel (fun b1 bs1 => good b1 bs1 /\ same_elements b0 bs b1 bs1 /\ length bs1 = length bs)
    (min_rank b0 bs) sets (min_rank b0 bs - 1) 0 b0 bs false b0' bs' m) as [G _]; try assumption; [|lia|apply min_rank_ranks| ].
  - intros i j b1 bs1 H [R1 R2] (G1 & G2 & G3).
    assert (Forall (fun b => (j < rank b)%nat) bs1) by (eapply Forall_impl; [|exact R2]; cbn beta; intros; lia).
    split; [apply swap_good; auto; lia|]. split; [|now rewrite map_length].
    eapply Permutation_trans; [exact G2|]. apply swap_visits; auto; lia.
  - split; [assumption|]. split; [apply Permutation_refl|reflexivity].
Qed.

(** ** slicing *)
Lemma slice_in : forall d x b e, In e (dims (slice_at b d x)) -> In e (dims b).
Proof. intros d x b e H. rewrite slice_at_dims in H. now apply in_remove_nth in H. Qed.
Lemma slice_base : forall d x b, base (slice_at b d x) <> None -> base b <> None.
Proof.
  intros d x b H E. apply H. unfold slice_at. destruct (rank b <=? d)%nat; [assumption|]. rewrite slice1_base. cbn [base]. now rewrite E.
Qed.
Lemma slice_locate : forall b d x idx, (d <= length idx)%nat ->
  locate (slice_at b d x) (index idx) = locate b (index (insert_nth d x idx)).
Proof.
  intros b d x idx H. rewrite locate_slice_at. apply locate_ext. intros k _. unfold insert_at, index. now rewrite nth_insert_nth by assumption.
Qed.
Lemma slice_at_out : forall b d x, (rank b <= d)%nat -> slice_at b d x = b.
Proof. intros. unfold slice_at. now destruct (Nat.leb_spec (rank b) d); [|lia]. Qed.
Lemma slice_covered : forall d x b0 b, d_min (dim_at b0 d) = x -> is_point (dim_at b0 d) = true ->
  covered b0 b -> covered (slice_at b0 d x) (slice_at b d x).
Proof.
  intros d x b0 b Hx Hp Hc idx Hi Hb. apply slice_base in Hb.
  destruct (Nat.lt_ge_cases d (rank b0)) as [L|L]; unfold rank in L.
  - rewrite slice_at_dims in Hi. apply in_bounds_nth in Hi. rewrite remove_nth_length in Hi by lia. destruct Hi as [HL Hn].
    rewrite slice_locate by lia. apply Hc; [|assumption].
    apply in_bounds_nth. rewrite insert_nth_length by lia. split; [lia|]. intros k Hk. rewrite nth_insert_nth by lia.
    destruct (Nat.ltb_spec k d).
    + specialize (Hn k ltac:(lia)). rewrite nth_remove_nth in Hn. replace (k <? d)%nat with true in Hn by (symmetry; apply Nat.ltb_lt; lia). exact Hn.
    + destruct (Nat.eqb_spec k d).
      { subst k. unfold is_point, dim_at in *. lia. }
      { specialize (Hn (k - 1)%nat ltac:(lia)). rewrite nth_remove_nth in Hn.
        replace (k - 1 <? d)%nat with false in Hn by (symmetry; apply Nat.ltb_ge; lia).
        replace (S (k - 1)) with k in Hn by lia. exact Hn. }
  - rewrite slice_at_out in Hi by (unfold rank; lia).
    assert (Ex : x = 0) by (rewrite <- Hx; unfold dim_at; now rewrite nth_overflow by lia).
    pose proof Hi as HL. apply in_bounds_nth in HL. destruct HL as [HL _].
    replace (locate (slice_at b d x) (index idx)) with (locate b (index idx)); [now apply Hc|].
    rewrite locate_slice_at. apply locate_ext. intros k _. unfold insert_at, index. rewrite Ex.
    destruct (Nat.ltb_spec k d); [reflexivity|]. destruct (Nat.eqb_spec k d); rewrite (nth_overflow idx) by lia; [reflexivity|].
    now rewrite nth_overflow by lia.
Qed.
Lemma slice_good : forall d x b0 bs, d_min (dim_at b0 d) = x -> is_point (dim_at b0 d) = true -> good b0 bs ->
  good (slice_at b0 d x) (map (fun b => slice_at b d x) bs).
Proof.
  intros d x b0 bs Hx Hp [(F1 & F2 & F3) Fs]. pose proof (slice_in d x) as S. split.
  - split; [unfold dims_ok in *; rewrite Forall_forall in *; eauto|].
    split; [destruct F2 as [F2|F2]; [left|right]; intros e He; eauto|]. intros e He. eauto.
  - rewrite Forall_forall in *. intros b' Hb'. apply in_map_iff in Hb'. destruct Hb' as (b & <- & Hb).
    destruct (Fs b Hb) as [G0 G]. split; [unfold dims_ok in *; rewrite Forall_forall in *; eauto|].
    destruct G as [G|[G1 G2]]; [left; intros e He; eauto|right]. split; [intros e He; eauto|].
    destruct G2 as [G2|G2]; [left; intros e He; eauto|right]. now apply slice_covered.
Qed.
Lemma slice_points_step : forall d b0 bs b0' bs', good b0 bs -> slice_points d b0 bs = (b0', bs') ->
  good b0' bs' /\ same_elements b0 bs b0' bs' /\ length bs' = length bs.
Proof.
  induction d as [|d IH]; intros b0 bs b0' bs' Hg E; cbn [slice_points] in E.
  - injection E as <- <-. split; [assumption|]. split; [apply Permutation_refl|reflexivity].
  - destruct (is_point (dim_at b0 d)) eqn:P; cbn [andb] in E; [|now apply IH].
    destruct (forallb _ bs) eqn:F; [|now apply IH].
    apply IH in E; [|now apply slice_good]. destruct E as (E1 & E2 & E3). split; [assumption|]. split; [|now rewrite map_length in E3].
    eapply Permutation_trans; [|exact E2]. now apply slice_visits.
Qed.

Lemma optimize_dims_step : forall b0 bs b0' bs', good b0 bs -> optimize_dims b0 bs = (b0', bs') ->
  good b0' bs' /\ same_elements b0 bs b0' bs' /\ length bs' = length bs.
Proof.
  intros b0 bs b0' bs' Hg E. unfold optimize_dims in E.
  destruct (slice_points (max_rank b0 bs) b0 bs) as [b1 bs1] eqn:E1. apply slice_points_step in E1; [|assumption]. destruct E1 as (G1 & S1 & L1).
  destruct (fuse_contiguous_dims [] b1 bs1) as [b2 bs2] eqn:E2. apply fuse_contiguous_dims_step in E2; [|assumption]. destruct E2 as (G2 & S2 & L2).
  destruct (fuse_contiguous_dims [] b2 bs2) as [b3 bs3] eqn:E3. apply fuse_contiguous_dims_step in E3; [|assumption]. destruct E3 as (G3 & S3 & L3).
  destruct (sort_dims [] b3 bs3) as [[b4 bs4] m] eqn:E4. apply sort_dims_step in E4; [|assumption]. destruct E4 as (G4 & S4 & L4).
  assert (S : same_elements b0 bs b4 bs4).
  { eapply Permutation_trans; [exact S1|]. eapply Permutation_trans; [exact S2|]. eapply Permutation_trans; [exact S3|exact S4]. }
  destruct m.
  - apply fuse_contiguous_dims_step in E; [|assumption]. destruct E as (G5 & S5 & L5).
    split; [assumption|]. split; [eapply Permutation_trans; eassumption|congruence].
  - injection E as <- <-. split; [assumption|]. split; [assumption|congruence].
Qed.
Lemma optimize_dims_sets_step : forall sets b0 bs b0' bs', good b0 bs -> optimize_dims_sets sets b0 bs = (b0', bs') ->
  good b0' bs' /\ same_elements b0 bs b0' bs' /\ length bs' = length bs.
Proof.
  intros sets b0 bs b0' bs' Hg E. unfold optimize_dims_sets in E.
  destruct (fuse_contiguous_dims sets b0 bs) as [b3 bs3] eqn:E3. apply fuse_contiguous_dims_step in E3; [|assumption]. destruct E3 as (G3 & S3 & L3).
  destruct (sort_dims sets b3 bs3) as [[b4 bs4] m] eqn:E4. apply sort_dims_step in E4; [|assumption]. destruct E4 as (G4 & S4 & L4).
  assert (S : same_elements b0 bs b4 bs4) by (eapply Permutation_trans; eassumption).
  destruct m.
  - apply fuse_contiguous_dims_step in E; [|assumption]. destruct E as (G5 & S5 & L5).
    split; [assumption|]. split; [eapply Permutation_trans; eassumption|congruence].
  - injection E as <- <-. split; [assumption|]. split; [assumption|congruence].
Qed.

(** ** sort_dims sorts *)
Definition sorted_prefix (r i : nat) (b : buf) : Prop :=
  forall a k, (a < i)%nat -> (a < k < r)%nat -> d_stride (dim_at b a) <= d_stride (dim_at b k).
Lemma dim_at_swap : forall i j b k, (i < j < rank b)%nat ->
  dim_at (swap_dims i j b) k = if (k =? j)%nat then dim_at b i else if (k =? i)%nat then dim_at b j else dim_at b k.
Proof. intros i j b k H. unfold dim_at. rewrite swap_dims_dims. now apply nth_swap_list. Qed.
Lemma sort_inner_sorted : forall r i n j b0 bs m b0' bs' m', (i < j)%nat -> (j + n = r)%nat -> (r <= rank b0)%nat ->
  sorted_prefix r i b0 -> (forall k, (i < k < j)%nat -> d_stride (dim_at b0 i) <= d_stride (dim_at b0 k)) ->
  sort_inner [] i j n b0 bs m = (b0', bs', m') -> sorted_prefix r (S i) b0' /\ rank b0' = rank b0.
Proof.
  intros r i n. induction n as [|n IH]; intros j b0 bs m b0' bs' m' Hij Hn Hr Hs Hk E; cbn [sort_inner length] in E.
  - injection E as <- <- <-. split; [|reflexivity]. intros a k Ha Hak.
    destruct (Nat.eq_dec a i) as [->|]; [apply Hk; lia|apply Hs; lia].
  - replace (j <? 0)%nat with false in E by (symmetry; apply Nat.ltb_ge; lia). cbn [andb] in E.
    destruct (Z.ltb_spec (d_stride (dim_at b0 j)) (d_stride (dim_at b0 i))).
    + apply IH in E; try lia.
      * now rewrite swap_rank in E.
      * now rewrite swap_rank.
      * intros a k Ha Hak. rewrite !dim_at_swap by lia.
        destruct (Nat.eqb_spec a j); [lia|]. destruct (Nat.eqb_spec a i); [lia|].
        destruct (Nat.eqb_spec k j); [apply Hs; lia|]. destruct (Nat.eqb_spec k i); apply Hs; lia.
      * intros k Hk2. rewrite !dim_at_swap by lia. rewrite Nat.eqb_refl.
        destruct (Nat.eqb_spec i j); [lia|]. destruct (Nat.eqb_spec k j); [lia|].
        destruct (Nat.eqb_spec k i); [lia|]. specialize (Hk k ltac:(lia)). lia.
    + apply IH in E; try lia; try assumption.
      intros k Hk2. destruct (Nat.eq_dec k j) as [->|]; [assumption|]. apply Hk. lia.
Qed.
Lemma sort_outer_sorted : forall r n i b0 bs m b0' bs' m', (i + n = r - 1)%nat -> (r <= rank b0)%nat ->
  sorted_prefix r i b0 -> sort_outer [] r i n b0 bs m = (b0', bs', m') -> sorted_prefix r (i + n) b0'.
Proof.
  intros r n. induction n as [|n IH]; intros i b0 bs m b0' bs' m' Hn Hr Hs E; cbn [sort_outer] in E.
  - injection E as <- <- <-. now rewrite Nat.add_0_r.
  - destruct (sort_inner [] i (S i) (r - S i) b0 bs m) as [[b1 bs1] m1] eqn:E1.
    destruct (sort_inner_sorted r i (r - S i) (S i) b0 bs m b1 bs1 m1) as [S1 R1]; try assumption; try lia.
    apply IH in E; [|lia|lia|assumption]. now rewrite Nat.add_succ_r.
Qed.
Lemma sort_dims_sorted : forall b0 bs b0' bs' m, sort_dims [] b0 bs = (b0', bs', m) ->
  forall i j, (i < j < min_rank b0 bs)%nat -> d_stride (dim_at b0' i) <= d_stride (dim_at b0' j).
Proof.
  intros b0 bs b0' bs' m E i j Hij. unfold sort_dims in E.
  apply sort_outer_sorted in E; [|lia|apply min_rank_ranks|].
  - apply E; lia.
  - intros a k Ha. lia.
Qed.
Lemma swap_permutation : forall i j b, (i < j < rank b)%nat -> Permutation (dims b) (dims (swap_dims i j b)).
Proof.
  intros i j b H. rewrite swap_dims_dims. unfold rank in *.
  apply (Permutation_nth (dims b) (swap_list broadcast i j (dims b)) broadcast).
  split; [now rewrite swap_list_length|].
  exists (fun k => if (k =? j)%nat then i else if (k =? i)%nat then j else k). split; [|split].
  - intros k Hk. destruct (k =? j)%nat; [lia|]. destruct (k =? i)%nat; lia.
  - intros x y Hx Hy.
    destruct (Nat.eqb_spec x j), (Nat.eqb_spec y j), (Nat.eqb_spec x i), (Nat.eqb_spec y i); lia.
  - intros k Hk. rewrite nth_swap_list by lia. destruct (k =? j)%nat; [reflexivity|]. destruct (k =? i)%nat; reflexivity.
Qed.
Lemma sort_dims_permutation : forall sets b0 bs b0' bs' m, sort_dims sets b0 bs = (b0', bs', m) ->
  Permutation (dims b0) (dims b0').
Proof.
  intros sets b0 bs b0' bs' m E. unfold sort_dims in E.
  destruct (sort_outer_rel (fun b1 bs1 => Permutation (dims b0) (dims b1))
    (min_rank b0 bs) sets (min_rank b0 bs - 1) 0 b0 bs false b0' bs' m) as [G _]; try assumption; [|lia|apply min_rank_ranks|apply Permutation_refl].
  intros i j b1 bs1 H [R1 R2] P. eapply Permutation_trans; [exact P|]. apply swap_permutation. lia.
Qed.
