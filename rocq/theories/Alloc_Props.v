(** C21 and C22: automatically assigned strides, and allocation sizes. *)
From Coq Require Import ZArith List Bool Lia Permutation.
From Verif Require Import Arith_Model Arith_Proofs Buf_Model Buf_Spec Buf_Proofs Alloc_Model Alloc_Proofs.
Import ListNotations.
Open Scope Z_scope.

(** ** Specification *)
(** Number of distinct storage slots along a dimension, and which slot x uses. *)
Definition slots (d : dim) : Z := if d_fold d =? unfolded then Z.max 0 (d_max d - d_min d + 1) else d_fold d.
Definition slot (d : dim) (x : Z) : Z := if d_fold d =? unfolded then x - d_min d else x mod d_fold d.
Definition dim_wf (d : dim) : Prop := d_fold d = unfolded \/ 0 < d_fold d.
(** A dimension whose stride the user gave, and where the stride matters. *)
Definition specified (d : dim) : Prop := d_stride d <> 0 /\ d_stride d <> auto_stride /\ 1 < slots d.
(** The given strides are consistent: each steps over at least one element, and of
    any two one steps over the whole of the other. *)
Definition strides_consistent (es : Z) (ds : list dim) : Prop :=
  (forall d, In d ds -> specified d -> es <= Z.abs (d_stride d)) /\
  (forall i j di dj, i <> j -> nth_error ds i = Some di -> nth_error ds j = Some dj -> specified di -> specified dj ->
     Z.abs (d_stride di) * slots di <= Z.abs (d_stride dj) \/ Z.abs (d_stride dj) * slots dj <= Z.abs (d_stride di)).
(** Two indices name the same element: in every dimension they use the same slot,
    or all slots are the same. *)
Definition same_element (ds : list dim) (f g : nat -> Z) : Prop :=
  forall k d, nth_error ds k = Some d -> d_stride d = 0 \/ slot d (f k) = slot d (g k).
(** Bytes spanned by a buffer: last byte of the last element minus the first. *)
Definition span_bytes (es : Z) (ds : list dim) : Z :=
  fold_right (fun d r => Z.max 0 (slots d - 1) * Z.abs (d_stride d) + r) es ds.

(** ** Proofs *)
Lemma alloc_extent_slots : forall d, dim_wf d -> alloc_extent d = slots d.
Proof.
  intros d W. unfold alloc_extent, slots, extent, d_begin, d_end, unfolded in *.
  destruct W as [W|W]; destruct (Z.ltb_spec 0 (d_fold d)), (Z.eqb_spec (d_fold d) (-1)); unfold unfolded in *; try lia.
  destruct (Z.ltb_spec (d_min d) (d_max d + 1)); lia.
Qed.
Lemma counts_specified : forall d, dim_wf d -> (counts d = true <-> specified d).
Proof.
  intros d W. unfold counts, specified. rewrite alloc_extent_slots by exact W.
  destruct (Z.eqb_spec (d_stride d) 0), (Z.eqb_spec (d_stride d) auto_stride), (Z.ltb_spec 1 (slots d)); cbn; split; intros Q; try discriminate; try tauto; try lia.
Qed.
Lemma consistent_good : forall es ds, 0 < es -> Forall dim_wf ds -> strides_consistent es ds ->
  Forall (good es) (lk ds) /\ ForallOrdPairs nested (lk ds).
Proof.
  intros es ds ES W [H1 H2]. split.
  - apply Forall_forall. intros k I. unfold lk in I. apply in_map_iff in I. destruct I as (d & <- & I). apply filter_In in I.
    destruct I as [I C]. rewrite Forall_forall in W. specialize (W d I). apply counts_specified in C; [|exact W].
    specialize (H1 d I C). destruct C as (C1 & C2 & C3). unfold good, as_known. cbn [k_stride k_dim_stride].
    rewrite alloc_extent_slots by exact W. split; [exact H1|]. nia.
  - clear H1. induction ds as [|d ds IH]; [constructor|]. inversion W as [|? ? Wd Wds]; subst.
    rewrite lk_cons. 
    assert (ForallOrdPairs nested (lk ds)) as R.
    { apply IH; [exact Wds|]. intros i j di dj N Ei Ej. apply (H2 (S i) (S j)); auto. }
    destruct (counts d) eqn:C; [|exact R]. constructor; [|exact R]. apply Forall_forall. intros k I.
    unfold lk in I. apply in_map_iff in I. destruct I as (e & <- & I). apply filter_In in I. destruct I as [I CE].
    pose proof Wds as Wds'. rewrite Forall_forall in Wds'. specialize (Wds' e I).
    apply counts_specified in C; [|exact Wd]. apply counts_specified in CE; [|exact Wds'].
    apply In_nth_error in I. destruct I as (j & Ej).
    specialize (H2 O (S j) d e ltac:(discriminate) eq_refl Ej C CE).
    unfold nested, as_known. cbn [k_stride k_dim_stride]. rewrite !alloc_extent_slots by assumption. exact H2.
Qed.

(** The fast path and the general path together. *)
Lemma init_strides_spec : forall b al b' n, init_strides b al = Val (b', Some n) -> pow2 al ->
  0 < elem_size b < 2 ^ 64 -> elem_size b <> auto_stride -> Forall dim_wf (dims b) -> strides_consistent (elem_size b) (dims b) ->
  base b' = base b /\ elem_size b' = elem_size b /\ init_ok (elem_size b) (dims b) (dims b') n al.
Proof.
  intros b al b' n H P ES NA W SC. destruct (consistent_good (elem_size b) (dims b) (proj1 ES) W SC) as [G N].
  unfold init_strides in H. destruct (dims b) as [|d [|d2 ds]] eqn:D.
  - injection H as <- F. apply finish_size_spec in F; [|exact P]. destruct F as (O & B & DV).
    assert (as_index (elem_size b) = elem_size b) as EI.
    { destruct (Z_lt_dec (elem_size b) (2 ^ 63)); [apply as_index_small; lia|].
      pose proof (as_index_big (elem_size b) ltac:(lia)). destruct (Z.ltb_spec (as_index (elem_size b)) 0); [discriminate|lia]. }
    rewrite EI in *. split; [reflexivity|]. split; [reflexivity|]. rewrite D. exists 0. repeat split; try lia; auto; constructor.
  - destruct ((d_fold d =? unfolded) && (0 <=? d_stride d)) eqn:FP.
    2:{ rewrite <- D. rewrite <- D in G, N. apply init_strides_impl_spec; auto. }
    apply andb_true_iff in FP. destruct FP as [FU FS]. apply Z.eqb_eq in FU. apply Z.leb_le in FS.
    set (d' := if d_stride d =? auto_stride then set_stride d (as_index (elem_size b)) else d) in *.
    destruct (ov _ (sub_with_overflow 64 (d_max d) (d_min d)) 0) as [o1 s1] eqn:E1.
    destruct (ov o1 _ s1) as [o2 s2] eqn:E2. injection H as <- F.
    apply finish_size_spec in F; [|exact P]. destruct F as (-> & B & DV).
    apply ov_false in E2. destruct E2 as [-> E2]. apply ov_false in E1. destruct E1 as [O E1].
    apply sub_ov in E1. apply mul_ov in E2.
    assert (as_index (elem_size b) = elem_size b) as EI.
    { destruct (Z_lt_dec (elem_size b) (2 ^ 63)); [apply as_index_small; lia|].
      pose proof (as_index_big (elem_size b) ltac:(lia)). destruct (Z.ltb_spec (as_index (elem_size b)) 0); [discriminate|lia]. }
    assert (elem_size b < auto_stride) as EA.
    { unfold auto_stride in *. destruct (Z_lt_dec (elem_size b) (2 ^ 63)); [lia|].
      pose proof (as_index_big (elem_size b) ltac:(lia)). lia. }
    rewrite EI in *. cbn [base elem_size dims]. split; [reflexivity|]. split; [reflexivity|].
    assert (assigned (elem_size b) d d') as AS.
    { unfold assigned, d'. destruct (Z.eqb_spec (d_stride d) auto_stride) as [A|A]; cbn [set_stride d_min d_max d_fold d_stride]; repeat split; auto; try lia; try contradiction. }
    assert (dim_wf d') as W'. { inversion W; subst. destruct AS as (_ & _ & AF & _). unfold dim_wf. rewrite AF. assumption. }
    assert (slots d' = Z.max 0 (d_max d - d_min d + 1)) as SL.
    { unfold slots. destruct AS as (A1 & A2 & A3 & _). rewrite A1, A2, A3, FU. reflexivity. }
    assert (0 <= d_stride d' /\ d_stride d' <> auto_stride) as [S0 SA].
    { unfold d'. destruct (Z.eqb_spec (d_stride d) auto_stride); cbn [set_stride d_stride]; lia. }
    exists s2. split; [exact B|]. split; [exact DV|]. rewrite lk_cons. unfold counts, as_known.
    rewrite alloc_extent_slots by exact W'. rewrite SL.
    destruct (Z.eqb_spec (d_stride d') 0) as [Z0|Z0]; cbn [negb andb].
    { rewrite Z0 in E2. repeat split; try constructor; auto. unfold span_of; cbn. lia. }
    destruct (Z.eqb_spec (d_stride d') auto_stride); [contradiction|]. cbn [negb]. rewrite andb_true_r.
    destruct (Z.ltb_spec 1 (Z.max 0 (d_max d - d_min d + 1))) as [L|L].
    2:{ repeat split; try constructor; auto. replace (Z.max s1 0) with 0 in E2 by lia. unfold span_of; cbn. lia. }
    cbn [lk map filter].
    assert (good (elem_size b) (Known (Z.abs (d_stride d')) (Z.abs (d_stride d') * Z.max 0 (d_max d - d_min d + 1)))) as GD.
    { unfold good. cbn [k_stride k_dim_stride]. split; [|nia].
      unfold d'. destruct (Z.eqb_spec (d_stride d) auto_stride) as [A|A]; [cbn [set_stride d_stride]; lia|].
      destruct SC as [SC _]. apply SC; [left; reflexivity|]. unfold d' in Z0. destruct (Z.eqb_spec (d_stride d) auto_stride); [contradiction|].
      repeat split; auto. unfold slots. rewrite FU, Z.eqb_refl. exact L. }
    split; [|split; [constructor; [exact GD|constructor]|split; [constructor; constructor|constructor; [exact AS|constructor]]]].
    rewrite span_of_cons. cbn [k_stride k_dim_stride]. unfold span_of, sumZ. cbn [map fold_right]. rewrite Z.abs_eq by exact S0. nia.
  - rewrite <- D. rewrite <- D in G, N. apply init_strides_impl_spec; auto.
Qed.

(** Offsets and items. *)
Lemma place_slot : forall d x o, place d x = Some o -> d_stride d <> 0 -> dim_wf d ->
  o = slot d x * d_stride d /\ 0 <= slot d x < slots d.
Proof.
  intros d x o H S0 W. unfold place in H. destruct (Z.eqb_spec (d_stride d) 0); [contradiction|].
  destruct (Z.leb_spec (d_min d) x), (Z.leb_spec x (d_max d)); cbn [andb] in H; try discriminate. injection H as <-.
  unfold slot, slots. destruct (Z.eqb_spec (d_fold d) unfolded) as [E|E]; [lia|].
  destruct W as [W|W]; [contradiction|]. split; [reflexivity|]. apply Z.mod_pos_bound. exact W.
Qed.
Fixpoint items (ds : list dim) (f g : nat -> Z) : list (known * Z) :=
  match ds with
  | [] => []
  | d :: ds' => let r := items ds' (fun k => f (S k)) (fun k => g (S k)) in
                if counts d then (as_known d, (slot d (f O) - slot d (g O)) * d_stride d) :: r else r
  end.
Lemma oadd_some : forall a b o, oadd a b = Some o -> exists x y, a = Some x /\ b = Some y /\ o = x + y.
Proof. intros [x|] [y|] o H; try discriminate. injection H as <-. eauto. Qed.
Lemma items_spec : forall es ds f g o o', Forall dim_wf ds -> (forall d, In d ds -> d_stride d <> auto_stride) ->
  Forall (good es) (lk ds) ->
  place_all ds f = Some o -> place_all ds g = Some o' ->
  map fst (items ds f g) = lk ds /\ o - o' = sumZ (map snd (items ds f g)) /\ Forall (item_ok es) (items ds f g) /\
  (~ same_element ds f g -> exists p, In p (items ds f g) /\ snd p <> 0).
Proof.
  intros es. induction ds as [|d ds IH]; intros f g o o' W NA G F1 F2.
  - cbn in F1, F2. injection F1 as <-. injection F2 as <-. repeat split; [constructor|]. intros N. exfalso. apply N.
    intros k d E. destruct k; discriminate.
  - cbn [place_all] in F1, F2. apply oadd_some in F1. destruct F1 as (x & y & P1 & R1 & ->).
    apply oadd_some in F2. destruct F2 as (x' & y' & P2 & R2 & ->).
    inversion W as [|? ? Wd Wds]; subst. rewrite lk_cons in *.
    assert (Forall (good es) (lk ds)) as Gs by (destruct (counts d); [inversion G; auto|exact G]).
    destruct (IH _ _ _ _ Wds ltac:(intros q I; apply NA; right; exact I) Gs R1 R2) as (A & B & C & D).
    assert (x - x' = if d_stride d =? 0 then 0 else (slot d (f O) - slot d (g O)) * d_stride d) as XD.
    { destruct (Z.eqb_spec (d_stride d) 0) as [Z0|Z0].
      - unfold place in P1, P2. rewrite Z0 in P1, P2. cbn in P1, P2. injection P1 as <-. injection P2 as <-. reflexivity.
      - destruct (place_slot d _ _ P1 Z0 Wd) as [-> _]. destruct (place_slot d _ _ P2 Z0 Wd) as [-> _]. lia. }
    assert ((~ same_element (d :: ds) f g) -> (d_stride d <> 0 /\ slot d (f O) <> slot d (g O)) \/ ~ same_element ds (fun k => f (S k)) (fun k => g (S k))) as NS.
    { intros N. destruct (Z.eq_dec (d_stride d) 0) as [Z0|Z0]; [|destruct (Z.eq_dec (slot d (f O)) (slot d (g O))) as [E|E]; [|left; auto]]; right; intros Q; apply N;
        intros [|k] e He; cbn in He; try (injection He as <-; auto); exact (Q k e He). }
    cbn [items]. destruct (counts d) eqn:CD.
    + pose proof CD as CD'. apply counts_specified in CD'; [|exact Wd]. destruct CD' as (S0 & _ & SL).
      destruct (Z.eqb_spec (d_stride d) 0); [contradiction|].
      destruct (place_slot d _ _ P1 S0 Wd) as [_ B1]. destruct (place_slot d _ _ P2 S0 Wd) as [_ B2].
      cbn [map fst snd]. split; [f_equal; exact A|]. split; [unfold sumZ in *; cbn [fold_right]; lia|]. split.
      * constructor; [|exact C]. inversion G as [|? ? Gd _]; subst. split; [exact Gd|]. cbn [fst snd]. unfold as_known. cbn [k_stride k_dim_stride].
        rewrite alloc_extent_slots by exact Wd. rewrite Z.abs_mul. split.
        -- assert (Z.abs (slot d (f O) - slot d (g O)) <= slots d - 1) by lia. nia.
        -- intros NZ. assert (1 <= Z.abs (slot d (f O) - slot d (g O))) by nia. nia.
      * intros N. destruct (NS N) as [[_ NE]|N'].
        -- eexists. split; [left; reflexivity|]. cbn [snd]. nia.
        -- destruct (D N') as (p & I & Q). exists p. split; [right; exact I|exact Q].
    + split; [exact A|]. split.
      * rewrite <- B. enough (x - x' = 0) by lia. rewrite XD. destruct (Z.eqb_spec (d_stride d) 0) as [Z0|Z0]; [reflexivity|].
        destruct (place_slot d _ _ P1 Z0 Wd) as [_ B1]. destruct (place_slot d _ _ P2 Z0 Wd) as [_ B2].
        assert (~ 1 < slots d) as NS1.
        { intros L. assert (specified d) as SP by (repeat split; auto; apply NA; left; reflexivity). apply counts_specified in SP; [congruence|exact Wd]. }
        assert (slot d (f O) = slot d (g O)) by lia. nia.
      * split; [exact C|]. intros N. destruct (NS N) as [[Z0 NE]|N']; [|exact (D N')].
        exfalso. destruct (place_slot d _ _ P1 Z0 Wd) as [_ B1]. destruct (place_slot d _ _ P2 Z0 Wd) as [_ B2].
        assert (specified d) as SP by (repeat split; auto; [apply NA; left; reflexivity|lia]). apply counts_specified in SP; [congruence|exact Wd].
Qed.

Lemma assigned_wf : forall es ds ds', Forall dim_wf ds -> Forall2 (assigned es) ds ds' -> Forall dim_wf ds'.
Proof.
  intros es ds ds' W F. induction F as [|d d' ds ds' R F IH]; [constructor|]. inversion W; subst. constructor; [|auto].
  destruct R as (_ & _ & E & _). unfold dim_wf. rewrite E. assumption.
Qed.
Lemma assigned_not_auto : forall es ds ds', Forall2 (assigned es) ds ds' -> forall d, In d ds' -> d_stride d <> auto_stride.
Proof.
  intros es ds ds' F. induction F as [|d d' ds ds' R F IH]; intros q I; [destruct I|]. destruct I as [<-|I]; [|auto].
  destruct R as (_ & _ & _ & A & B). destruct (Z.eq_dec (d_stride d) auto_stride) as [E|E]; [specialize (B E); lia|rewrite A; auto].
Qed.

(** Hypotheses common to the theorems: a power of two alignment, an element size
    that is positive and fits in a size_t, fold factors that are positive or absent,
    and consistent given strides. *)
Definition init_pre (b : buf) (al : Z) : Prop :=
  pow2 al /\ 0 < elem_size b < 2 ^ 64 /\ elem_size b <> auto_stride /\ Forall dim_wf (dims b) /\ strides_consistent (elem_size b) (dims b).

(** ** C21 *)
(** Every auto stride is replaced, nothing else changes. *)
Theorem C21_auto_strides_assigned : forall b al b' n, init_strides b al = Val (b', Some n) -> init_pre b al ->
  base b' = base b /\ elem_size b' = elem_size b /\ rank b' = rank b /\
  forall k, (k < rank b)%nat ->
    d_min (dim_at b' k) = d_min (dim_at b k) /\ d_max (dim_at b' k) = d_max (dim_at b k) /\ d_fold (dim_at b' k) = d_fold (dim_at b k) /\
    (d_stride (dim_at b k) <> auto_stride -> d_stride (dim_at b' k) = d_stride (dim_at b k)) /\
    (d_stride (dim_at b k) = auto_stride -> elem_size b <= d_stride (dim_at b' k) < auto_stride).
Proof.
  intros b al b' n H (P & ES & NA & W & SC). destruct (init_strides_spec _ _ _ _ H P ES NA W SC) as (A & B & m & _ & _ & _ & _ & _ & F).
  split; [exact A|]. split; [exact B|]. unfold rank, dim_at. revert F. generalize (dims b) (dims b'). intros ds ds' F. clear - F.
  split; [induction F; cbn; congruence|]. induction F as [|d d' ds ds' R F IH]; intros k L; [cbn in L; lia|].
  destruct k as [|k]; cbn [nth]; [exact R|]. apply IH. cbn in L. lia.
Qed.
(** Distinct elements do not overlap. *)
Theorem C21_elements_disjoint : forall b al b' n f g a a', init_strides b al = Val (b', Some n) -> init_pre b al ->
  locate b' f = Some a -> locate b' g = Some a' -> ~ same_element (dims b') f g ->
  a + elem_size b <= a' \/ a' + elem_size b <= a.
Proof.
  intros b al b' n f g a a' H (P & ES & NA & W & SC) L1 L2 N.
  destruct (init_strides_spec _ _ _ _ H P ES NA W SC) as (_ & _ & m & _ & _ & _ & G & NE & F).
  unfold locate in *. apply oadd_some in L1. destruct L1 as (p & o & P1 & O1 & ->).
  apply oadd_some in L2. destruct L2 as (p' & o' & P2 & O2 & ->). rewrite P1 in P2. injection P2 as <-.
  destruct (items_spec (elem_size b) _ f g o o' (assigned_wf _ _ _ W F) (assigned_not_auto _ _ _ F) G O1 O2) as (A & B & C & D).
  destruct (nested_sum _ (elem_size b) (items (dims b') f g) eq_refl ltac:(lia) C) as [_ LB].
  { rewrite A. exact NE. }
  specialize (LB (D N)). rewrite <- B in LB. lia.
Qed.
(** Up to rank 5 the array of known dimensions is accessed correctly ... *)
Lemma learn_known_no_ub : forall es ds st, (length ds + length (s_known st) <= 5)%nat ->
  exists ds1 st1, learn_known es ds st = Val (ds1, st1) /\ ds1 = map (fix_small es) ds /\
    length (s_known st1) = (length (filter counts ds) + length (s_known st))%nat.
Proof.
  intros es. induction ds as [|d ds IH]; intros st L; cbn [learn_known].
  - exists [], st. auto.
  - cbn [length] in L. cbn [map filter]. unfold fix_small at 1, counts at 1.
    destruct (d_stride d =? 0) eqn:E0; cbn [negb andb].
    { destruct (IH st ltac:(lia)) as (l & s1 & E & Q & R). rewrite E. cbn [bind]. exists (d :: l), s1. subst. auto. }
    destruct (Z.leb_spec (alloc_extent d) 1) as [L1|L1], (Z.ltb_spec 1 (alloc_extent d)) as [L2|L2]; try lia; cbn [andb].
    { destruct (IH st ltac:(lia)) as (l & s1 & E & Q & R). rewrite E. cbn [bind]. eexists _, s1. subst. auto. }
    destruct (d_stride d =? auto_stride); cbn [negb].
    { destruct (IH st ltac:(lia)) as (l & s1 & E & Q & R). rewrite E. cbn [bind]. exists (d :: l), s1. subst. auto. }
    assert (forall st0 s, s_known st0 = s_known st -> exists ds1 st1,
      bind (learn_dim st0 s (alloc_extent d)) (fun st2 => bind (learn_known es ds st2) (fun r => let '(l, st') := r in Val (d :: l, st'))) = Val (ds1, st1) /\
      ds1 = d :: map (fix_small es) ds /\ length (s_known st1) = (S (length (filter counts ds)) + length (s_known st))%nat) as K.
    { intros st0 s HK. destruct (learn_dim_no_ub st0 s (alloc_extent d)) as (st2 & E2 & L3); [rewrite HK; lia|].
      rewrite E2. cbn [bind]. rewrite HK in L3. destruct (IH st2 ltac:(lia)) as (l & s1 & E & Q & R). rewrite E. cbn [bind].
      exists (d :: l), s1. subst. repeat split. lia. }
    destruct (d_stride d =? imin 64); apply K; reflexivity.
Qed.
Lemma assign_unknown_no_ub : forall es al ds st,
  (length (filter (fun d => (d_stride d =? auto_stride)%Z) ds) + length (s_known st) <= 5)%nat ->
  exists r, assign_unknown es al ds st = Val r.
Proof.
  intros es al. induction ds as [|d ds IH]; intros st L; cbn [assign_unknown]; [eauto|].
  cbn [filter] in L. destruct (d_stride d =? auto_stride); cbn [negb length] in *.
  2:{ destruct (IH st L) as ([l s] & E). rewrite E. cbn [bind]. eauto. }
  assert (forall st0 s v, s_known st0 = s_known st -> exists r,
      bind (learn_dim st0 s (alloc_extent d)) (fun st1 => bind (assign_unknown es al ds st1) (fun r => let '(l, st') := r in Val (v :: l, st'))) = Val r) as K.
  { intros st0 s v HK. destruct (learn_dim_no_ub st0 s (alloc_extent d)) as (st2 & E2 & L3); [rewrite HK; lia|].
    rewrite E2. cbn [bind]. rewrite HK in L3. destruct (IH st2 ltac:(lia)) as ([l s1] & E). rewrite E. cbn [bind]. eauto. }
  destruct (is_stride_ok _ _ _ _) as [ok o]. destruct ok; [apply K; reflexivity|].
  destruct (find_candidate _ _ _ _ _) as [[c|] o2]; [apply K; reflexivity|].
  destruct (IH (SState (s_known st) (s_max st) o2) ltac:(cbn [s_known]; lia)) as ([l s1] & E). cbn [s_known s_max] in *. rewrite E. cbn [bind]. eauto.
Qed.
Theorem C21_no_ub_small_rank : forall b al, (rank b <= 5)%nat -> as_index (elem_size b) <> auto_stride -> exists r, init_strides b al = Val r.
Proof.
  intros b al L NA. 
  assert (exists r, init_strides_impl b al = Val r) as I.
  { unfold init_strides_impl. set (es := as_index (elem_size b)) in *.
    destruct (learn_known_no_ub es (dims b) (SState [] 0 (es <? 0))) as (ds1 & st1 & E & Q & R).
    { unfold rank in L. cbn. lia. }
    rewrite E. cbn [bind]. destruct (assign_unknown_no_ub es al ds1 st1) as ([ds2 st2] & E2).
    { rewrite R. cbn [s_known length]. rewrite Nat.add_0_r. unfold rank in L. subst ds1. 
      enough (length (filter (fun d => (d_stride d =? auto_stride)%Z) (map (fix_small es) (dims b))) + length (filter counts (dims b)) <= length (dims b))%nat by lia.
      clear - NA. induction (dims b) as [|d ds IH]; [cbn; lia|]. cbn [map filter length].
      assert (counts d = true -> (d_stride (fix_small es d) =? auto_stride) = false) as X.
      { unfold counts, fix_small. intros C. apply andb_true_iff in C. destruct C as [_ C]. destruct (d_stride d =? auto_stride) eqn:A; [discriminate|].
        rewrite andb_false_r. exact A. }
      destruct (counts d); [rewrite X by reflexivity; cbn [length]; lia|].
      destruct (_ =? auto_stride); cbn [length]; lia. }
    rewrite E2. cbn [bind]. eauto. }
  unfold init_strides. destruct (dims b) as [|d [|d2 ds]]; [eauto| |exact I].
  destruct (_ && _); [|exact I]. destruct (ov _ _ _) as [o s]. destruct (ov _ _ _) as [o2 s2]. eauto.
Qed.
(** ... but at rank 6, strides given in decreasing order make learn_dim shift five
    elements, which copy_small_n_backward does with the wrong pointers. *)
Theorem C21_rank6_ub_refuted : exists b al, init_pre b al /\ rank b = 6%nat /\ init_strides b al = UB.
Proof.
  exists (Buf None 1 [Dim 0 1 32 unfolded; Dim 0 1 16 unfolded; Dim 0 1 8 unfolded; Dim 0 1 4 unfolded; Dim 0 1 2 unfolded; Dim 0 1 1 unfolded]), 1.
  split; [|split; reflexivity]. repeat split.
  - exists 0. split; [lia|reflexivity].
  - cbn; discriminate.
  - cbn [dims]. repeat (constructor; [left; reflexivity|]). constructor.
  - cbn [dims elem_size]. intros d I _. repeat (destruct I as [<-|I]; [cbn; lia|]). destruct I.
  - cbn [dims]. intros i j di dj N Ei Ej _ _.
    do 6 (destruct i as [|i]; [cbn in Ei; injection Ei as <-; do 6 (destruct j as [|j]; [cbn in Ej; injection Ej as <-; try congruence; vm_compute; (left; discriminate) || (right; discriminate)|]); destruct j; discriminate|]).
    destruct i; discriminate.
Qed.

(** ** C22 *)
Lemma span_bytes_lk : forall es ds, Forall dim_wf ds -> (forall d, In d ds -> d_stride d <> auto_stride) ->
  span_of (lk ds) + es = span_bytes es ds.
Proof.
  intros es ds W NA. induction ds as [|d ds IH]; [unfold span_of; cbn; lia|]. inversion W as [|? ? Wd Wds]; subst.
  rewrite lk_cons. unfold span_bytes in *. cbn [fold_right]. rewrite <- IH; [|exact Wds|intros q I; apply NA; right; exact I].
  destruct (counts d) eqn:C.
  - apply counts_specified in C; [|exact Wd]. destruct C as (_ & _ & SL). rewrite span_of_cons. unfold as_known. cbn [k_stride k_dim_stride].
    rewrite alloc_extent_slots by exact Wd. rewrite Z.max_r by lia. lia.
  - destruct (Z.eq_dec (d_stride d) 0) as [Z0|Z0]; [rewrite Z0; lia|].
    assert (~ 1 < slots d). { intros L. assert (specified d) as SP by (repeat split; auto; apply NA; left; reflexivity). apply counts_specified in SP; [congruence|exact Wd]. }
    rewrite Z.max_l by lia. lia.
Qed.
Lemma place_all_span : forall es ds f o, Forall dim_wf ds -> (forall d, In d ds -> 0 <= d_stride d) ->
  place_all ds f = Some o -> 0 <= o /\ o + es <= span_bytes es ds.
Proof.
  intros es. induction ds as [|d ds IH]; intros f o W NN H.
  - cbn in H. injection H as <-. unfold span_bytes. cbn. lia.
  - cbn [place_all] in H. apply oadd_some in H. destruct H as (x & y & P1 & R1 & ->). inversion W as [|? ? Wd Wds]; subst.
    destruct (IH _ _ Wds ltac:(intros q I; apply NN; right; exact I) R1) as [A B].
    unfold span_bytes in *. cbn [fold_right]. specialize (NN d (or_introl eq_refl)). rewrite (Z.abs_eq (d_stride d)) by exact NN.
    destruct (Z.eq_dec (d_stride d) 0) as [Z0|Z0].
    + unfold place in P1. rewrite Z0 in P1. cbn in P1. injection P1 as <-. rewrite Z0. lia.
    + destruct (place_slot d _ _ P1 Z0 Wd) as [-> SB]. nia.
Qed.
Lemma assigned_nonneg : forall es ds ds', 0 < es -> Forall2 (assigned es) ds ds' -> (forall d, In d ds -> 0 <= d_stride d) -> forall d, In d ds' -> 0 <= d_stride d.
Proof.
  intros es ds ds' E F. induction F as [|d d' ds ds' R F IH]; intros NN q I; [destruct I|]. destruct I as [<-|I].
  - destruct R as (_ & _ & _ & A & B). destruct (Z.eq_dec (d_stride d) auto_stride) as [X|X]; [specialize (B X); lia|].
    rewrite A by exact X. apply NN. left. reflexivity.
  - apply IH; [intros r Ir; apply NN; right; exact Ir|exact I].
Qed.
(** The size init_strides returns covers the bytes of every element, and exceeds
    the span of the buffer by less than the alignment. *)
Theorem C22_init_strides_covers : forall b al b' n f a p, init_strides b al = Val (b', Some n) -> init_pre b al ->
  (forall d, In d (dims b) -> 0 <= d_stride d) -> base b' = Some p -> locate b' f = Some a ->
  p <= a /\ a + elem_size b <= p + n.
Proof.
  intros b al b' n f a p H (P & ES & NA & W & SC) NN BP L.
  destruct (init_strides_spec _ _ _ _ H P ES NA W SC) as (_ & _ & m & SZ & _ & -> & _ & _ & F).
  unfold locate in L. rewrite BP in L. apply oadd_some in L. destruct L as (p' & o & [= <-] & O & ->).
  destruct (place_all_span (elem_size b) _ _ _ (assigned_wf _ _ _ W F) (assigned_nonneg _ _ _ (proj1 ES) F NN) O) as [A B].
  rewrite <- (span_bytes_lk _ _ (assigned_wf _ _ _ W F) (assigned_not_auto _ _ _ F)) in B. lia.
Qed.
Theorem C22_init_strides_tight : forall b al b' n, init_strides b al = Val (b', Some n) -> init_pre b al ->
  (al | n) /\ span_bytes (elem_size b) (dims b') <= n < span_bytes (elem_size b) (dims b') + al.
Proof.
  intros b al b' n H (P & ES & NA & W & SC).
  destruct (init_strides_spec _ _ _ _ H P ES NA W SC) as (_ & _ & m & SZ & DV & -> & _ & _ & F).
  split; [exact DV|]. rewrite <- (span_bytes_lk _ _ (assigned_wf _ _ _ W F) (assigned_not_auto _ _ _ F)). lia.
Qed.
(** allocate: every element lies inside the block malloc returned, and the base is aligned. *)
Theorem C22_allocate_covers : forall b bal sal mem b' n f a, allocate b bal sal mem = Val (b', Some n) -> init_pre b sal -> pow2 bal ->
  (forall d, In d (dims b) -> 0 <= d_stride d) -> locate b' f = Some a ->
  mem <= a /\ a + elem_size b <= mem + n /\ exists p, base b' = Some p /\ (bal | p) /\ mem <= p < mem + bal.
Proof.
  intros b bal sal mem b' n f a H PRE PB NN L. unfold allocate in H.
  destruct (init_strides b sal) as [[b1 [n1|]]|] eqn:E; cbn [bind] in H; try discriminate. injection H as <- <-.
  destruct (align_mask_bounds (mem + bal - 1) bal PB) as [B D].
  pose proof PRE as (P & ES & NA & W & SC).
  destruct (init_strides_spec _ _ _ _ E P ES NA W SC) as (_ & _ & m & SZ & _ & -> & _ & _ & F).
  unfold locate in L. cbn [base dims] in *. apply oadd_some in L. destruct L as (p' & o & [= <-] & O & ->).
  destruct (place_all_span (elem_size b) _ _ _ (assigned_wf _ _ _ W F) (assigned_nonneg _ _ _ (proj1 ES) F NN) O) as [A1 A2].
  rewrite <- (span_bytes_lk _ _ (assigned_wf _ _ _ W F) (assigned_not_auto _ _ _ F)) in A2.
  split; [lia|]. split; [lia|]. eexists. split; [reflexivity|]. split; [exact D|lia].
Qed.
(** With a negative stride the elements start before the allocation. *)
Theorem C22_allocate_negative_refuted : exists b mem b' n f a,
  allocate b 1 1 mem = Val (b', Some n) /\ init_pre b 1 /\ locate b' f = Some a /\ a < mem.
Proof.
  exists (Buf None 1 [Dim 0 9 (-1) unfolded]), 1000. eexists _, _, (fun _ => 5), _.
  split; [vm_compute; reflexivity|]. split; [|split; [vm_compute; reflexivity|vm_compute; reflexivity]].
  repeat split.
  - exists 0. split; [lia|reflexivity].
  - cbn; discriminate.
  - constructor; [left; reflexivity|constructor].
  - cbn. intros d [<-|[]] _. cbn. lia.
  - cbn. intros i j di dj N Ei Ej. destruct i as [|[|i]], j as [|[|j]]; try discriminate; congruence.
Qed.

(** size_bytes: covers every element, measured from the lowest one, exactly. *)
Definition flat_lo (ds : list dim) : Z := fold_right (fun d r => (slots d - 1) * Z.min 0 (d_stride d) + r) 0 ds.
Definition flat_hi (ds : list dim) : Z := fold_right (fun d r => (slots d - 1) * Z.max 0 (d_stride d) + r) 0 ds.
Lemma flat_bounds_loop_spec : forall ds lo hi o lo' hi', flat_bounds_loop ds lo hi o = Some (lo', hi') ->
  Forall dim_wf ds -> (forall d, In d ds -> slots d <> 0) ->
  o = false /\ lo' = lo + flat_lo ds /\ hi' = hi + flat_hi ds.
Proof.
  induction ds as [|d ds IH]; intros lo hi o lo' hi' H W NE; cbn [flat_bounds_loop] in H.
  - destruct o; [discriminate|]. injection H as <- <-. unfold flat_lo, flat_hi. cbn. repeat split; lia.
  - inversion W as [|? ? Wd Wds]; subst. assert (forall q, In q ds -> slots q <> 0) as NE' by (intros q I; apply NE; right; exact I).
    unfold flat_lo, flat_hi in *. cbn [fold_right]. destruct (Z.eqb_spec (d_stride d) 0) as [Z0|Z0].
    + destruct (IH _ _ _ _ _ H Wds NE') as (A & B & C). rewrite Z0. repeat split; [exact A|lia|lia].
    + rewrite alloc_extent_slots in H by exact Wd. destruct (Z.eqb_spec (slots d) 0) as [S0|S0]; [exfalso; apply (NE d); [left; reflexivity|exact S0]|].
      destruct (ov (o || _) _ 0) as [o1 e1] eqn:E1. destruct (ov o1 _ 0) as [o2 t1] eqn:E2. destruct (ov o2 _ lo) as [o3 l1] eqn:E3.
      destruct (ov o3 _ 0) as [o4 t2] eqn:E4. destruct (ov o4 _ hi) as [o5 h1] eqn:E5.
      destruct (IH _ _ _ _ _ H Wds NE') as (-> & B & C).
      apply ov_false in E5. destruct E5 as [-> E5]. apply ov_false in E4. destruct E4 as [-> E4]. apply ov_false in E3. destruct E3 as [-> E3].
      apply ov_false in E2. destruct E2 as [-> E2]. apply ov_false in E1. destruct E1 as [O E1]. apply orb_false_iff in O. destruct O as [O _].
      apply sub_ov in E1. apply mul_ov in E2. apply add_ov in E3. apply mul_ov in E4. apply add_ov in E5. subst. repeat split; auto; lia.
Qed.
Lemma place_all_flat : forall ds f o, Forall dim_wf ds -> (forall d, In d ds -> 0 < slots d) -> place_all ds f = Some o -> flat_lo ds <= o <= flat_hi ds.
Proof.
  induction ds as [|d ds IH]; intros f o W NE H.
  - cbn in H. injection H as <-. unfold flat_lo, flat_hi. cbn. lia.
  - cbn [place_all] in H. apply oadd_some in H. destruct H as (x & y & P1 & R1 & ->). inversion W as [|? ? Wd Wds]; subst.
    specialize (IH _ _ Wds (fun q I => NE q (or_intror I)) R1). unfold flat_lo, flat_hi in *. cbn [fold_right].
    specialize (NE d (or_introl eq_refl)).
    destruct (Z.eq_dec (d_stride d) 0) as [Z0|Z0].
    + unfold place in P1. rewrite Z0 in P1. cbn in P1. injection P1 as <-. rewrite Z0. lia.
    + destruct (place_slot d _ _ P1 Z0 Wd) as [-> SB].
      destruct (Z_le_dec 0 (d_stride d)); [rewrite Z.min_l, Z.max_r by lia|rewrite Z.min_r, Z.max_l by lia]; nia.
Qed.
Lemma alloc_size_spec : forall es ds, 0 < alloc_size es ds -> Forall dim_wf ds ->
  (forall d, In d ds -> 0 < slots d) /\ alloc_size es ds = flat_hi ds - flat_lo ds + es.
Proof.
  intros es ds H W. unfold alloc_size in *. destruct (existsb _ ds) eqn:EX; [lia|].
  assert (forall d, In d ds -> 0 < slots d) as NE.
  { intros d I. rewrite Forall_forall in W. assert (alloc_extent d <> 0) as N.
    { intros Q. assert (existsb (fun d => alloc_extent d =? 0) ds = true) by (apply existsb_exists; exists d; split; [exact I|apply Z.eqb_eq; exact Q]). congruence. }
    rewrite alloc_extent_slots in N by (apply W; exact I). unfold slots in *. destruct (Z.eqb_spec (d_fold d) unfolded) as [E|E]; [lia|].
    destruct (W d I) as [Q|Q]; [contradiction|exact Q]. }
  split; [exact NE|]. destruct (calculate_flat_bounds ds) as [[lo hi]|] eqn:E; [|lia].
  destruct (sub_with_overflow 64 hi lo) as [o span] eqn:E2. destruct o; [lia|]. apply sub_ov in E2.
  unfold uadd_with_overflow in *. destruct (span + es <? 2 ^ 64); [|lia].
  destruct (flat_bounds_loop_spec _ _ _ _ _ _ E W) as (_ & -> & ->). { intros d I. specialize (NE d I). lia. } lia.
Qed.
Theorem C22_size_bytes_covers : forall b f a p, 0 < size_bytes b -> Forall dim_wf (dims b) ->
  base b = Some p -> locate b f = Some a ->
  p + flat_lo (dims b) <= a /\ a + elem_size b <= p + flat_lo (dims b) + size_bytes b.
Proof.
  intros b f a p H W BP L. unfold size_bytes in *. destruct (alloc_size_spec _ _ H W) as [NE ->].
  unfold locate in L. rewrite BP in L. apply oadd_some in L. destruct L as (p' & o & [= <-] & O & ->).
  pose proof (place_all_flat _ _ _ W NE O). lia.
Qed.
(** It is exact: if no dimension is folded some element starts at the low end and some
    element ends at the high end. *)
Theorem C22_size_bytes_tight : forall b p, 0 < size_bytes b -> (forall d, In d (dims b) -> d_fold d = unfolded) -> base b = Some p ->
  (exists f, locate b f = Some (p + flat_lo (dims b))) /\
  (exists f, locate b f = Some (p + flat_lo (dims b) + size_bytes b - elem_size b)).
Proof.
  intros b p H U BP. unfold size_bytes in *.
  assert (Forall dim_wf (dims b)) as W by (apply Forall_forall; intros d I; left; apply U; exact I).
  destruct (alloc_size_spec _ _ H W) as [NE ->]. unfold locate. rewrite BP.
  assert (forall ds, (forall d, In d ds -> 0 < slots d) -> (forall d, In d ds -> d_fold d = unfolded) ->
    (exists f, place_all ds f = Some (flat_lo ds)) /\ (exists f, place_all ds f = Some (flat_hi ds))) as K.
  { induction ds as [|d ds IH]; intros N V; [split; exists (fun _ => 0); reflexivity|].
    destruct (IH (fun q I => N q (or_intror I)) (fun q I => V q (or_intror I))) as [[f F] [g G]].
    specialize (N d (or_introl eq_refl)). specialize (V d (or_introl eq_refl)).
    assert (forall x, d_min d <= x <= d_max d -> place d x = Some ((x - d_min d) * d_stride d)) as PL.
    { intros x B. unfold place. rewrite V, Z.eqb_refl. destruct (Z.eqb_spec (d_stride d) 0) as [->|]; [f_equal; lia|].
      destruct (Z.leb_spec (d_min d) x), (Z.leb_spec x (d_max d)); try lia. reflexivity. }
    unfold slots in N. rewrite V, Z.eqb_refl in N.
    assert (slots d = d_max d - d_min d + 1) as SL by (unfold slots; rewrite V, Z.eqb_refl; lia).
    unfold flat_lo, flat_hi in *. cbn [fold_right]. rewrite SL. 
    split.
    - exists (fun k => match k with O => if 0 <=? d_stride d then d_min d else d_max d | S k => f k end). cbn [place_all].
      change (fun k => f k) with f. rewrite F. rewrite PL by (destruct (0 <=? d_stride d); lia). cbn [oadd]. f_equal.
      destruct (Z.leb_spec 0 (d_stride d)); [rewrite Z.min_l by lia|rewrite Z.min_r by lia]; lia.
    - exists (fun k => match k with O => if 0 <=? d_stride d then d_max d else d_min d | S k => g k end). cbn [place_all].
      change (fun k => g k) with g. rewrite G. rewrite PL by (destruct (0 <=? d_stride d); lia). cbn [oadd]. f_equal.
      destruct (Z.leb_spec 0 (d_stride d)); [rewrite Z.max_r by lia|rewrite Z.max_l by lia]; lia. }
  destruct (K (dims b) NE U) as [[f F] [g G]]. split; [exists f; rewrite F; reflexivity|].
  exists g. rewrite G. cbn [oadd]. f_equal. lia.
Qed.
(** raw_buffer::make: the data lies inside the block, after the header and dims,
    provided the request does not wrap around and no stride is negative. *)
Theorem C22_make_covers : forall hdr dsz dal es ds al mem b n data f a,
  make hdr dsz dal (length ds) es (Some ds) al mem = (b, n, data) ->
  0 <= hdr -> 0 <= dsz -> 0 < es -> pow2 dal -> pow2 al ->
  hdr + dsz * Z.of_nat (length ds) + data + dal - 1 + al - 1 < 2 ^ 64 ->
  Forall dim_wf ds -> (forall d, In d ds -> 0 <= d_stride d) -> locate b f = Some a ->
  mem + hdr + dsz * Z.of_nat (length ds) <= a /\ a + es <= mem + n /\ data = size_bytes b /\
  exists p, base b = Some p /\ (al | p).
Proof.
  intros hdr dsz dal es ds al mem b n data f a H H1 H2 ES P1 P2 NW W NN L. unfold make in H.
  assert ((if (0 <? length ds)%nat then (ds, align_mask (mem + hdr + dal - 1) dal + dsz * Z.of_nat (length ds)) else (ds, align_mask (mem + hdr + dal - 1) dal))
     = (ds, align_mask (mem + hdr + dal - 1) dal + dsz * Z.of_nat (length ds))) as E.
  { destruct (Nat.ltb_spec 0 (length ds)); [reflexivity|]. destruct ds; [|cbn in *; lia]. cbn [length]. f_equal. lia. }
  rewrite E in H. clear E. injection H as <- <- <-. 
  unfold locate in L. cbn [base dims] in L. unfold size_bytes. cbn [base dims elem_size].
  destruct (Z.ltb_spec 0 (alloc_size es ds)) as [POS|POS]; [|discriminate]. cbn [align_up_ptr] in *.
  apply oadd_some in L. destruct L as (p' & o & [= <-] & O & ->).
  destruct (alloc_size_spec _ _ POS W) as [NE SZ]. pose proof (place_all_flat _ _ _ W NE O) as FB.
  assert (flat_lo ds = 0) as FL0.
  { clear - NN. induction ds as [|d ds IH]; [reflexivity|]. unfold flat_lo in *. cbn [fold_right]. rewrite IH by (intros q I; apply NN; right; exact I).
    rewrite Z.min_l by (apply NN; left; reflexivity). lia. }
  destruct (align_mask_bounds (mem + hdr + dal - 1) dal P1) as [B1 _].
  set (m2 := align_mask (mem + hdr + dal - 1) dal + dsz * Z.of_nat (length ds)) in *.
  destruct (align_mask_bounds (m2 + al - 1) al P2) as [B2 D2].
  pose proof (pow2_pos _ P1). pose proof (pow2_pos _ P2).
  rewrite Z.mod_small by nia. split; [lia|]. split; [lia|]. split; [reflexivity|]. eexists. split; [reflexivity|exact D2].
Qed.

(** A rank 3 buffer with one given stride, one folded and one auto dimension. *)
Definition ex_alloc : buf := Buf None 4 [Dim 0 9 auto_stride unfolded; Dim 2 100 auto_stride 3; Dim 0 4 64 unfolded].
Example ex_alloc_pre : init_pre ex_alloc 16.
Proof.
  repeat split.
  - exists 4. split; [lia|reflexivity].
  - cbn; discriminate.
  - cbn. repeat (constructor; [first [left; reflexivity|right; cbn; lia]|]). constructor.
  - cbn. intros d I S. repeat (destruct I as [<-|I]; [first [destruct S as (_ & S & _); exfalso; apply S; reflexivity|cbn; lia]|]). destruct I.
  - cbn. intros i j di dj N Ei Ej Si Sj.
    destruct i as [|[|[|i]]]; cbn in Ei; try (destruct i; discriminate); injection Ei as <-; try (destruct Si as (_ & Si & _); exfalso; apply Si; reflexivity).
    destruct j as [|[|[|j]]]; cbn in Ej; try (destruct j; discriminate); injection Ej as <-; try (destruct Sj as (_ & Sj & _); exfalso; apply Sj; reflexivity).
    congruence.
Qed.
Example ex_alloc_run : init_strides ex_alloc 16 =
  Val (Buf None 4 [Dim 0 9 4 unfolded; Dim 2 100 320 3; Dim 0 4 64 unfolded], Some 944).
Proof. vm_compute. reflexivity. Qed.
