(** C23: iterating over buffers. *)
From Coq Require Import ZArith List Bool Lia Permutation.
From Verif Require Import Buf_Model Buf_Spec Buf_Proofs ForEach_Model ForEach_Spec ForEach_Proofs ForEachPlan_Proofs.
Import ListNotations.
Open Scope Z_scope.

(** ** the specification describes every index once *)
Lemma in_box : forall ds idx, In idx (box ds) <-> in_bounds ds idx.
Proof.
  induction ds as [|d ds IH]; intros idx; cbn [box in_bounds].
  - destruct idx; cbn [In]; [tauto|]. split; [intros [H|[]]; discriminate|contradiction].
  - rewrite in_flat_map. destruct idx as [|i idx].
    + split; [|contradiction]. intros (rest & _ & H). apply in_map_iff in H. destruct H as (? & H & _). discriminate.
    + rewrite <- IH. split.
      * intros (rest & H1 & H2). apply in_map_iff in H2. destruct H2 as (x & H2 & H3). inversion H2. subst.
        apply in_range in H3. auto.
      * intros [H1 H2]. exists idx. split; [assumption|]. apply in_map_iff. exists i. split; [reflexivity|]. now apply in_range.
Qed.
Lemma NoDup_map_inj : forall A B (f : A -> B) l, (forall x y, f x = f y -> x = y) -> NoDup l -> NoDup (map f l).
Proof.
  intros A B f l Hf H. induction H; cbn [map]; constructor; [|assumption].
  intros X. apply in_map_iff in X. destruct X as (y & E & Hy). apply Hf in E. now subst.
Qed.
Lemma box_NoDup : forall ds, NoDup (box ds).
Proof.
  induction ds as [|d ds IH]; cbn [box]; [repeat constructor; intros []|].
  induction IH as [|rest l Hn Hl IHl]; cbn [flat_map]; [constructor|].
  assert (forall X Y : list (list Z), NoDup X -> NoDup Y -> (forall z, In z X -> ~ In z Y) -> NoDup (X ++ Y)) as NoDup_app.
  { intros X. induction X as [|x X IHX]; cbn [app]; intros Y HX HY HXY; [assumption|]. inversion HX. subst. constructor.
    - rewrite in_app_iff. intros [?|?]; [contradiction|]. apply (HXY x); [now left|assumption].
    - apply IHX; auto. intros. apply HXY. now right. }
  apply NoDup_app.
  - apply NoDup_map_inj; [congruence|]. apply run_from_NoDup.
  - exact IHl.
  - intros z Hz Hz2. apply in_map_iff in Hz. destruct Hz as (i & <- & _).
    apply in_flat_map in Hz2. destruct Hz2 as (r & Hr & Hz2). apply in_map_iff in Hz2. destruct Hz2 as (j & E & _).
    inversion E. subst. contradiction.
Qed.

(** ** from walks to indices *)
Lemma box_snoc : forall ds x, box (ds ++ [x]) = flat_map (fun i => map (fun idx => idx ++ [i]) (box ds)) (range (d_min x) (d_max x)).
Proof.
  induction ds as [|d ds IH]; intros x.
  - cbn [app box flat_map map]. rewrite app_nil_r. symmetry. apply flat_map_single.
  - cbn [app box]. rewrite IH, flat_map_flat_map. apply flat_map_ext. intros i.
    rewrite flat_map_map, map_flat_map. apply flat_map_ext. intros rest. now rewrite map_map.
Qed.
Lemma box_length : forall ds idx, In idx (box ds) -> length idx = length ds.
Proof.
  intros ds idx H. apply in_box in H. revert idx H. induction ds; destruct idx; cbn [in_bounds length]; intros; try tauto.
  f_equal. apply IHds. tauto.
Qed.
Lemma place_all_snoc : forall ds x f, place_all (ds ++ [x]) f = oadd (place_all ds f) (place x (f (length ds))).
Proof.
  induction ds as [|d ds IH]; intros; cbn [app place_all length].
  - now rewrite oadd_0_l, oadd_0_r.
  - rewrite IH. apply oadd_assoc.
Qed.
Definition first_dims (b : buf) (d : nat) : list dim := map (dim_at b) (seq 0 d).
Lemma first_dims_S : forall b d, first_dims b (S d) = first_dims b d ++ [dim_at b d].
Proof. intros. unfold first_dims. rewrite seq_S, map_app. reflexivity. Qed.
Lemma first_dims_length : forall b d, length (first_dims b d) = d.
Proof. intros. unfold first_dims. now rewrite map_length, seq_length. Qed.
Lemma first_dims_rank : forall b, first_dims b (rank b) = dims b.
Proof.
  intros b. apply nth_ext with (d := broadcast) (d' := broadcast); [apply first_dims_length|].
  intros n Hn. rewrite first_dims_length in Hn. unfold first_dims.
  rewrite (nth_indep _ broadcast (dim_at b 0)) by (rewrite map_length, seq_length; lia).
  rewrite map_nth. rewrite seq_nth by lia. reflexivity.
Qed.
Lemma place_first_dims : forall b d f, (rank b <= d)%nat -> place_all (first_dims b d) f = place_all (dims b) f.
Proof.
  intros b d f H. induction H.
  - now rewrite first_dims_rank.
  - rewrite first_dims_S, place_all_snoc, IHle. rewrite dim_at_out by assumption. apply oadd_0_r.
Qed.
Lemma index_snoc : forall idx i k, (k < length idx)%nat -> index (idx ++ [i]) k = index idx k.
Proof. intros. unfold index. now rewrite app_nth1. Qed.
Lemma index_last : forall idx i, index (idx ++ [i]) (length idx) = i.
Proof. intros. unfold index. rewrite app_nth2, Nat.sub_diag by lia. reflexivity. Qed.

Definition partial (b0 : buf) (bs : list (bool * buf)) (d : nat) (idx : list Z) : list (option Z) :=
  place_all (first_dims b0 d) (index idx) :: map (fun p => place_all (first_dims (snd p) d) (index idx)) bs.

Lemma partial_snoc : forall b0 bs d idx i, length idx = d ->
  partial b0 bs (S d) (idx ++ [i]) = vadd (partial b0 bs d idx) (sh b0 bs d i).
Proof.
  intros b0 bs d idx i HL. unfold partial, sh, shifts, all_dims. cbn [map vadd].
  assert (G : forall b, place_all (first_dims b (S d)) (index (idx ++ [i])) =
              oadd (place_all (first_dims b d) (index idx)) (place (dim_at b d) i)).
  { intros b. rewrite first_dims_S, place_all_snoc, first_dims_length. f_equal.
    - apply place_all_ext. intros k Hk. rewrite first_dims_length in Hk. apply index_snoc. lia.
    - subst d. now rewrite index_last. }
  f_equal; [apply G|]. induction bs as [|p bs IH]; cbn [map vadd]; [reflexivity|]. now rewrite G, IH.
Qed.

Lemma walk_box : forall b0 bs d v, length v = S (length bs) ->
  walk b0 bs d v = map (fun idx => vadd v (partial b0 bs d idx)) (box (first_dims b0 d)).
Proof.
  unfold ptr. induction d as [|d IH]; intros v HL; cbn [walk].
  - cbn [first_dims map seq box]. f_equal. unfold partial. cbn [first_dims map seq place_all].
    destruct v as [|p v]; [discriminate|]. cbn [vadd length] in *. rewrite oadd_0_r. f_equal.
    assert (HL' : length v = length bs) by lia. clear - HL'. revert v HL'. induction bs; intros [|q v] H; cbn [vadd map length] in *; try discriminate; [reflexivity|].
    rewrite oadd_0_r. f_equal. apply IHbs. lia.
  - rewrite first_dims_S, box_snoc, map_flat_map. apply flat_map_ext. intros i.
    rewrite IH; [|rewrite vadd_length, sh_length, nulls_length; unfold ptr in *; lia].
    rewrite map_map. apply map_ext_in. intros idx Hidx. apply box_length in Hidx. rewrite first_dims_length in Hidx.
    rewrite partial_snoc by assumption. rewrite <- vadd_assoc. f_equal. apply vadd_comm.
Qed.

Lemma box_first_dims : forall b d, (rank b <= d)%nat ->
  box (first_dims b d) = map (fun idx => idx ++ repeat 0 (d - rank b)) (box (dims b)).
Proof.
  intros b d H. induction H.
  - rewrite first_dims_rank, Nat.sub_diag. cbn [repeat]. rewrite <- map_id at 1. apply map_ext. intros. now rewrite app_nil_r.
  - rewrite first_dims_S, box_snoc, IHle. rewrite dim_at_out by assumption.
    change (range (d_min broadcast) (d_max broadcast)) with [0]. cbn [flat_map]. rewrite app_nil_r, map_map. apply map_ext. intros idx.
    rewrite <- app_assoc. f_equal. replace (S m - rank b)%nat with (S (m - rank b)) by lia.
    clear. induction (m - rank b)%nat; cbn [repeat app]; [reflexivity|]. f_equal. exact IHn.
Qed.

Lemma rank_bound : forall (bs : list (bool * buf)) r s b, In (s, b) bs ->
  (rank b <= fold_left (fun r p => Nat.max r (rank (snd p))) bs r)%nat.
Proof.
  assert (G : forall (bs : list (bool * buf)) r, (r <= fold_left (fun r p => Nat.max r (rank (snd p))) bs r)%nat).
  { induction bs as [|p bs IH]; intros; cbn [fold_left]; [lia|]. specialize (IH (Nat.max r (rank (snd p)))). lia. }
  induction bs as [|p bs IH]; intros r s b Hin; [destruct Hin|]. cbn [fold_left].
  destruct Hin as [->|Hin]; [|now apply (IH _ s)]. cbn [snd].
  pose proof (G bs (Nat.max r (rank b))). lia.
Qed.
Lemma rank_bound0 : forall (bs : list (bool * buf)) r, (r <= fold_left (fun r p => Nat.max r (rank (snd p))) bs r)%nat.
Proof. induction bs as [|p bs IH]; intros; cbn [fold_left]; [lia|]. specialize (IH (Nat.max r (rank (snd p)))). lia. Qed.

Lemma bases_respect : forall b0 bs, respects (nulls bs) (base b0 :: map (fun p => base (snd p)) bs).
Proof.
  intros. unfold nulls. cbn [respects]. split; [discriminate|].
  induction bs as [|[s b] bs IH]; cbn [map respects snd]; [exact I|]. split; [|exact IH].
  unfold is_null. destruct (base b); [discriminate|reflexivity].
Qed.

Lemma index_zeros : forall idx n k, index (idx ++ repeat 0 n) k = index idx k.
Proof.
  intros. unfold index. destruct (Nat.lt_ge_cases k (length idx)).
  - now rewrite app_nth1.
  - rewrite app_nth2 by assumption. rewrite (nth_overflow idx) by assumption.
    generalize (k - length idx)%nat. induction n; intros [|m]; cbn [repeat nth]; auto.
Qed.

Lemma walk_addresses : forall b0 bs,
  walk b0 bs (for_each_rank b0 bs) (base b0 :: map (fun p => base (snd p)) bs) = map (addresses b0 bs) (box (dims b0)).
Proof.
  intros. rewrite walk_box by (cbn [length]; now rewrite map_length).
  assert (HR : (rank b0 <= for_each_rank b0 bs)%nat) by apply rank_bound0.
  rewrite box_first_dims by assumption. rewrite map_map. apply map_ext. intros idx.
  unfold partial, addresses, locate. cbn [vadd]. f_equal.
  - rewrite place_first_dims by assumption. f_equal. apply place_all_ext. intros. apply index_zeros.
  - assert (G : forall s b, In (s, b) bs -> (rank b <= for_each_rank b0 bs)%nat) by (intros; eapply rank_bound; eassumption).
    revert G. generalize (for_each_rank b0 bs). intros r G.
    induction bs as [|[s b] l IH]; cbn [map vadd snd]; [reflexivity|].
    f_equal; [|apply IH; [apply rank_bound0|intros s2 b2 ?; apply (G s2 b2); now right]].
    rewrite place_first_dims by (apply (G s b); now left). f_equal. apply place_all_ext. intros. apply index_zeros.
Qed.

(** ** C23 *)
Section Main.
Context (b0 : buf) (bs : list (bool * buf)).
Hypothesis Hflags : flags_ok b0 bs.
Hypothesis Hok0 : dims_ok b0.
Hypothesis Hok : Forall (fun p => dims_ok (snd p)) bs.

Lemma for_each_elements : forall skip, (skip = true -> one_contiguous_dim b0) ->
  R skip (flat_map (expand (sizes b0 bs)) (flat_map unroll (for_each_impl skip b0 bs))) (map (addresses b0 bs) (box (dims b0))).
Proof.
  intros skip Hone. unfold for_each_impl.
  destruct (plan_loop skip b0 bs (for_each_rank b0 bs) (base b0) (map (fun p => base (snd p)) bs) 1 1) as [[plan [q0 qs]] se] eqn:EP.
  pose proof (bases_respect b0 bs) as HR.
  destruct (plan_loop_ok skip b0 bs Hflags Hok0 Hok Hone _ _ _ 1 1 (for_each_rank b0 bs) false _ _ _ _ HR ltac:(lia) ltac:(lia)
     ltac:(congruence) ltac:(auto) (Nat.le_refl _) eq_refl ltac:(congruence) EP) as (A1 & A2 & A3 & A4 & A5 & A6).
  pose proof (elements_ideal skip (sizes b0 bs) (nulls bs) (sizes_length b0 bs) plan (q0 :: qs) se A4 A1 A2 A3 A5) as B.
  unfold elements in B. eapply R_trans; [exact B|]. eapply R_trans; [exact A6|].
  apply R_eq. rewrite (walk_one' b0 bs _ _ 1) by (now apply respects_length).
  rewrite zseq_1. cbn [flat_map]. rewrite app_nil_r.
  rewrite scale_0 by (rewrite sizes_length; pose proof (respects_length _ _ HR); unfold ptr in *; lia).
  apply walk_addresses.
Qed.

Lemma nth_of_run_expand : forall k ps, nth_of_run b0 bs k ps = vadd ps (scale k (sizes b0 bs)).
Proof.
  intros. unfold nth_of_run. fold (sizes b0 bs). generalize (sizes b0 bs). intros l. revert l. unfold scale, ptr.
  induction ps as [|p ps IH]; intros [|x l]; cbn [combine map vadd]; try reflexivity.
  rewrite IH. reflexivity.
Qed.

(** calls of the element version carry a slice extent of 1 *)
Definition odd_call (n : nat) (c : call) : list unit :=
  if (c_slice_extent c =? 1) && (length (c_bases c) =? n)%nat && (length (c_strides c) <=? n)%nat && (1 <=? c_extent c) then [] else [tt].
Lemma plain_calls : forall nulls es plan v, length es = length nulls -> Forall (loop_ok false es nulls) plan -> respects nulls v ->
  flat_map (odd_call (length nulls)) (run_plan plan v 1) = [].
Proof.
  intros nulls es plan v Hes HP. revert v. induction HP as [|l plan Hl HP IH]; intros v HR; pose proof (respects_length _ _ HR) as HL.
  - cbn [run_plan flat_map]. unfold odd_call. cbn [c_slice_extent c_bases c_strides c_extent length Nat.leb Z.leb Z.compare].
    rewrite HL, Nat.eqb_refl. reflexivity.
  - destruct l as [e s|f ds c]; cbn [loop_ok run_plan] in *.
    + destruct Hl as [He Hs]. assert (HLs : length v = length s) by congruence. destruct plan as [|l plan].
      * cbn [flat_map]. unfold odd_call. cbn [c_slice_extent c_bases c_strides c_extent]. rewrite HL, Hs, Nat.eqb_refl, Nat.leb_refl.
        replace (1 <=? e) with true by lia. reflexivity.
      * rewrite call_impl_linear_flat by assumption. rewrite flat_map_flat_map.
        rewrite (flat_map_ext_in _ _ _ (fun _ => [])); [apply flat_map_nil|]. intros k _. apply IH. apply respects_vadd; [assumption|now rewrite scale_length].
    + destruct Hl as (Hd & HF & _ & Hc). specialize (Hc eq_refl). subst c.
      destruct ds as [|d0 ds]; [reflexivity|]. destruct v as [|p0 ps]; [cbn [length] in *; lia|].
      rewrite nonlinear_loop_flat.
      pose proof (fun H1 H3 => nonlinear_loop_ok false f d0 ds false p0 ps
        (fun b e n => flat_map (odd_call (length nulls))
           match plan with [] => [Call (n * 1) b e (map d_stride (d0 :: ds))] | _ => call_impl_linear e b (map d_stride (d0 :: ds)) (fun b' => run_plan plan b' (n * 1)) end)
        (fun _ => @nil unit) H1 HF H3) as Q. cbn [R] in Q.
      rewrite Q; [apply flat_map_nil| |].
      * cbn [length] in *. unfold ptr in *. lia.
      * intros x n Hn Hx. rewrite flat_map_nil. rewrite Z.mul_1_l.
        assert (HRx : respects nulls (vadd (p0 :: ps) x)) by (apply respects_vadd; [assumption|congruence]).
        pose proof (respects_length _ _ HRx) as HLx.
        destruct plan as [|l plan].
        { cbn [flat_map]. unfold odd_call. cbn [c_slice_extent c_bases c_strides c_extent]. rewrite HLx, map_length, Hd, Nat.eqb_refl, Nat.leb_refl.
          replace (1 <=? n) with true by lia. reflexivity. }
        { rewrite call_impl_linear_flat; [|rewrite map_length; congruence|lia]. rewrite flat_map_flat_map.
          rewrite (flat_map_ext_in _ _ _ (fun _ => [])); [apply flat_map_nil|]. intros k _. apply IH. apply respects_vadd; [assumption|].
          rewrite scale_length, map_length. congruence. }
Qed.

Lemma plain_call_inv : forall n c, odd_call n c = [] ->
  c_slice_extent c = 1 /\ length (c_bases c) = n /\ (length (c_strides c) <= n)%nat /\ 1 <= c_extent c.
Proof.
  intros n c H. unfold odd_call in H. destruct ((_ =? 1) && _ && _ && _) eqn:E; [|discriminate].
  rewrite !andb_true_iff in E. destruct E as [[[E1 E2] E3] E4]. apply Nat.eqb_eq in E2. apply Nat.leb_le in E3. lia.
Qed.

(** for_each_element calls f once for each index of the first buffer, dimension 0
    fastest, with the addresses of that index (null where it is out of bounds). *)
Theorem C23_for_each_element : for_each_element b0 bs = map (addresses b0 bs) (box (dims b0)).
Proof.
  pose proof (for_each_elements false ltac:(discriminate)) as H. cbn [R] in H. rewrite <- H. clear H.
  unfold for_each_element. rewrite map_flat_map, flat_map_flat_map.
  apply flat_map_ext_in. intros c Hc.
  assert (Hp : c_slice_extent c = 1 /\ length (c_bases c) = length (nulls bs) /\ (length (c_strides c) <= length (nulls bs))%nat /\ 1 <= c_extent c).
  { apply plain_call_inv. unfold for_each_impl in Hc.
    destruct (plan_loop false b0 bs (for_each_rank b0 bs) (base b0) (map (fun p => base (snd p)) bs) 1 1) as [[plan [q0 qs]] se] eqn:EP.
    pose proof (bases_respect b0 bs) as HR.
    destruct (plan_loop_ok false b0 bs Hflags Hok0 Hok ltac:(discriminate) _ _ _ 1 1 (for_each_rank b0 bs) false _ _ _ _ HR ltac:(lia) ltac:(lia)
       ltac:(congruence) ltac:(auto) (Nat.le_refl _) eq_refl ltac:(congruence) EP) as (A1 & A2 & A3 & A4 & A5 & A6).
    rewrite (A3 eq_refl) in Hc.
    pose proof (plain_calls _ _ _ _ (sizes_length b0 bs) A1 A4) as Q.
    clear - Q Hc. induction (run_plan plan (q0 :: qs) 1) as [|c' l IH]; [destruct Hc|]. cbn [flat_map] in Q. apply app_eq_nil in Q.
    destruct Q, Hc; [now subst|auto]. }
  destruct Hp as (H1 & H2 & H3 & H4). unfold unroll.
  unfold call_impl_linear. generalize (Z.to_nat (Z.max 1 (c_extent c))). intros n.
  revert H2. generalize (c_bases c). revert H3. generalize (c_strides c). rewrite H1. clear. intros s Hs.
  induction n as [|n IH]; intros v Hv; cbn [linear_loop map flat_map app]; [reflexivity|].
  unfold expand at 1. cbn [fst snd]. rewrite zseq_1. cbn [map]. rewrite scale_0 by (rewrite sizes_length; unfold ptr in *; lia). cbn [app]. f_equal.
  destruct n as [|n]; [reflexivity|]. apply IH.
  rewrite <- Hv. clear. revert s. induction v; intros [|x s]; cbn [increment_bases length]; auto.
Qed.

(** for_each_contiguous_slice: the elements of all the runs are, in some order, those
    same addresses, each once; a run is of consecutive elements in every buffer. *)
Theorem C23_for_each_contiguous_slice : one_contiguous_dim b0 ->
  Permutation (flat_map (fun q => map (fun k => nth_of_run b0 bs k (snd q)) (range 0 (fst q - 1))) (for_each_contiguous_slice b0 bs))
              (map (addresses b0 bs) (box (dims b0))).
Proof.
  intros H. pose proof (for_each_elements true (fun _ => H)) as Q. cbn [R] in Q.
  unfold for_each_contiguous_slice.
  etransitivity; [|exact Q]. apply Permutation_refl'. apply flat_map_ext. intros q. unfold expand.
  replace (range 0 (fst q - 1)) with (zseq (fst q)) by (unfold range, zseq; f_equal; f_equal; lia).
  apply map_ext. intros k. apply nth_of_run_expand.
Qed.
End Main.

(** The list of indices is right: it has each index in bounds exactly once. *)
Theorem C23_every_index_once : forall b, NoDup (box (dims b)) /\ forall idx, In idx (box (dims b)) <-> in_bounds (dims b) idx.
Proof. intros. split; [apply box_NoDup|intros; apply in_box]. Qed.
(** ... so for one buffer in which distinct indices are at distinct addresses, no
    address is visited twice. *)
Theorem C23_no_address_twice : forall b, dims_ok b ->
  (forall i j, in_bounds (dims b) i -> in_bounds (dims b) j -> locate b (index i) = locate b (index j) -> i = j) ->
  NoDup (for_each_element b []).
Proof.
  intros b Hb Hinj. rewrite C23_for_each_element; [|intros ? []|assumption|constructor].
  pose proof (box_NoDup (dims b)) as N.
  assert (G : forall l, (forall i, In i l -> in_bounds (dims b) i) -> NoDup l -> NoDup (map (addresses b []) l)).
  { induction l as [|i l IH]; intros Hl Hn; cbn [map]; [constructor|]. inversion Hn. subst. constructor.
    - intros X. apply in_map_iff in X. destruct X as (j & E & Hj). unfold addresses in E. cbn [map] in E.
      assert (j = i) by (apply Hinj; [apply Hl; now right|apply Hl; now left|congruence]). now subst.
    - apply IH; [|assumption]. intros. apply Hl. now right. }
  apply G; [|assumption]. intros. now apply in_box.
Qed.

(** Two overlapping dimensions with the stride of the elements (a window view): the
    runs go past the end of the buffer. *)
Theorem C23_two_contiguous_dims_refuted : exists b, dims_ok b /\ (forall idx a, in_bounds (dims b) idx -> locate b (index idx) = Some a -> a <= 4) /\
  for_each_contiguous_slice b [] = [(9, [Some 0])].
Proof.
  exists (Buf (Some 0) 1 [Dim 0 2 1 (-1); Dim 0 2 1 (-1)]). split; [|split].
  - repeat constructor; right; left; reflexivity.
  - intros idx a Hb H. apply in_box in Hb. cbv in Hb. repeat (destruct Hb as [<-|Hb]; [cbv in H; inversion H; lia|]). destruct Hb.
  - vm_compute. reflexivity.
Qed.

(** The hypotheses are met by folded, broadcast, partially out of bounds and null
    buffers of different ranks. *)
Definition ex_b0 : buf := Buf (Some 1000) 4 [Dim 0 4 4 (-1); Dim 2 5 20 3].
Definition ex_bs : list (bool * buf) :=
  [(false, Buf (Some 5000) 4 [Dim 1 9 4 (-1); Dim 3 4 40 2]); (true, ex_b0);
   (false, Buf None 4 [Dim 0 1 4 (-1)]); (false, Buf (Some 9000) 1 [Dim 0 3 1 2; broadcast; Dim 0 2 8 (-1)])].
Lemma ex_hyps : flags_ok ex_b0 ex_bs /\ dims_ok ex_b0 /\ Forall (fun p => dims_ok (snd p)) ex_bs /\ one_contiguous_dim ex_b0.
Proof.
  split; [|split; [|split]].
  - intros b H. cbn in H. repeat (destruct H as [H|H]; [inversion H; reflexivity|]). destruct H.
  - repeat constructor; cbv; auto; lia.
  - repeat constructor; cbv; auto; lia.
  - intros [|[|d1]] [|[|d2]]; cbn; intros; try reflexivity; try lia; discriminate.
Qed.
Example ex_calls : for_each_element ex_b0 ex_bs = map (addresses ex_b0 ex_bs) (box (dims ex_b0)) /\ length (for_each_element ex_b0 ex_bs) = 20%nat.
Proof. split; vm_compute; reflexivity. Qed.
Example ex_slices : length (for_each_contiguous_slice ex_b0 [hd (true, ex_b0) ex_bs]) = 6%nat.
Proof. vm_compute. reflexivity. Qed.
