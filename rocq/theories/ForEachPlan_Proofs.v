(** Proofs about the planning of the iteration over buffers. *)
From Coq Require Import ZArith List Bool Lia Permutation.
From Verif Require Import Buf_Model Buf_Spec Buf_Proofs ForEach_Model ForEach_Spec ForEach_Proofs.
Import ListNotations.
Open Scope Z_scope.

Section Bufs.
Context (skip : bool) (b0 : buf) (bs : list (bool * buf)).
Hypothesis Hflags : flags_ok b0 bs.
Hypothesis Hok0 : dims_ok b0.
Hypothesis Hok : Forall (fun p => dims_ok (snd p)) bs.
Hypothesis Hone : skip = true -> one_contiguous_dim b0.

Definition is_null (b : buf) : bool := match base b with None => true | _ => false end.
Definition nulls : list bool := false :: map (fun p => is_null (snd p)) bs.
Definition sizes : list Z := elem_size b0 :: map (fun p => elem_size (snd p)) bs.
Definition strides (d : nat) : list Z := d_stride (dim_at b0 d) :: map (fun p => d_stride (dim_at (snd p) d)) bs.
Definition all_dims (d : nat) : list dim := dim_at b0 d :: map (fun p => dim_at (snd p) d) bs.
Definition sh (d : nat) (i : Z) : list (option Z) := shifts (all_dims d) i.

Lemma nulls_length : length nulls = S (length bs).
Proof. unfold nulls. cbn [length]. now rewrite map_length. Qed.
Lemma sizes_length : length sizes = length nulls.
Proof. unfold sizes, nulls. cbn [length]. now rewrite !map_length. Qed.
Lemma strides_length : forall d, length (strides d) = length nulls.
Proof. intros. unfold strides, nulls. cbn [length]. now rewrite !map_length. Qed.
Lemma all_dims_length : forall d, length (all_dims d) = length nulls.
Proof. intros. unfold all_dims, nulls. cbn [length]. now rewrite !map_length. Qed.
Lemma sh_length : forall d i, length (sh d i) = length nulls.
Proof. intros. unfold sh, shifts. rewrite map_length. apply all_dims_length. Qed.

Lemma loop_dims_eq : forall d, loop_dims b0 bs d = all_dims d.
Proof.
  intros. unfold loop_dims, all_dims. f_equal. apply map_ext. intros [s b]. cbn [snd].
  destruct (d <? rank b)%nat eqn:E; [reflexivity|]. unfold dim_at. rewrite nth_overflow; [reflexivity|].
  apply Nat.ltb_ge in E. exact E.
Qed.
Lemma strides_eq : forall d, map d_stride (all_dims d) = strides d.
Proof. intros. unfold all_dims, strides. cbn [map]. now rewrite map_map. Qed.
Lemma dim_at_out : forall b d, (rank b <= d)%nat -> dim_at b d = broadcast.
Proof. intros. unfold dim_at. now apply nth_overflow. Qed.
Lemma dim_at_ok : forall b d, dims_ok b -> dim_ok (dim_at b d).
Proof.
  intros b d H. destruct (Nat.lt_ge_cases d (rank b)) as [L|L].
  - unfold dims_ok in H. rewrite Forall_forall in H. apply H. unfold dim_at. now apply nth_In.
  - rewrite dim_at_out by assumption. now left.
Qed.
Lemma nonpoint_in_rank : forall b d, is_point (dim_at b d) = false -> (d < rank b)%nat.
Proof.
  intros b d H. destruct (Nat.lt_ge_cases d (rank b)) as [L|L]; [assumption|].
  rewrite dim_at_out in H by assumption. discriminate.
Qed.

(** ** lifting facts about each buffer to vectors *)
Lemma same_on_all : forall A (f g : buf -> A), f b0 = g b0 ->
  (forall s b, In (s, b) bs -> base b <> None -> f b = g b) ->
  same_on nulls (f b0 :: map (fun p => f (snd p)) bs) (g b0 :: map (fun p => g (snd p)) bs).
Proof.
  intros A f g H0 H. unfold nulls. cbn [same_on]. split; [auto|].
  clear - H. induction bs as [|[s b] l IH]; cbn [map same_on snd]; [exact I|].
  split.
  - unfold is_null. destruct (base b) eqn:E; [|discriminate]. intros _. apply (H s b); [now left|congruence].
  - apply IH. intros s2 b2 ? ?. apply (H s2 b2); [now right|assumption].
Qed.

(** ** the decisions *)
Lemma can_fuse_strides : forall d, can_fuse_bufs b0 bs (S d) = true ->
  same_on nulls (strides (S d)) (map (fun x => extent (dim_at b0 d) * x) (strides d)).
Proof.
  intros d H. unfold can_fuse_bufs in H. rewrite Nat.sub_succ, Nat.sub_0_r in H.
  destruct (d_stride (dim_at b0 d) * extent (dim_at b0 d) =? d_stride (dim_at b0 (S d))) eqn:E; [|discriminate].
  cbn [negb] in H. destruct (negb (d_stride (dim_at b0 (S d)) =? 0) && (0 <? d_fold (dim_at b0 d))); [discriminate|].
  rewrite forallb_forall in H. unfold strides. cbn [map]. rewrite map_map.
  apply (same_on_all Z (fun b => d_stride (dim_at b (S d))) (fun b => extent (dim_at b0 d) * d_stride (dim_at b d))).
  - lia.
  - intros s b Hin Hb. specialize (H _ Hin). cbn beta iota in H. destruct s.
    { apply Hflags in Hin. subst b. lia. }
    cbn [orb] in H. destruct (base b); [|congruence].
    destruct (rank b <? S d)%nat eqn:Er.
    { apply Nat.ltb_lt in Er. rewrite (dim_at_out b (S d)), (dim_at_out b d) by lia. cbn [d_stride broadcast]. lia. }
    destruct (negb (d_min (dim_at b d) =? _) || negb (d_max (dim_at b d) =? _)); [discriminate|].
    destruct (d_stride (dim_at b d) * _ =? d_stride (dim_at b (S d))) eqn:E2; [|discriminate]. lia.
Qed.

Lemma folded_stride : forall d lo hi, is_folded2 d lo hi = true -> d_stride d <> 0 /\ 0 < d_fold d.
Proof. intros d lo hi H. unfold is_folded2 in H. destruct (d_stride d =? 0) eqn:E; cbn [orb] in H; [discriminate|]. destruct (d_fold d <=? 0) eqn:E2; [discriminate|]. lia. Qed.

Lemma fused_is_linear : forall d, can_fuse_bufs b0 bs (S d) = true -> d_min (dim_at b0 d) <= d_max (dim_at b0 d) ->
  use_nonlinear_loop b0 bs d = false.
Proof.
  intros d H Hne. unfold can_fuse_bufs in H. rewrite Nat.sub_succ, Nat.sub_0_r in H.
  assert (Hext : extent (dim_at b0 d) > 0) by (unfold extent, d_begin, d_end; match goal with |- context [?a <? ?b] => destruct (a <? b) eqn:? end; lia).
  destruct (d_stride (dim_at b0 d) * extent (dim_at b0 d) =? d_stride (dim_at b0 (S d))) eqn:E; [|discriminate].
  cbn [negb] in H. destruct (negb (d_stride (dim_at b0 (S d)) =? 0) && (0 <? d_fold (dim_at b0 d))) eqn:E1; [discriminate|].
  rewrite forallb_forall in H. unfold use_nonlinear_loop.
  destruct (is_folded (dim_at b0 d)) eqn:EF.
  { apply folded_stride in EF. assert (d_stride (dim_at b0 d) * extent (dim_at b0 d) <> 0) by (apply Z.neq_mul_0; lia). lia. }
  apply not_true_is_false. intros X. apply existsb_exists in X. destruct X as ([s b] & Hin & X).
  specialize (H _ Hin). cbn beta iota in H. destruct s; [discriminate|]. cbn [orb] in *.
  destruct (base b); [|discriminate].
  destruct (rank b <=? d)%nat eqn:Er; [discriminate|]. apply Nat.leb_gt in Er.
  replace (rank b <? S d)%nat with false in H by (symmetry; apply Nat.ltb_ge; lia).
  destruct (negb (d_min (dim_at b d) =? _) || negb (d_max (dim_at b d) =? _)) eqn:Eb; [discriminate|].
  destruct (d_stride (dim_at b d) * _ =? d_stride (dim_at b (S d))) eqn:E2; [|discriminate]. cbn [negb] in H.
  apply orb_true_iff in X. destruct X as [X|X].
  - unfold is_folded_dim in X. apply folded_stride in X.
    assert (d_stride (dim_at b d) * extent (dim_at b0 d) <> 0) by (apply Z.neq_mul_0; lia). lia.
  - unfold d_contains_dim, d_contains2 in X. lia.
Qed.

Lemma contiguous_strides : forall d, is_contiguous_slice b0 bs d = true ->
  d_stride (dim_at b0 d) = elem_size b0 /\ same_on nulls (strides d) sizes.
Proof.
  intros d H. unfold is_contiguous_slice in H.
  destruct (d_stride (dim_at b0 d) =? elem_size b0) eqn:E; [|discriminate]. cbn [negb] in H. split; [lia|].
  rewrite forallb_forall in H.
  apply (same_on_all Z (fun b => d_stride (dim_at b d)) elem_size); [lia|].
  intros s b Hin Hb. specialize (H _ Hin). cbn beta iota in H. destruct s.
  { apply Hflags in Hin. subst b. lia. }
  cbn [orb] in H. destruct (base b); [lia|congruence].
Qed.

(** ** fold factors *)
Lemma gcd_fold_r : forall a b, 0 < b -> 0 < gcd_fold_factor a b /\ (gcd_fold_factor a b | b).
Proof.
  intros. unfold gcd_fold_factor. destruct (a <=? 0) eqn:E; [split; [lia|apply Z.divide_refl]|].
  replace (b <=? 0) with false by lia. split; [|apply Z.gcd_divide_r].
  pose proof (Z.gcd_nonneg a b). assert (Z.gcd a b <> 0) by (intros X; apply Z.gcd_eq_0_l in X; lia). lia.
Qed.
Lemma gcd_fold_l : forall a b, 0 < a -> 0 < gcd_fold_factor a b /\ (gcd_fold_factor a b | a).
Proof.
  intros. unfold gcd_fold_factor. replace (a <=? 0) with false by lia.
  destruct (b <=? 0) eqn:E; [split; [lia|apply Z.divide_refl]|]. split; [|apply Z.gcd_divide_l].
  pose proof (Z.gcd_nonneg a b). assert (Z.gcd a b <> 0) by (intros X; apply Z.gcd_eq_0_l in X; lia). lia.
Qed.

Lemma loop_fold_acc : forall (l : list (bool * buf)) d f g,
  g = fold_left (fun f p => if (d <? rank (snd p))%nat then gcd_fold_factor f (d_fold (dim_at (snd p) d)) else f) l f ->
  (0 < f -> 0 < g /\ (g | f)) /\
  (forall s b, In (s, b) l -> (d < rank b)%nat -> 0 < d_fold (dim_at b d) -> 0 < g /\ (g | d_fold (dim_at b d))).
Proof.
  induction l as [|[s b] l IH]; intros d f g Hg; cbn [fold_left snd] in Hg.
  - subst. split; [intros; split; [assumption|apply Z.divide_refl]|intros s b []].
  - apply IH in Hg. destruct Hg as [H1 H2]. split.
    + intros Hf. destruct (d <? rank b)%nat; [|auto].
      destruct (gcd_fold_l f (d_fold (dim_at b d)) Hf) as [G1 G2]. destruct (H1 G1) as [K1 K2].
      split; [assumption|]. eapply Z.divide_trans; eassumption.
    + intros s' b' [E|Hin] Hr Hpos; [|now apply (H2 s')].
      inversion E. subst. apply Nat.ltb_lt in Hr. rewrite Hr in H1.
      destruct (gcd_fold_r f (d_fold (dim_at b' d)) Hpos) as [G1 G2]. destruct (H1 G1) as [K1 K2].
      split; [assumption|]. eapply Z.divide_trans; eassumption.
Qed.
Lemma loop_fold_ok : forall d, Forall (linear_within (loop_fold b0 bs d)) (all_dims d).
Proof.
  intros d. destruct (loop_fold_acc bs d (d_fold (dim_at b0 d)) (loop_fold b0 bs d) eq_refl) as [H1 H2].
  unfold all_dims. constructor.
  - destruct (dim_at_ok b0 d Hok0) as [E|[E|E]]; [now left|right; now left|]. right. right.
    destruct (H1 E). auto.
  - apply Forall_map. apply Forall_forall. intros [s b] Hin. cbn [snd].
    rewrite Forall_forall in Hok. specialize (Hok _ Hin). cbn [snd] in Hok.
    destruct (dim_at_ok b d Hok) as [E|[E|E]]; [now left|right; now left|].
    destruct (Nat.lt_ge_cases d (rank b)) as [L|L].
    + right. right. destruct (H2 s b Hin L E). auto.
    + left. now rewrite dim_at_out.
Qed.

(** ** linear dimensions *)
Lemma unfolded_linear : forall d lo hi i, dim_ok d -> is_folded2 d lo hi = false -> lo <= i <= hi ->
  d_offset d i = d_offset d lo + (i - lo) * d_stride d.
Proof.
  intros d lo hi i Hd H Hi. unfold is_folded2 in H.
  destruct (d_stride d =? 0) eqn:E0.
  { unfold d_offset. rewrite E0. cbn [orb]. nia. }
  destruct (d_fold d =? unfolded) eqn:E1.
  { unfold d_offset. rewrite E0, E1. cbn [orb]. lia. }
  destruct Hd as [Hd|[Hd|Hd]]; [lia|lia|]. cbn [orb] in H. replace (d_fold d <=? 0) with false in H by lia.
  assert (Q : lo / d_fold d = hi / d_fold d) by lia.
  apply (d_offset_linear (d_fold d)).
  - right. right. split; [assumption|]. split; [assumption|apply Z.divide_refl].
  - right. pose proof (Z.div_le_mono lo i (d_fold d) Hd). pose proof (Z.div_le_mono i hi (d_fold d) Hd). lia.
Qed.

Definition is_linear (d : nat) : Prop :=
  d_min (dim_at b0 d) = d_max (dim_at b0 d) \/
  (d_min (dim_at b0 d) < d_max (dim_at b0 d) /\ use_nonlinear_loop b0 bs d = false).

Lemma linear_each : forall d s b, is_linear d -> In (s, b) bs -> base b <> None ->
  d_min (dim_at b0 d) = d_max (dim_at b0 d) \/
  (d_contains_dim (dim_at b d) (dim_at b0 d) = true /\ is_folded_dim (dim_at b d) (dim_at b0 d) = false).
Proof.
  intros d s b [H|[H1 H2]] Hin Hb; [now left|right].
  unfold use_nonlinear_loop in H2. destruct (is_folded (dim_at b0 d)) eqn:EF; [discriminate|].
  assert (X := H2). rewrite <- not_true_iff_false, existsb_exists in X.
  destruct s.
  { apply Hflags in Hin. subst b. split; [|exact EF]. unfold d_contains_dim, d_contains2. lia. }
  destruct (rank b <=? d)%nat eqn:Er.
  { apply Nat.leb_le in Er. rewrite dim_at_out by assumption. split; reflexivity. }
  destruct (is_folded_dim (dim_at b d) (dim_at b0 d)) eqn:E1.
  { exfalso. apply X. exists (false, b). split; [assumption|]. cbn [orb]. destruct (base b); [|congruence]. now rewrite Er, E1. }
  destruct (d_contains_dim (dim_at b d) (dim_at b0 d)) eqn:E2; [auto|].
  exfalso. apply X. exists (false, b). split; [assumption|]. cbn [orb]. destruct (base b); [|congruence]. rewrite Er, E1, E2. reflexivity.
Qed.

Lemma linear_shift : forall d i, is_linear d -> d_min (dim_at b0 d) <= i <= d_max (dim_at b0 d) ->
  same_on nulls (sh d i) (vadd (sh d (d_min (dim_at b0 d))) (scale (i - d_min (dim_at b0 d)) (strides d))).
Proof.
  intros d i Hl Hi. set (lo := d_min (dim_at b0 d)) in *.
  replace (vadd (sh d lo) (scale (i - lo) (strides d)))
    with ((fun b => oadd (place (dim_at b d) lo) (Some ((i - lo) * d_stride (dim_at b d)))) b0 ::
          map (fun p => (fun b => oadd (place (dim_at b d) lo) (Some ((i - lo) * d_stride (dim_at b d)))) (snd p)) bs).
  2:{ unfold sh, shifts, all_dims, scale, strides. cbn [map vadd]. f_equal. clear.
      induction bs as [|[s b] l IH]; cbn [map vadd]; [reflexivity|]. now rewrite IH. }
  replace (sh d i) with ((fun b => place (dim_at b d) i) b0 :: map (fun p => (fun b => place (dim_at b d) i) (snd p)) bs).
  2:{ unfold sh, shifts, all_dims. cbn [map]. now rewrite map_map. }
  apply (same_on_all _ (fun b => place (dim_at b d) i) (fun b => oadd (place (dim_at b d) lo) (Some ((i - lo) * d_stride (dim_at b d))))).
  - subst lo. rewrite !place_in by lia. cbn [oadd]. f_equal.
    destruct Hl as [E|[E1 E2]].
    + replace i with (d_min (dim_at b0 d)) by lia. lia.
    + apply unfolded_linear with (hi := d_max (dim_at b0 d)); [now apply dim_at_ok| |lia].
      unfold use_nonlinear_loop in E2. destruct (is_folded (dim_at b0 d)) eqn:EF; [discriminate|]. exact EF.
  - intros s b Hin Hb. destruct (linear_each d s b Hl Hin Hb) as [E|[E1 E2]].
    + assert (i = lo) by lia. subst i. rewrite Z.sub_diag. cbn [Z.mul]. now rewrite oadd_0_r.
    + rewrite Forall_forall in Hok. specialize (Hok _ Hin). cbn [snd] in Hok.
      unfold d_contains_dim, d_contains2 in E1.
      rewrite !d_contains_place. unfold d_contains, d_contains2.
      replace ((d_stride (dim_at b d) =? 0) || (d_min (dim_at b d) <=? i) && (i <=? d_max (dim_at b d))) with true by lia.
      replace ((d_stride (dim_at b d) =? 0) || (d_min (dim_at b d) <=? lo) && (lo <=? d_max (dim_at b d))) with true by lia.
      cbn [oadd]. f_equal. apply unfolded_linear with (hi := d_max (dim_at b0 d)); [now apply dim_at_ok|exact E2|assumption].
Qed.

Lemma align_ok : forall d p ps, is_linear d -> respects nulls (p :: ps) ->
  align_base0 (dim_at b0 d) p :: align_bases (dim_at b0 d) d bs ps = vadd (p :: ps) (sh d (d_min (dim_at b0 d))).
Proof.
  intros d p ps Hl HR. unfold nulls in HR. cbn [respects] in HR. destruct HR as [_ HR].
  unfold sh, shifts, all_dims. cbn [map vadd]. f_equal.
  - assert (Hne : d_min (dim_at b0 d) <= d_max (dim_at b0 d)) by (destruct Hl; lia).
    rewrite place_in by lia. unfold align_base0. destruct (0 <? d_fold (dim_at b0 d)) eqn:E.
    + destruct p; reflexivity.
    + assert (Z0 : d_offset (dim_at b0 d) (d_min (dim_at b0 d)) = 0).
      { unfold d_offset. destruct (dim_at_ok b0 d Hok0) as [K|[K|K]]; [| |lia].
        - rewrite K. cbn [Z.eqb orb]. lia.
        - rewrite K. cbn [Z.eqb unfolded Pos.eqb orb]. rewrite orb_true_r. lia. }
      rewrite Z0. now rewrite oadd_0_r.
  - assert (Q : forall s b, In (s, b) bs -> base b <> None -> d_min (dim_at b0 d) = d_max (dim_at b0 d) \/ d_contains_dim (dim_at b d) (dim_at b0 d) = true).
    { intros s b Hin Hb. destruct (linear_each d s b Hl Hin Hb) as [?|[? ?]]; auto. }
    assert (Hne : d_min (dim_at b0 d) <= d_max (dim_at b0 d)) by (destruct Hl; lia).
    clear - HR Q Hne. revert ps HR. induction bs as [|[s b] l IH]; intros ps HR; cbn [map] in *.
    + destruct ps; [reflexivity|cbn [respects] in HR; contradiction].
    + destruct ps as [|q ps]; cbn [respects snd] in HR; [contradiction|]. destruct HR as [HR1 HR2].
      cbn [align_bases vadd snd]. f_equal; [|apply IH; [intros s2 b2 ? ?; apply (Q s2 b2); [now right|assumption]|assumption]].
      destruct q as [a|]; [|reflexivity]. cbn [align_base].
      assert (Hb : base b <> None). { intros E. unfold is_null in HR1. rewrite E in HR1. specialize (HR1 eq_refl). discriminate. }
      rewrite d_contains_place.
      destruct (d <? rank b)%nat eqn:Er.
      * assert (K : d_contains_dim (dim_at b d) (dim_at b0 d) = d_contains (dim_at b d) (d_min (dim_at b0 d))).
        { specialize (Q s b (or_introl eq_refl) Hb). unfold d_contains_dim, d_contains, d_contains2 in *. destruct Q as [Q|Q].
          - now rewrite Q.
          - rewrite Q. symmetry. lia. }
        rewrite K. now destruct (d_contains (dim_at b d) (d_min (dim_at b0 d))).
      * apply Nat.ltb_ge in Er. rewrite dim_at_out by assumption.
        unfold d_contains, d_contains2, d_offset. cbn [broadcast d_stride d_min d_max d_fold Z.eqb orb oadd].
        f_equal. lia.
Qed.

(** ** what the remaining dimensions should visit *)
Fixpoint walk (d : nat) (v : list ptr) : list (list ptr) :=
  match d with
  | O => [v]
  | S d' => flat_map (fun i => walk d' (vadd v (sh d' i))) (range (d_min (dim_at b0 d')) (d_max (dim_at b0 d')))
  end.
Lemma walk_add : forall d v x, walk d (vadd v x) = map (fun w => vadd w x) (walk d v).
Proof.
  unfold ptr. induction d; intros; cbn [walk map]; [reflexivity|].
  rewrite map_flat_map. apply flat_map_ext. intros. rewrite <- IHd. now rewrite vadd_swap.
Qed.

Lemma fused_extents : forall d v ext, is_linear d -> respects nulls v -> 1 <= ext ->
  (ext <> 1 -> can_fuse_bufs b0 bs (S d) = true) ->
  flat_map (fun j => walk (S d) (vadd v (scale j (strides (S d))))) (zseq ext) =
  flat_map (fun m => walk d (vadd (vadd v (sh d (d_min (dim_at b0 d)))) (scale m (strides d))))
           (zseq (ext * (d_max (dim_at b0 d) - d_min (dim_at b0 d) + 1))).
Proof.
  unfold ptr. intros d v ext Hl HR He Hf. pose proof (respects_length _ _ HR) as HLv.
  set (lo := d_min (dim_at b0 d)). set (hi := d_max (dim_at b0 d)).
  assert (Hne : lo <= hi) by (destruct Hl; subst lo hi; lia).
  rewrite zseq_mul by lia. apply flat_map_ext_in. intros j Hj. apply in_zseq in Hj.
  cbn [walk]. fold lo hi. rewrite range_zseq, flat_map_map. apply flat_map_ext_in. intros k Hk. apply in_zseq in Hk. f_equal.
  assert (HRj : respects nulls (vadd v (scale j (strides (S d))))).
  { apply respects_vadd; [assumption|]. rewrite scale_length. apply strides_length. }
  rewrite (same_on_vadd nulls _ (sh d (k + lo)) (vadd (sh d lo) (scale k (strides d)))); [|assumption|].
  2:{ pose proof (linear_shift d (k + lo) Hl ltac:(lia)) as Q. fold lo in Q. replace (k + lo - lo) with k in Q by lia. exact Q. }
  rewrite vadd_assoc. rewrite (vadd_swap v (scale j _)).
  destruct (Z.eq_dec ext 1) as [E1|E1].
  - replace j with 0 by lia. rewrite scale_0 by (rewrite vadd_length, strides_length, sh_length; unfold ptr in *; lia).
    reflexivity.
  - assert (Hx : extent (dim_at b0 d) = hi - lo + 1).
    { unfold extent, d_begin, d_end. fold lo hi. replace (lo <? hi + 1) with true by lia. lia. }
    pose proof (can_fuse_strides d (Hf E1)) as Q. rewrite Hx in Q.
    apply (same_on_scale _ j) in Q.
    rewrite (same_on_vadd nulls _ _ _ ltac:(apply respects_vadd; [exact HR|apply sh_length]) Q).
    replace (scale j (map (fun x => (hi - lo + 1) * x) (strides d))) with (scale (j * (hi - lo + 1)) (strides d)).
    + now rewrite scale_add.
    + unfold scale. rewrite map_map. apply map_ext. intros. f_equal. lia.
Qed.

Lemma R_swap : forall A B (f : A -> Z -> list B) l se, (skip = false -> se = 1) ->
  R skip (flat_map (fun k => flat_map (fun x => f x k) l) (zseq se)) (flat_map (fun x => flat_map (fun k => f x k) (zseq se)) l).
Proof. intros. apply R_sym. now apply swap_slice. Qed.

Definition contiguous_at (d : nat) : Prop :=
  is_point (dim_at b0 d) = false /\ d_stride (dim_at b0 d) = elem_size b0.

Lemma lift : forall A (X : list A) (g : A -> list (option Z)) d plan q w se se',
  (skip = false -> se = 1) -> (skip = false -> se' = 1) ->
  R skip (flat_map (fun k => ideal plan (vadd q (scale k sizes))) (zseq se'))
         (flat_map (fun k => walk d (vadd w (scale k sizes))) (zseq se)) ->
  R skip (flat_map (fun k => flat_map (fun x => ideal plan (vadd (vadd q (scale k sizes)) (g x))) X) (zseq se'))
         (flat_map (fun k => flat_map (fun x => walk d (vadd (vadd w (scale k sizes)) (g x))) X) (zseq se)).
Proof.
  unfold ptr. intros A X g d plan q w se se' H1 H2 H.
  eapply R_trans; [apply (R_swap _ _ (fun x k => ideal plan (vadd (vadd q (scale k sizes)) (g x)))); assumption|].
  eapply R_trans; [|apply (swap_slice skip _ _ (fun x k => walk d (vadd (vadd w (scale k sizes)) (g x)))); assumption].
  apply R_flat_map. intros x _.
  apply (R_map _ _ _ (fun u => vadd u (g x))) in H. rewrite !map_flat_map in H.
  eapply R_trans; [apply R_eq; apply flat_map_ext; intros k; apply ideal_add|].
  eapply R_trans; [exact H|]. apply R_eq. apply flat_map_ext. intros k. symmetry. apply walk_add.
Qed.

Lemma walk_one : forall d v ext, length v = length nulls -> ext = 1 ->
  flat_map (fun j => walk d (vadd v (scale j (strides d)))) (zseq ext) = walk d v.
Proof.
  unfold ptr. intros d v ext HL ->. rewrite zseq_1. cbn [flat_map]. rewrite app_nil_r, scale_0; [reflexivity|]. rewrite strides_length. lia.
Qed.

Lemma walk_one' : forall d v se, length v = length nulls ->
  flat_map (fun k => flat_map (fun j => walk d (vadd (vadd v (scale j (strides d))) (scale k sizes))) (zseq 1)) (zseq se) =
  flat_map (fun k => walk d (vadd v (scale k sizes))) (zseq se).
Proof.
  unfold ptr. intros. apply flat_map_ext. intros k. rewrite <- (walk_one d (vadd v (scale k sizes)) 1); [|rewrite vadd_length, scale_length, sizes_length; lia|reflexivity].
  apply flat_map_ext. intros j. now rewrite vadd_swap.
Qed.

Lemma plan_loop_ok : forall d p0 ps ext se top (used : bool) plan q0 qs se',
  respects nulls (p0 :: ps) -> 1 <= ext -> 1 <= se ->
  (ext <> 1 -> can_fuse_bufs b0 bs d = true /\ (0 < d)%nat) ->
  (skip = false -> se = 1) ->
  (d <= top)%nat ->
  (if used then exists d1, (top <= d1)%nat /\ contiguous_at d1 else se = 1) ->
  (ext <> 1 -> exists d2, (d <= d2 < top)%nat /\ is_point (dim_at b0 d2) = false /\
                          d_stride (dim_at b0 d2) = d_stride (dim_at b0 d)) ->
  plan_loop skip b0 bs d p0 ps ext se = (plan, (q0, qs), se') ->
  Forall (loop_ok skip sizes nulls) plan /\ 1 <= se' /\ (skip = false -> se' = 1) /\
  respects nulls (q0 :: qs) /\
  (if used then contigs plan = O /\ se' = se else contigs plan = O \/ (contigs plan = 1%nat /\ se' = 1)) /\
  R skip (flat_map (fun k => ideal plan (vadd (q0 :: qs) (scale k sizes))) (zseq se'))
         (flat_map (fun k => flat_map (fun j => walk d (vadd (vadd (p0 :: ps) (scale j (strides d))) (scale k sizes))) (zseq ext)) (zseq se)).
Proof.
  unfold ptr. induction d as [|d IH]; intros p0 ps ext se top used plan q0 qs se' HR He Hse Hf Hsk Htop Hused Hgrp H.
  { cbn [plan_loop] in H. inversion H. subst. clear H.
    destruct (Z.eq_dec ext 1) as [->|E]; [|destruct (Hf E); lia].
    split; [constructor|]. split; [assumption|]. split; [assumption|]. split; [assumption|].
    split; [destruct used; [split; reflexivity|now left]|].
    apply R_eq. rewrite walk_one' by apply (respects_length _ _ HR). reflexivity. }
  pose proof (respects_length _ _ HR) as HLv.
  cbn [plan_loop] in H.
  set (bd := dim_at b0 d) in *.
  destruct (negb (d_min bd =? d_max bd) && ((d_max bd <? d_min bd) || use_nonlinear_loop b0 bs d)) eqn:EN.
  - (* nonlinear *)
    destruct (plan_loop skip b0 bs d p0 ps 1 se) as [[plan1 [q0' qs']] se1] eqn:EP.
    inversion H. subst plan q0' qs' se1. clear H.
    set (c := skip && is_contiguous_slice b0 bs d) in *.
    assert (Hnp : is_point bd = false) by (unfold is_point; lia).
    assert (Hc : c = true -> contiguous_at d /\ skip = true /\ same_on nulls (strides d) sizes).
    { intros E. subst c. apply andb_true_iff in E. destruct E as [E1 E2]. apply contiguous_strides in E2.
      split; [split; tauto|]. split; [assumption|tauto]. }
    assert (Hcu : c = true -> used = false).
    { intros E. destruct used; [|reflexivity]. exfalso. destruct Hused as (d1 & H1 & H2 & H3).
      destruct (Hc E) as ([H4 H5] & H6 & _). specialize (Hone H6).
      assert (d1 = d) by (apply Hone; try assumption; now apply nonpoint_in_rank). lia. }
    assert (K : Forall (loop_ok skip sizes nulls) plan1 /\ 1 <= se' /\ (skip = false -> se' = 1) /\ respects nulls (q0 :: qs) /\
       (if used || c then contigs plan1 = O /\ se' = se else contigs plan1 = O \/ (contigs plan1 = 1%nat /\ se' = 1)) /\
       R skip (flat_map (fun k => ideal plan1 (vadd (q0 :: qs) (scale k sizes))) (zseq se'))
         (flat_map (fun k => walk d (vadd (p0 :: ps) (scale k sizes))) (zseq se))).
    { rewrite <- (walk_one' d (p0 :: ps) se) by assumption.
      destruct c eqn:Ec.
      - rewrite (Hcu eq_refl) in *. cbn [orb].
        apply (IH p0 ps 1 se d true plan1 q0 qs se' HR); try assumption; try lia.
        exists d. split; [lia|]. apply Hc. reflexivity.
      - rewrite orb_false_r.
        apply (IH p0 ps 1 se top used plan1 q0 qs se' HR); try assumption; try lia. }
    destruct K as (K1 & K2 & K3 & K4 & K5 & K6).
    assert (HLq := respects_length _ _ K4).
    split.
    { constructor; [|assumption]. cbn [loop_ok]. rewrite loop_dims_eq. split; [apply all_dims_length|].
      split; [apply loop_fold_ok|]. split.
      - intros E. rewrite strides_eq. now apply Hc.
      - intros E. subst c. now rewrite E. }
    split; [assumption|]. split; [assumption|]. split; [assumption|]. split.
    { destruct c.
      - rewrite (Hcu eq_refl) in *. cbn [orb] in K5. right. cbn [contigs]. destruct K5 as [K5 K5']. rewrite K5. split; [reflexivity|congruence].
      - rewrite orb_false_r in K5. cbn [contigs]. exact K5. }
    assert (E1 : forall v, ideal (Nonlinear (loop_fold b0 bs d) (loop_dims b0 bs d) c :: plan1) v =
                 flat_map (fun i => ideal plan1 (vadd v (sh d i))) (range (d_min bd) (d_max bd))).
    { intros. cbn [ideal]. rewrite loop_dims_eq. reflexivity. }
    eapply R_trans; [apply R_eq; apply flat_map_ext; intros k; apply E1|].
    eapply R_trans; [apply (lift _ _ (sh d) d); [exact Hsk|exact K3|exact K6]|].
    apply R_eq. apply flat_map_ext. intros k.
    destruct (Z_lt_le_dec (d_max bd) (d_min bd)) as [Hempty|Hne].
    + cbn [walk]. fold bd. rewrite range_empty by (exact Hempty). cbn [flat_map]. now rewrite flat_map_nil.
    + assert (ext = 1) as ->.
      { destruct (Z.eq_dec ext 1) as [E|E]; [assumption|]. exfalso. destruct (Hf E) as [F _].
        pose proof (fused_is_linear d F Hne) as U. rewrite U in EN. lia. }
      rewrite zseq_1. cbn [flat_map]. rewrite app_nil_r. rewrite scale_0 by (rewrite strides_length; unfold ptr in *; lia).
      reflexivity.
  - (* linear *)
    assert (Hl : is_linear d).
    { unfold is_linear. fold bd. destruct (d_min bd =? d_max bd) eqn:E1; [left; lia|right]. cbn [negb andb] in EN.
      apply orb_false_iff in EN. destruct EN as [EN1 EN2]. split; [lia|exact EN2]. }
    assert (Hne : d_min bd <= d_max bd) by (destruct Hl; subst bd; lia).
    set (ext' := if d_min bd =? d_max bd then ext else ext * (d_max bd - d_min bd + 1)) in *.
    assert (Hext' : ext' = ext * (d_max bd - d_min bd + 1)).
    { subst ext'. destruct (d_min bd =? d_max bd) eqn:E1; [|reflexivity]. replace (d_max bd - d_min bd + 1) with 1 by lia. lia. }
    assert (Hext1 : 1 <= ext') by nia.
    pose proof (align_ok d p0 ps Hl HR) as HA. fold bd in HA.
    set (p0' := align_base0 bd p0) in *. set (ps' := align_bases bd d bs ps) in *.
    assert (HR' : respects nulls (p0' :: ps')).
    { unfold ptr in *. rewrite HA. apply respects_vadd; [assumption|apply sh_length]. }
    assert (HL' := respects_length _ _ HR').
    assert (Hgrp' : ext' <> 1 -> exists d2, (d <= d2 < top)%nat /\ is_point (dim_at b0 d2) = false /\
                          d_stride (dim_at b0 d2) = d_stride (dim_at b0 d)).
    { intros E. destruct (d_min bd =? d_max bd) eqn:E1.
      - destruct (Hgrp E) as (d2 & D1 & D2 & D3). exists d2. split; [lia|]. split; [assumption|].
        rewrite D3. destruct (Hf E) as [F _]. apply can_fuse_strides in F. unfold strides, nulls in F. cbn [map same_on] in F.
        destruct F as [F _]. rewrite F by reflexivity. unfold extent, d_begin, d_end. fold bd.
        replace (d_min bd <? d_max bd + 1) with true by lia. replace (d_max bd + 1 - d_min bd) with 1 by lia. lia.
      - exists d. split; [lia|]. split; [|reflexivity]. unfold is_point. exact E1. }
    assert (HRHS : flat_map (fun k => flat_map (fun j => walk (S d) (vadd (vadd (p0 :: ps) (scale j (strides (S d)))) (scale k sizes))) (zseq ext)) (zseq se) =
                   flat_map (fun k => flat_map (fun m => walk d (vadd (vadd (p0' :: ps') (scale m (strides d))) (scale k sizes))) (zseq ext')) (zseq se)).
    { apply flat_map_ext. intros k. rewrite Hext'.
      transitivity (flat_map (fun j => walk (S d) (vadd (vadd (p0 :: ps) (scale k sizes)) (scale j (strides (S d))))) (zseq ext)).
      { apply flat_map_ext. intros j. now rewrite vadd_swap. }
      rewrite fused_extents; [|assumption|apply respects_vadd; [assumption|now rewrite scale_length, sizes_length]|assumption|intros E; apply Hf; exact E].
      apply flat_map_ext. intros m. unfold ptr in *. rewrite HA. fold bd. f_equal.
      rewrite (vadd_swap _ (scale k sizes)). now rewrite (vadd_swap _ (scale k sizes)). }
    unfold ptr in HRHS. rewrite HRHS. clear HRHS.
    destruct ((ext' =? 1) || ((0 <? d)%nat && can_fuse_bufs b0 bs d)) eqn:EF.
    + apply (IH p0' ps' ext' se top used); try assumption; [|lia].
      intros E. replace (ext' =? 1) with false in EF by lia. cbn [orb] in EF. apply andb_true_iff in EF. destruct EF as [F1 F2].
      apply Nat.ltb_lt in F1. auto.
    + apply orb_false_iff in EF. destruct EF as [EF _].
      destruct (skip && is_contiguous_slice b0 bs d) eqn:EC.
      * apply andb_true_iff in EC. destruct EC as [EC1 EC2]. apply contiguous_strides in EC2. destruct EC2 as [EC2 EC3].
        destruct (Hgrp' ltac:(lia)) as (d2 & D1 & D2 & D3).
        assert (used = false).
        { destruct used; [|reflexivity]. exfalso. destruct Hused as (d1 & H1 & H2 & H3).
          assert (d1 = d2) by (apply (Hone EC1); try congruence; now apply nonpoint_in_rank). lia. }
        subst used. subst se. rewrite Z.mul_1_l in H.
        destruct (IH p0' ps' 1 ext' d true plan q0 qs se') as (A1 & A2 & A3 & A4 & [A5 A5'] & A6); try assumption; try lia.
        { rewrite EC1. discriminate. }
        { exists d2. split; [lia|]. split; [assumption|congruence]. }
        repeat (split; [assumption|]). split; [now left|].
        eapply R_trans; [exact A6|]. apply R_eq. rewrite walk_one' by (unfold ptr in *; assumption). rewrite zseq_1. cbn [flat_map]. rewrite app_nil_r.
        apply flat_map_ext. intros k. f_equal. rewrite scale_0; [|rewrite vadd_length, sizes_length; unfold ptr in *; lia].
        symmetry. apply same_on_vadd with (nulls := nulls); [assumption|]. now apply same_on_scale.
      * destruct (plan_loop skip b0 bs d p0' ps' 1 se) as [[plan1 [q0' qs']] se1] eqn:EP.
        inversion H. subst plan q0' qs' se1. clear H.
        destruct (IH p0' ps' 1 se top used plan1 q0 qs se') as (A1 & A2 & A3 & A4 & A5 & A6); try assumption; try lia.
        split; [constructor; [|assumption]; cbn [loop_ok]; split; [assumption|apply strides_length]|].
        split; [assumption|]. split; [assumption|]. split; [assumption|]. split; [exact A5|].
        rewrite walk_one' in A6 by (unfold ptr in *; assumption).
        eapply R_trans; [|eapply R_trans; [apply (lift _ (zseq ext') (fun m => scale m (strides d)) d plan1 (q0 :: qs) (p0' :: ps') se se' Hsk A3 A6)|]].
        { apply R_eq. reflexivity. }
        { apply R_eq. apply flat_map_ext. intros k. apply flat_map_ext. intros m. now rewrite vadd_swap. }
Qed.
End Bufs.
