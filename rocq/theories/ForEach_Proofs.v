(** Proofs about the iteration over buffers. *)
From Coq Require Import ZArith List Bool Lia Permutation.
From Verif Require Import Buf_Model Buf_Spec Buf_Proofs ForEach_Model ForEach_Spec.
Import ListNotations.
Open Scope Z_scope.

(** ** lists of integers *)
Lemma run_from_length : forall n lo, length (run_from lo n) = n.
Proof. induction n; intros; cbn [run_from length]; [reflexivity|]. now rewrite IHn. Qed.
Lemma in_run_from : forall n lo x, In x (run_from lo n) <-> lo <= x < lo + Z.of_nat n.
Proof.
  induction n; intros; cbn [run_from In]; [lia|]. rewrite IHn. lia.
Qed.
Lemma in_range : forall lo hi x, In x (range lo hi) <-> lo <= x <= hi.
Proof. intros. unfold range. rewrite in_run_from. lia. Qed.
Lemma run_from_app : forall n m lo, run_from lo (n + m) = run_from lo n ++ run_from (lo + Z.of_nat n) m.
Proof.
  induction n; intros; cbn [Nat.add run_from app].
  - f_equal. lia.
  - rewrite IHn. do 3 f_equal. lia.
Qed.
Lemma range_split : forall lo mid hi, lo <= mid + 1 -> mid <= hi -> range lo hi = range lo mid ++ range (mid + 1) hi.
Proof.
  intros. unfold range.
  replace (Z.to_nat (hi - lo + 1)) with (Z.to_nat (mid - lo + 1) + Z.to_nat (hi - (mid + 1) + 1))%nat by lia.
  rewrite run_from_app. do 2 f_equal. lia.
Qed.
Lemma range_empty : forall lo hi, hi < lo -> range lo hi = [].
Proof. intros. unfold range. now replace (Z.to_nat (hi - lo + 1)) with O by lia. Qed.
Lemma run_from_shift : forall n lo o, run_from (lo + o) n = map (fun x => x + o) (run_from lo n).
Proof.
  induction n; intros; cbn [run_from map]; [reflexivity|]. f_equal.
  rewrite <- IHn. f_equal. lia.
Qed.
Definition zseq (n : Z) : list Z := run_from 0 (Z.to_nat n).
Lemma range_zseq : forall lo hi, range lo hi = map (fun k => k + lo) (zseq (hi - lo + 1)).
Proof. intros. unfold range, zseq. rewrite <- run_from_shift. reflexivity. Qed.
Lemma in_zseq : forall n k, In k (zseq n) <-> 0 <= k < n.
Proof. intros. unfold zseq. rewrite in_run_from. lia. Qed.
Lemma run_from_NoDup : forall n lo, NoDup (run_from lo n).
Proof.
  induction n; intros; cbn [run_from]; constructor; [|apply IHn]. rewrite in_run_from. lia.
Qed.
Lemma zseq_mul : forall A (f : Z -> list A) a b, 0 <= a -> 0 <= b ->
  flat_map f (zseq (a * b)) = flat_map (fun j => flat_map (fun i => f (j * b + i)) (zseq b)) (zseq a).
Proof.
  intros A f a b Ha Hb. unfold zseq. rewrite Z2Nat.inj_mul by lia.
  assert (G : forall n lo, flat_map f (run_from (lo * b) (n * Z.to_nat b)) =
    flat_map (fun j => flat_map (fun i => f (j * b + i)) (run_from 0 (Z.to_nat b))) (run_from lo n)).
  { induction n; intros lo; cbn [Nat.mul run_from flat_map]; [reflexivity|].
    rewrite run_from_app, flat_map_app. f_equal.
    - replace (lo * b) with (0 + lo * b) by lia. rewrite run_from_shift, flat_map_concat_map, map_map, <- flat_map_concat_map.
      apply flat_map_ext. intros. f_equal. lia.
    - rewrite <- IHn. do 2 f_equal. nia. }
  specialize (G (Z.to_nat a) 0). exact G.
Qed.
Lemma flat_map_map : forall A B C (f : B -> list C) (g : A -> B) l, flat_map f (map g l) = flat_map (fun x => f (g x)) l.
Proof. intros. now rewrite flat_map_concat_map, map_map, <- flat_map_concat_map. Qed.
Lemma map_flat_map : forall A B C (f : B -> C) (g : A -> list B) l, map f (flat_map g l) = flat_map (fun x => map f (g x)) l.
Proof. intros. rewrite !flat_map_concat_map, concat_map, map_map. reflexivity. Qed.
Lemma flat_map_flat_map : forall A B C (f : B -> list C) (g : A -> list B) l,
  flat_map f (flat_map g l) = flat_map (fun x => flat_map f (g x)) l.
Proof.
  induction l; cbn [flat_map]; [reflexivity|]. now rewrite flat_map_app, IHl.
Qed.
Lemma flat_map_ext_in : forall A B (f g : A -> list B) l, (forall x, In x l -> f x = g x) -> flat_map f l = flat_map g l.
Proof.
  induction l; intros H; cbn [flat_map]; [reflexivity|].
  rewrite H by now left. rewrite IHl; [reflexivity|]. intros. apply H. now right.
Qed.
Lemma flat_map_nil : forall A B l, flat_map (fun _ : A => @nil B) l = [].
Proof. induction l; cbn [flat_map app]; auto. Qed.
Lemma flat_map_single : forall A B (f : A -> B) l, flat_map (fun x => [f x]) l = map f l.
Proof. induction l; cbn [flat_map map app]; [reflexivity|]. now rewrite IHl. Qed.

(** ** the order: the same list, or (contiguous slices) the same up to the order *)
Definition R {A} (skip : bool) (l1 l2 : list A) : Prop := if skip then Permutation l1 l2 else l1 = l2.
Lemma R_refl : forall A s (l : list A), R s l l.
Proof. intros. destruct s; cbn [R]; auto. Qed.
Lemma R_eq : forall A s (l l' : list A), l = l' -> R s l l'.
Proof. intros. subst. apply R_refl. Qed.
Lemma R_trans : forall A s (a b c : list A), R s a b -> R s b c -> R s a c.
Proof. intros. destruct s; cbn [R] in *; [eapply Permutation_trans; eassumption|congruence]. Qed.
Lemma R_sym : forall A s (a b : list A), R s a b -> R s b a.
Proof. intros. destruct s; cbn [R] in *; [now apply Permutation_sym|congruence]. Qed.
Lemma R_app : forall A s (a b c d : list A), R s a b -> R s c d -> R s (a ++ c) (b ++ d).
Proof. intros. destruct s; cbn [R] in *; [now apply Permutation_app|congruence]. Qed.
Lemma R_flat_map : forall A B s (f g : A -> list B) l, (forall x, In x l -> R s (f x) (g x)) -> R s (flat_map f l) (flat_map g l).
Proof.
  induction l; intros H; cbn [flat_map]; [apply R_refl|].
  apply R_app; [apply H; now left|]. apply IHl. intros. apply H. now right.
Qed.
Lemma R_map : forall A B s (f : A -> B) l l', R s l l' -> R s (map f l) (map f l').
Proof. intros. destruct s; cbn [R] in *; [now apply Permutation_map|congruence]. Qed.
Lemma flat_map_perm_app : forall A B (f g : A -> list B) l,
  Permutation (flat_map (fun x => f x ++ g x) l) (flat_map f l ++ flat_map g l).
Proof.
  induction l; cbn [flat_map]; [constructor|].
  rewrite <- !app_assoc. apply Permutation_app_head.
  etransitivity; [apply Permutation_app_head, IHl|]. rewrite !app_assoc.
  apply Permutation_app_tail. apply Permutation_app_comm.
Qed.
Lemma flat_map_swap : forall A B C (f : A -> B -> list C) l m,
  Permutation (flat_map (fun x => flat_map (fun y => f x y) m) l) (flat_map (fun y => flat_map (fun x => f x y) l) m).
Proof.
  induction l; intros; cbn [flat_map].
  - rewrite flat_map_nil. constructor.
  - etransitivity; [apply Permutation_app_head, IHl|]. symmetry. apply flat_map_perm_app.
Qed.

(** ** vectors of pointers and offsets *)
Fixpoint vadd (a b : list (option Z)) : list (option Z) :=
  match a, b with x :: a', y :: b' => oadd x y :: vadd a' b' | _, _ => [] end.
Definition scale (k : Z) (s : list Z) : list (option Z) := map (fun x => Some (k * x)) s.

Lemma vadd_length : forall a b, length (vadd a b) = Nat.min (length a) (length b).
Proof. induction a; destruct b; cbn [vadd length Nat.min]; auto. Qed.
Lemma vadd_comm : forall a b, vadd a b = vadd b a.
Proof. induction a; destruct b; cbn [vadd]; auto. rewrite oadd_comm. now rewrite IHa. Qed.
Lemma vadd_assoc : forall a b c, vadd a (vadd b c) = vadd (vadd a b) c.
Proof. induction a; destruct b, c; cbn [vadd]; auto. now rewrite oadd_assoc, IHa. Qed.
Lemma vadd_swap : forall a b c, vadd (vadd a b) c = vadd (vadd a c) b.
Proof. intros. rewrite <- !vadd_assoc. now rewrite (vadd_comm b c). Qed.
Lemma scale_length : forall k s, length (scale k s) = length s.
Proof. intros. apply map_length. Qed.
Lemma scale_0 : forall v s, (length v <= length s)%nat -> vadd v (scale 0 s) = v.
Proof.
  unfold scale. induction v; intros [|y s] H; cbn [map vadd length] in *; auto; [lia|].
  rewrite IHv by lia. destruct a; cbn [oadd]; do 2 f_equal. lia.
Qed.
Lemma scale_add : forall v j k s, vadd (vadd v (scale j s)) (scale k s) = vadd v (scale (j + k) s).
Proof.
  unfold scale. induction v; intros j k [|y s]; cbn [map vadd]; auto.
  rewrite IHv. destruct a; cbn [oadd]; do 2 f_equal. lia.
Qed.
Lemma increment_scale : forall v s, length v = length s -> increment_bases v s = vadd v (scale 1 s).
Proof.
  unfold scale. induction v; intros [|y s] H; cbn [increment_bases map vadd length] in *; auto; try lia.
  rewrite IHv by lia. destruct a; cbn [oadd offset_bytes]; do 2 f_equal. lia.
Qed.

Lemma linear_loop_flat : forall A n v s (f : list ptr -> list A), length v = length s ->
  linear_loop n v s f = flat_map (fun k => f (vadd v (scale k s))) (run_from 0 n).
Proof.
  unfold ptr. intros A n v s f. revert v. induction n; intros v H; cbn [linear_loop run_from flat_map]; [reflexivity|].
  rewrite scale_0 by lia. f_equal.
  destruct n as [|n]; [reflexivity|].
  rewrite IHn.
  - rewrite run_from_shift, flat_map_map. apply flat_map_ext. intros k.
    rewrite increment_scale by assumption. rewrite scale_add. do 3 f_equal. lia.
  - rewrite increment_scale by assumption. rewrite vadd_length, scale_length. lia.
Qed.
Lemma call_impl_linear_flat : forall A e v s (f : list ptr -> list A), length v = length s -> 1 <= e ->
  call_impl_linear e v s f = flat_map (fun k => f (vadd v (scale k s))) (zseq e).
Proof.
  unfold ptr. intros. unfold call_impl_linear. rewrite linear_loop_flat by assumption.
  now replace (Z.max 1 e) with e by lia.
Qed.

(** ** one nonlinear loop *)
Definition shifts (ds : list dim) (i : Z) : list (option Z) := map (fun d => place d i) ds.
(** within a block of [f] indices, the offset is linear *)
Definition linear_within (f : Z) (d : dim) : Prop :=
  d_stride d = 0 \/ d_fold d = unfolded \/ (0 < f /\ 0 < d_fold d /\ (f | d_fold d)).
Definition one_block (f i j : Z) : Prop := f <= 0 \/ j / f = i / f.

Lemma block_mod : forall f g i j, 0 < f -> 0 < g -> (f | g) -> j / f = i / f -> j mod g - i mod g = j - i.
Proof.
  intros f g i j Hf Hg [q Hq] H.
  assert (Hq' : 0 < q) by nia.
  assert (E : j / g = i / g).
  { subst g. rewrite (Z.mul_comm q f). rewrite <- !Z.div_div by lia. now rewrite H. }
  pose proof (Z.div_mod j g). pose proof (Z.div_mod i g). rewrite E in *. lia.
Qed.

Lemma d_offset_linear : forall f d i j, linear_within f d -> one_block f i j ->
  d_offset d j = d_offset d i + (j - i) * d_stride d.
Proof.
  intros f d i j H B. unfold d_offset.
  destruct (d_stride d =? 0) eqn:E0; cbn [orb]; [lia|].
  destruct (d_fold d =? unfolded) eqn:E1; [lia|].
  destruct H as [H|[H|(H1 & H2 & H3)]]; [lia|lia|].
  destruct B as [B|B]; [lia|].
  pose proof (block_mod f (d_fold d) i j H1 H2 H3 B). nia.
Qed.

Lemma place_in : forall d i, d_min d <= i <= d_max d -> place d i = Some (d_offset d i).
Proof.
  intros. rewrite d_contains_place. unfold d_contains, d_contains2.
  replace (d_min d <=? i) with true by lia. replace (i <=? d_max d) with true by lia.
  now rewrite orb_true_r.
Qed.

Lemma chunk_bases_ok : forall f ds bases i max bi m,
  length bases = length ds -> Forall (linear_within f) ds -> i <= max ->
  (forall j, i <= j <= max -> one_block f i j) ->
  chunk_bases bases ds i max = (bi, m) ->
  i <= m <= max /\ length bi = length bases /\
  (forall j, i <= j <= m -> vadd bi (scale (j - i) (map d_stride ds)) = vadd bases (shifts ds j)).
Proof.
  intros f ds. unfold ptr. induction ds as [|d ds IH]; intros [|p bases] i max bi m HL HF Hi HB H;
    cbn [length] in HL; try discriminate.
  { cbn [chunk_bases] in H. inversion H. subst. split; [lia|]. split; reflexivity. }
  inversion HF as [|? ? Hd HF']. subst.
  assert (HL' : length bases = length ds) by lia.
  destruct p as [a|]; cbn [chunk_bases] in H.
  - destruct (if d_stride d =? 0 then _ else _) as [p max'] eqn:E.
    destruct (chunk_bases bases ds i max') as [r m'] eqn:EC. inversion H. subst bi m'. clear H.
    assert (Q : i <= max' <= max /\ forall j, i <= j <= max' ->
              oadd p (Some ((j - i) * d_stride d)) = oadd (Some a) (place d j)).
    { destruct (d_stride d =? 0) eqn:E0.
      - inversion E. subst. split; [lia|]. intros j Hj. unfold place. rewrite E0. cbn [oadd]. f_equal. lia.
      - destruct (d_contains d i) eqn:Ec.
        + inversion E. subst. unfold d_contains, d_contains2 in Ec. rewrite E0 in Ec. cbn [orb] in Ec.
          split; [lia|]. intros j Hj. rewrite place_in by lia. cbn [oadd]. f_equal.
          rewrite (d_offset_linear f d i j Hd); [lia|]. apply HB. lia.
        + inversion E. subst. unfold d_contains, d_contains2 in Ec. rewrite E0 in Ec. cbn [orb] in Ec.
          destruct (i <? d_min d) eqn:El; (split; [lia|]); intros j Hj; unfold place; rewrite E0;
            replace ((d_min d <=? j) && (j <=? d_max d)) with false by lia; reflexivity. }
    destruct Q as [Q1 Q2].
    apply IH in EC; [|assumption|assumption|lia|intros; apply HB; lia].
    destruct EC as (C1 & C2 & C3). split; [lia|]. split; [cbn [length]; lia|].
    intros j Hj. cbn [map scale shifts vadd]. unfold scale, shifts in C3. rewrite <- C3 by lia.
    unfold scale. f_equal. apply Q2. lia.
  - destruct (chunk_bases bases ds i max) as [r m'] eqn:EC. inversion H. subst bi m'. clear H.
    apply IH in EC; [|assumption|assumption|lia|intros; apply HB; lia].
    destruct EC as (C1 & C2 & C3). split; [lia|]. split; [cbn [length]; lia|].
    intros j Hj. cbn [map scale shifts vadd]. unfold scale, shifts in C3. rewrite <- C3 by lia. reflexivity.
Qed.

Section Nonlinear.
Context {A : Type} (s : bool) (f : Z) (d0 : dim) (ds : list dim) (c : bool) (p0 : ptr) (ps : list ptr).
Context (body : list ptr -> Z -> Z -> list A) (G : list ptr -> list A).
Hypothesis HL : length ps = length ds.
Hypothesis HF : Forall (linear_within f) (d0 :: ds).
Hypothesis Hbody : forall x n, 1 <= n -> length x = length (d0 :: ds) ->
  R s (body (vadd (p0 :: ps) x) (if c then 1 else n) (if c then n else 1))
      (flat_map (fun k => G (vadd (vadd (p0 :: ps) x) (scale k (map d_stride (d0 :: ds))))) (zseq n)).

Lemma run_one_fold_ok : forall fuel i max, (size i max <= fuel)%nat ->
  d_min d0 <= i -> max <= d_max d0 -> (forall j, i <= j <= max -> one_block f i j) ->
  R s (run_one_fold fuel d0 ds c p0 ps i max body)
      (flat_map (fun j => G (vadd (p0 :: ps) (shifts (d0 :: ds) j))) (range i max)).
Proof.
  unfold ptr in *.
  induction fuel; intros i max Hs Hlo Hhi HB; unfold size in Hs; cbn [run_one_fold].
  { rewrite range_empty by lia. apply R_refl. }
  destruct (i <=? max) eqn:Ei; [|rewrite range_empty by lia; apply R_refl].
  destruct (chunk_bases ps ds i max) as [bi m] eqn:EC.
  inversion HF as [|? ? Hd HF']. subst.
  apply (chunk_bases_ok f) in EC; [|assumption|assumption|lia|assumption].
  destruct EC as (C1 & C2 & C3).
  assert (HJ : forall j, i <= j <= m ->
     vadd (offset_bytes p0 (d_offset d0 i) :: bi) (scale (j - i) (map d_stride (d0 :: ds))) =
     vadd (p0 :: ps) (shifts (d0 :: ds) j)).
  { intros j Hj. cbn [map scale shifts vadd]. unfold scale, shifts in C3. rewrite <- C3 by lia. unfold scale. f_equal.
    rewrite place_in by lia. rewrite (d_offset_linear f d0 i j Hd) by (apply HB; lia).
    destruct p0; cbn [offset_bytes oadd]; [|reflexivity]. f_equal. lia. }
  assert (Hbi : offset_bytes p0 (d_offset d0 i) :: bi = vadd (p0 :: ps) (shifts (d0 :: ds) i)).
  { rewrite <- (HJ i) by lia. rewrite Z.sub_diag. symmetry. apply scale_0.
    cbn [length]. rewrite map_length. cbn [length]. unfold ptr in *. lia. }
  rewrite (range_split i m max) by lia. rewrite flat_map_app.
  apply R_app.
  - rewrite range_zseq, flat_map_map. rewrite Hbi.
    eapply R_trans; [apply Hbody; [lia|]|].
    + unfold shifts. now rewrite map_length.
    + apply R_eq. apply flat_map_ext_in. intros k Hk. apply in_zseq in Hk. f_equal.
      rewrite <- Hbi. rewrite <- HJ by lia. do 2 f_equal. lia.
  - apply IHfuel; [unfold size; lia|lia|lia|].
    intros j Hj. destruct (HB j) as [?|E1]; [lia|now left|]. destruct (HB (m + 1)) as [?|E2]; [lia|now left|].
    right. lia.
Qed.

Lemma fold_loop_ok : forall fuel i max, (size i max <= fuel)%nat -> 0 < f -> (f | i) ->
  d_min d0 <= i -> max <= d_max d0 ->
  R s (fold_loop fuel f i max (fun a b => run_one_fold (size a b) d0 ds c p0 ps a b body))
      (flat_map (fun j => G (vadd (p0 :: ps) (shifts (d0 :: ds) j))) (range i max)).
Proof.
  induction fuel; intros i max Hs Hf Hi Hlo Hhi; unfold size in Hs; cbn [fold_loop].
  { rewrite range_empty by lia. apply R_refl. }
  destruct (i <=? max) eqn:Ei; [|rewrite range_empty by lia; apply R_refl].
  rewrite (range_split i (Z.min (i + f - 1) max) max) by lia. rewrite flat_map_app.
  apply R_app.
  - apply run_one_fold_ok; [lia|lia|lia|].
    intros j Hj. right. destruct Hi as [q Hq]. subst i. rewrite Z.div_mul by lia.
    symmetry. apply Z.div_unique with (r := j - q * f); lia.
  - destruct (Z_le_gt_dec (i + f - 1) max).
    + rewrite Z.min_l by lia. replace (i + f - 1 + 1) with (i + f) by lia.
      apply IHfuel; [unfold size; lia|lia| |lia|lia]. apply Z.divide_add_r; [assumption|apply Z.divide_refl].
    + rewrite Z.min_r by lia. rewrite range_empty by lia. cbn [flat_map].
      destruct fuel; cbn [fold_loop]; [apply R_refl|]. replace (i + f <=? max) with false by lia. apply R_refl.
Qed.

Lemma nonlinear_loop_ok :
  R s (nonlinear_loop f (d0 :: ds) c (p0 :: ps) body)
      (flat_map (fun j => G (vadd (p0 :: ps) (shifts (d0 :: ds) j))) (range (d_min d0) (d_max d0))).
Proof.
  cbn [nonlinear_loop]. destruct (f <=? 0) eqn:Ef.
  - apply run_one_fold_ok; [lia|lia|lia|]. intros. left. lia.
  - set (lo := d_min d0). set (hi := d_max d0). set (first := align_up lo f).
    assert (HA : lo <= first < lo + f /\ (f | first)).
    { unfold first, align_up. split; [|eexists; reflexivity].
      pose proof (Z.div_mod (lo + f - 1) f). pose proof (Z.mod_pos_bound (lo + f - 1) f). nia. }
    destruct HA as [HA1 HA2].
    destruct (Z_le_gt_dec lo hi).
    + rewrite (range_split lo (Z.min (first - 1) hi) hi) by lia. rewrite flat_map_app.
      apply R_app.
      * destruct (lo =? first) eqn:E; cbn [negb].
        { rewrite range_empty by lia. apply R_refl. }
        apply run_one_fold_ok; [lia|lia|lia|]. intros j Hj. right.
        destruct HA2 as [q Hq].
        assert (E1 : j / f = q - 1). { symmetry. apply Z.div_unique with (r := j - (q - 1) * f); lia. }
        assert (E2 : lo / f = q - 1). { symmetry. apply Z.div_unique with (r := lo - (q - 1) * f); lia. }
        congruence.
      * destruct (Z_le_gt_dec first hi).
        { rewrite Z.min_l by lia. replace (first - 1 + 1) with first by lia.
          apply fold_loop_ok; [lia|lia|assumption|lia|lia]. }
        { rewrite (range_empty _ hi) by lia. cbn [flat_map]. unfold size.
          replace (Z.to_nat (hi - first + 1)) with O by lia. apply R_refl. }
    + rewrite range_empty by lia. cbn [flat_map]. apply R_eq.
      replace (Z.min (first - 1) hi) with hi by lia.
      unfold size. replace (Z.to_nat (hi - first + 1)) with O by lia. replace (Z.to_nat (hi - lo + 1)) with O by lia.
      cbn [fold_loop run_one_fold]. now destruct (negb (lo =? first)).
Qed.
End Nonlinear.

(** ** a whole plan *)
Lemma run_one_fold_flat : forall A B (h : A -> list B) fuel d0 ds c p0 ps i max body,
  flat_map h (run_one_fold fuel d0 ds c p0 ps i max body) =
  run_one_fold fuel d0 ds c p0 ps i max (fun b e n => flat_map h (body b e n)).
Proof.
  induction fuel; intros; cbn [run_one_fold]; [reflexivity|].
  destruct (i <=? max); [|reflexivity]. destruct (chunk_bases ps ds i max).
  now rewrite flat_map_app, IHfuel.
Qed.
Lemma fold_loop_flat : forall A B (h : A -> list B) fuel f i max one,
  flat_map h (fold_loop fuel f i max one) = fold_loop fuel f i max (fun a b => flat_map h (one a b)).
Proof.
  induction fuel; intros; cbn [fold_loop]; [reflexivity|].
  destruct (i <=? max); [|reflexivity]. now rewrite flat_map_app, IHfuel.
Qed.
Lemma fold_loop_ext : forall A fuel f i max (one one' : Z -> Z -> list A), (forall a b, one a b = one' a b) ->
  fold_loop fuel f i max one = fold_loop fuel f i max one'.
Proof.
  intros A fuel f i max one one' H. revert i.
  induction fuel; intros; cbn [fold_loop]; [reflexivity|]. now rewrite H, IHfuel.
Qed.
Lemma nonlinear_loop_flat : forall A B (h : A -> list B) f ds c v body,
  flat_map h (nonlinear_loop f ds c v body) = nonlinear_loop f ds c v (fun b e n => flat_map h (body b e n)).
Proof.
  intros. destruct ds as [|d0 ds]; [reflexivity|]. destruct v as [|p0 ps]; [reflexivity|]. cbn [nonlinear_loop].
  destruct (f <=? 0); [apply run_one_fold_flat|].
  rewrite flat_map_app. f_equal.
  - destruct (negb _); [apply run_one_fold_flat|reflexivity].
  - rewrite fold_loop_flat. apply fold_loop_ext. intros. apply run_one_fold_flat.
Qed.
Lemma nonlinear_loop_ext : forall A f ds c v (body body' : list ptr -> Z -> Z -> list A),
  (forall b e n, body b e n = body' b e n) -> nonlinear_loop f ds c v body = nonlinear_loop f ds c v body'.
Proof.
  intros A f ds c v body body' H. destruct ds as [|d0 ds]; [reflexivity|]. destruct v as [|p0 ps]; [reflexivity|]. cbn [nonlinear_loop].
  assert (G : forall fuel a b, run_one_fold fuel d0 ds c p0 ps a b body = run_one_fold fuel d0 ds c p0 ps a b body').
  { induction fuel; intros; cbn [run_one_fold]; [reflexivity|].
    destruct (a <=? b); [|reflexivity]. destruct (chunk_bases ps ds a b). now rewrite H, IHfuel. }
  rewrite !G. destruct (f <=? 0); [reflexivity|]. f_equal.
  apply fold_loop_ext. intros. apply G.
Qed.

Fixpoint respects (nulls : list bool) (v : list ptr) : Prop :=
  match nulls, v with
  | [], [] => True
  | n :: nulls', p :: v' => (n = true -> p = None) /\ respects nulls' v'
  | _, _ => False
  end.
Fixpoint same_on {A} (nulls : list bool) (x y : list A) : Prop :=
  match nulls, x, y with
  | [], [], [] => True
  | n :: nulls', a :: x', b :: y' => (n = false -> a = b) /\ same_on nulls' x' y'
  | _, _, _ => False
  end.
Lemma respects_length : forall nulls v, respects nulls v -> length v = length nulls.
Proof. induction nulls; destruct v; cbn [respects length]; intros H; try tauto. destruct H. now rewrite IHnulls. Qed.
Lemma same_on_length : forall A nulls (x y : list A), same_on nulls x y -> length x = length nulls /\ length y = length nulls.
Proof.
  induction nulls; destruct x, y; cbn [same_on length]; intros H; try tauto. destruct H as [_ H].
  apply IHnulls in H. lia.
Qed.
Lemma respects_vadd : forall nulls v x, respects nulls v -> length x = length nulls -> respects nulls (vadd v x).
Proof.
  induction nulls; destruct v, x; cbn [respects length vadd]; intros H L; try tauto; try discriminate.
  destruct H. split; [intros E; now rewrite (H E)|]. apply IHnulls; auto.
Qed.
Lemma same_on_vadd : forall nulls v x y, respects nulls v -> same_on nulls x y -> vadd v x = vadd v y.
Proof.
  unfold ptr. induction nulls; destruct v, x, y; cbn [respects same_on vadd]; intros H S; try tauto.
  destruct H as [H1 H2], S as [S1 S2]. f_equal; [|now apply IHnulls].
  destruct a; [now rewrite (H1 eq_refl)|now rewrite (S1 eq_refl)].
Qed.
Lemma same_on_scale : forall nulls k x y, same_on nulls x y -> same_on nulls (scale k x) (scale k y).
Proof.
  unfold scale. induction nulls; destruct x, y; cbn [same_on map]; intros H; try tauto.
  destruct H. split; [|now apply IHnulls]. intros. now rewrite H.
Qed.

Section Plan.
Context (skip : bool) (es : list Z) (nulls : list bool).
Hypothesis Hes : length es = length nulls.

(** the elements of the contiguous runs that a list of calls makes *)
Definition expand (q : Z * list ptr) : list (list ptr) := map (fun k => vadd (snd q) (scale k es)) (zseq (fst q)).
Definition elements (plan : list loop) (v : list ptr) (se : Z) : list (list ptr) :=
  flat_map expand (flat_map unroll (run_plan plan v se)).
(** what a plan should do *)
Fixpoint ideal (plan : list loop) (v : list ptr) : list (list ptr) :=
  match plan with
  | [] => [v]
  | Linear e s :: rest => flat_map (fun k => ideal rest (vadd v (scale k s))) (zseq e)
  | Nonlinear f ds c :: rest =>
      match ds with
      | [] => []
      | d0 :: _ => flat_map (fun i => ideal rest (vadd v (shifts ds i))) (range (d_min d0) (d_max d0))
      end
  end.
Definition loop_ok (l : loop) : Prop :=
  match l with
  | Linear e s => 1 <= e /\ length s = length nulls
  | Nonlinear f ds c => length ds = length nulls /\ Forall (linear_within f) ds /\
                        (c = true -> same_on nulls (map d_stride ds) es) /\ (skip = false -> c = false)
  end.
Fixpoint contigs (plan : list loop) : nat :=
  match plan with
  | [] => O
  | Nonlinear _ _ true :: rest => S (contigs rest)
  | _ :: rest => contigs rest
  end.

Lemma elements_linear : forall e s rest v se, 1 <= e -> length v = length s ->
  elements (Linear e s :: rest) v se = flat_map (fun k => elements rest (vadd v (scale k s)) se) (zseq e).
Proof.
  intros e s rest v se He HL. unfold elements. cbn [run_plan]. destruct rest as [|l rest].
  - cbn [flat_map]. unfold unroll at 1. cbn [c_extent c_bases c_strides c_slice_extent]. rewrite app_nil_r.
    rewrite call_impl_linear_flat by assumption. rewrite flat_map_flat_map. apply flat_map_ext. intros k.
    cbn [run_plan flat_map app]. unfold unroll. reflexivity.
  - rewrite call_impl_linear_flat by assumption. rewrite !flat_map_flat_map. apply flat_map_ext. intros k.
    rewrite flat_map_flat_map. reflexivity.
Qed.

Lemma chunk_elements : forall rest b e s m, 1 <= e -> length b = length s ->
  flat_map expand (flat_map unroll
     (match rest with
      | [] => [Call m b e s]
      | _ => call_impl_linear e b s (fun b' => run_plan rest b' m)
      end)) = flat_map (fun k => elements rest (vadd b (scale k s)) m) (zseq e).
Proof. intros. rewrite <- elements_linear by assumption. unfold elements. cbn [run_plan]. reflexivity. Qed.

Lemma zseq_1 : zseq 1 = [0].
Proof. reflexivity. Qed.

Lemma swap_slice : forall A B (f : A -> Z -> list B) l se, (skip = false -> se = 1) ->
  R skip (flat_map (fun x => flat_map (fun k => f x k) (zseq se)) l) (flat_map (fun k => flat_map (fun x => f x k) l) (zseq se)).
Proof.
  intros A B f l se H. destruct skip; cbn [R].
  - apply flat_map_swap.
  - rewrite H by reflexivity. rewrite zseq_1. cbn [flat_map]. rewrite app_nil_r.
    apply flat_map_ext. intros. apply app_nil_r.
Qed.

Lemma elements_ideal : forall plan v se, respects nulls v -> Forall loop_ok plan -> 1 <= se ->
  (skip = false -> se = 1) -> (contigs plan = O \/ (contigs plan = 1%nat /\ se = 1)) ->
  R skip (elements plan v se) (flat_map (fun k => ideal plan (vadd v (scale k es))) (zseq se)).
Proof.
  unfold ptr. induction plan as [|l plan IH]; intros v se HR HP Hse Hsk HC.
  - apply R_eq. unfold elements. cbn [run_plan flat_map]. rewrite app_nil_r.
    change (unroll (Call se v 1 [])) with [(se, v)]. cbn [app flat_map].
    unfold expand. cbn [fst snd]. rewrite app_nil_r. cbn [ideal]. symmetry. apply flat_map_single.
  - inversion HP as [|? ? Hl HP']. subst. pose proof (respects_length _ _ HR) as HL.
    destruct l as [e s|f ds c]; cbn [loop_ok] in Hl.
    + destruct Hl as [He Hs]. rewrite elements_linear by (unfold ptr in *; congruence).
      cbn [contigs] in HC.
      eapply R_trans.
      { apply R_flat_map. intros k _. apply IH; try assumption. apply respects_vadd; [assumption|].
        now rewrite scale_length. }
      eapply R_trans; [apply (swap_slice _ _ (fun x k => ideal plan (vadd (vadd v (scale x s)) (scale k es)))); assumption|].
      apply R_eq. apply flat_map_ext. intros k. cbn [ideal]. apply flat_map_ext. intros m. now rewrite vadd_swap.
    + destruct Hl as (Hd & HF & Hc & Hsc). unfold elements. cbn [run_plan].
      destruct ds as [|d0 ds].
      { cbn [nonlinear_loop flat_map]. cbn [ideal]. rewrite flat_map_nil. apply R_refl. }
      destruct v as [|p0 ps]; [cbn [length] in *; unfold ptr in *; lia|].
      rewrite !nonlinear_loop_flat.
      eapply R_trans.
      { apply (nonlinear_loop_ok skip f d0 ds c p0 ps _
                 (fun w => flat_map (fun k => ideal plan (vadd w (scale k es))) (zseq se))).
        - cbn [length] in *. unfold ptr in *. lia.
        - assumption.
        - intros x n Hn Hx.
          rewrite chunk_elements; [|destruct c; lia|rewrite vadd_length, map_length; unfold ptr in *; lia].
          assert (HRx : respects nulls (vadd (p0 :: ps) x)) by (apply respects_vadd; [assumption|congruence]).
          destruct c.
          + specialize (Hc eq_refl).
            assert (Hse1 : se = 1 /\ contigs plan = O) by (cbn [contigs] in HC; lia). destruct Hse1 as [-> HC0].
            rewrite zseq_1. cbn [flat_map]. rewrite app_nil_r.
            rewrite scale_0 by (rewrite vadd_length, map_length; unfold ptr in *; lia).
            rewrite Z.mul_1_r.
            eapply R_trans.
            { apply IH; [assumption|assumption|lia| |now left]. intros E. discriminate (Hsc E). }
            apply R_eq. apply flat_map_ext. intros k. rewrite app_nil_r. f_equal.
            rewrite scale_0 by (rewrite !vadd_length; unfold ptr in *; lia).
            symmetry. apply same_on_vadd with (nulls := nulls); [assumption|].
            now apply same_on_scale.
          + rewrite Z.mul_1_l. apply R_flat_map. intros k _. apply IH; try assumption.
            apply respects_vadd; [assumption|]. rewrite scale_length, map_length. assumption. }
      eapply R_trans; [apply (swap_slice _ _ (fun j k => ideal plan (vadd (vadd (p0 :: ps) (shifts (d0 :: ds) j)) (scale k es)))); assumption|].
      apply R_eq. apply flat_map_ext. intros k. cbn [ideal]. apply flat_map_ext. intros m. now rewrite vadd_swap.
Qed.

(** plans only add *)
Lemma ideal_add : forall plan v x, ideal plan (vadd v x) = map (fun w => vadd w x) (ideal plan v).
Proof.
  unfold ptr. induction plan as [|[e s|f ds c] plan IH]; intros; cbn [ideal map].
  - reflexivity.
  - rewrite map_flat_map. apply flat_map_ext. intros. rewrite <- IH. now rewrite vadd_swap.
  - destruct ds as [|d0 ds]; [reflexivity|]. rewrite map_flat_map. apply flat_map_ext. intros. rewrite <- IH. now rewrite vadd_swap.
Qed.
End Plan.
