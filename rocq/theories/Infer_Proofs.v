(** Proofs about bounds inference. *)
From Coq Require Import ZArith List Bool Lia.
From Verif Require Import Arith_Model Arith_Proofs Buf_Model Expr_Model Expr_Spec Expr_Proofs Rewrite_Model Interval_Model Interval_Spec Interval_Props
  Deps_Spec SubstMean_Proofs BoundsOf_Spec Simplifier_Model SimplifierGuard_Model SimplifierApi_Proofs Infer_Model Infer_Spec.
Import ListNotations.
Open Scope Z_scope.

Lemma bind_val {A B} (x : res A) (k : A -> res B) y : bind x k = Val y -> exists a, x = Val a /\ k a = Val y.
Proof. intros H. apply bind_inv in H as (a & H1 & H2). eauto. Qed.

(** ** The dimensions that are not sliced *)
Lemma skip_spec slices : forall s od d, (s <= od)%nat ->
  (forall k, (k < s)%nat -> True) ->
  skip slices s od = d -> (od <= d)%nat /\ defined (nth (d - s) slices EUndef) = false /\
  (length (filter (fun j => negb (defined (nth j slices EUndef))) (seq 0 (d - s))) + s = od)%nat.
Proof.
  induction slices as [|a l IH]; intros s od d Hs _ E.
  - cbn [skip] in E. subst d. split; [lia|]. split; [destruct (od - s)%nat; reflexivity|].
    assert (Q : forall n k, filter (fun j => negb (defined (nth j (@nil expr) EUndef))) (seq k n) = seq k n).
    { induction n as [|n IHn]; intros k; [reflexivity|]. cbn [seq filter]. destruct k; cbn [nth defined negb]; rewrite IHn; reflexivity. }
    rewrite Q, seq_length. lia.
  - cbn [skip] in E. destruct (Nat.leb_spec s od); [|lia].
    assert (Sh : forall n k, filter (fun j => negb (defined (nth j (a :: l) EUndef))) (seq (S k) n) = map S (filter (fun j => negb (defined (nth j l EUndef))) (seq k n))).
    { induction n as [|n IHn]; intros k; [reflexivity|]. cbn [seq filter nth]. destruct (negb _); cbn [map]; rewrite IHn; reflexivity. }
    destruct (defined a) eqn:Da.
    + destruct (IH (S s) (S od) d ltac:(lia) ltac:(auto) E) as (H1 & H2 & H3). split; [lia|].
      assert (d - s = S (d - S s))%nat as -> by lia. split; [exact H2|]. cbn [seq filter nth]. rewrite Da. cbn [negb]. rewrite Sh, map_length. lia.
    + destruct (Nat.eq_dec s od) as [->|N].
      * assert (d = od) as ->.
        { destruct l as [|b l']; cbn [skip] in E; [auto|]. destruct (Nat.leb_spec (S od) od); [lia|auto]. }
        split; [lia|]. rewrite Nat.sub_diag. split; [exact Da|reflexivity].
      * destruct (IH (S s) od d ltac:(lia) ltac:(auto) E) as (H1 & H2 & H3). split; [lia|].
        assert (d - s = S (d - S s))%nat as -> by lia. split; [exact H2|]. cbn [seq filter nth]. rewrite Da. cbn [negb length]. rewrite Sh, map_length. lia.
Qed.
Lemma unsliced_spec slices d : nth_unsliced slices d (unsliced_dim slices d).
Proof.
  destruct (skip_spec slices 0 d (unsliced_dim slices d) ltac:(lia) ltac:(auto) eq_refl) as (_ & H2 & H3). rewrite Nat.sub_0_r in *. split; [exact H2|].
  unfold sliced. lia.
Qed.
Lemma filter_seq_mono f a b : (a < b)%nat -> f a = true -> (length (filter f (seq 0 a)) < length (filter f (seq 0 b)))%nat.
Proof.
  intros L F. replace b with (a + (b - a))%nat by lia. rewrite seq_app, filter_app, app_length. destruct (b - a)%nat eqn:E; [lia|]. cbn [seq filter Nat.add]. rewrite F. cbn [length]. lia.
Qed.
Lemma nth_unsliced_fun slices d k k' : nth_unsliced slices d k -> nth_unsliced slices d k' -> k = k'.
Proof.
  intros (A & B) (A' & B'). destruct (Nat.lt_trichotomy k k') as [L|[L|L]]; [|exact L|]; exfalso.
  - pose proof (filter_seq_mono (fun j => negb (sliced slices j)) k k' L ltac:(cbn beta; rewrite A; reflexivity)). lia.
  - pose proof (filter_seq_mono (fun j => negb (sliced slices j)) k' k L ltac:(cbn beta; rewrite A'; reflexivity)). lia.
Qed.

(** ** Induction on what is needed *)
Lemma needed_ind' W r fs outputs (Q : nat -> position -> Prop) :
  (forall s b p, In s outputs -> buffer_of W r s b -> inside b p -> Q s p) ->
  (forall f i x b q p, In f fs -> In i (f_inputs f) ->
     (forall v, dim_var f v -> exists o d k e, In o (f_outputs f) /\ nth_error (o_dims o) d = Some v /\
        nth_unsliced (in_slice i) d k /\ Q (o_sym o) e /\ x v = e k) ->
     accesses W r f i x q -> buffer_of W r (in_sym i) b -> located b q p -> Q (in_sym i) p) ->
  forall s p, needed W r fs outputs s p -> Q s p.
Proof.
  intros HO HI. fix IH 3. intros s p [s0 b p0 I B Ins|f i x b q p0 If Ii Hx A B L].
  - exact (HO s0 b p0 I B Ins).
  - apply (HI f i x b q p0 If Ii); [|exact A|exact B|exact L].
    intros v D. destruct (Hx v D) as (o & d & k & e & Io & Nd & U & N & E). exists o, d, k, e.
    split; [exact Io|]. split; [exact Nd|]. split; [exact U|]. split; [exact (IH _ _ N)|exact E].
Qed.

Section Proofs.
  Variable W : world.
  Variable r : env.

  Lemma dim_var_iff f v : is_dim_var f v = true <-> dim_var f v.
  Proof.
    unfold is_dim_var, dim_var. rewrite existsb_exists. split; intros (o & I & H); exists o; (split; [exact I|]).
    - apply existsb_exists in H as (y & J & E). apply Nat.eqb_eq in E as ->. exact J.
    - apply existsb_exists. exists v. split; [exact H|apply Nat.eqb_refl].
  Qed.
  Lemma with_dims_var f x v : dim_var f v -> with_dims r f x v = Fin (x v).
  Proof. intros D. apply dim_var_iff in D. unfold with_dims. rewrite D. reflexivity. Qed.
  Lemma with_dims_other f x s : ~ dim_var f s -> with_dims r f x s = r s.
  Proof. intros D. unfold with_dims. destruct (is_dim_var f s) eqn:E; [|reflexivity]. apply dim_var_iff in E. tauto. Qed.
  Lemma mean_with_dims f x e : (forall v, dim_var f v -> ~ free v e) -> meaning W (with_dims r f x) e = meaning W r e.
  Proof. intros N. apply meaning_free. intros y F. apply with_dims_other. intros D. exact (N y D F). Qed.

  Lemma buffer_fun s b b' : buffer_of W r s b -> buffer_of W r s b' -> b = b'.
  Proof. intros (p & R & B) (p' & R' & B'). congruence. Qed.
  Lemma buffer_with_dims f x s b : ~ dim_var f s -> buffer_of W r s b -> buffer_of W (with_dims r f x) s b.
  Proof. intros N (p & R & B). exists p. rewrite with_dims_other by exact N. auto. Qed.
  Lemma mean_min r' s b d : buffer_of W r' s b -> meaning W r' (buffer_min s (Z.of_nat d)) = Fin (d_min (dim_at b d)).
  Proof.
    intros (p & R & B). cbn [buffer_min meaning]. rewrite R, B. cbn [field_value]. unfold dim_int. destruct (Z.ltb_spec (Z.of_nat d) 0); [lia|].
    rewrite Nat2Z.id. reflexivity.
  Qed.
  Lemma mean_max r' s b d : buffer_of W r' s b -> meaning W r' (buffer_max s (Z.of_nat d)) = Fin (d_max (dim_at b d)).
  Proof.
    intros (p & R & B). cbn [buffer_max meaning]. rewrite R, B. cbn [field_value]. unfold dim_int. destruct (Z.ltb_spec (Z.of_nat d) 0); [lia|].
    rewrite Nat2Z.id. reflexivity.
  Qed.

  (** ** get_output_bounds *)
  (** an interval with defined ends of finite value *)
  Definition finite (r' : env) (i : interval) (lo hi : Z) : Prop :=
    defined (i_min i) = true /\ defined (i_max i) = true /\ meaning W r' (i_min i) = Fin lo /\ meaning W r' (i_max i) = Fin hi /\ i_point i = false.
  Lemma make_defined o a b : defined (make_bin o a b) = true.
  Proof. unfold make_bin. destruct (_ && _); reflexivity. Qed.
  Lemma union_finite r' a b la ha lb hb : finite r' a la ha -> finite r' b lb hb -> finite r' (i_union a b) (Z.min la lb) (Z.max ha hb).
  Proof.
    intros (A1 & A2 & A3 & A4 & _) (B1 & B2 & B3 & B4 & _). unfold finite, i_union. cbn [i_bounds i_min i_max i_point]. rewrite A1, B1, A2, B2. cbn [andb].
    unfold e_min, e_max. rewrite !make_defined, !make_mean, A3, B3, A4, B4. auto.
  Qed.
  Section Output.
    Variable r' : env.
    Variable slices : list expr.
    Variable bufs : nat -> buf.
    (** the interval of each variable has the bounds of all dimensions seen so far *)
    Definition seen_ok (m : bounds_map) (seen : nat -> nat -> nat -> Prop) : Prop := forall v,
      match m v with
      | None => forall s d, ~ seen s d v
      | Some i => exists lo hi, finite r' i lo hi /\ (forall s d, seen s d v -> lo <= d_min (dim_at (bufs s) (unsliced_dim slices d)) /\ d_max (dim_at (bufs s) (unsliced_dim slices d)) <= hi)
      end.
    Lemma add_dim_ok m seen s d v : seen_ok m seen -> buffer_of W r' s (bufs s) ->
      seen_ok (add_dim slices s m (d, v)) (fun s' d' v' => seen s' d' v' \/ (s' = s /\ d' = d /\ v' = v)).
    Proof.
      intros H B u. unfold add_dim, set_bounds. set (k := unsliced_dim slices d).
      assert (F : finite r' (bounds_of_dim s k) (d_min (dim_at (bufs s) k)) (d_max (dim_at (bufs s) k))).
      { unfold finite, bounds_of_dim. cbn [i_bounds i_min i_max i_point]. rewrite (mean_min r' s _ k B), (mean_max r' s _ k B). auto. }
      destruct (Nat.eqb_spec u v) as [->|N].
      - specialize (H v). destruct (m v) as [i|].
        + destruct H as (lo & hi & F' & H). do 2 eexists. split; [exact (union_finite _ _ _ _ _ _ _ F' F)|].
          intros s' d' [X|(-> & -> & _)]; [specialize (H _ _ X); lia|fold k; lia].
        + do 2 eexists. split; [exact F|]. intros s' d' [X|(-> & -> & _)]; [destruct (H _ _ X)|fold k; lia].
      - specialize (H u). destruct (m u) as [i|].
        + destruct H as (lo & hi & F' & H). exists lo, hi. split; [exact F'|]. intros s' d' [X|(_ & _ & X)]; [exact (H _ _ X)|congruence].
        + intros s' d' [X|(_ & _ & X)]; [exact (H _ _ X)|congruence].
    Qed.
    Lemma seen_ext m (s1 s2 : nat -> nat -> nat -> Prop) : (forall a b c, s2 a b c -> s1 a b c) -> seen_ok m s1 -> seen_ok m s2.
    Proof.
      intros E H v. specialize (H v). destruct (m v) as [i|].
      - destruct H as (lo & hi & F & H). exists lo, hi. split; [exact F|]. intros s d X. exact (H _ _ (E _ _ _ X)).
      - intros s d X. exact (H _ _ (E _ _ _ X)).
    Qed.
    Lemma add_dims_ok s (B : buffer_of W r' s (bufs s)) : forall l m seen, seen_ok m seen ->
      seen_ok (fold_left (add_dim slices s) l m) (fun s' d' v' => seen s' d' v' \/ (s' = s /\ In (d', v') l)).
    Proof.
      induction l as [|(d, v) l IH]; intros m seen H; cbn [fold_left].
      - revert H. apply seen_ext. intros a b c [X|(_ & [])]. exact X.
      - specialize (IH _ _ (add_dim_ok m seen s d v H B)). revert IH. apply seen_ext. intros a b c [X|(-> & [E|X])]; auto. injection E as <- <-. auto.
    Qed.
    Lemma add_outputs_ok : forall os m seen, (forall o, In o os -> buffer_of W r' (o_sym o) (bufs (o_sym o))) -> seen_ok m seen ->
      seen_ok (fold_left (add_output slices) os m) (fun s d v => seen s d v \/ exists o, In o os /\ o_sym o = s /\ In (d, v) (dims_of_output o)).
    Proof.
      induction os as [|o os IH]; intros m seen B H; cbn [fold_left].
      - revert H. apply seen_ext. intros a b c [X|(o & [] & _)]. exact X.
      - specialize (IH _ _ (fun o' I => B o' (or_intror I)) (add_dims_ok (o_sym o) (B o (or_introl eq_refl)) (dims_of_output o) m seen H)). revert IH. apply seen_ext.
        intros a b c [X|(o' & [<-|I] & E & X)]; [auto|auto|]. right. eauto.
    Qed.
  End Output.
  Lemma dims_of_output_in o d v : nth_error (o_dims o) d = Some v -> In (d, v) (dims_of_output o).
  Proof.
    unfold dims_of_output. intros H. assert (Q : forall l k n, nth_error l n = Some v -> In ((k + n)%nat, v) (combine (seq k (length l)) l)).
    { induction l as [|a l IH]; intros k [|n] E; cbn [nth_error] in E; try discriminate.
      - injection E as ->. rewrite Nat.add_0_r. left. reflexivity.
      - cbn [length seq combine]. right. specialize (IH (S k) n E). rewrite Nat.add_succ_comm in IH. exact IH. }
    exact (Q (o_dims o) 0%nat d H).
  Qed.

  (** ** The box of one input *)
  Lemma encloses_contains r' i v : encloses W r' i v -> contains W r' i v.
  Proof. intros (A & B). split; [destruct (meaning W r' (i_min i)); cbn in *; tauto|destruct (meaning W r' (i_max i)); cbn in *; tauto]. Qed.
  Lemma intersection_contains r' a b v : contains W r' a v -> contains W r' b v -> contains W r' (i_intersection a b) v.
  Proof.
    intros (A1 & A2) (B1 & B2). unfold contains, i_intersection. cbn [i_bounds i_min i_max]. unfold e_min, e_max. split.
    - destruct (defined (i_min a)), (defined (i_min b)); cbn [andb]; try assumption. rewrite make_mean. cbn [xbin].
      destruct (meaning W r' (i_min a)), (meaning W r' (i_min b)); cbn in *; try tauto; lia.
    - destruct (defined (i_max a)), (defined (i_max b)); cbn [andb]; try assumption. rewrite make_mean. cbn [xbin].
      destruct (meaning W r' (i_max a)), (meaning W r' (i_max b)); cbn in *; try tauto; lia.
  Qed.
  Section Box.
    Variable P : prims.
    Variable fuel : nat.
    Lemma input_dims_nth ob crops : forall l d box, input_dims P fuel ob crops d l = Val box ->
      length box = length l /\ forall n x, nth_error l n = Some x -> exists j, bounds_of_interval P ob (fun _ => None) fuel x = Val j /\
        nth_error box n = Some (match nth_error crops (d + n) with Some c => i_intersection j c | None => j end).
    Proof.
      induction l as [|x l IH]; intros d box H; cbn [input_dims] in H.
      - injection H as <-. split; [reflexivity|]. intros [|n] y E; discriminate E.
      - apply bind_val in H as (i & H1 & H). apply bind_val in H as (box' & H2 & H). injection H as <-. destruct (IH _ _ H2) as (L & N). split; [cbn [length]; lia|].
        intros [|n] y E; cbn [nth_error] in *.
        + injection E as <-. apply bind_val in H1 as (j & H1 & Q). injection Q as <-. exists j. split; [exact H1|]. rewrite Nat.add_0_r. reflexivity.
        + rewrite Nat.add_succ_r. exact (N n y E).
    Qed.
    Lemma input_bounds_length ob i box : compute_input_bounds P fuel ob i = Val box -> length box = in_rank i.
    Proof.
      intros H. apply bind_val in H as (l & H & Q). injection Q as <-. destruct (input_dims_nth _ _ _ _ _ H) as (L & _).
      rewrite app_length, repeat_length. pose proof (firstn_le_length (in_rank i) (in_bounds i)). lia.
    Qed.
    Lemma firstn_nth {A} n : forall (l : list A) d x, (d < n)%nat -> nth_error l d = Some x -> nth_error (firstn n l) d = Some x.
    Proof.
      induction n as [|n IH]; intros l d x Hd E; [lia|]. destruct l as [|a l]; [destruct d; discriminate E|]. destruct d as [|d]; [exact E|]. cbn [firstn nth_error] in *.
      apply IH; [lia|exact E].
    Qed.
    Lemma input_bounds_nth ob i box d x : compute_input_bounds P fuel ob i = Val box -> (d < in_rank i)%nat -> nth_error (in_bounds i) d = Some x ->
      exists j, bounds_of_interval P ob (fun _ => None) fuel x = Val j /\
        dim_of box d = match nth_error (in_crop i) d with Some c => i_intersection j c | None => j end.
    Proof.
      intros H Hd E. apply bind_val in H as (l & H & Q). injection Q as <-. destruct (input_dims_nth _ _ _ _ _ H) as (L & N).
      destruct (N d x (firstn_nth _ _ _ _ Hd E)) as (j & J1 & J2). exists j. split; [exact J1|]. unfold dim_of.
      rewrite app_nth1 by (apply nth_error_Some; congruence). cbn [Nat.add] in J2. apply nth_error_nth with (d := i_undef) in J2. exact J2.
    Qed.
    (** ** Boxes only grow *)
    Variable rank_ok : nat -> nat.
    Definition sized (m : box_map) : Prop := forall s b, m s = Some b -> length b = rank_ok s.
    Definition grows (m m' : box_map) : Prop := forall s b p, m s = Some b -> box_contains W r b p -> exists b', m' s = Some b' /\ box_contains W r b' p.
    Lemma grows_refl m : grows m m.
    Proof. intros s b p. eauto. Qed.
    Lemma grows_trans a b c : grows a b -> grows b c -> grows a c.
    Proof. intros A B s x p H C. destruct (A s x p H C) as (y & Y1 & Y2). exact (B s y p Y1 Y2). Qed.
    Lemma zip_box_length f : forall a b, (length b <= length a)%nat -> length (zip_box f a b) = length a.
    Proof. induction a as [|x a IH]; intros [|y b] L; cbn [zip_box length] in *; try lia. rewrite IH; lia. Qed.
    Lemma box_union_length a b : (length a <= length b)%nat -> length (box_union a b) = length b.
    Proof. intros L. unfold box_union. rewrite zip_box_length; unfold resize; rewrite app_length, repeat_length; lia. Qed.
    Lemma add_input_grows f m i m' : in_rank i = rank_ok (in_sym i) -> sized m -> add_input P fuel f m i = Val m' -> sized m' /\ grows m m' /\
      exists box, compute_input_bounds P fuel (get_output_bounds (f_outputs f) (in_slice i)) i = Val box /\
        exists b', m' (in_sym i) = Some b' /\ forall p, box_contains W r box p -> box_contains W r b' p.
    Proof.
      intros R Sz H. apply bind_val in H as (crop & H & Q). injection Q as <-. pose proof (input_bounds_length _ _ _ H) as L. split; [|split].
      - intros s b. unfold set_box. destruct (Nat.eqb_spec s (in_sym i)) as [->|N]; [|apply Sz]. intros E. injection E as <-.
        destruct (m (in_sym i)) as [b0|] eqn:E0; [rewrite box_union_length by (rewrite (Sz _ _ E0); lia)|]; lia.
      - intros s b p E C. unfold set_box. destruct (Nat.eqb_spec s (in_sym i)) as [->|N]; [|eauto]. rewrite E. eexists. split; [reflexivity|].
        apply C14_box_union_contains; [rewrite (Sz _ _ E); lia|auto].
      - exists crop. split; [exact H|]. unfold set_box. rewrite Nat.eqb_refl. eexists. split; [reflexivity|]. intros p C.
        destruct (m (in_sym i)) as [b0|] eqn:E; [|exact C]. apply C14_box_union_contains; [rewrite (Sz _ _ E); lia|auto].
    Qed.
    Lemma add_inputs_grows f : forall l m m', (forall i, In i l -> in_rank i = rank_ok (in_sym i)) -> sized m -> add_inputs P fuel f m l = Val m' -> sized m' /\ grows m m' /\
      forall i, In i l -> exists box, compute_input_bounds P fuel (get_output_bounds (f_outputs f) (in_slice i)) i = Val box /\
        forall p, box_contains W r box p -> exists b', m' (in_sym i) = Some b' /\ box_contains W r b' p.
    Proof.
      induction l as [|i l IH]; intros m m' R Sz H; cbn [add_inputs] in H.
      - injection H as <-. split; [exact Sz|]. split; [apply grows_refl|]. intros i [].
      - apply bind_val in H as (m1 & H1 & H2). destruct (add_input_grows f m i m1 (R i (or_introl eq_refl)) Sz H1) as (S1 & G1 & box & B1 & b' & B2 & B3).
        destruct (IH m1 m' (fun j J => R j (or_intror J)) S1 H2) as (S2 & G2 & K). split; [exact S2|]. split; [exact (grows_trans _ _ _ G1 G2)|].
        intros j [<-|J]; [|exact (K j J)]. exists box. split; [exact B1|]. intros p C. exact (G2 _ _ p B2 (B3 p C)).
    Qed.
    Lemma add_funcs_grows : forall l m m', (forall f i, In f l -> In i (f_inputs f) -> in_rank i = rank_ok (in_sym i)) -> sized m -> add_funcs P fuel m l = Val m' -> sized m' /\ grows m m' /\
      forall f i, In f l -> In i (f_inputs f) -> exists box, compute_input_bounds P fuel (get_output_bounds (f_outputs f) (in_slice i)) i = Val box /\
        forall p, box_contains W r box p -> exists b', m' (in_sym i) = Some b' /\ box_contains W r b' p.
    Proof.
      induction l as [|f l IH]; intros m m' R Sz H; cbn [add_funcs] in H.
      - injection H as <-. split; [exact Sz|]. split; [apply grows_refl|]. intros f i [].
      - apply bind_val in H as (m1 & H1 & H2). destruct (add_inputs_grows f _ m m1 (fun i => R f i (or_introl eq_refl)) Sz H1) as (S1 & G1 & K1).
        destruct (IH m1 m' (fun g j J => R g j (or_intror J)) S1 H2) as (S2 & G2 & K2). split; [exact S2|]. split; [exact (grows_trans _ _ _ G1 G2)|].
        intros g i [<-|J] Ii; [|exact (K2 g i J Ii)]. destruct (K1 i Ii) as (box & B1 & B2). exists box. split; [exact B1|]. intros p C.
        destruct (B2 p C) as (b' & B3 & B4). exact (G2 _ _ p B3 B4).
    Qed.
    Lemma add_empty_keeps rank_of outputs s b : forall l m, m s = Some b -> fold_left (add_empty rank_of outputs) l m s = Some b.
    Proof.
      induction l as [|o l IH]; intros m E; cbn [fold_left]; [exact E|]. apply IH. unfold add_empty. destruct (existsb _ outputs); [exact E|]. destruct (m (o_sym o)) eqn:Q; [exact E|].
      unfold set_box. destruct (Nat.eqb_spec s (o_sym o)) as [->|N]; [congruence|exact E].
    Qed.
  End Box.

  (** ** The checks *)
  Lemma le_holds a b : holds W r (e_le a b) -> forall z v, meaning W r a = Fin z -> bounds_below (meaning W r b) v -> z <= v.
  Proof.
    intros (t & H & N) z v A B. unfold e_le in H. rewrite make_mean, A in H. cbn [xbin] in H.
    destruct (meaning W r b); cbn [bounds_below xcmp] in *; try discriminate; try tauto.
    - injection H as <-. destruct (Z.leb_spec z z0); [lia|]. cbn in N. congruence.
    - cbn in H. injection H as <-. congruence.
  Qed.
  Lemma ge_holds a b : holds W r (e_ge a b) -> forall z v, meaning W r a = Fin z -> bounds_above (meaning W r b) v -> v <= z.
  Proof.
    intros (t & H & N) z v A B. unfold e_ge in H. rewrite make_mean, A in H. cbn [xbin] in H.
    destruct (meaning W r b); cbn [bounds_above xcmp] in *; try discriminate; try tauto.
    - injection H as <-. destruct (Z.leb_spec z0 z); [lia|]. cbn in N. congruence.
    - cbn in H. injection H as <-. congruence.
  Qed.
  Lemma or_holds a b : holds W r (e_or a b) -> holds W r a \/ holds W r b.
  Proof.
    intros (t & H & N). unfold e_or in H. rewrite make_mean in H. cbn [xbin] in H. unfold holds.
    destruct (meaning W r a) as [x| | |], (meaning W r b) as [y| | |]; try discriminate H. cbn in H. injection H as <-.
    destruct (truthy x) eqn:X; [left; exists x|right; exists y]; (split; [reflexivity|]); intros ->; [discriminate X|]. cbn in N. congruence.
  Qed.
  Lemma and_holds a b : holds W r (e_and a b) -> holds W r a /\ holds W r b.
  Proof.
    intros (t & H & N). unfold e_and in H. rewrite make_mean in H. cbn [xbin] in H. unfold holds.
    destruct (meaning W r a) as [x| | |], (meaning W r b) as [y| | |]; try discriminate H. cbn in H. injection H as <-.
    split; [exists x|exists y]; (split; [reflexivity|]); intros ->; cbn in N; try congruence. destruct (truthy x); cbn in N; congruence.
  Qed.
  Lemma eq_holds a z v : holds W r (e_eq a (EConst z)) -> meaning W r a = Fin v -> v = z.
  Proof.
    intros (t & H & N) A. unfold e_eq in H. rewrite make_mean, A in H. cbn [xbin meaning xcmp] in H. injection H as <-. destruct (Z.eqb_spec v z); [assumption|]. cbn in N. congruence.
  Qed.
  Lemma broadcast_holds ds b d x : describes W r ds b -> nth_error ds d = Some x -> holds W r (is_broadcast_expr x) -> is_broadcast (dim_at b d) = true.
  Proof.
    intros (_ & D) E H. destruct (D d x E) as (A & B & C). apply and_holds in H as (H & H3). apply and_holds in H as (H1 & H2).
    pose proof (eq_holds _ _ _ H1 A) as Q1. pose proof (eq_holds _ _ _ H2 B) as Q2. unfold is_broadcast. rewrite Q1, Q2. cbn [Z.eqb andb].
    destruct (defined (dx_stride x)) eqn:Df.
    - rewrite (eq_holds _ _ _ H3 (C eq_refl)). reflexivity.
    - exfalso. destruct H3 as (t & H3 & _). unfold e_eq in H3. rewrite make_mean in H3. destruct (dx_stride x); try discriminate Df. discriminate H3.
  Qed.
  Lemma combine_nth_error {A B} : forall (l : list A) (k : list B) d x y, nth_error l d = Some x -> nth_error k d = Some y -> nth_error (combine l k) d = Some (x, y).
  Proof.
    induction l as [|a l IH]; intros [|b k] [|d] x y E F; try discriminate; cbn [combine nth_error] in *; [congruence|eauto].
  Qed.
  Definition adequate (ds : list dimx) (box : list interval) : Prop :=
    Forall (holds W r) (input_checks ds box) \/ Forall (holds W r) (allocation_checks ds box) \/ ds = inferred_default box.
  Lemma adequate_inside ds b box q p : describes W r ds b -> length box = rank b -> adequate ds box -> box_contains W r box q -> located b q p -> inside b p.
  Proof.
    intros D L A C Lo d Hd. specialize (Lo d). specialize (C d).
    destruct (nth_error ds d) as [x|] eqn:E; [|apply nth_error_None in E; destruct D; lia].
    assert (F : nth_error box d = Some (dim_of box d)) by (apply nth_error_nth'; lia).
    pose proof (combine_nth_error _ _ _ _ _ E F) as N. apply nth_error_In in N. destruct (proj2 D d x E) as (Dmin & Dmax & _).
    destruct (is_broadcast (dim_at b d)) eqn:Br.
    { rewrite Lo. unfold is_broadcast in Br. apply andb_true_iff in Br as (Br & _). apply andb_true_iff in Br as (B1 & B2). apply Z.eqb_eq in B1, B2. lia. }
    rewrite Lo. destruct C as (C1 & C2). destruct A as [A|[A|A]].
    - rewrite Forall_forall in A. split.
      + apply (le_holds (i_min (dx_bounds x)) (i_min (dim_of box d))); auto. apply A, in_flat_map. eexists. split; [exact N|]. left. reflexivity.
      + apply (ge_holds (i_max (dx_bounds x)) (i_max (dim_of box d))); auto. apply A, in_flat_map. eexists. split; [exact N|]. right. left. reflexivity.
    - rewrite Forall_forall in A. split.
      + assert (H : holds W r (e_or (is_broadcast_expr x) (e_le (i_min (dx_bounds x)) (i_min (dim_of box d))))).
        { apply A, in_flat_map. eexists. split; [exact N|]. left. reflexivity. }
        apply or_holds in H as [H|H]; [rewrite (broadcast_holds _ _ _ _ D E H) in Br; discriminate|]. exact (le_holds _ _ H _ _ Dmin C1).
      + assert (H : holds W r (e_or (is_broadcast_expr x) (e_ge (i_max (dx_bounds x)) (i_max (dim_of box d))))).
        { apply A, in_flat_map. eexists. split; [exact N|]. right. left. reflexivity. }
        apply or_holds in H as [H|H]; [rewrite (broadcast_holds _ _ _ _ D E H) in Br; discriminate|]. exact (ge_holds _ _ H _ _ Dmax C2).
    - subst ds. unfold inferred_default in E. rewrite nth_error_map, F in E. injection E as <-. cbn [dx_bounds] in *. rewrite Dmin in C1. rewrite Dmax in C2. cbn in C1, C2. lia.
  Qed.
End Proofs.
