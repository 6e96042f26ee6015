(** Proofs about sliding windows. *)
From Coq Require Import ZArith List Bool Lia.
From Verif Require Import Arith_Model Arith_Proofs ModRem_Model Buf_Model Expr_Model Expr_Spec Expr_Proofs Match_Model Rewrite_Model Interval_Model Interval_Spec Interval_Props
  Const_Model Const_Proofs Const_Props Deps_Model Deps_Spec Deps_Props Subst_Model Subst_Spec SubstMean_Proofs Subst_Props BoundsOf_Spec
  Simplifier_Model Simplifier_Proofs SimplifierMono_Proofs SimplifierGuard_Model SimplifierGuard_Spec SimplifierGuard_Proofs SimplifierApi_Proofs
  Simplifier_Props Infer_Spec Infer_Proofs Slide_Model Slide_Spec.
Import ListNotations.
Open Scope Z_scope.

(** ** Windows of integers *)
Lemma mod_same F a b : 0 < F -> a mod F = b mod F -> a - b < F -> b - a < F -> a = b.
Proof.
  intros P E H1 H2. pose proof (Z.div_mod a F ltac:(lia)). pose proof (Z.div_mod b F ltac:(lia)).
  assert (a / F = b / F) by nia. nia.
Qed.

Section Windows.
  Variables lo hi A : Z -> Z.
  Variables start s m : Z.
  Variable n : nat.
  Notation v := (iteration start s).
  Hypothesis Hs : 0 < s.
  Hypothesis Hstart : start <= m.
  Lemma v_0 : v 0 = start. Proof. unfold iteration. lia. Qed.
  Lemma v_S k : v (S k) = v k + s. Proof. unfold iteration. lia. Qed.
  Lemma v_pred k : (0 < k)%nat -> v k - s = v (k - 1). Proof. intros. unfold iteration. nia. Qed.
  Lemma v_mono j k : (j <= k)%nat -> v j <= v k. Proof. intros. unfold iteration. nia. Qed.

  Hypothesis mono : forall k, (S k <= n)%nat -> m <= v k -> lo (v k) <= lo (v (S k)) /\ hi (v k) <= hi (v (S k)).
  Hypothesis moves_up : start < m -> forall u u', start - s <= u <= u' -> u' < m + s -> lo u <= lo u' /\ hi u <= hi u'.

  Lemma mono_step k : (S k <= n)%nat -> lo (v k) <= lo (v (S k)) /\ hi (v k) <= hi (v (S k)).
  Proof.
    intros K. destruct (Z_le_gt_dec m (v k)) as [L|L]; [exact (mono k K L)|]. pose proof (v_mono 0 k ltac:(lia)). rewrite v_0 in *. rewrite v_S. apply moves_up; lia.
  Qed.
  Lemma mono_all j k : (j <= k <= n)%nat -> lo (v j) <= lo (v k) /\ hi (v j) <= hi (v k).
  Proof.
    intros (J & K). induction J as [|k J IH]; [lia|]. specialize (IH ltac:(lia)). pose proof (mono_step k K). lia.
  Qed.

  (** the first iteration that reaches [z] *)
  Lemma first z k : z <= hi (v k) -> exists j, (j <= k)%nat /\ z <= hi (v j) /\ (j = 0%nat \/ hi (v (j - 1)) < z).
  Proof.
    induction k as [|k IH]; intros H; [exists 0%nat; auto|]. destruct (Z_le_gt_dec z (hi (v k))) as [L|L].
    - destruct (IH L) as (j & J & K). exists j. split; [lia|exact K].
    - exists (S k). split; [lia|]. split; [exact H|]. right. replace (S k - 1)%nat with k by lia. lia.
  Qed.

  (** whether the minimum of the crop is the new one for all iterations, or the old one until [m0] *)
  Variable found : bool.
  Variable m0 : Z.
  Hypothesis Hm0 : found = false -> m <= m0.
  Definition crop (u : Z) : Z := if found then hi (u - s) + 1 else if u <=? m0 then lo u else hi (u - s) + 1.
  Hypothesis HA : forall k, (k <= n)%nat -> A (v k) = crop (v k).
  Hypothesis HA0 : found = true -> A start <= lo m.
  Notation writes := (fun k z => A (v k) <= z <= hi (v k)).

  Lemma covered k z j : (j <= k <= n)%nat -> lo (v k) <= z -> lo m <= z -> z <= hi (v j) -> (j = 0%nat \/ hi (v (j - 1)) < z) -> A (v j) <= z.
  Proof.
    intros J Z1 Z2 Z3 F. assert (E := HA j ltac:(lia)). unfold crop in E. destruct found eqn:Ef.
    - destruct F as [->|F]; [rewrite v_0; specialize (HA0 eq_refl); lia|]. destruct j as [|j]; [rewrite v_0; specialize (HA0 eq_refl); lia|].
      rewrite v_pred in E by lia. lia.
    - destruct (Z.leb_spec (v j) m0); [pose proof (mono_all j k J); lia|]. specialize (Hm0 eq_refl).
      destruct F as [->|F]; [rewrite v_0 in *; lia|]. destruct j as [|j]; [rewrite v_0 in *; lia|]. rewrite v_pred in E by lia. lia.
  Qed.
  Lemma slide_unfolded k z : (k <= n)%nat -> lo (v k) <= z <= hi (v k) -> lo m <= z -> finds None writes k z.
  Proof.
    intros K (Z1 & Z2) Z3. destruct (first z k Z2) as (j & J & Hj & F). exists j. split; [exact J|]. split; [|intros; assumption].
    split; [apply (covered k z j); auto; lia|exact Hj].
  Qed.

  Variable F : Z.
  Hypothesis extents : forall k, (k <= n)%nat -> m <= v k -> hi (v k) - lo (v k) < F.
  Hypothesis extent_m : hi m - lo m < F.
  Hypothesis nonempty_m : lo m <= hi m.
  Hypothesis touching : forall k, (k <= n)%nat -> m <= v k -> lo (v k) <= hi (v k - s) + 1.
  Hypothesis touching_m : lo m <= hi (m - s) + 1.
  Hypothesis steady : forall u, start <= u < m -> hi u - hi (u - s) <= hi m - hi (m - s) /\ hi u - lo u <= hi m - lo m.

  Lemma width j : (j <= n)%nat -> hi (v j) - A (v j) < F.
  Proof.
    intros J. rewrite (HA j J). unfold crop. pose proof (v_mono 0 j ltac:(lia)) as V. rewrite v_0 in V.
    destruct (Z_le_gt_dec m (v j)) as [L|L].
    - pose proof (extents j J L). pose proof (touching j J L). destruct found; [lia|]. destruct (_ <=? _); lia.
    - pose proof (steady (v j) ltac:(lia)). destruct found; [lia|]. destruct (Z.leb_spec (v j) m0); [lia|]. specialize (Hm0 eq_refl). lia.
  Qed.
  Lemma slide_folded k z : (k <= n)%nat -> lo (v k) <= z <= hi (v k) -> lo m <= z -> finds (Some F) writes k z.
  Proof.
    assert (WD := width). intros K (Z1 & Z2) Z3. destruct (first z k Z2) as (j & J & Hj & Fj). exists j. split; [exact J|].
    assert (C : A (v j) <= z) by (apply (covered k z j); auto; lia). split; [lia|].
    intros j' z' (J1 & J2) (W1 & W2) E. cbn [same_place] in E. apply (mod_same F); [lia|exact E| |].
    - pose proof (mono_all j' k ltac:(lia)) as (_ & M2). destruct (Z_le_gt_dec m (v k)) as [L|L].
      + pose proof (extents k K L). lia.
      + pose proof (v_mono 0 k ltac:(lia)) as V0. rewrite v_0 in V0. destruct (moves_up ltac:(lia) (v k) m ltac:(lia) ltac:(lia)). lia.
    - destruct (Nat.eq_dec j' j) as [->|N].
      + pose proof (width j ltac:(lia)). lia.
      + assert (E' := HA j' ltac:(lia)). unfold crop in E'.
        assert (Up : hi (v j' - s) + 1 <= z' -> z - z' < F).
        { rewrite v_pred by lia. pose proof (mono_all j (j' - 1) ltac:(lia)). lia. }
        destruct found eqn:Ef; [apply Up; lia|]. destruct (Z.leb_spec (v j') m0) as [L|L]; [|apply Up; lia].
        pose proof (mono_all j j' ltac:(lia)) as (M1 & _). pose proof (WD j ltac:(lia)) as Wd. assert (Ej := HA j ltac:(lia)). unfold crop in Ej. rewrite Ef in Ej.
        pose proof (v_mono j j' ltac:(lia)). destruct (Z.leb_spec (v j) m0); lia.
  Qed.

  (** every iteration writes everything it reads *)
  Lemma whole_folded k z : (k <= n)%nat -> lo (v k) <= z <= hi (v k) -> finds (Some F) (fun k z => lo (v k) <= z <= hi (v k)) k z.
  Proof.
    intros K Z. exists k. split; [lia|]. split; [exact Z|]. intros j' z' (J1 & J2) W E. assert (j' = k) as -> by lia. cbn [same_place] in E.
    assert (X : hi (v k) - lo (v k) < F).
    { destruct (Z_le_gt_dec m (v k)) as [L|L]; [exact (extents k K L)|]. pose proof (v_mono 0 k ltac:(lia)) as V0. rewrite v_0 in V0. pose proof (steady (v k) ltac:(lia)). lia. }
    apply (mod_same F); auto; lia.
  Qed.
End Windows.

(** ** Substitution into plain expressions *)
Lemma plain_capture x F e : plain e = true -> no_capture x F e.
Proof.
  induction e as [|s f d|l b IHl IHb|o a b IHa IHb|a IHa|c t f IHc IHt IHf|fn t l IHl|k] using expr_ind'; cbn [plain no_capture]; intros H; auto; try discriminate.
  - apply andb_true_iff in H as (H1 & H2). auto.
  - apply andb_true_iff in H as (H & H3). apply andb_true_iff in H as (H1 & H2). auto.
  - assert (K : forallb plain l = true) by (destruct fn; (exact H || discriminate H)). clear H. induction IHl as [|a l IHa IHl IH]; cbn [no_capture_all]; auto.
    cbn [forallb] in K. apply andb_true_iff in K as (K1 & K2). auto.
Qed.
Lemma plain_address e : plain e = true -> ~ takes_address e.
Proof.
  induction e as [|s f d|l b IHl IHb|o a b IHa IHb|a IHa|c t f IHc IHt IHf|fn t l IHl|k] using expr_ind'; cbn [plain takes_address]; intros H; auto; try discriminate.
  - apply andb_true_iff in H as (H1 & H2). tauto.
  - apply andb_true_iff in H as (H & H3). apply andb_true_iff in H as (H1 & H2). tauto.
  - assert (K : forallb plain l = true) by (destruct fn; (exact H || discriminate H)).
    assert (N : ~ any_of takes_address l).
    { clear H. induction IHl as [|a l IHa IHl IH]; cbn [any_of]; auto. cbn [forallb] in K. apply andb_true_iff in K as (K1 & K2). tauto. }
    destruct fn; auto; discriminate H.
Qed.
Lemma plain_make o a b : plain a = true -> plain b = true -> plain (make_bin o a b) = true.
Proof. intros A B. unfold make_bin. destruct (_ && _); cbn [plain]; rewrite A, B; reflexivity. Qed.
Lemma plain_subst x rep e : plain rep = true -> forall e', plain e = true -> substitute e x rep = Val e' -> plain e' = true.
Proof.
  intros R. unfold substitute. destruct (is_var rep x); [intros e' H E; injection E as <-; exact H|]. unfold var_mutate.
  induction e as [|s f d|l b IHl IHb|o a b IHa IHb|a IHa|c t f IHc IHt IHf|fn t l IHl|k] using expr_ind'; cbn [plain Subst_Model.mutate]; intros e' H E; try discriminate.
  - injection E as <-. reflexivity.
  - unfold visit_var in E. destruct (s =? x)%nat; [|injection E as <-; reflexivity].
    destruct f; try (apply bind_inv in E as (y & _ & E); injection E as <-; reflexivity). injection E as <-. exact R.
  - apply andb_true_iff in H as (H1 & H2). apply bind_inv in E as (a' & Ea & E). apply bind_inv in E as (b' & Eb & E). injection E as <-.
    apply plain_make; auto.
  - apply bind_inv in E as (a' & Ea & E). injection E as <-. cbn [plain]. auto.
  - apply andb_true_iff in H as (H & H3). apply andb_true_iff in H as (H1 & H2). apply bind_inv in E as (c' & Ec & E). apply bind_inv in E as (t' & Et & E).
    apply bind_inv in E as (f' & Ef & E). injection E as <-. cbn [plain]. rewrite (IHc _ H1 Ec), (IHt _ H2 Et), (IHf _ H3 Ef). reflexivity.
  - assert (K : forallb plain l = true) by (destruct fn; (exact H || discriminate H)).
    apply bind_inv in E as (l' & El & E). apply bind_inv in E as (l'' & El' & E). injection E as <-.
    assert (l'' = l') as -> by (destruct fn; try discriminate H; injection El' as <-; reflexivity).
    assert (K' : forallb plain l' = true).
    { clear H El'. revert l' El. induction IHl as [|a l IHa IHl IH]; intros l' El; cbn [Subst_Model.mutate_args] in El.
      - injection El as <-. reflexivity.
      - cbn [forallb] in K. apply andb_true_iff in K as (K1 & K2). apply bind_inv in El as (a' & Ea & El). apply bind_inv in El as (r' & Er & El). injection El as <-.
        cbn [forallb]. rewrite (IHa _ K1 Ea), (IH K2 _ Er). reflexivity. }
    cbn [plain]. destruct fn; auto; discriminate H.
  - injection E as <-. reflexivity.
Qed.

Section Mean.
  Variable W : world.
  Variable r : env.
  Variable x : nat.
  Notation at_ := (at_ r x).
  Lemma at_self v : at_ v x = Fin v. Proof. unfold Slide_Spec.at_, env_set. rewrite Nat.eqb_refl. reflexivity. Qed.
  Lemma at_free e v : ~ free x e -> meaning W (at_ v) e = meaning W r e.
  Proof. intros N. unfold Slide_Spec.at_. apply meaning_free. intros y Fy. unfold env_set. destruct (Nat.eqb_spec y x) as [->|]; [contradiction|reflexivity]. Qed.
  Lemma at_twice e v w : meaning W (env_set (at_ v) x (Fin w)) e = meaning W (at_ w) e.
  Proof. apply meaning_free. intros y _. unfold Slide_Spec.at_, env_set. destruct (y =? x)%nat; reflexivity. Qed.
  Lemma subst_at e rep e' v w z : plain e = true -> substitute e x rep = Val e' -> meaning W (at_ v) rep = Fin w -> meaning W (at_ w) e = Fin z ->
    meaning W (at_ v) e' = Fin z.
  Proof.
    intros Pl E R M. destruct (C16_meaning W (at_ v) e x rep e' (plain_capture _ _ _ Pl) (fun T => False_ind _ (plain_address _ Pl T)) E) as [B|B].
    - rewrite R, at_twice, M in B. discriminate B.
    - rewrite R, at_twice, M in B. auto.
  Qed.
End Mean.

(** ** The run with checks is a run of the code *)
Section Mono.
  Variable P Q : prims.
  Hypothesis L : prims_le P Q.
  Variable fuel : nat.
  Variable bounds : nat -> option interval.
  Variable alignment : nat -> option modrem.
  Lemma le_simplify al e : le (simplify P bounds al fuel e) (simplify Q bounds al fuel e).
  Proof. unfold simplify. apply le_bind; [apply le_mutate, L|intros; apply le_refl]. Qed.
  Lemma le_bounds_of al e : le (bounds_of P bounds al fuel e) (bounds_of Q bounds al fuel e).
  Proof. unfold bounds_of. apply le_bind; [apply le_mutate, L|intros; apply le_refl]. Qed.
  Lemma le_proves e : le (api_prove_true P bounds alignment fuel e) (api_prove_true Q bounds alignment fuel e).
  Proof. intros v. apply (le_prove_true _ _ L _ _ (le_mutate _ _ L fuel)). Qed.
  Lemma le_simplify_interval i : le (simplify_interval P bounds alignment fuel i) (simplify_interval Q bounds alignment fuel i).
  Proof.
    unfold simplify_interval. apply le_bind; [|intros; apply le_refl]. unfold mutate_interval. destruct (deep_is_point i).
    - apply le_bind; [apply le_mutate, L|intros; apply le_refl].
    - apply le_bind; [apply le_mutate, L|]. intros (lo & li). apply le_bind; [apply le_mutate, L|intros; apply le_refl].
  Qed.
  Lemma le_search c x g n : forall ix, le (search P fuel bounds alignment c x g ix n) (search Q fuel bounds alignment c x g ix n).
  Proof.
    induction n as [|n IH]; intros ix; cbn [search]; [apply le_refl|]. apply le_bind; [apply le_refl|]. intros e. apply le_bind; [apply le_proves|].
    intros [|]; [apply le_simplify|apply IH].
  Qed.
  Lemma le_fold e x : le (constant_fold_factor P fuel bounds alignment e x) (constant_fold_factor Q fuel bounds alignment e x).
  Proof. unfold constant_fold_factor. apply le_bind; [apply le_simplify|]. intros a. apply le_bind; [apply le_refl|]. intros u. apply le_bind; [apply le_simplify|intros; apply le_refl]. Qed.
  Lemma le_slide_dim st d b : le (slide_dim P fuel bounds alignment st d b) (slide_dim Q fuel bounds alignment st d b).
  Proof.
    unfold slide_dim. destruct (is_finite _); [apply le_refl|]. destruct (negb _); [apply le_refl|].
    apply le_bind; [apply le_simplify_interval|]. intros cur. apply le_bind; [apply le_refl|]. intros p1. apply le_bind; [apply le_refl|]. intros p2.
    apply le_bind; [apply le_proves|]. intros [|].
    - apply le_bind; [apply le_bounds_of|]. intros i. apply le_bind; [apply le_fold|intros; apply le_refl].
    - apply le_bind; [apply le_proves|]. intros [|]; [|apply le_refl]. apply le_bind; [apply le_simplify|]. intros nm.
      apply le_bind.
      + destruct (s_did st); [apply le_refl|]. apply le_bind; [apply le_bounds_of|]. intros i. apply le_bind; [apply le_fold|]. intros [f|]; [|apply le_refl].
        apply le_bind; [apply le_bounds_of|]. intros j. apply le_bind; [apply le_refl|]. intros u. apply le_bind; [apply le_simplify|intros; apply le_refl].
      + intros st'. apply le_bind; [apply le_refl|]. intros o. apply le_bind; [apply le_search|intros; apply le_refl].
  Qed.
  Lemma le_slide_dims l : forall st d, le (slide_dims P fuel bounds alignment st d l) (slide_dims Q fuel bounds alignment st d l).
  Proof.
    induction l as [|b l IH]; intros st d; cbn [slide_dims]; [apply le_refl|]. apply le_bind; [apply le_slide_dim|]. intros (st' & b').
    apply le_bind; [apply IH|intros; apply le_refl].
  Qed.
End Mono.

(** ** Fold factors *)
Lemma fold_same l d f o : fold_of (set_at l d (FoldInfo f o)) d = as_constant f.
Proof.
  unfold fold_of, set_at. rewrite app_nth2; rewrite firstn_length_le; rewrite ?app_length, ?repeat_length; try lia. rewrite Nat.sub_diag. reflexivity.
Qed.
Lemma nth_pad l n k : nth k (l ++ repeat no_fold n) no_fold = nth k l no_fold.
Proof.
  destruct (Nat.lt_ge_cases k (length l)) as [L|L]; [apply app_nth1, L|]. rewrite app_nth2 by exact L. rewrite (nth_overflow l) by exact L.
  destruct (Nat.lt_ge_cases (k - length l) n) as [M|M]; [apply nth_repeat|apply nth_overflow; rewrite repeat_length; lia].
Qed.
Lemma nth_firstn {A} (l : list A) n k x : (k < n)%nat -> nth k (firstn n l) x = nth k l x.
Proof. revert n k. induction l as [|a l IH]; intros [|n] [|k] L; cbn; auto; try lia. apply IH. lia. Qed.
Lemma nth_skipn {A} (l : list A) n k x : nth k (skipn n l) x = nth (n + k) l x.
Proof. revert l. induction n as [|n IH]; intros [|a l]; cbn; auto. destruct k; reflexivity. Qed.
Lemma fold_other l d i d' : d' <> d -> nth d' (set_at l d i) no_fold = nth d' l no_fold.
Proof.
  intros N. unfold set_at. set (l' := l ++ repeat no_fold (S d - length l)). assert (Le : (S d <= length l')%nat) by (unfold l'; rewrite app_length, repeat_length; lia).
  rewrite <- (nth_pad l (S d - length l) d'). fold l'. destruct (Nat.lt_ge_cases d' d) as [L|L].
  - rewrite app_nth1 by (rewrite firstn_length_le; lia). apply nth_firstn, L.
  - rewrite app_nth2 by (rewrite firstn_length_le; lia). rewrite firstn_length_le by lia. replace (d' - d)%nat with (S (d' - S d)) by lia. cbn [nth].
    rewrite nth_skipn. f_equal. lia.
Qed.
Lemma not_finite_fold l d : is_finite (fi_factor (nth d l no_fold)) = false -> fold_of l d = None.
Proof. unfold fold_of. destruct (fi_factor _); cbn; intros H; try reflexivity; discriminate. Qed.

Lemma finds_iff F (w w' : nat -> Z -> Prop) n k z : (forall j z, (j <= n)%nat -> w j z <-> w' j z) -> (k <= n)%nat -> finds F w k z -> finds F w' k z.
Proof.
  intros E K (j & J & Wj & H). exists j. split; [exact J|]. split; [apply E; [lia|exact Wj]|].
  intros j' z' J' W'. apply (H j' z' J'). apply E; [lia|exact W'].
Qed.

(** ** What slide_dim does *)
Section Inv.
  Variable P : prims.
  Variable fuel : nat.
  Variable bounds : nat -> option interval.
  Variable alignment : nat -> option modrem.
  Notation simp := (simplify P bounds alignment fuel).
  Notation proves := (api_prove_true P bounds alignment fuel).
  Definition folds_to (al : nat -> option modrem) (cur : interval) (x : nat) (f : expr) : Prop :=
    exists i e u, bounds_of P bounds al fuel (i_extent cur) = Val i /\ simp (i_max i) = Val e /\ constant_upper_bound e = Val u /\ simp u = Val f.
  Lemma fold_inv al cur x i f : bounds_of P bounds al fuel (i_extent cur) = Val i -> constant_fold_factor P fuel bounds alignment (i_max i) x = Val (Some f) -> folds_to al cur x f.
  Proof.
    intros Hi H. apply bind_inv in H as (e & He & H). apply bind_inv in H as (u & Hu & H). apply bind_inv in H as (f' & Hf & H).
    exists i, e, u. destruct (_ && _); [|discriminate H]. injection H as <-. auto.
  Qed.
  Lemma search_inv c x g n : forall ix nl, search P fuel bounds alignment c x g ix n = Val nl -> is_negative_infinity nl = false -> 0 <= ix ->
    exists iy sh, 0 <= iy /\ substitute c x (e_sub g (EConst iy)) = Val sh /\ proves sh = Val true /\ simp (e_sub g (EConst iy)) = Val nl.
  Proof.
    induction n as [|n IH]; intros ix nl H N Ix; cbn [search] in H; [injection H as <-; discriminate N|].
    apply bind_inv in H as (sh & Hs & H). apply bind_inv in H as (ok & Ho & H). destruct ok; [exists ix, sh; auto|]. exact (IH _ _ H N ltac:(lia)).
  Qed.

  Inductive outcome (st : slid) (d : nat) (b : interval) : slid -> interval -> Prop :=
  | unchanged : outcome st d b st b
  | only_folded cur f : simplify_interval P bounds alignment fuel b = Val cur -> folds_to (fun _ => None) cur (l_sym (s_loop st)) f ->
      outcome st d b (Slid (s_did st) (s_loop st) (set_at (s_folds st) d (FoldInfo f f))) b
  | slides cur p1 p2 nm old nl did folds b' : simplify_interval P bounds alignment fuel b = Val cur ->
      let loop := s_loop st in let x := l_sym loop in let back := e_sub (EVar x f_none 0) (l_step loop) in
      substitute (i_min cur) x back = Val p1 -> substitute (i_max cur) x back = Val p2 ->
      proves (e_and (e_le p1 (i_min cur)) (e_le p2 (i_max cur))) = Val true ->
      simp (e_add p2 (EConst 1)) = Val nm ->
      (folds = s_folds st \/ exists f o, folds_to alignment cur x f /\ folds = set_at (s_folds st) d (FoldInfo f o)) ->
      substitute (i_min cur) x (l_min loop) = Val old ->
      where_true_upper_bound P fuel bounds alignment (e_le nm old) x (l_min loop) = Val nl ->
      b' = (if is_negative_infinity nl then i_bounds (ESelect (e_le (EVar x f_none 0) (l_orig_min loop)) (i_min cur) nm) (i_max b) else i_bounds nm (i_max b)) ->
      outcome st d b (Slid did (LoopInfo x (l_orig_min loop) (if is_negative_infinity nl then l_min loop else nl) (l_step loop) false) folds) b'.
  Lemma slide_dim_inv st d b st' b' : slide_dim P fuel bounds alignment st d b = Val (st', b') -> outcome st d b st' b'.
  Proof.
    unfold slide_dim. destruct (is_finite _); [intros H; injection H as <- <-; constructor|]. destruct (negb _); [intros H; injection H as <- <-; constructor|].
    intros H. apply bind_inv in H as (cur & Hc & H). apply bind_inv in H as (p1 & Hp1 & H). apply bind_inv in H as (p2 & Hp2 & H). apply bind_inv in H as (ap & Ha & H).
    destruct ap.
    - apply bind_inv in H as (i & Hi & H). apply bind_inv in H as ([f|] & Hf & H); injection H as <- <-; [|constructor].
      apply (only_folded st d b cur f Hc). exact (fold_inv _ _ _ _ _ Hi Hf).
    - apply bind_inv in H as (inc & Hinc & H). destruct inc; [|injection H as <- <-; constructor].
      apply bind_inv in H as (nm & Hnm & H). apply bind_inv in H as (st1 & Hst & H). apply bind_inv in H as (old & Hold & H). apply bind_inv in H as (nl & Hnl & H).
      assert (K : s_folds st1 = s_folds st \/ exists f o, folds_to alignment cur (l_sym (s_loop st)) f /\ s_folds st1 = set_at (s_folds st) d (FoldInfo f o)).
      { destruct (s_did st); [injection Hst as <-; auto|]. apply bind_inv in Hst as (i & Hi & Hst). apply bind_inv in Hst as ([f|] & Hf & Hst); [|injection Hst as <-; auto].
        apply bind_inv in Hst as (j & Hj & Hst). apply bind_inv in Hst as (u & Hu & Hst). apply bind_inv in Hst as (o & Ho & Hst). injection Hst as <-.
        right. exists f, o. split; [exact (fold_inv _ _ _ _ _ Hi Hf)|reflexivity]. }
      destruct (is_negative_infinity nl) eqn:En; injection H as <- <-.
      + replace (l_min (s_loop st)) with (if is_negative_infinity nl then l_min (s_loop st) else nl) at 1 by (rewrite En; reflexivity).
        apply (slides st d b cur p1 p2 nm old nl); auto. rewrite En. reflexivity.
      + replace nl with (if is_negative_infinity nl then l_min (s_loop st) else nl) at 1 by (rewrite En; reflexivity).
        apply (slides st d b cur p1 p2 nm old nl); auto. rewrite En. reflexivity.
  Qed.
  Lemma simp_const c f : simp (EConst c) = Val f -> f = EConst c.
  Proof.
    unfold simplify. intros H. apply bind_inv in H as (y & H & E). injection E as <-. destruct fuel as [|n]; [discriminate H|]. cbn [mutate defined] in H.
    destruct (p_visit P (EConst c)); [|discriminate H]. cbn [visit] in H. unfold set_result in H. cbn [defined] in H. injection H as <-. reflexivity.
  Qed.
End Inv.

(** ** One dimension *)
Section OneDim.
  Variable W : world.
  Variable r : env.
  Variable same : path -> expr -> expr -> bool.
  Variable reuse : path -> expr -> expr -> bool.
  Variable reuse_select : path -> bool.
  Variable bounds : nat -> option interval.
  Variable alignment : nat -> option modrem.
  Variable fuel : nat.
  Variable G : guards.
  Hypothesis HW : sensible W.
  Notation checked := (guarded_prims G W same reuse reuse_select).
  Variable loop : loop_info.
  Notation x := (l_sym loop).
  Notation at_ := (at_ r x).
  Variables m m0 s start : Z.
  Variable n : nat.
  Notation v := (iteration start s).
  Hypothesis Hs : 0 < s.
  Hypothesis step_free : ~ free x (l_step loop).
  Hypothesis step_value : meaning W r (l_step loop) = Fin s.
  Hypothesis min_free : ~ free x (l_min loop).
  Hypothesis min_plain : plain (l_min loop) = true.
  Hypothesis min_value : meaning W r (l_min loop) = Fin m.
  Hypothesis orig_free : ~ free x (l_orig_min loop).
  Hypothesis orig_value : meaning W r (l_orig_min loop) = Fin m0.
  Hypothesis m_m0 : m <= m0.
  Notation good := (original m s start n).
  Hypothesis sound : forall u, good u -> guards_sound W (at_ u) reuse reuse_select G.
  Hypothesis given : forall u, good u -> given_ok W (at_ u) bounds alignment.

  Variable b : interval.
  Variables lo hi : Z -> Z.
  Hypothesis b_ok : interval_ok b.
  Hypothesis ends : forall u, finite_ends W (at_ u) b (lo u) (hi u).
  Hypothesis nonempty : forall u, good u -> lo u <= hi u.
  Hypothesis Hplain : plain_results checked bounds alignment fuel x (l_step loop) b.
  Hypothesis start_m : start <= m.
  Hypothesis moves_up : start < m -> forall u u', start - s <= u <= u' -> u' < m + s -> lo u <= lo u' /\ hi u <= hi u'.

  Lemma back_value u : meaning W (at_ u) (e_sub (EVar x f_none 0) (l_step loop)) = Fin (u - s).
  Proof. unfold e_sub. rewrite make_mean. cbn [meaning]. rewrite at_self, (at_free W r x _ u step_free), step_value. reflexivity. Qed.
  Lemma min_at u : meaning W (at_ u) (l_min loop) = Fin m.
  Proof. rewrite (at_free W r x _ u min_free). exact min_value. Qed.

  Section Cur.
    Variable cur : interval.
    Hypothesis Hcur : simplify_interval checked bounds alignment fuel b = Val cur.
    Lemma cur_ends u : good u -> finite_ends W (at_ u) cur (lo u) (hi u).
    Proof.
      intros Gu. destruct (ends u) as (E1 & E2). pose proof (nonempty u Gu) as N.
      destruct (C48_simplify_interval W (at_ u) same reuse reuse_select bounds alignment fuel G HW (sound u Gu) (given u Gu) b cur _ _ b_ok Hcur E1 E2) as (_ & H).
      unfold encloses in H. pose proof (proj2 (H (lo u)) ltac:(lia)) as (L1 & U1). pose proof (proj2 (H (hi u)) ltac:(lia)) as (L2 & U2).
      split.
      - destruct (meaning W (at_ u) (i_min cur)) as [z| | |] eqn:Em; cbn [lower] in *; try tauto.
        + f_equal. pose proof (proj1 (H z) ltac:(split; [lia|destruct (meaning W (at_ u) (i_max cur)); cbn [upper] in *; try tauto; lia])). lia.
        + pose proof (proj1 (H (lo u - 1)) ltac:(split; [exact I|destruct (meaning W (at_ u) (i_max cur)); cbn [upper] in *; try tauto; lia])). lia.
      - destruct (meaning W (at_ u) (i_max cur)) as [z| | |] eqn:Em; cbn [upper] in *; try tauto.
        + f_equal. pose proof (proj1 (H z) ltac:(split; [destruct (meaning W (at_ u) (i_min cur)); cbn [lower] in *; try tauto; lia|lia])). lia.
        + pose proof (proj1 (H (hi u + 1)) ltac:(split; [destruct (meaning W (at_ u) (i_min cur)); cbn [lower] in *; try tauto; lia|exact I])). lia.
    Qed.

    (** the fold factor is at least the extent *)
    Lemma fold_extent al f u : al = alignment \/ al = (fun _ => None) -> good u -> bounded_at checked bounds alignment fuel W r x b u ->
      folds_to checked fuel bounds alignment al cur x f -> exists F, f = EConst F /\ hi u - lo u < F.
    Proof.
      intros Al Gu B (i & e & w & Hi & He & Hw & Hf). destruct (B cur al i e Hcur Al Hi He) as ((z & Z) & Bok & C). destruct (C w Hw) as (c & ->).
      apply simp_const in Hf. subst f. exists c. split; [reflexivity|].
      assert (G0 : given_ok W (at_ u) bounds al).
      { destruct Al as [->| ->]; [exact (given u Gu)|]. split; [exact (proj1 (given u Gu))|intros y q X; discriminate X]. }
      destruct (cur_ends u Gu) as (E1 & E2).
      assert (Ex : meaning W (at_ u) (i_extent cur) = Fin (hi u - lo u + 1)).
      { unfold i_extent, e_add, e_sub. rewrite !make_mean, E1, E2. cbn [meaning xbin]. unfold xsub, xadd, xneg. f_equal. }
      destruct (C48_bounds_of W (at_ u) same reuse reuse_select bounds al fuel G HW (sound u Gu) G0 _ _ _ Hi Ex) as (_ & _ & U).
      rewrite Z in U. cbn [upper] in U.
      destruct (C48_simplify W (at_ u) same reuse reuse_select bounds alignment fuel G HW (sound u Gu) (given u Gu) _ _ _ He Z) as (_ & Me).
      pose proof (C43_constant_upper_bound e c Bok Hw W (at_ u) ltac:(rewrite Me; discriminate)) as X. rewrite Me in X. cbn [xle] in X. lia.
    Qed.

    Variables p1 p2 nm : expr.
    Hypothesis Hp1 : substitute (i_min cur) x (e_sub (EVar x f_none 0) (l_step loop)) = Val p1.
    Hypothesis Hp2 : substitute (i_max cur) x (e_sub (EVar x f_none 0) (l_step loop)) = Val p2.
    Hypothesis Hnm : simplify checked bounds alignment fuel (e_add p2 (EConst 1)) = Val nm.
    Lemma new_min_found : finds_new_min checked bounds alignment fuel x (l_step loop) b cur nm.
    Proof. split; [exact Hcur|]. exists p2. auto. Qed.
    Lemma prev_ends u : finite_ends W (at_ (u - s)) cur (lo (u - s)) (hi (u - s)) ->
      meaning W (at_ u) p1 = Fin (lo (u - s)) /\ meaning W (at_ u) p2 = Fin (hi (u - s)).
    Proof.
      intros (E1 & E2). destruct (proj1 Hplain cur Hcur) as (Q1 & Q2).
      split; [exact (subst_at W r x _ _ _ _ _ _ Q1 Hp1 (back_value u) E1)|exact (subst_at W r x _ _ _ _ _ _ Q2 Hp2 (back_value u) E2)].
    Qed.
    Lemma new_min_value u : good u -> good (u - s) -> meaning W (at_ u) nm = Fin (hi (u - s) + 1).
    Proof.
      intros Gu Gp. destruct (prev_ends u (cur_ends _ Gp)) as (_ & E2).
      assert (E : meaning W (at_ u) (e_add p2 (EConst 1)) = Fin (hi (u - s) + 1)) by (unfold e_add; rewrite make_mean, E2; reflexivity).
      exact (proj2 (C48_simplify W (at_ u) same reuse reuse_select bounds alignment fuel G HW (sound u Gu) (given u Gu) _ _ _ Hnm E)).
    Qed.
    Hypothesis Hinc : api_prove_true checked bounds alignment fuel (e_and (e_le p1 (i_min cur)) (e_le p2 (i_max cur))) = Val true.
    Lemma increases u : good u -> good (u - s) -> lo (u - s) <= lo u /\ hi (u - s) <= hi u.
    Proof.
      intros Gu Gp. destruct (prev_ends u (cur_ends _ Gp)) as (E1 & E2). destruct (cur_ends u Gu) as (C1 & C2).
      assert (E : exists z, meaning W (at_ u) (e_and (e_le p1 (i_min cur)) (e_le p2 (i_max cur))) = Fin z /\ (z <> 0 -> lo (u - s) <= lo u /\ hi (u - s) <= hi u)).
      { unfold e_and, e_le. rewrite !make_mean, E1, E2, C1, C2. cbn [xbin]. eexists. split; [reflexivity|]. cbn.
        destruct (Z.leb_spec (lo (u - s)) (lo u)), (Z.leb_spec (hi (u - s)) (hi u)); cbn; intros Q; auto; tauto. }
      destruct E as (z & E & H). apply H.
      exact (proj2 (C48_prove_true W (at_ u) same reuse reuse_select bounds alignment fuel G HW (sound u Gu) (given u Gu) _ _ Hinc E)).
    Qed.

    Variables old nl : expr.
    Hypothesis Hold : substitute (i_min cur) x (l_min loop) = Val old.
    Hypothesis Hnl : where_true_upper_bound checked fuel bounds alignment (e_le nm old) x (l_min loop) = Val nl.
    Hypothesis nl_finite : is_negative_infinity nl = false.
    Variable ml : Z.
    Hypothesis nl_free : ~ free x nl.
    Hypothesis nl_value : meaning W r nl = Fin ml.
    Lemma good_m : good m. Proof. left. reflexivity. Qed.
    Lemma loop_min_found : ml <= m /\ (meaning W (at_ ml) nm = Fin (hi (ml - s) + 1) -> hi (ml - s) + 1 <= lo m).
    Proof.
      destruct (search_inv checked fuel bounds alignment _ _ _ _ _ _ Hnl nl_finite ltac:(lia)) as (ix & sh & Ix & Hsh & Hpr & Hsi).
      assert (Eg : forall u, meaning W (at_ u) (e_sub (l_min loop) (EConst ix)) = Fin (m - ix)) by (intros u; unfold e_sub; rewrite make_mean, min_at; reflexivity).
      pose proof (proj2 (C48_simplify W (at_ m) same reuse reuse_select bounds alignment fuel G HW (sound m good_m) (given m good_m) _ _ _ Hsi (Eg m))) as E.
      rewrite (at_free W r x _ m nl_free), nl_value in E. injection E as E. split; [lia|]. intros Nm.
      destruct (proj1 Hplain cur Hcur) as (Q1 & _). pose proof (proj2 Hplain cur nm new_min_found) as Qn.
      pose proof (subst_at W r x _ _ _ ml m _ Q1 Hold (min_at ml) (proj1 (cur_ends m good_m))) as Eo.
      assert (Ec : exists z, meaning W (at_ ml) (e_le nm old) = Fin z /\ (z <> 0 -> hi (ml - s) + 1 <= lo m)).
      { unfold e_le. rewrite make_mean, Nm, Eo. cbn [xbin]. eexists. split; [reflexivity|]. cbn. destruct (Z.leb_spec (hi (ml - s) + 1) (lo m)); cbn; auto. tauto. }
      destruct Ec as (z & Ec & H). apply H. rewrite E in Ec.
      assert (Pc : plain (e_le nm old) = true) by (apply plain_make; [exact Qn|exact (plain_subst _ _ _ min_plain _ Q1 Hold)]).
      pose proof (subst_at W r x _ _ _ m (m - ix) _ Pc Hsh (Eg m) Ec) as Es.
      exact (proj2 (C48_prove_true W (at_ m) same reuse reuse_select bounds alignment fuel G HW (sound m good_m) (given m good_m) _ _ Hpr Es)).
    Qed.
  End Cur.

  Notation writes b' := (fun k z => exists A H, finite_ends W (at_ (v k)) b' A H /\ A <= z <= H).
  Lemma whole_iff k z : (exists A H, finite_ends W (at_ (v k)) b A H /\ A <= z <= H) <-> lo (v k) <= z <= hi (v k).
  Proof.
    destruct (ends (v k)) as (E1 & E2). split.
    - intros (A & H & (Q1 & Q2) & R). rewrite E1 in Q1. rewrite E2 in Q2. injection Q1 as <-. injection Q2 as <-. exact R.
    - intros R. exists (lo (v k)), (hi (v k)). split; [split; assumption|exact R].
  Qed.
  Lemma good_v k : (k <= n)%nat -> m <= v k -> good (v k).
  Proof. intros K L. right. split; [exact L|]. exists k. auto. Qed.

  Variable st : slid.
  Hypothesis Hloop : s_loop st = loop.
  Variable d : nat.
  Hypothesis unfolded : is_finite (fi_factor (nth d (s_folds st) no_fold)) = false.
  Variable st' : slid.
  Variable b' : interval.
  Hypothesis Hrun : slide_dim checked fuel bounds alignment st d b = Val (st', b').
  Variable ml : Z.
  Hypothesis ml_free : ~ free x (l_min (s_loop st')).
  Hypothesis ml_value : meaning W r (l_min (s_loop st')) = Fin ml.
  Hypothesis start_ml : start <= ml.
  Hypothesis right : forall u, start <= u < m + s -> u = ml \/ (exists k, (k <= n)%nat /\ u = v k) -> right_at checked bounds alignment fuel W r x (l_step loop) b lo hi s u.
  (** for folded storage *)
  Hypothesis foldable : fold_of (s_folds st') d <> None ->
    (forall u, good u -> bounded_at checked bounds alignment fuel W r x b u) /\
    (forall u, good u -> lo u <= hi (u - s) + 1) /\
    (forall u, start <= u < m -> hi u - hi (u - s) <= hi m - hi (m - s) /\ hi u - lo u <= hi m - lo m).

  Lemma one_dim k z : (k <= n)%nat -> lo (v k) <= z <= hi (v k) -> lo m <= z -> finds (fold_of (s_folds st') d) (writes b') k z.
  Proof.
    intros K Z1 Z2. pose proof (slide_dim_inv checked fuel bounds alignment st d b st' b' Hrun) as O.
    assert (Gm : good m) by (left; reflexivity).
    assert (Whole : finds None (fun k z => lo (v k) <= z <= hi (v k)) k z) by (exists k; split; [lia|]; split; [exact Z1|intros; assumption]).
    destruct O as [|cur f Hcur Hf|cur p1 p2 nm old nl did folds b' Hcur loop0 x0 back Hp1 Hp2 Hinc Hnm Hfolds Hold Hnl Hb'].
    - rewrite (not_finite_fold _ _ unfolded). apply (finds_iff _ (fun k z => lo (v k) <= z <= hi (v k)) _ k); [intros; symmetry; apply whole_iff|lia|exact Whole].
    - cbn [s_folds] in *. rewrite fold_same in *.
      destruct (as_constant f) as [F|] eqn:Ef.
      + destruct (foldable ltac:(discriminate)) as (B & Tch & Std).
        assert (X : forall u, good u -> hi u - lo u < F).
        { intros u Gu. rewrite Hloop in Hf. destruct (fold_extent cur Hcur _ f u (or_intror eq_refl) Gu (B u Gu) Hf) as (F' & -> & L). injection Ef as <-. exact L. }
        apply (finds_iff _ (fun k z => lo (v k) <= z <= hi (v k)) _ k); [intros; symmetry; apply whole_iff|lia|].
        pose proof (nonempty m Gm). apply (whole_folded lo hi start s m n); auto; [exact true|intros; apply X; auto using good_v].
      + apply (finds_iff _ (fun k z => lo (v k) <= z <= hi (v k)) _ k); [intros; symmetry; apply whole_iff|lia|exact Whole].
    - cbn [s_folds s_loop l_min] in *. subst loop0 x0 back. rewrite Hloop in ml_free, ml_value, Hp1, Hp2, Hold, Hnl, Hb', Hfolds.
      set (A := fun u => match meaning W (at_ u) (i_min b') with Fin a => a | _ => 0 end).
      set (found := negb (is_negative_infinity nl)).
      assert (Ri : forall j, (j <= n)%nat -> finite_ends W (at_ (v j)) cur (lo (v j)) (hi (v j)) /\ meaning W (at_ (v j)) nm = Fin (hi (v j - s) + 1)).
      { intros j J. pose proof (v_mono start s Hs 0 j ltac:(lia)) as V0. rewrite v_0 in V0. destruct (Z_lt_ge_dec (v j) (m + s)) as [L|L].
        - refine (right (v j) ltac:(lia) _ cur nm _); [right; eauto|]. exact (new_min_found cur Hcur p2 nm Hp2 Hnm).
        - assert (J0 : (0 < j)%nat) by (destruct j; [rewrite v_0 in *; lia|lia]).
          assert (Gj : good (v j)) by (apply good_v; [exact J|lia]).
          assert (Gp : good (v j - s)) by (rewrite v_pred by assumption; apply good_v; [lia|]; rewrite <- v_pred by assumption; lia).
          split; [exact (cur_ends cur Hcur _ Gj)|]. exact (new_min_value cur Hcur p1 p2 nm Hp1 Hp2 Hnm _ Gj Gp). }
      assert (Bm : forall u, meaning W (at_ u) (i_max b') = Fin (hi u)).
      { intros u. rewrite Hb'. destruct (is_negative_infinity nl); cbn [i_bounds i_max]; apply ends. }
      assert (Am : forall j, (j <= n)%nat -> meaning W (at_ (v j)) (i_min b') = Fin (crop lo hi s found m0 (v j))).
      { intros j J. destruct (Ri j J) as ((C1 & C2) & C3). rewrite Hb'. unfold crop, found. destruct (is_negative_infinity nl); cbn [i_bounds i_min negb]; [|exact C3].
        assert (Ec : meaning W (at_ (v j)) (e_le (EVar x f_none 0) (l_orig_min loop)) = Fin (if v j <=? m0 then 1 else 0)).
        { unfold e_le. rewrite make_mean, (at_free W r x _ _ orig_free), orig_value. cbn [meaning]. rewrite at_self. cbn. reflexivity. }
        cbn [meaning]. rewrite Ec, C1, C3. destruct (v j <=? m0); reflexivity. }
      assert (HA : forall j, (j <= n)%nat -> A (v j) = crop lo hi s found m0 (v j)) by (intros j J; unfold A; rewrite (Am j J); reflexivity).
      assert (Iff : forall j y, (j <= n)%nat -> (A (v j) <= y <= hi (v j)) <-> (exists a h, finite_ends W (at_ (v j)) b' a h /\ a <= y <= h)).
      { intros j y J. rewrite (HA j J). split.
        - intros R. do 2 eexists. split; [split; [exact (Am j J)|apply Bm]|exact R].
        - intros (a & h & (Q1 & Q2) & R). rewrite (Am j J) in Q1. rewrite Bm in Q2. injection Q1 as <-. injection Q2 as <-. exact R. }
      assert (Mono : forall j, (S j <= n)%nat -> m <= v j -> lo (v j) <= lo (v (S j)) /\ hi (v j) <= hi (v (S j))).
      { intros j J L. assert (E : v j = v (S j) - s) by (rewrite v_S; lia). set (w := v (S j)) in *. rewrite E. apply (increases cur Hcur p1 p2 Hp1 Hp2 Hinc).
        - unfold w. apply good_v; [exact J|]. rewrite v_S. lia.
        - rewrite <- E. apply good_v; [lia|exact L]. }
      assert (HA0 : found = true -> A start <= lo m).
      { unfold found. destruct (is_negative_infinity nl) eqn:En; [discriminate|]. intros _.
        destruct (loop_min_found cur Hcur p2 nm Hp2 Hnm old nl Hold Hnl En ml ml_free ml_value) as (L1 & L2).
        assert (Nm : meaning W (at_ ml) nm = Fin (hi (ml - s) + 1)) by (refine (proj2 (right ml ltac:(lia) _ cur nm _)); [auto|exact (new_min_found cur Hcur p2 nm Hp2 Hnm)]).
        specialize (L2 Nm). pose proof (HA 0%nat ltac:(lia)) as E. rewrite v_0 in E. rewrite E. unfold crop, found. rewrite ?En. cbn [negb].
        destruct (Z.eq_dec start ml) as [->|N]; [exact L2|]. destruct (moves_up ltac:(lia) (start - s) (ml - s) ltac:(lia) ltac:(lia)). lia. }
      assert (M0 : found = false -> m <= m0) by (intros _; exact m_m0).
      apply (finds_iff _ (fun k z => A (v k) <= z <= hi (v k)) _ n); [exact Iff|exact K|].
      assert (Unf : finds None (fun k z => A (v k) <= z <= hi (v k)) k z).
      { apply (slide_unfolded lo hi A start s m n Hs start_m Mono moves_up found m0 M0 HA HA0); assumption. }
      destruct Hfolds as [->|(f & o & Hf & ->)]; [rewrite (not_finite_fold _ _ unfolded); exact Unf|].
      rewrite fold_same in *. destruct (as_constant f) as [F|] eqn:Ef; [|exact Unf].
      destruct (foldable ltac:(discriminate)) as (B & Tch & Std).
      assert (X : forall u, good u -> hi u - lo u < F).
      { intros u Gu. destruct (fold_extent cur Hcur _ f u (or_introl eq_refl) Gu (B u Gu) Hf) as (F' & -> & L). injection Ef as <-. exact L. }
      apply (slide_folded lo hi A start s m n Hs start_m Mono moves_up found m0 M0 HA HA0 F); auto.
      + intros j J L. apply X, good_v; auto.
      + intros j J L. apply Tch, good_v; auto.
  Qed.
End OneDim.
