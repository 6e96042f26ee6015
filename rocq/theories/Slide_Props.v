(** C64: sliding windows and folded storage: every element that is read in an iteration of the
    loop was computed, and is still there. *)
From Coq Require Import ZArith List Bool Lia.
From Verif Require Import Arith_Model Arith_Proofs ModRem_Model ModRem_Proofs Buf_Model Expr_Model Expr_Spec Expr_Proofs Match_Model Rewrite_Model Interval_Model Interval_Spec Interval_Props
  Const_Model Const_Proofs Const_Props Deps_Model Deps_Spec Deps_Props Subst_Model BoundsOf_Spec
  Simplifier_Model SimplifierMono_Proofs SimplifierGuard_Model SimplifierGuard_Spec SimplifierGuard_Proofs SimplifierApi_Proofs SimplifierCheck_Model RewriteMatch_Proofs
  Simplifier_Props Slide_Model Slide_Spec Slide_Proofs.
Import ListNotations.
Open Scope Z_scope.

Section C64.
  Variable W : world.
  (** the values of the symbols outside of the loop *)
  Variable r : env.
  Variable same : path -> expr -> expr -> bool.
  Variable reuse : path -> expr -> expr -> bool.
  Variable reuse_select : path -> bool.
  Variable bounds : nat -> option interval.
  Variable alignment : nat -> option modrem.
  Variable fuel : nat.
  Variable G : guards.
  Hypothesis HW : sensible W.
  Notation code := (code_prims W same reuse reuse_select).
  Notation checked := (guarded_prims G W same reuse reuse_select).

  (** The loop: its variable, its step [s], its minimum [m] (so far) and its original minimum
      [m0], which are values outside of the loop. *)
  Variable loop : loop_info.
  Notation x := (l_sym loop).
  Variables m m0 s : Z.
  Hypothesis Hs : 0 < s.
  Hypothesis step_value : ~ free x (l_step loop) /\ meaning W r (l_step loop) = Fin s.
  Hypothesis min_value : ~ free x (l_min loop) /\ plain (l_min loop) = true /\ meaning W r (l_min loop) = Fin m.
  Hypothesis orig_value : ~ free x (l_orig_min loop) /\ meaning W r (l_orig_min loop) = Fin m0.
  Hypothesis m_m0 : m <= m0.

  (** The box that is required of the buffer, which depends on the loop variable in one
      dimension, [d0], where it is [lo u] .. [hi u] at the value [u] of the loop variable; the
      buffer is not folded yet. *)
  Variable required : list interval.
  Variable d0 : nat.
  Variable b : interval.
  Variables lo hi : Z -> Z.
  Hypothesis in_d0 : nth_error required d0 = Some b.
  Hypothesis in_others : forall d b', nth_error required d = Some b' -> d <> d0 -> ~ free x (i_min b') /\ ~ free x (i_max b').
  Hypothesis b_ok : interval_ok b.
  Hypothesis ends : forall u, finite_ends W (at_ r x u) b (lo u) (hi u).
  Variable folds : list fold_info.
  Hypothesis not_folded : forall d, is_finite (fi_factor (nth d folds no_fold)) = false.

  (** The run: the new crop [crop], and the new state, with the new minimum [ml] of the loop.
      Sliding other buffers may move the minimum further back: the loop runs from [start], for
      [n] iterations after the first. *)
  Variable st : slid.
  Variable crop : list interval.
  Hypothesis run : slide_and_fold_buffer checked fuel bounds alignment loop folds required = Val (st, crop).
  Variables ml start : Z.
  Variable n : nat.
  Hypothesis ml_value : ~ free x (l_min (s_loop st)) /\ meaning W r (l_min (s_loop st)) = Fin ml.
  Hypothesis start_first : start <= ml /\ start <= m.
  Notation iter := (iteration start s).

  (** In the original iterations (those from [m] on): the checks, what the code knows about the
      loop variable is true, and something is required. *)
  Notation original := (original m s start n).
  Hypothesis sound : forall u, original u -> guards_sound W (at_ r x u) reuse reuse_select G.
  Hypothesis given : forall u, original u -> given_ok W (at_ r x u) bounds alignment.
  Hypothesis nonempty : forall u, original u -> lo u <= hi u.
  Hypothesis plain_found : plain_results checked bounds alignment fuel x (l_step loop) b.
  (** Before [m + s]: the simplified bounds are still right (they were simplified for values of
      the loop variable from [m] on), and what is required moves up. *)
  Hypothesis still_right : forall u, start <= u < m + s -> u = ml \/ (exists k, (k <= n)%nat /\ u = iter k) ->
    right_at checked bounds alignment fuel W r x (l_step loop) b lo hi s u.
  Hypothesis moves_up : start < m -> forall u u', start - s <= u <= u' -> u' < m + s -> lo u <= lo u' /\ hi u <= hi u'.
  (** If the buffer is folded: the bound of the extent has a value, consecutive windows touch,
      and the windows before [m] are not larger than those at [m]. *)
  Hypothesis foldable : fold_of (s_folds st) d0 <> None ->
    (forall u, original u -> bounded_at checked bounds alignment fuel W r x b u) /\
    (forall u, original u -> lo u <= hi (u - s) + 1) /\
    (forall u, start <= u < m -> hi u - hi (u - s) <= hi m - hi (m - s) /\ hi u - lo u <= hi m - lo m).

  Lemma skips st0 d i : ~ free x (i_min i) /\ ~ free x (i_max i) -> s_loop st0 = loop \/ l_sym (s_loop st0) = x -> slide_dim checked fuel bounds alignment st0 d i = Val (st0, i).
  Proof.
    intros (N1 & N2) L. assert (Lx : l_sym (s_loop st0) = x) by (destruct L as [->|L]; [reflexivity|exact L]). unfold slide_dim. rewrite Lx. destruct (is_finite _); [reflexivity|]. unfold depends_on_ends.
    assert (E : forall e, ~ free x e -> any_flag (depends_on e x) = false) by (intros e N; destruct (any_flag (depends_on e x)) eqn:Q; [apply C17_depends_on_exact in Q; contradiction|reflexivity]).
    rewrite (E _ N1), (E _ N2). reflexivity.
  Qed.
  Lemma skips_all l : forall st0 d, Forall (fun i => ~ free x (i_min i) /\ ~ free x (i_max i)) l -> l_sym (s_loop st0) = x -> slide_dims checked fuel bounds alignment st0 d l = Val (st0, l).
  Proof.
    induction l as [|i l IH]; intros st0 d F L; [reflexivity|]. inversion F as [|i' l' F1 F2]; subst. cbn [slide_dims]. rewrite skips by auto. cbn [bind]. rewrite (IH _ _ F2 L). reflexivity.
  Qed.
  Lemma keeps_sym st0 d i st1 i' : slide_dim checked fuel bounds alignment st0 d i = Val (st1, i') -> l_sym (s_loop st1) = l_sym (s_loop st0).
  Proof. intros H. destruct (slide_dim_inv _ _ _ _ _ _ _ _ _ H); reflexivity. Qed.
  Lemma splits l1 l2 : forall st0 d st1 l', Forall (fun i => ~ free x (i_min i) /\ ~ free x (i_max i)) l1 -> Forall (fun i => ~ free x (i_min i) /\ ~ free x (i_max i)) l2 ->
    l_sym (s_loop st0) = x -> slide_dims checked fuel bounds alignment st0 d (l1 ++ b :: l2) = Val (st1, l') ->
    exists b', slide_dim checked fuel bounds alignment st0 (d + length l1) b = Val (st1, b') /\ l' = l1 ++ b' :: l2.
  Proof.
    induction l1 as [|i l1 IH]; intros st0 d st1 l' F1 F2 L H; cbn [app slide_dims length] in H.
    - apply bind_inv in H as ((sa & b') & Ha & H). rewrite (skips_all _ _ _ F2) in H by (rewrite (keeps_sym _ _ _ _ _ Ha); exact L). cbn [bind] in H. injection H as <- <-.
      exists b'. rewrite Nat.add_0_r. auto.
    - inversion F1 as [|i' l'' Fa Fb]; subst. rewrite skips in H by auto. cbn [bind] in H. apply bind_inv in H as ((sa & la) & Ha & H). injection H as <- <-.
      destruct (IH _ _ _ _ Fb F2 L Ha) as (b' & Hb & ->). exists b'. replace (d + length (i :: l1))%nat with (S d + length l1)%nat by (cbn [length]; lia). auto.
  Qed.

  (** Every element that is read in an iteration is found: it was written in this or an earlier
      iteration, and nothing else was written to its place since then. *)
  Theorem C64_sliding_window :
    slide_and_fold_buffer code fuel bounds alignment loop folds required = Val (st, crop) /\
    forall k p, (k <= n)%nat -> reads W r x required m (iter k) p ->
      finds_element (length required) (fold_of (s_folds st)) (fun k p => in_box W r x crop (iter k) p) k p.
  Proof.
    split; [exact (le_slide_dims _ _ (guarded_code G W same reuse reuse_select) fuel bounds alignment required _ _ _ run)|].
    intros k p K (Rd & Rm). destruct step_value as (S1 & S2). destruct min_value as (M1 & M2 & M3). destruct orig_value as (O1 & O2). destruct ml_value as (L1 & L2).
    destruct (nth_error_split _ _ in_d0) as (l1 & l2 & Hl & Len).
    assert (Oth : forall d i, nth_error (l1 ++ b :: l2) d = Some i -> d <> d0 -> ~ free x (i_min i) /\ ~ free x (i_max i)) by (rewrite <- Hl; exact in_others).
    assert (F1 : Forall (fun i => ~ free x (i_min i) /\ ~ free x (i_max i)) l1).
    { apply Forall_forall. intros i I. apply In_nth_error in I as (d & E). apply (Oth d i).
      - rewrite nth_error_app1; [exact E|]. apply nth_error_Some. congruence.
      - intros ->. rewrite <- Len in E. rewrite (proj2 (nth_error_None l1 (length l1))) in E by lia. discriminate. }
    assert (F2 : Forall (fun i => ~ free x (i_min i) /\ ~ free x (i_max i)) l2).
    { apply Forall_forall. intros i I. apply In_nth_error in I as (d & E). apply (Oth (length l1 + S d)%nat i); [|lia].
      rewrite nth_error_app2 by lia. replace (length l1 + S d - length l1)%nat with (S d) by lia. exact E. }
    pose proof run as H. unfold slide_and_fold_buffer in H. rewrite Hl in H. apply splits in H as (b' & H & Hc); [|exact F1|exact F2|reflexivity].
    rewrite Len in H. cbn [Nat.add] in H.
    assert (Z1 : lo (iter k) <= p d0 <= hi (iter k)).
    { destruct (Rd d0 b in_d0) as (a & h & (E1 & E2) & R). destruct (ends (iter k)) as (Q1 & Q2). rewrite Q1 in E1. rewrite Q2 in E2. injection E1 as <-. injection E2 as <-. exact R. }
    assert (Z2 : lo m <= p d0) by (apply (Rm d0 b _ in_d0); apply ends).
    destruct (one_dim W r same reuse reuse_select bounds alignment fuel G HW loop m m0 s start n Hs S1 S2 M1 M2 M3 O1 O2 m_m0 sound given b lo hi b_ok ends nonempty plain_found
      (proj2 start_first) moves_up (Slid (overlapped folds) loop folds) eq_refl d0 (not_folded d0) st b' H ml L1 L2 (proj1 start_first) still_right foldable k (p d0) K Z1 Z2)
      as (j & J & Wj & Hj).
    assert (Nd0 : nth_error crop d0 = Some b') by (rewrite Hc, <- Len, nth_error_app2 by lia; rewrite Nat.sub_diag; reflexivity).
    assert (No : forall d, d <> d0 -> nth_error crop d = nth_error required d).
    { intros d N. rewrite Hc, Hl. destruct (Nat.lt_ge_cases d (length l1)) as [L|L]; [rewrite !nth_error_app1 by exact L; reflexivity|].
      rewrite !nth_error_app2 by exact L. destruct (d - length l1)%nat eqn:E; [lia|reflexivity]. }
    assert (Fo : forall d, d <> d0 -> fold_of (s_folds st) d = None).
    { intros d N. apply not_finite_fold. assert (Q : nth d (s_folds st) no_fold = nth d folds no_fold); [|rewrite Q; apply not_folded].
      destruct (slide_dim_inv _ _ _ _ _ _ _ _ _ H) as [|cur f Hcur Hf|cur p1 p2 nm old nl did fl b' Hcur loop0 x0 back Hp1 Hp2 Hinc Hnm Hfolds Hold Hnl Hb']; cbn [s_folds]; [reflexivity|apply fold_other, N|].
      destruct Hfolds as [->|(f & o & _ & ->)]; [reflexivity|apply fold_other, N]. }
    exists j. split; [exact J|]. split.
    - intros d i E. destruct (Nat.eq_dec d d0) as [->|N].
      + rewrite Nd0 in E. injection E as <-. exact Wj.
      + rewrite (No d N) in E. destruct (Rd d i E) as (a & h & (E1 & E2) & R). destruct (in_others d i E N) as (N1 & N2). exists a, h. split; [|exact R].
        rewrite (at_free W r x _ _ N1) in E1. rewrite (at_free W r x _ _ N2) in E2. split; rewrite at_free; assumption.
    - intros j' p' J' Wp Sp d D. destruct (Nat.eq_dec d d0) as [->|N].
      + apply (Hj j' (p' d0) J'); [exact (Wp d0 b' Nd0)|exact (Sp d0 D)].
      + specialize (Sp d D). rewrite (Fo d N) in Sp. exact Sp.
  Qed.
End C64.

(** ** Checks for several values of a variable *)
Definition all_checks (W : world) (reuse : path -> expr -> expr -> bool) (reuse_select : path -> bool) (rs : list env) : guards :=
  let all (f : guards -> bool) := forallb (fun r => f (checks W r reuse reuse_select)) rs in
  Guards (fun e => all (fun g => g_visit g e)) (fun o a b => all (fun g => g_bin g o a b)) (fun a => all (fun g => g_not g a))
    (fun c t f => all (fun g => g_select g c t f)) (fun fn t l => all (fun g => g_call g fn t l)) (fun a c => all (fun g => g_add_constant g a c))
    (fun e => all (fun g => g_answer g e)) (fun p o op a b => all (fun g => g_bounds_bin g p o op a b)) (fun e e' => all (fun g => g_inner g e e'))
    (fun a => all (fun g => g_bounds_not g a)) (fun p c t f => all (fun g => g_bounds_select g p c t f)) (fun fn bs => all (fun g => g_bounds_call g fn bs))
    (fun o a b => all (fun g => g_align g o a b)) (fun al a b => all (fun g => g_aligned g al a b)) (fun pos c => all (fun g => g_learn g pos c))
    (fun a b x => all (fun g => g_subst g a b x)) (fun s n low => all (fun g => g_at g s n low)).
Lemma all_checks_sound W reuse reuse_select rs r : In r rs -> guards_sound W r reuse reuse_select (all_checks W reuse reuse_select rs).
Proof.
  intros I. pose proof (C48_checks W r reuse reuse_select) as K.
  destruct K as [K1 K2 K3 K4 K5 K6 K7 K8 K9 K10 K11 K12 K13 K14 K15 K16 K17].
  constructor; cbn [all_checks g_visit g_bin g_not g_select g_call g_add_constant g_answer g_bounds_bin g_inner g_bounds_not g_bounds_select g_bounds_call g_align g_aligned g_learn g_subst g_at]; intros;
    match goal with H : forallb _ _ = true |- _ => rewrite forallb_forall in H; specialize (H r I) end; eauto.
Qed.

(** ** An example: the window [x - 1, x + 1], in a loop from 0 to 9.  The new crop is
    [x + 1, x + 1], the loop begins at -2, and the fold factor is 3. *)
Definition c64_x := EVar 0 f_none 0.
Definition c64_y := EVar 1 f_none 0.
Definition c64_om := EVar 2 f_none 0.
Definition c64_plus (c : Z) := EBin Add c64_x (EConst c).
Definition c64_r : env := fun s => Fin (match s with 1%nat => 5 | _ => 0 end).
Definition c64_bounds (lo hi step : expr) (s : nat) := match s with 0%nat => Some (loop_var_bounds lo hi step) | _ => None end.
Definition c64_align (lo step : expr) (s : nat) := match s with 0%nat => Some (loop_var_alignment lo step) | _ => None end.
Definition c64_loop (lo step : expr) := LoopInfo 0 c64_om lo step true.
Definition c64_values (lo : Z) (n : nat) : list env := map (fun k => at_ c64_r 0 (lo + Z.of_nat k)) (seq 0 n).
Definition c64_checked := guarded_prims (all_checks c48_world c48_never c48_one (c64_values 0 10)) c48_world (fun _ => match_expr) c48_never c48_one.
Definition c64_required : list interval := [i_bounds (EConst 0) c64_y; i_bounds (c64_plus (-1)) (c64_plus 1)].
Definition c64_crop : list interval := [i_bounds (EConst 0) c64_y; i_bounds (c64_plus 1) (c64_plus 1)].
Definition c64_st : slid := Slid true (LoopInfo 0 c64_om (EConst (-2)) (EConst 1) false) [no_fold; FoldInfo (EConst 3) (EConst 1)].
Notation c64_bs := (c64_bounds (EConst 0) (EConst 9) (EConst 1)).
Notation c64_al := (c64_align (EConst 0) (EConst 1)).

Lemma c64_run : slide_and_fold_buffer c64_checked 40 c64_bs c64_al (c64_loop (EConst 0) (EConst 1)) [] c64_required = Val (c64_st, c64_crop).
Proof. vm_compute. reflexivity. Qed.
Lemma c64_simplified : simplify_interval c64_checked c64_bs c64_al 40 (i_bounds (c64_plus (-1)) (c64_plus 1)) = Val (i_bounds (c64_plus (-1)) (c64_plus 1)).
Proof. vm_compute. reflexivity. Qed.
Lemma c64_new cur nm : finds_new_min c64_checked c64_bs c64_al 40 0 (EConst 1) (i_bounds (c64_plus (-1)) (c64_plus 1)) cur nm -> cur = i_bounds (c64_plus (-1)) (c64_plus 1) /\ nm = c64_plus 1.
Proof.
  intros (H & e & E & N). rewrite c64_simplified in H. injection H as <-. split; [reflexivity|]. vm_compute in E. injection E as <-. vm_compute in N. injection N as <-. reflexivity.
Qed.
Notation c64_b := (i_bounds (c64_plus (-1)) (c64_plus 1)).
Lemma c64_cur cur : simplify_interval c64_checked c64_bs c64_al 40 c64_b = Val cur -> cur = c64_b.
Proof. rewrite c64_simplified. intros H. injection H as <-. reflexivity. Qed.
Lemma c64_plain : plain_results c64_checked c64_bs c64_al 40 0 (EConst 1) c64_b.
Proof.
  split; [intros cur H; apply c64_cur in H as ->; split; reflexivity|]. intros cur nm H. apply c64_new in H as (-> & ->). reflexivity.
Qed.
Lemma c64_right u : right_at c64_checked c64_bs c64_al 40 c48_world c64_r 0 (EConst 1) c64_b (fun u => u - 1) (fun u => u + 1) 1 u.
Proof. intros cur nm H. apply c64_new in H as (-> & ->). split; [split; reflexivity|]. cbn. f_equal. lia. Qed.
Lemma c64_extent al : al = c64_al \/ al = (fun _ => None) -> bounds_of c64_checked c64_bs al 40 (i_extent c64_b) = Val (point (EConst 3)).
Proof. intros [->| ->]; vm_compute; reflexivity. Qed.
Lemma c64_three : simplify c64_checked c64_bs c64_al 40 (EConst 3) = Val (EConst 3).
Proof. vm_compute. reflexivity. Qed.
Lemma c64_bounded u : bounded_at c64_checked c64_bs c64_al 40 c48_world c64_r 0 c64_b u.
Proof.
  intros cur al i e H A Hi He. apply c64_cur in H as ->. rewrite (c64_extent al A) in Hi. injection Hi as <-. cbn [point i_max] in He. rewrite c64_three in He. injection He as <-.
  split; [exists 3; reflexivity|]. split; [split; [apply consts_ok_all; cbn; unfold in64; cbn; lia|reflexivity]|]. intros w Hw. injection Hw as <-. eauto.
Qed.
Lemma C64_ex :
  (forall k p, (k <= 11)%nat -> reads c48_world c64_r 0 c64_required 0 (iteration (-2) 1 k) p ->
    finds_element 2 (fold_of (s_folds c64_st)) (fun k p => in_box c48_world c64_r 0 c64_crop (iteration (-2) 1 k) p) k p) /\
  fold_of (s_folds c64_st) 1 = Some 3 /\
  (** the element (2, 6) is read for x = 5, 6 and 7, and written for x = 5 *)
  let p := fun d => match d with 0%nat => 2 | _ => 6 end in
  reads c48_world c64_r 0 c64_required 0 (iteration (-2) 1 9) p /\ forall k, in_box c48_world c64_r 0 c64_crop (iteration (-2) 1 k) p -> k = 7%nat.
Proof.
  assert (Or : forall u, original 0 1 (-2) 11 u -> 0 <= u <= 9).
  { intros u [->|(L & k & K & ->)]; [lia|]. unfold iteration in *. lia. }
  split; [|split; [reflexivity|]].
  - refine (proj2 (C64_sliding_window c48_world c64_r (fun _ => match_expr) c48_never c48_one c64_bs c64_al 40 (all_checks c48_world c48_never c48_one (c64_values 0 10)) c48_sensible (c64_loop (EConst 0) (EConst 1)) 0 0 1 ltac:(lia) _ _ _ ltac:(lia)
      c64_required 1 (i_bounds (c64_plus (-1)) (c64_plus 1)) (fun u => u - 1) (fun u => u + 1) eq_refl _ _ _ [] _ c64_st c64_crop c64_run (-2) (-2) 11 _ ltac:(lia) _ _ _ _ _ _ _)).
    + split; [intros (ro & O); cbn in O; intuition discriminate|reflexivity].
    + split; [intros (ro & O); cbn in O; intuition discriminate|split; reflexivity].
    + split; [intros (ro & O); cbn in O; intuition discriminate|reflexivity].
    + intros [|[|[|d]]] b' E N; try discriminate E; [|congruence]. injection E as <-. split; intros (ro & O); cbn in O; intuition discriminate.
    + intros Q. discriminate Q.
    + intros u. split; reflexivity.
    + intros [|d]; reflexivity.
    + split; [intros (ro & O); cbn in O; intuition discriminate|reflexivity].
    + intros u U. apply Or in U. apply all_checks_sound. unfold c64_values. apply in_map_iff. exists (Z.to_nat u). split; [f_equal; lia|]. apply in_seq. lia.
    + intros u U. apply Or in U. split.
      * intros [|i0] i E; [|discriminate E]. injection E as <-. split; [intros Q; discriminate Q|]. intros z E. injection E as <-. split; intros _; cbn; lia.
      * intros [|i0] q E; [|discriminate E]. injection E as <-. split; [split; vm_compute; split; discriminate|]. split; [exact (red_zero 1)|].
        intros z E. injection E as <-. exists u. change (u = 1 * u + 0). lia.
    + intros u _. lia.
    + exact c64_plain.
    + intros u _ _. exact (c64_right u).
    + intros _ u u' U U'. lia.
    + intros _. split; [|split; intros; lia].
      intros u _. exact (c64_bounded u).
  - cbv zeta. split.
    + split.
      * intros [|[|[|d]]] b E; try discriminate E; injection E as <-; do 2 eexists; (split; [split; reflexivity|]); unfold iteration; cbn; lia.
      * intros [|[|[|d]]] b lo E L; try discriminate E; injection E as <-; cbn in L; injection L as <-; lia.
    + intros k H. assert (K : iteration (-2) 1 k = 5 -> k = 7%nat) by (unfold iteration; lia). apply K. clear K. generalize dependent (iteration (-2) 1 k). intros u H.
      destruct (H 1%nat _ eq_refl) as (a & h & (E1 & E2) & R). cbn in E1, E2. injection E1 as <-. injection E2 as <-. change (u + 1 <= 6 <= u + 1) in R. lia.
Qed.

(** ** Elements that are lost.  [loses r lo hi step required p v]: the loop from [lo] to [hi] in
    steps of [step] reads [p] in the iteration [v] and does not find it. *)
Definition c64_loses (r : env) (lo hi step : expr) (required : list interval) (p : position) (v : Z) : Prop :=
  exists st crop m start s k,
    slide_and_fold_buffer c48_code 60 (c64_bounds lo hi step) (c64_align lo step) (c64_loop lo step) [] required = Val (st, crop) /\
    meaning c48_world r lo = Fin m /\ meaning c48_world r step = Fin s /\ meaning c48_world r (l_min (s_loop st)) = Fin start /\ start <= m /\
    m <= v /\ iteration start s k = v /\
    reads c48_world r 0 required m v p /\
    ~ finds_element (length required) (fold_of (s_folds st)) (fun k p => in_box c48_world r 0 crop (iteration start s k) p) k p.

Ltac c64_reads := split; [intros [|[|[|d]]] b E; try discriminate E; injection E as <-; do 2 eexists; (split; [split; reflexivity|]); cbn; lia
  |intros [|[|[|d]]] b lo E L; try discriminate E; injection E as <-; cbn in L; injection L as <-; lia].
Ltac c64_box H d R := let a := fresh in let h := fresh in let E1 := fresh in let E2 := fresh in
  destruct (H d _ eq_refl) as (a & h & (E1 & E2) & R); unfold i_min, i_max in E1, E2.

(** Only one dimension may depend on the loop variable: here, [x, x] and [x - 1, x + 1].  The
    element (3, 2) is read at x = 3; it would have been written at x = 1, when only (1, 2) is. *)
Theorem C64_two_dims_refuted :
  c64_loses c64_r (EConst 0) (EConst 9) (EConst 1) [i_bounds c64_x c64_x; i_bounds (c64_plus (-1)) (c64_plus 1)] (fun d => match d with 0%nat => 3 | _ => 2 end) 3.
Proof.
  do 3 eexists. exists (-2), 1, 5%nat. split; [vm_compute; reflexivity|]. repeat (split; [reflexivity || lia|]). split; [c64_reads|].
  intros (j & J & H & _). generalize dependent (iteration (-2) 1 j). intros u H.
  destruct (H 0%nat _ eq_refl) as (a & h & (E1 & E2) & R). destruct (H 1%nat _ eq_refl) as (a' & h' & (E1' & E2') & R').
  cbn in E1, E2, E1', E2'. injection E1 as <-. injection E2 as <-. injection E1' as <-. injection E2' as <-. change (u + 1 <= 2 <= u + 1) in R'. lia.
Qed.

(** Windows that do not touch: [x / 2 * 5, x / 2 * 5 + 1].  The new part is taken to begin where
    the last window ended: at x = 2, the elements 2 to 6 are written, with a fold factor of 2. *)
Definition c64_gap := EBin Mul (EBin Div c64_x (EConst 2)) (EConst 5).
Theorem C64_gap_refuted :
  c64_loses c64_r (EConst 0) (EConst 9) (EConst 1) [i_bounds c64_gap (EBin Add c64_gap (EConst 1))] (fun _ => 5) 2.
Proof.
  do 3 eexists. exists 0, 1, 2%nat. split; [vm_compute; reflexivity|]. repeat (split; [reflexivity || lia|]). split; [c64_reads|].
  intros (j & J & H & N).
  assert (Q : 3 = 5); [|discriminate Q].
  apply (N 2%nat (fun _ => 3)) with (d := 0%nat); [lia| |intros [|d] D; [reflexivity|cbn in D; lia]|cbn; lia].
  intros [|[|d]] b E; try discriminate E. injection E as <-. do 2 eexists. split; [split; reflexivity|]. cbn. lia.
Qed.

(** The alignment that is recorded for the loop variable is wrong if the minimum of the loop is
    not a constant: here, the loop begins at y = 1, in steps of 4, and is taken to have only
    multiples of 4.  The fold factor is 4, and 8 elements are written and read at x = 1. *)
Definition c64_r1 : env := fun s => Fin (match s with 1%nat => 1 | _ => 0 end).
Definition c64_down4 := EBin Mul (EBin Div c64_x (EConst 4)) (EConst 4).
Definition c64_up4 := EBin Add (EBin Mul (EBin Div (c64_plus 3) (EConst 4)) (EConst 4)) (EConst 3).
Theorem C64_alignment_refuted :
  c64_loses c64_r1 c64_y (EBin Add c64_y (EConst 9)) (EConst 4) [i_bounds c64_down4 c64_up4] (fun _ => 0) 1.
Proof.
  do 3 eexists. exists 1, 4, 0%nat. split; [vm_compute; reflexivity|]. repeat (split; [reflexivity || lia|]). split; [c64_reads|].
  intros (j & J & H & N).
  assert (Q : 4 = 0); [|discriminate Q].
  apply (N 0%nat (fun _ => 4)) with (d := 0%nat); [lia| |intros [|d] D; [reflexivity|cbn in D; lia]|cbn; lia].
  intros [|[|d]] b E; try discriminate E. injection E as <-. do 2 eexists. split; [split; reflexivity|]. cbn. lia.
Qed.

(** What is required in the iterations before the original minimum is simplified with the
    original bounds of the loop variable: [x - 1, x < 0 ? -100 : x + 1].  The new crop is from
    x + 1 on, and the loop begins at x = -2: the element -1 is never written. *)
Theorem C64_warm_up_refuted :
  c64_loses c64_r (EConst 0) (EConst 9) (EConst 1) [i_bounds (c64_plus (-1)) (ESelect (EBin Less c64_x (EConst 0)) (EConst (-100)) (c64_plus 1))] (fun _ => -1) 0.
Proof.
  do 3 eexists. exists (-2), 1, 2%nat. split; [vm_compute; reflexivity|]. repeat (split; [reflexivity || lia|]). split; [c64_reads|].
  intros (j & J & H & _). assert (Q : (j = 0 \/ j = 1 \/ j = 2)%nat) by lia.
  destruct Q as [->|[->| ->]]; destruct (H 0%nat _ eq_refl) as (a & h & (E1 & E2) & R); cbn in E1, E2; injection E1 as <-; injection E2 as <-; cbn in R; lia.
Qed.

(** The new minimum of the loop need not be whole steps before the original one: in steps of 2
    from 0, [x / 2 * 2, x / 2 * 2 + 2], the loop begins at -1.  The element 1 is read at x = 1,
    but not written: the new part was found for even values. *)
Definition c64_down2 := EBin Mul (EBin Div c64_x (EConst 2)) (EConst 2).
Theorem C64_step_refuted :
  c64_loses c64_r (EConst 0) (EConst 9) (EConst 2) [i_bounds c64_down2 (EBin Add c64_down2 (EConst 2))] (fun _ => 1) 1.
Proof.
  do 3 eexists. exists (-1), 2, 1%nat. split; [vm_compute; reflexivity|]. repeat (split; [reflexivity || lia|]). split; [c64_reads|].
  intros (j & J & H & _). assert (Q : (j = 0 \/ j = 1)%nat) by lia.
  destruct Q as [->| ->]; destruct (H 0%nat _ eq_refl) as (a & h & (E1 & E2) & R); cbn in E1, E2; injection E1 as <-; injection E2 as <-; cbn in R; lia.
Qed.
