(** The crops of a loop's body. *)
From Coq Require Import ZArith List Bool Arith Lia.
From Verif Require Import Arith_Model Buf_Model Buf_Spec ForEach_Spec Expr_Model Expr_Proofs Deps_Spec VSem_Spec VExec_Proofs Concat_Model Concat_Spec Concat_Proofs Stmt_Model Crops_Model Crops_Spec Crops_Proofs Crops2_Proofs Crops3_Proofs.
Import ListNotations.
Open Scope Z_scope.

Lemma reaches_snoc deps T v s y : reaches deps T v s -> In y (deps s) -> ~ T y -> reaches deps T v y.
Proof. induction 1 as [v N|v p x N I R IH]; intros Iy Ny; [exact (reaches_step _ _ v y y N Iy (reaches_here _ _ y Ny))|exact (reaches_step _ _ v p y N I (IH Iy Ny))]. Qed.
Lemma loop_dims_in outputs loop_sym x d : In d (loop_dims outputs loop_sym x) <-> loop_dim outputs loop_sym x d.
Proof.
  unfold loop_dims, loop_dim.
  assert (G : forall outputs m, In d (fold_left (fun m o => fold_left (fun m d => if (nth d (snd o) 0%nat =? loop_sym)%nat then push m (fst o) d else m) (seq 0 (length (snd o))) m) outputs m x) <->
    In d (m x) \/ exists l, In (x, l) outputs /\ nth_error l d = Some loop_sym).
  { clear outputs. induction outputs as [|(s, l) outputs IH]; intro m; cbn [fold_left].
    - split; [auto|]. intros [?|(l & [] & _)]; assumption.
    - rewrite IH. cbn [fst snd].
      assert (F : forall ks m, In d (fold_left (fun m d => if (nth d l 0%nat =? loop_sym)%nat then push m s d else m) ks m x) <-> In d (m x) \/ (x = s /\ In d ks /\ nth d l 0%nat = loop_sym)).
      { clear. induction ks as [|k ks IH]; intro m; cbn [fold_left In]; [intuition|]. rewrite IH. destruct (Nat.eqb_spec (nth k l 0%nat) loop_sym) as [En|n].
        - destruct (Nat.eq_dec x s) as [->|nx]; [rewrite push_same, in_app_iff; cbn [In]; intuition (subst; auto)|rewrite push_other by exact nx; intuition].
        - intuition (subst; tauto). }
      rewrite F. rewrite in_seq. split.
      + intros [[?|(-> & L & En)]|(l' & I & En)]; [left; assumption| |right; exists l'; split; [right; exact I|exact En]]. right. exists l. split; [left; reflexivity|]. rewrite <- En. apply nth_error_nth'. lia.
      + intros [?|(l' & [Q|I] & En)]; [left; left; assumption| |right; exists l'; auto]. injection Q as -> ->. left. right. split; [reflexivity|]. split; [|apply nth_error_nth; exact En]. split; [lia|]. cbn. apply nth_error_Some. rewrite En. discriminate. }
  rewrite G. split; [intros [[]|?]; assumption|auto].
Qed.
Lemma ordered_inorder gs : ordered gs -> inorder (concat gs).
Proof.
  induction gs as [|g gs IH]; intro O; [exact I|]. destruct O as (O1 & O2). cbn [concat]. specialize (IH O2).
  assert (G : forall g', (forall x, In x g' -> In x g) -> (forall s l y d, In (s, l) g' -> bounds_use y d l -> ~ In y (map fst (g' ++ concat gs))) -> inorder (g' ++ concat gs)).
  { induction g' as [|(s, l) g' IHg]; intros Sub U; [exact IH|]. cbn [app inorder]. split; [intros y d B; exact (U s l y d (or_introl eq_refl) B)|]. apply IHg; [intros x Ix; apply Sub; right; exact Ix|].
    intros s' l' y d Is B Iy. apply (U s' l' y d (or_intror Is) B). right. exact Iy. }
  apply G; auto.
Qed.
Lemma ordered_last g : forall gs, ordered (gs ++ [g]) -> forall s l y d, In (s, l) (concat gs ++ g) -> bounds_use y d l -> ~ In y (map fst g).
Proof.
  induction gs as [|g0 gs IH]; intros O s l y d I B Iy; cbn [app] in O; destruct O as (O1 & O2).
  - cbn [concat app] in I. apply (O1 s l y d I B). rewrite app_nil_r. exact Iy.
  - cbn [concat] in I. rewrite <- app_assoc in I. apply in_app_iff in I. destruct I as [I|I]; [|exact (IH O2 s l y d I B Iy)].
    apply (O1 s l y d I B). rewrite concat_app, !map_app, !in_app_iff. right. right. cbn [concat]. rewrite app_nil_r. exact Iy.
Qed.
Lemma in_items gs (x : item) : In x (concat (map (@rev item) gs)) <-> In x (concat gs).
Proof. rewrite !in_concat. split; [intros (l & I & Ix); apply in_map_iff in I; destruct I as (g & <- & Ig); exists g; split; [exact Ig|apply in_rev; exact Ix]|intros (g & Ig & Ix); exists (rev g); split; [apply in_map; exact Ig|apply in_rev in Ix; exact Ix]]. Qed.
Lemma nodup_rev gs : NoDup (map fst (concat gs)) -> NoDup (map fst (concat (map (@rev item) gs))).
Proof.
  assert (P : forall gs, Permutation.Permutation (concat gs) (concat (map (@rev item) gs))).
  { induction gs0 as [|g gs0 IH]; [constructor|]. cbn [map concat]. apply Permutation.Permutation_app; [apply Permutation.Permutation_rev|exact IH]. }
  intro N. eapply Permutation.Permutation_NoDup; [|exact N]. apply Permutation.Permutation_map, P.
Qed.
Lemma cropd_includes b0 f b : cropd b0 f b -> includes b0 b.
Proof.
  intros C idx B. split; [|symmetry; exact (cd_loc _ _ _ C idx B)]. apply in_bounds_iff in B. apply in_bounds_iff. rewrite (cd_len _ _ _ C) in B. destruct B as (L & B). split; [exact L|]. intros d Ld. specialize (B d Ld). rewrite (cd_dims _ _ _ C d Ld) in B.
  unfold crop1, set_bounds in B. cbn [d_min d_max] in B. lia.
Qed.

Section Body.
  Variable X : Type.
  Variable H : host X.
  Variable call_v : nat -> list buf -> list buf -> list Z -> X -> Z * X.
  Variable copy_v : buf -> buf -> option buf -> (list Z -> option (list Z)) -> X -> X.
  Variable consts : Z -> option buf.
  Notation vexec := (vexec X H call_v copy_v consts).
  Variable i : body_info.
  Hypothesis IP : is_pipeline i.
  Hypothesis Src : sources_used_here i.
  Variable res : list nat.
  Hypothesis Res : exists n, forall fuel, (n <= fuel)%nat -> find_transitive_deps (bi_deps i) (map fst (bi_outputs i)) fuel (bi_constants i) (bi_roots i) = Some res.
  Notation deps := (bi_deps i).
  Notation items := (bi_items i).
  Notation term := (bi_terminal i).
  Definition keep : nat -> bool := has (res ++ bi_sources i).
  Definition m0 : dim_map := loop_dims (bi_outputs i) (bi_loop i).
  Definition mf : dim_map := find_all keep items m0.
  Notation varies := (varies (bi_outputs i) (bi_loop i) items).

  Lemma res_in x : In x res <-> leads deps term x /\ computed i x.
  Proof.
    destruct (ip_acyclic _ IP) as (rk & Dn). destruct Res as (n & R). set (fuel := (n + S (fold_right Nat.max 0 (map rk (bi_roots i))))%nat).
    destruct (find_ok deps (map fst (bi_outputs i)) rk Dn fuel (bi_constants i) (bi_roots i)) as (r & Er & Q).
    { intros v Iv. assert (B : forall l, In v l -> (rk v <= fold_right Nat.max 0 (map rk l))%nat).
      { induction l as [|w l IH]; intros []; cbn [map fold_right]; [subst; lia|specialize (IH H0); lia]. }
      specialize (B _ Iv). unfold fuel. lia. }
    rewrite (R fuel) in Er by (unfold fuel; lia). injection Er as <-. exact (Q x).
  Qed.
  Lemma keep_iff x : keep x = true <-> In x (bi_sources i) \/ (leads deps term x /\ computed i x).
  Proof. unfold keep. rewrite has_in, in_app_iff, res_in. tauto. Qed.
  Lemma item_not_base s l d : In (s, l) items -> ~ In d (m0 s).
  Proof. intros I D. apply loop_dims_in in D. destruct D as (l' & I' & _). apply (ip_outputs _ IP s); [apply (in_map fst) in I; exact I|]. apply (in_map fst) in I'. exact I'. Qed.
  Lemma base_nil s l : In (s, l) items -> m0 s = [].
  Proof. intro I. destruct (m0 s) as [|d r] eqn:E; [reflexivity|]. destruct (item_not_base s l d I). rewrite E. left. reflexivity. Qed.
  Lemma items_inorder : inorder items.
  Proof. unfold bi_items. pose proof (ordered_inorder _ (ip_ordered _ IP)) as O. rewrite concat_app in O. cbn [concat] in O. rewrite app_nil_r in O. exact O. Qed.
  Lemma mf_items s l : In (s, l) items -> if keep s then forall j, In j (mf s) <-> exists b, nth_error l j = Some b /\ finds_i mf b = true else mf s = [].
  Proof.
    intro I. pose proof (find_all_in keep items m0 (ip_distinct _ IP) items_inorder s l I) as F. cbn zeta in F. fold mf in F. destruct (keep s); [|rewrite F; exact (base_nil s l I)].
    intro j. rewrite (F j). split; [intros [D|?]; [destruct (item_not_base s l j I D)|assumption]|auto].
  Qed.
  Lemma mf_others y : ~ In y (map fst items) -> mf y = m0 y. Proof. apply find_all_other. Qed.
  Lemma known y d : In d (mf y) -> In y (map fst items) \/ term y.
  Proof. intro I. destruct (in_dec Nat.eq_dec y (map fst items)) as [?|N]; [left; assumption|right]. rewrite mf_others in I by exact N. apply loop_dims_in in I. destruct I as (l & I & _). apply (in_map fst) in I. exact I. Qed.
  Lemma uses_of l j b y d : nth_error l j = Some b -> uses_bound y d (fst b) \/ uses_bound y d (snd b) -> bounds_use y d l.
  Proof. intros E U. exists b. split; [exact (nth_error_In _ _ E)|exact U]. Qed.
  Lemma mf_leads y d : In d (mf y) -> leads deps term y /\ varies y d.
  Proof.
    destruct (ip_acyclic _ IP) as (rk & Dn). remember (rk y) as n eqn:En. revert y d En. induction n as [n IH] using lt_wf_ind. intros y d -> I. pose proof (known y d I) as Ky.
    destruct (in_dec Nat.eq_dec y (map fst items)) as [Iy|Ny].
    - apply in_map_iff in Iy. destruct Iy as ((s, l) & <- & Iy). cbn [fst] in *. pose proof (mf_items s l Iy) as F. destruct (keep s); [|rewrite F in I; destruct I]. apply F in I. destruct I as (b & Eb & Fb).
      apply finds_i_uses in Fb. destruct Fb as (y & k & U & Ik). assert (Dy : In y (deps s)) by (apply (ip_declared _ IP s l y _ Iy (uses_of _ _ _ _ _ Eb U)); exact (known y k Ik)).
      destruct (IH (rk y) (Dn _ _ Dy) y k eq_refl Ik) as (Ly & Vy). split; [exact (leads_step _ _ s y Dy Ly)|exact (varies_bounds _ _ _ s l d b y k Iy Eb U Vy)].
    - rewrite mf_others in I by exact Ny. apply loop_dims_in in I. split; [|apply varies_loop; exact I]. apply leads_end. destruct Ky; [contradiction|assumption].
  Qed.
  Lemma needed_dep s p : needed i s -> In p (deps s) -> ~ term p -> computed i p.
  Proof. intros [S|(v & Iv & Nv & R)] Ip Np; [destruct (Src s p S Ip); [contradiction|assumption]|]. exists v. split; [exact Iv|]. split; [exact Nv|]. exact (reaches_snoc _ _ v s p R Ip Np). Qed.
  Lemma varies_known y d : varies y d -> In y (map fst items) \/ term y.
  Proof. destruct 1 as [x d (l & I & _)|s l j b y d I _ _ _]; [right|left]; apply (in_map fst) in I; exact I. Qed.
  Lemma varies_leads y d : varies y d -> leads deps term y.
  Proof.
    induction 1 as [x d (l & I & _)|s l j b y d I Eb U V IH]; [apply leads_end; apply (in_map fst) in I; exact I|]. apply (leads_step _ _ s y); [|exact IH]. exact (ip_declared _ IP s l y _ I (uses_of _ _ _ _ _ Eb U) (varies_known y d V)).
  Qed.
  Lemma varies_mf y d : varies y d -> needed i y \/ term y -> In d (mf y).
  Proof.
    induction 1 as [x d L|s l j b y d I Eb U V IH]; intro N.
    - rewrite mf_others; [apply loop_dims_in; exact L|]. intro Ix. destruct (ip_outputs _ IP x Ix). destruct L as (l & L & _). apply (in_map fst) in L. exact L.
    - destruct N as [N|T]; [|apply (in_map fst) in I; destruct (ip_outputs _ IP s I T)]. pose proof (varies_known y d V) as Ky. assert (Dy : In y (deps s)) by exact (ip_declared _ IP s l y _ I (uses_of _ _ _ _ _ Eb U) Ky).
      assert (Kp : keep s = true). { apply keep_iff. destruct N as [S|C]; [left; exact S|right]. split; [|exact C]. apply (leads_step _ _ s y Dy), (varies_leads y d V). }
      pose proof (mf_items s l I) as F. rewrite Kp in F. apply F. exists b. split; [exact Eb|]. apply finds_i_uses. exists y, d. split; [exact U|]. apply IH. destruct (in_dec Nat.eq_dec y (map fst (bi_outputs i))) as [T|T]; [right; exact T|left; right; exact (needed_dep s y N Dy T)].
  Qed.

  Definition Fit (s : nat) : Prop := In s (map fst (concat (bi_order i))).
  Variable E0 E : venv.
  Hypothesis B : buffers_ok X H i E0 E.
  Lemma items_good s l : In (s, l) items -> good X H E0 E keep (needed i) Fit mf items s l.
  Proof.
    intro I. pose proof (mf_items s l I) as F. constructor.
    - destruct (bo_items _ _ _ _ _ B s l I) as (k & b & Q0 & Q & A & L & Ft). exists k, b. repeat (split; [assumption|]). intro Fs. apply Ft. apply in_map_iff in Fs. destruct Fs as ((s', l') & Es & Is). cbn [fst] in Es. subst s'.
      assert (I' : In (s, l') items) by (apply in_app_iff; left; exact Is). pose proof (ip_distinct _ IP) as N. clear - N I I' Is.
      assert (l = l'); [|subst; exact Is]. induction items as [|(x, y) r IH]; [destruct I|]. cbn [map fst] in N. inversion N as [|? ? N1 N2]; subst. destruct I as [Q|I], I' as [Q'|I'].
      + congruence.
      + injection Q as -> ->. apply (in_map fst) in I'. contradiction.
      + injection Q' as -> ->. apply (in_map fst) in I. contradiction.
      + auto.
    - intros b Ib. exact (ip_metadata _ IP s l b I Ib).
    - intros Ks y d U Iy. split; [right; apply (needed_dep s y Ks); [exact (ip_declared _ IP s l y d I U (or_introl Iy))|exact (ip_outputs _ IP y Iy)]|].
      pose proof (ordered_last _ _ (ip_ordered _ IP) s l y d I U) as Ny. unfold bi_items in Iy. rewrite map_app, in_app_iff in Iy. destruct Iy; [assumption|contradiction].
    - intros Ks j. destruct (keep s) eqn:Kp; [exact (F j)|]. rewrite F. split; [intros []|]. intros (b & Eb & Fb). apply finds_i_uses in Fb. destruct Fb as (y & k & U & Ik). destruct (mf_leads y k Ik) as (_ & V).
      pose proof (varies_mf s j (varies_bounds _ _ _ s l j b y k I Eb U V) (or_introl Ks)) as C. rewrite F in C. exact C.
    - intros Kp Ks. rewrite Kp in F. exact F.
    - intro Kp. apply keep_iff in Kp. destruct Kp as [S|(_ & C)]; [left|right]; assumption.
  Qed.
  Lemma rel_E : rel (Qm mf) E E0.
  Proof.
    intro y. destruct (bo_loop _ _ _ _ _ B y) as [Q|(k & b & k0 & b0 & Q & Q0 & Es & L & St & Ds)]; [left; exact Q|]. right. exists k, b, k0, b0. split; [exact Q|]. split; [exact Q0|]. split; [exact Es|]. split; [exact L|]. split; [exact St|].
    intros d Nd. assert (N : ~ loop_dim (bi_outputs i) (bi_loop i) y d).
    { intro Ld. apply (Nd d eq_refl). apply varies_mf; [apply varies_loop; exact Ld|]. right. destruct Ld as (l & Il & _). apply (in_map fst) in Il. exact Il. }
    rewrite (Ds d N). auto.
  Qed.
  Definition nest : list item := concat (map (@rev item) (bi_order i ++ [bi_inputs i])).
  Lemma nest_in x : In x nest <-> In x items.
  Proof. unfold nest. rewrite in_items, concat_app. cbn [concat]. rewrite app_nil_r. reflexivity. Qed.
  Lemma nest_nodup : NoDup (map fst nest).
  Proof. apply nodup_rev. rewrite concat_app. cbn [concat]. rewrite app_nil_r. exact (ip_distinct _ IP). Qed.
  Lemma body_ok body v : vexec (full_crops nest body) E v <> UB ->
    exists E1 E2, vexec (crop_body keep m0 (bi_order i) (bi_inputs i) body) E v = vexec body E1 v /\ vexec (full_crops nest body) E v = vexec body E2 v /\
      (forall x, ~ In x (map fst items) -> E1 x = E x /\ E2 x = E x) /\
      (forall x, In x (map fst items) -> needed i x -> exists k0 b0 k1 b1 k2 b2, E0 x = Buffer k0 b0 /\ E1 x = Buffer k1 b1 /\ E2 x = Buffer k2 b2 /\ well_cropped (varies x) (Fit x) b0 b1 b2).
  Proof.
    intro V. assert (St : state_of E0 E (needed i) Fit mf [] E E) by (split; [auto|intros x []]).
    destruct (chain_ok X H call_v copy_v consts E0 E keep (needed i) Fit mf items rel_E body v nest [] E E St) as (E1 & E2 & (S1 & S2) & Y1 & Y2); auto.
    { intros x Ix. apply nest_in. exact Ix. } { exact nest_nodup. } { intros s l I. apply items_good, nest_in, I. }
    assert (Dn : forall x, In x (map fst ([] ++ nest)) <-> In x (map fst items)).
    { intro x. cbn [app]. rewrite !in_map_iff. split; intros (p & Ep & Ip); exists p; (split; [exact Ep|apply nest_in; exact Ip]). }
    exists E1, E2. split. { rewrite crop_body_wrap; [exact Y1|]. pose proof (ip_distinct _ IP) as N. unfold bi_items in N. rewrite map_app in N. clear - N. induction (map fst (concat (bi_order i))) as [|a r IH]; [exact N|]. inversion N; subst. auto. }
    split; [exact Y2|]. split; [intros x Nx; apply S1; rewrite Dn; exact Nx|].
    intros x Ix Nx. destruct (S2 x) as (k0 & b0 & k1 & b1 & k2 & b2 & _ & Q0 & Q1 & Q2 & R); [apply Dn; exact Ix|]. exists k0, b0, k1, b1, k2, b2. repeat (split; [assumption|]).
    destruct (rl_1 _ _ _ _ _ _ _ R) as (f & C). destruct (cropd_alike (fun _ _ => False) x b0 f b1 C) as (A1 & _ & A3 & _); [intros ? []|].
    constructor.
    - exact A1.
    - exact A3.
    - intros d Vd. apply (rl_in _ _ _ _ _ _ _ R Nx). apply varies_mf; [exact Vd|left; exact Nx].
    - intros d Vd. apply (rl_out _ _ _ _ _ _ _ R Nx). intro Id. apply Vd. exact (proj2 (mf_leads x d Id)).
    - exact (rl_fit _ _ _ _ _ _ _ R Nx).
    - exact (rl_incl _ _ _ _ _ _ _ R Nx).
    - exact (cropd_includes b0 f b1 C).
  Qed.
End Body.
