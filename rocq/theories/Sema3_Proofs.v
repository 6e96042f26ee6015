(** Proofs for C67, third part: order, no deadlock. *)
From Coq Require Import ZArith List Bool Lia Arith.
From Verif Require Import Sema_Model Sema_Spec Sema_Proofs Sema2_Proofs.
Import ListNotations.
Local Open Scope Z_scope.

Definition pc (s : state) (j q : nat) : Prop := nth_error (pcs s) j = Some q.

Record Inv (l : loop) (s : state) : Prop := {
  i_len : (length (pcs s) <= iterations l)%nat;
  i_run : (running l s <= l_workers l)%nat;
  i_pc : forall j q, pc s j q -> (q <= length (l_ops l))%nat;
  i_began : forall j u, In (Began j u) (log s) <-> exists q b, pc s j q /\ at_ l (Begin u) b /\ (b < q)%nat;
  i_ended : forall j u, In (Ended j u) (log s) <-> exists q b, pc s j q /\ at_ l (End u) b /\ (b < q)%nat;
  i_sem : forall k w, at_ l (Wait k) w -> exists p, (p <= length (pcs s))%nat /\
    (forall j q, pc s j q -> ((j < p)%nat -> (w + 3 < q)%nat) /\ ((p < j)%nat -> (q <= w)%nat)) /\
    (((forall c, sems s k c = if c =? place l (l_min l / l_step l + Z.of_nat p - 1) then 1 else 0) /\ (forall q, pc s p q -> (q <= w)%nat)) \/
     ((forall c, sems s k c = 0) /\ exists q, pc s p q /\ (w < q <= w + 3)%nat));
  i_one : l_workers l = 1%nat -> forall i j q, (i < j)%nat -> pc s j q -> pc s i (length (l_ops l))
}.

Lemma pc_lt s j q : pc s j q -> (j < length (pcs s))%nat.
Proof. unfold pc. intros H. apply nth_error_Some. congruence. Qed.
Lemma pc_some s j : (j < length (pcs s))%nat -> exists q, pc s j q.
Proof. unfold pc. intros H. apply nth_error_Some in H. destruct (nth_error (pcs s) j); [eauto|congruence]. Qed.
Lemma pc_fun s j q q' : pc s j q -> pc s j q' -> q = q'.
Proof. unfold pc. congruence. Qed.

Lemma init_inv l P : shape l P -> Inv l (init l).
Proof.
  intros H. assert (NP : forall j q, ~ pc (init l) j q) by (intros [|j] q; unfold pc; cbn; discriminate). constructor.
  - cbn [init pcs length]. lia.
  - unfold running. cbn. lia.
  - intros j q E. destruct (NP _ _ E).
  - cbn [init log In]. intros j u. split; [tauto|]. intros (q & b & E & _). destruct (NP _ _ E).
  - cbn [init log In]. intros j u. split; [tauto|]. intros (q & b & E & _). destruct (NP _ _ E).
  - intros k w A. destruct (stage_at _ _ _ _ k H A (or_introl eq_refl)) as (L & _). exists 0%nat. split; [lia|]. split.
    + intros j q E. destruct (NP _ _ E).
    + left. split; [|intros q E; destruct (NP _ _ E)]. intros c. cbn [init sems]. apply Nat.ltb_lt in L. rewrite L.
      replace (l_min l / l_step l + Z.of_nat 0 - 1) with (l_min l / l_step l - 1) by lia. reflexivity.
  - intros _ i j q _ E. destruct (NP _ _ E).
Qed.

Lemma sym_div l j : 0 < l_step l -> sym l j / l_step l = l_min l / l_step l + Z.of_nat j.
Proof. intros H. unfold sym. rewrite Z.div_add_l by lia. lia. Qed.

(** The iterations in flight between two that are. *)
Lemma in_flight l s i j : Inv l s -> (i <= j)%nat ->
  (forall k, (i <= k <= j)%nat -> exists q, pc s k q /\ (q < length (l_ops l))%nat) -> (j - i < l_workers l)%nat.
Proof.
  intros I L H. pose proof (i_run _ _ I) as R. unfold running in R.
  pose proof (count_range (fun p => Nat.ltb p (length (l_ops l))) (pcs s) i (j - i + 1)) as C.
  specialize (C ltac:(intros k Hk; destruct (H k ltac:(lia)) as (q & A & B); exists q; split; [exact A|apply Nat.ltb_lt, B])). lia.
Qed.

(** Only the next iteration can enter a stage. *)
Lemma who_waits l P s k w j : shape l P -> Inv l s -> at_ l (Wait k) w -> pc s j w -> 1 <= sems s k (place l (sym l j / l_step l - 1)) ->
  exists p, p = j /\ (p <= length (pcs s))%nat /\
    (forall j q, pc s j q -> ((j < p)%nat -> (w + 3 < q)%nat) /\ ((p < j)%nat -> (q <= w)%nat)) /\
    (forall c, sems s k c = if c =? place l (l_min l / l_step l + Z.of_nat p - 1) then 1 else 0).
Proof.
  intros H I A E G. destruct (i_sem _ _ I k w A) as (p & L & O & [(T & Q)|(Z0 & _)]); [|rewrite Z0 in G; lia].
  destruct (stage_at _ _ _ _ k H A (or_introl eq_refl)) as (Lk & L1).
  assert (p <= j)%nat. { destruct (le_lt_dec p j); auto. destruct (O j w E) as (X & _). specialize (X l0). lia. }
  assert (j - p < l_workers l)%nat.
  { apply (in_flight l s p j I); auto. intros i Hi. destruct (pc_some s i) as (q & Hq). { apply pc_lt in E. lia. }
    exists q. split; auto. pose proof (at_lt _ _ _ A). destruct (Nat.eq_dec i p) as [->|N].
    - specialize (Q _ Hq). lia.
    - destruct (O i q Hq) as (_ & X). specialize (X ltac:(lia)). lia. }
  rewrite (sh_workers _ _ H) in H1. rewrite T in G. destruct (_ =? _) eqn:C in G; [|lia]. apply Z.eqb_eq in C.
  rewrite sym_div in C by apply H. unfold place in C.
  assert (D : (Z.of_nat j - Z.of_nat p) mod Z.of_nat (l_stages l) = 0).
  { replace (Z.of_nat j - Z.of_nat p) with ((l_min l / l_step l + Z.of_nat j - 1) - (l_min l / l_step l + Z.of_nat p - 1)) by lia.
    rewrite Zminus_mod, C, Z.sub_diag. apply Z.mod_0_l. lia. }
  rewrite Z.mod_small in D by lia. exists p. split; [lia|]. auto.
Qed.

(** Other operations do not matter for a stage. *)
Lemma sem_frame l P s s' k w j o v : shape l P -> Inv l s -> at_ l (Wait k) w -> pc s j v -> at_ l o v -> o <> Wait k -> o <> Signal k ->
  pcs s' = set_pc (pcs s) j (S v) -> (forall c, sems s' k c = sems s k c) ->
  exists p, (p <= length (pcs s'))%nat /\
    (forall j q, pc s' j q -> ((j < p)%nat -> (w + 3 < q)%nat) /\ ((p < j)%nat -> (q <= w)%nat)) /\
    (((forall c, sems s' k c = if c =? place l (l_min l / l_step l + Z.of_nat p - 1) then 1 else 0) /\ (forall q, pc s' p q -> (q <= w)%nat)) \/
     ((forall c, sems s' k c = 0) /\ exists q, pc s' p q /\ (w < q <= w + 3)%nat)).
Proof.
  intros H I A E Av N1 N2 EP ES. destruct (i_sem _ _ I k w A) as (p & L & O & D). destruct (stage_at _ _ _ _ k H A (or_introl eq_refl)) as (Lk & L1).
  destruct (wait_at l P k H Lk L1) as (u & pt & w' & _ & _ & A' & _ & _ & Sg). rewrite (at_unique _ _ _ _ _ H A' A) in Sg. clear A' w'.
  assert (v <> w) by (intros ->; unfold at_ in *; congruence). assert (v <> S (S (S w))) by (intros ->; unfold at_ in *; congruence).
  assert (X : forall i q, pc s' i q -> exists q0, pc s i q0 /\ ((q0 <= w -> q <= w) /\ (w + 3 < q0 -> w + 3 < q) /\ (w < q0 <= w + 3 -> w < q <= w + 3))%nat).
  { intros i q Hq. unfold pc in *. rewrite EP in Hq. destruct (Nat.eq_dec i j) as [->|Nij].
    - rewrite (set_pc_same _ _ _ _ E) in Hq. injection Hq as <-. exists v. split; auto. lia.
    - rewrite set_pc_other in Hq by auto. exists q. split; auto. }
  exists p. split; [rewrite EP, set_pc_length; auto|]. split.
  - intros i q Hq. destruct (X i q Hq) as (q0 & Hq0 & X1 & X2 & _). destruct (O i q0 Hq0) as (O1 & O2). split; intros; auto.
  - destruct D as [(T & Q)|(T & q & Hq & R)].
    + left. split; [intros c; rewrite ES; auto|]. intros q Hq. destruct (X p q Hq) as (q0 & Hq0 & X1 & _). auto.
    + right. split; [intros c; rewrite ES; auto|]. destruct (Nat.eq_dec p j) as [->|Np].
      * exists (S v). unfold pc. rewrite EP. split; [eapply set_pc_same; eauto|]. rewrite (pc_fun _ _ _ _ Hq E) in *. lia.
      * exists q. unfold pc. rewrite EP, set_pc_other by auto. auto.
Qed.

Lemma step_inv l P s a s' : shape l P -> Inv l s -> step l s a = Some s' -> Inv l s'.
Proof.
  intros H I E. destruct a as [|j]; cbn [step] in E.
  - destruct (Nat.ltb (length (pcs s)) (iterations l) && Nat.ltb (running l s) (l_workers l)) eqn:G; [|discriminate]. injection E as <-.
    apply andb_true_iff in G as (G1 & G2). apply Nat.ltb_lt in G1, G2.
    assert (X : forall i q, pc (State (pcs s ++ [0%nat]) (sems s) (log s)) i q <-> pc s i q \/ (i = length (pcs s) /\ q = 0%nat)).
    { intros i q. unfold pc. cbn [pcs]. destruct (lt_dec i (length (pcs s))) as [L|L].
      - rewrite nth_error_app1 by auto. split; auto. intros [K|K]; auto; lia.
      - rewrite nth_error_app2 by lia. split.
        + destruct (i - length (pcs s))%nat as [|d] eqn:D; cbn [nth_error]; [|destruct d; discriminate]. intros K. injection K as <-. right. split; auto; lia.
        + intros [K|(-> & ->)]; [|rewrite Nat.sub_diag; reflexivity]. exfalso. apply L. apply nth_error_Some. congruence. }
    constructor; cbn [pcs sems log].
    + rewrite app_length. cbn [length]. lia.
    + unfold running in *. cbn [pcs]. rewrite filter_app, app_length. cbn [filter]. destruct (Nat.ltb 0 _); cbn [length]; lia.
    + intros i q K. apply X in K as [K|(_ & ->)]; [apply (i_pc _ _ I _ _ K)|lia].
    + intros i u. rewrite (i_began _ _ I). split; intros (q & b & K & B & L); exists q, b.
      * split; auto. apply X. auto.
      * split; auto. apply X in K as [K|(_ & ->)]; auto. lia.
    + intros i u. rewrite (i_ended _ _ I). split; intros (q & b & K & B & L); exists q, b.
      * split; auto. apply X. auto.
      * split; auto. apply X in K as [K|(_ & ->)]; auto. lia.
    + intros k w A. destruct (i_sem _ _ I k w A) as (p & L & O & D). exists p. split; [rewrite app_length; lia|]. split.
      * intros i q K. apply X in K as [K|(-> & ->)]; [apply O; auto|]. split; lia.
      * destruct D as [(T & Q)|(T & q & Hq & R)].
        -- left. split; auto. intros q K. apply X in K as [K|(_ & ->)]; auto. lia.
        -- right. split; auto. exists q. split; auto. apply X. auto.
    + intros W i k q Lik K. apply X. left. apply X in K as [K|(-> & _)]; [eapply (i_one _ _ I W); eauto|].
      destruct (pc_some s i Lik) as (q0 & K). pose proof (i_pc _ _ I _ _ K). destruct (Nat.eq_dec q0 (length (l_ops l))) as [<-|N]; auto. exfalso.
      rewrite W in G2. unfold running in G2.
      pose proof (count_range (fun p => Nat.ltb p (length (l_ops l))) (pcs s) i 1) as C.
      specialize (C ltac:(intros i' Hi; replace i' with i by lia; exists q0; split; [exact K|apply Nat.ltb_lt; lia])). lia.
  - destruct (nth_error (pcs s) j) as [v|] eqn:Ev; [|discriminate]. destruct (nth_error (l_ops l) v) as [o|] eqn:Eo; [|discriminate].
    assert (Lv : (v < length (l_ops l))%nat) by (apply nth_error_Some; congruence).
    assert (PC : pcs s' = set_pc (pcs s) j (S v)).
    { destruct o; [destruct (sems s k _ <? 1); [discriminate|]| | |]; injection E as <-; reflexivity. }
    assert (LG : log s' = log s ++ match o with Begin u => [Began j u] | End u => [Ended j u] | _ => [] end).
    { destruct o; [destruct (sems s k _ <? 1); [discriminate|]| | |]; injection E as <-; cbn [log]; rewrite ?app_nil_r; reflexivity. }
    assert (SM : forall k, o <> Wait k -> o <> Signal k -> forall c, sems s' k c = sems s k c).
    { intros k' N1 N2 c. destruct o; [destruct (sems s k _ <? 1); [discriminate|]| | |]; injection E as <-; cbn [sems]; unfold set_sem; auto;
        (destruct (Nat.eqb_spec k k'); [subst; congruence|reflexivity]). }
    assert (XJ : pc s' j (S v)). { unfold pc. rewrite PC. eapply set_pc_same; eauto. }
    assert (XO : forall i q, i <> j -> pc s' i q <-> pc s i q). { intros i q N. unfold pc. rewrite PC, set_pc_other by auto. tauto. }
    constructor.
    + rewrite PC, set_pc_length. apply I.
    + pose proof (i_run _ _ I) as R. unfold running in *. rewrite PC.
      pose proof (set_pc_count (fun p => Nat.ltb p (length (l_ops l))) (pcs s) j (S v) v Ev ltac:(apply Nat.ltb_lt, Lv)). lia.
    + intros i q K. destruct (Nat.eq_dec i j) as [->|N]; [rewrite (pc_fun _ _ _ _ K XJ); lia|]. apply XO in K; auto. apply (i_pc _ _ I _ _ K).
    + intros i u. rewrite LG, in_app_iff, (i_began _ _ I). split.
      * intros [(q & b & K & B & L)|K].
        -- destruct (Nat.eq_dec i j) as [->|N]; [|exists q, b; split; [apply XO; auto|auto]]. exists (S v), b. split; auto. split; auto. rewrite (pc_fun _ _ _ _ K Ev) in L. lia.
        -- destruct o; cbn [In] in K; try tauto; destruct K as [K|[]]; try discriminate. injection K as -> ->. exists (S v), v. split; auto.
      * intros (q & b & K & B & L). destruct (Nat.eq_dec i j) as [->|N].
        -- rewrite (pc_fun _ _ _ _ K XJ) in L. destruct (Nat.eq_dec b v) as [->|Nb].
           ++ right. unfold at_ in B. rewrite B in Eo. injection Eo as <-. left. auto.
           ++ left. exists v, b. split; auto. split; auto. lia.
        -- left. exists q, b. apply XO in K; auto.
    + intros i u. rewrite LG, in_app_iff, (i_ended _ _ I). split.
      * intros [(q & b & K & B & L)|K].
        -- destruct (Nat.eq_dec i j) as [->|N]; [|exists q, b; split; [apply XO; auto|auto]]. exists (S v), b. split; auto. split; auto. rewrite (pc_fun _ _ _ _ K Ev) in L. lia.
        -- destruct o; cbn [In] in K; try tauto; destruct K as [K|[]]; try discriminate. injection K as -> ->. exists (S v), v. split; auto.
      * intros (q & b & K & B & L). destruct (Nat.eq_dec i j) as [->|N].
        -- rewrite (pc_fun _ _ _ _ K XJ) in L. destruct (Nat.eq_dec b v) as [->|Nb].
           ++ right. unfold at_ in B. rewrite B in Eo. injection Eo as <-. left. auto.
           ++ left. exists v, b. split; auto. split; auto. lia.
        -- left. exists q, b. apply XO in K; auto.
    + intros k w A. assert (D : o = Wait k \/ o = Signal k \/ (o <> Wait k /\ o <> Signal k)).
      { destruct o as [k0|u0|u0|k0]; try (right; right; split; discriminate); destruct (Nat.eq_dec k0 k) as [->|N]; auto; right; right; split; congruence. }
      destruct D as [->|[->|(N1 & N2)]]; [| |apply (sem_frame l P s s' k w j o v H I A Ev Eo N1 N2 PC (SM k N1 N2))].
      * assert (v = w) as -> by apply (at_unique _ _ _ _ _ H Eo A).
        destruct (sems s k (place l (sym l j / l_step l - 1)) <? 1) eqn:G; [discriminate|]. apply Z.ltb_ge in G.
        destruct (who_waits l P s k w j H I A Ev G) as (p & -> & L & O & T). injection E as <-. exists j. rewrite PC, set_pc_length. split; auto. split.
        -- intros i q K. destruct (Nat.eq_dec i j) as [->|N]; [split; lia|]. apply XO in K; auto.
        -- right. split; [|exists (S w); split; auto; lia]. intros c. cbn [sems]. unfold set_sem. rewrite Nat.eqb_refl. cbn [andb].
           rewrite sym_div by apply H. rewrite !T, Z.eqb_refl. rewrite (Z.eqb_sym c). destruct (_ =? c); lia.
      * destruct (stage_at _ _ _ _ k H A (or_introl eq_refl)) as (Lk & L1). destruct (wait_at l P k H Lk L1) as (u & pt & w' & _ & _ & A' & _ & _ & Sg).
        rewrite (at_unique _ _ _ _ _ H A' A) in Sg. assert (v = S (S (S w))) as -> by apply (at_unique _ _ _ _ _ H Eo Sg). clear A' w'.
        destruct (i_sem _ _ I k w A) as (p & L & O & D). destruct (O j _ Ev) as (O1 & O2).
        assert (p = j) as ->. { destruct (Nat.lt_trichotomy j p) as [K|[K|K]]; auto; [specialize (O1 K)|specialize (O2 K)]; lia. }
        destruct D as [(_ & Q)|(Z0 & _)]; [specialize (Q _ Ev); lia|]. injection E as <-. exists (S j). rewrite PC, set_pc_length.
        split; [apply pc_lt in Ev; auto|]. split.
        -- intros i q K. destruct (Nat.eq_dec i j) as [->|N]; [rewrite (pc_fun _ _ _ _ K XJ); split; lia|]. apply XO in K; auto. destruct (O _ _ K) as (O3 & O4). split; intros; [apply O3|apply O4]; lia.
        -- left. split.
           ++ intros c. cbn [sems]. unfold set_sem. rewrite Nat.eqb_refl. cbn [andb]. rewrite sym_div by apply H. rewrite !Z0.
              replace (l_min l / l_step l + Z.of_nat (S j) - 1) with (l_min l / l_step l + Z.of_nat j) by lia. rewrite (Z.eqb_sym c). destruct (_ =? c); lia.
           ++ intros q K. apply XO in K; [|lia]. apply (O _ _ K). lia.
    + intros W i k q Lik K. assert (N : forall q, pc s k q -> i <> j).
      { intros q0 K0 ->. pose proof (i_one _ _ I W _ _ _ Lik K0) as F. rewrite (pc_fun _ _ _ _ F Ev) in *. lia. }
      destruct (Nat.eq_dec k j) as [->|Nk].
      * apply XO; [lia|]. eapply (i_one _ _ I W); eauto.
      * apply XO in K; auto. apply XO; [eapply N; eauto|]. eapply (i_one _ _ I W); eauto.
Qed.

Lemma run_app l : forall a b s, run l s (a ++ b) = match run l s a with None => None | Some s' => run l s' b end.
Proof. induction a as [|x a IH]; intros b s; cbn [run app]; auto. destruct (step l s x); auto. Qed.

Lemma reach_ind l (Q : state -> Prop) : Q (init l) -> (forall s a s', reaches l s -> Q s -> step l s a = Some s' -> Q s') -> forall s, reaches l s -> Q s.
Proof.
  intros Q0 QS s (acts & R). revert s R. induction acts as [|a acts IH] using rev_ind; intros s R.
  - cbn in R. injection R as <-. auto.
  - rewrite run_app in R. destruct (run l (init l) acts) as [s0|] eqn:E; [|discriminate]. cbn [run] in R. destruct (step l s0 a) as [s1|] eqn:E1; [|discriminate]. injection R as <-.
    apply (QS s0 a s1); [exists acts; exact E|apply IH; reflexivity|exact E1].
Qed.
Lemma reach_inv l P s : shape l P -> reaches l s -> Inv l s.
Proof.
  intros H. revert s. apply reach_ind; [apply (init_inv l P H)|]. intros s a s' _ I E. apply (step_inv l P s a s' H I E).
Qed.
