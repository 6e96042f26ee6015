(** Proofs for Par_Props.v: the schedule of a block. *)
From Coq Require Import List Bool Arith Permutation Lia.
From Verif Require Import Par_Model Par_Spec Par_Proofs.
Import ListNotations.

Lemma mem_in x l : mem x l = true <-> In x l.
Proof.
  unfold mem. rewrite existsb_exists. split.
  - intros (y & H & E). apply Nat.eqb_eq in E. congruence.
  - intros H. exists x. rewrite Nat.eqb_refl. auto.
Qed.
Lemma mem_not x l : mem x l = false <-> ~ In x l.
Proof. rewrite <- mem_in. destruct (mem x l); split; congruence. Qed.
Lemma in_add x y l : In x (add y l) <-> x = y \/ In x l.
Proof.
  unfold add. destruct (mem y l) eqn:E; cbn [In].
  - apply mem_in in E. split; auto. intros [->|]; auto.
  - intuition congruence.
Qed.
Lemma in_adds x a l : In x (adds a l) <-> In x a \/ In x l.
Proof.
  unfold adds. induction a as [|y a IH]; cbn [fold_right In]; [tauto|].
  rewrite in_add, IH. intuition congruence.
Qed.
Lemma in_remove x y l : In x (remove y l) <-> In x l /\ x <> y.
Proof.
  unfold remove. rewrite filter_In, negb_true_iff, Nat.eqb_neq. tauto.
Qed.

Section Schedule.
  Variable bodies : nat -> tree.
  Variable n : nat.
  (** The later stage depends on the earlier one. *)
  Variable D : nat -> nat -> Prop.

  Definition alive (done : list nat) (r : nat) : Prop := r < n /\ ~ In r done.

  Record chains (g : stages) (done : list nat) (sh : nat -> shape) : Prop := {
    ch_shape : forall r, alive done r -> shaped bodies (body (g r)) (sh r);
    ch_nodup : forall r, alive done r -> NoDup (labels (sh r));
    ch_small : forall r i, alive done r -> In i (labels (sh r)) -> i < n;
    ch_all : forall i, i < n -> exists r, alive done r /\ In i (labels (sh r));
    ch_one : forall r q i, alive done r -> alive done q -> In i (labels (sh r)) -> In i (labels (sh q)) -> r = q;
    ch_inside : forall r i j, alive done r -> In i (labels (sh r)) -> In j (labels (sh r)) -> D i j -> before (sh r) i j;
    ch_across : forall r q i j, alive done r -> alive done q -> r <> q ->
      In i (labels (sh r)) -> In j (labels (sh q)) -> D i j -> In q (consumers (g r));
    ch_mirror : forall r q, alive done r -> alive done q -> (In q (consumers (g r)) <-> In r (producers (g q)));
    ch_cons : forall r q, alive done r -> In q (consumers (g r)) -> alive done q /\ r < q;
    ch_prod : forall r q, alive done r -> In q (producers (g r)) -> alive done q }.

  Lemma fuse_chains g done sh p c :
    chains g done sh -> alive done p -> consumers (g p) = [c] -> length (producers (g c)) = 1 ->
    exists sh, chains (fuse g c p) (add p done) sh.
  Proof.
    intros C Ap Ec Lp.
    assert (Hc : alive done c /\ p < c) by (apply (ch_cons _ _ _ C p c Ap); rewrite Ec; left; auto).
    destruct Hc as (Ac & Lt).
    assert (Pc : producers (g c) = [p]).
    { assert (In p (producers (g c))) by (apply (ch_mirror _ _ _ C p c Ap Ac); rewrite Ec; left; auto).
      destruct (producers (g c)) as [|x [|y l]]; cbn [length] in Lp; try lia. destruct H as [<-|[]]. auto. }
    assert (Al : forall r, alive (add p done) r <-> alive done r /\ r <> p).
    { intros r. unfold alive. rewrite in_add. intuition congruence. }
    assert (Npp : ~ In p (producers (g p))).
    { intros H. apply (ch_mirror _ _ _ C p p Ap Ap) in H. apply (ch_cons _ _ _ C) in H; auto. lia. }
    assert (Ncp : ~ In c (producers (g p))).
    { intros H. apply (ch_mirror _ _ _ C c p Ac Ap) in H. apply (ch_cons _ _ _ C) in H; auto. lia. }
    (* what fuse does to the sets *)
    assert (Fb : forall r, r <> c -> body (fuse g c p r) = body (g r)).
    { intros r N. unfold fuse, bind. rewrite (proj2 (Nat.eqb_neq r c) N). unfold each.
      destruct (mem r (producers (g p))), (mem r (consumers (g p))); reflexivity. }
    assert (Fbc : body (fuse g c p c) = TBlock [body (g p); body (g c)]).
    { unfold fuse, bind. rewrite Nat.eqb_refl. reflexivity. }
    assert (Fc : forall r q, r <> c -> (In q (consumers (fuse g c p r)) <->
        if mem r (producers (g p)) then q = c \/ (In q (consumers (g r)) /\ q <> p) else In q (consumers (g r)))).
    { intros r q N. unfold fuse, bind. rewrite (proj2 (Nat.eqb_neq r c) N). unfold each.
      destruct (mem r (producers (g p))), (mem r (consumers (g p))); cbn [set_consumers set_producers consumers];
        rewrite ?in_add, ?in_remove; tauto. }
    assert (Fcc : forall q, In q (consumers (fuse g c p c)) <-> In q (consumers (g c))).
    { intros q. unfold fuse, bind. rewrite Nat.eqb_refl. cbn [consumers]. unfold each at 1.
      rewrite (proj2 (mem_not c (producers (g p))) Ncp). unfold each.
      rewrite Ec. cbn [mem existsb]. rewrite Nat.eqb_refl. cbn [orb set_producers consumers].
      rewrite !in_remove, in_adds. cbn [In]. split; [intuition congruence|].
      intros H. split; [split; auto|].
      - intros ->. apply (ch_cons _ _ _ C) in H; auto. lia.
      - intros ->. apply (ch_cons _ _ _ C) in H; auto. lia. }
    assert (Fp : forall r q, r <> c -> (In q (producers (fuse g c p r)) <-> In q (producers (g r)))).
    { intros r q N. unfold fuse, bind. rewrite (proj2 (Nat.eqb_neq r c) N). unfold each.
      assert (E : mem r (consumers (g p)) = false).
      { rewrite Ec. apply mem_not. cbn [In]. intuition. }
      rewrite E. destruct (mem r (producers (g p))); cbn [set_consumers producers]; tauto. }
    assert (Fpc : forall q, In q (producers (fuse g c p c)) <-> In q (producers (g p))).
    { intros q. unfold fuse, bind. rewrite Nat.eqb_refl. cbn [producers]. unfold each at 1.
      rewrite (proj2 (mem_not c (producers (g p))) Ncp). unfold each.
      rewrite Ec. cbn [mem existsb]. rewrite Nat.eqb_refl. cbn [orb set_producers producers].
      rewrite Pc. rewrite !in_remove, in_adds, in_add, in_remove. cbn [In]. split; [intuition congruence|].
      intros H. split; [split; auto|].
      - intros ->. auto.
      - intros ->. auto. }
    exists (fun r => if r =? c then HSeq (sh p) (HSeq (sh c) HNil) else sh r).
    assert (LabC : forall i, In i (labels (HSeq (sh p) (HSeq (sh c) HNil))) <-> In i (labels (sh p)) \/ In i (labels (sh c))).
    { intros i. cbn [labels]. rewrite app_nil_r. apply in_app_iff. }
    constructor.
    - intros r H. apply Al in H as (H & N). destruct (Nat.eqb_spec r c) as [->|Nc].
      + rewrite Fbc. repeat constructor; apply (ch_shape _ _ _ C); auto.
      + rewrite Fb by auto. apply (ch_shape _ _ _ C); auto.
    - intros r H. apply Al in H as (H & N). destruct (Nat.eqb_spec r c) as [->|Nc].
      + cbn [labels]. rewrite app_nil_r. pose proof (ch_nodup _ _ _ C p Ap) as N1. pose proof (ch_nodup _ _ _ C c Ac) as N2.
        assert (N3 : forall i, In i (labels (sh p)) -> In i (labels (sh c)) -> False).
        { intros i A B. apply N. symmetry. eapply (ch_one _ _ _ C); eauto. }
        clear - N1 N2 N3. induction (labels (sh p)) as [|x l IH]; cbn [app]; auto.
        apply NoDup_cons_iff in N1 as (N1 & N4). constructor.
        * rewrite in_app_iff. intros [H|H]; auto. apply (N3 x); auto. left; auto.
        * apply IH; auto. intros i Hi. apply N3. right; auto.
      + apply (ch_nodup _ _ _ C); auto.
    - intros r i H. apply Al in H as (H & N). destruct (Nat.eqb_spec r c) as [->|Nc].
      + rewrite LabC. intros [I|I]; [apply (ch_small _ _ _ C p)|apply (ch_small _ _ _ C c)]; auto.
      + apply (ch_small _ _ _ C); auto.
    - intros i Hi. destruct (ch_all _ _ _ C i Hi) as (r & H & I). destruct (Nat.eq_dec r p) as [->|N].
      + exists c. split; [apply Al; split; auto; lia|]. rewrite Nat.eqb_refl. apply LabC. auto.
      + exists r. split; [apply Al; auto|]. destruct (Nat.eqb_spec r c) as [->|Nc]; auto. apply LabC. auto.
    - intros r q i H K. apply Al in H as (H & N). apply Al in K as (K & M).
      destruct (Nat.eqb_spec r c) as [->|Nc], (Nat.eqb_spec q c) as [->|Nq]; auto; rewrite ?LabC.
      + intros [I|I] J; exfalso; [apply M|apply Nq]; eapply (ch_one _ _ _ C); eauto.
      + intros J [I|I]; exfalso; [apply N|apply Nc]; eapply (ch_one _ _ _ C); eauto.
      + apply (ch_one _ _ _ C); auto.
    - intros r i j H. apply Al in H as (H & N). destruct (Nat.eqb_spec r c) as [->|Nc].
      + rewrite !LabC. intros I J Dij. cbn [before labels]. rewrite app_nil_r. destruct I as [I|I], J as [J|J].
        * right. left. apply (ch_inside _ _ _ C p); auto.
        * left. auto.
        * exfalso. assert (K : In p (consumers (g c))) by (eapply (ch_across _ _ _ C c p); eauto).
          apply (ch_cons _ _ _ C) in K; auto. lia.
        * right. right. right. left. apply (ch_inside _ _ _ C c); auto.
      + apply (ch_inside _ _ _ C); auto.
    - intros r q i j H K NE. apply Al in H as (H & N). apply Al in K as (K & M).
      destruct (Nat.eqb_spec r c) as [->|Nc], (Nat.eqb_spec q c) as [->|Nq]; try (now intuition); rewrite ?LabC; intros I J Dij.
      + rewrite Fcc. destruct I as [I|I].
        * assert (X : In q (consumers (g p))) by (eapply (ch_across _ _ _ C p q); eauto).
          rewrite Ec in X. destruct X as [X|[]]. congruence.
        * eapply (ch_across _ _ _ C c q); eauto.
      + rewrite Fc by auto. destruct J as [J|J].
        * assert (X : In p (consumers (g r))) by (eapply (ch_across _ _ _ C r p); eauto).
          apply (ch_mirror _ _ _ C) in X; auto. apply mem_in in X. rewrite X. auto.
        * assert (X : In c (consumers (g r))) by (eapply (ch_across _ _ _ C r c); eauto).
          destruct (mem r (producers (g p))); auto.
      + rewrite Fc by auto.
        assert (X : In q (consumers (g r))) by (eapply (ch_across _ _ _ C r q); eauto).
        destruct (mem r (producers (g p))); auto.
    - intros r q H K. apply Al in H as (H & N). apply Al in K as (K & M).
      destruct (Nat.eq_dec r c) as [->|Nc], (Nat.eq_dec q c) as [->|Nq].
      + rewrite Fcc, Fpc. split; intros X.
        * apply (ch_cons _ _ _ C) in X; auto. lia.
        * tauto.
      + rewrite Fcc, Fp by auto. apply (ch_mirror _ _ _ C); auto.
      + rewrite Fc, Fpc by auto. destruct (mem r (producers (g p))) eqn:E.
        * apply mem_in in E. tauto.
        * apply mem_not in E. split; intros X; [|tauto]. apply (ch_mirror _ _ _ C) in X; auto.
          rewrite Pc in X. destruct X as [X|[]]. congruence.
      + rewrite Fc, Fp by auto. rewrite <- (ch_mirror _ _ _ C) by auto.
        destruct (mem r (producers (g p))); intuition congruence.
    - intros r q H. apply Al in H as (H & N). rewrite Al. destruct (Nat.eq_dec r c) as [->|Nc].
      + rewrite Fcc. intros X. apply (ch_cons _ _ _ C) in X as (X & Y); auto. repeat split; auto; try apply X. lia.
      + rewrite Fc by auto. destruct (mem r (producers (g p))) eqn:E.
        * apply mem_in in E. intros [->|(X & Y)].
          -- apply (ch_mirror _ _ _ C) in E; auto. apply (ch_cons _ _ _ C) in E; auto. repeat split; try apply Ac; lia.
          -- apply (ch_cons _ _ _ C) in X as (X & Z); auto.
        * intros X. pose proof X as X0. apply (ch_cons _ _ _ C) in X as (X & Y); auto. repeat split; try apply X; auto.
          intros ->. apply (ch_mirror _ _ _ C) in X0; auto. apply mem_in in X0. congruence.
    - intros r q H. apply Al in H as (H & N). rewrite Al. destruct (Nat.eq_dec r c) as [->|Nc].
      + rewrite Fpc. intros X. split.
        * apply (ch_prod _ _ _ C) in X; auto.
        * intros ->. auto.
      + rewrite Fp by auto. intros X. pose proof (ch_prod _ _ _ C _ _ H X) as Y. split; auto.
        intros ->. apply (ch_mirror _ _ _ C) in X; auto. rewrite Ec in X. destruct X as [X|[]]. congruence.
  Qed.

  Lemma fuse_one_chains g done sh p : chains g done sh -> alive done p ->
    exists sh, chains (fst (fuse_one p (g, done))) (snd (fuse_one p (g, done))) sh.
  Proof.
    intros C A. unfold fuse_one. destruct (consumers (g p)) as [|c [|? ?]] eqn:E; cbn [fst snd]; eauto.
    destruct (length (producers (g c)) =? 1) eqn:L; cbn [fst snd]; eauto.
    apply Nat.eqb_eq in L. eapply fuse_chains; eauto.
  Qed.
  Lemma fuse_one_done g done p x : In x (snd (fuse_one p (g, done))) -> x = p \/ In x done.
  Proof.
    unfold fuse_one. destruct (consumers (g p)) as [|c [|? ?]]; cbn [snd]; auto.
    destruct (length (producers (g c)) =? 1); cbn [snd]; auto. apply in_add.
  Qed.

  Lemma fuse_all : forall k a gd sh, a + k = n -> chains (fst gd) (snd gd) sh -> (forall x, In x (snd gd) -> x < a) ->
    exists sh, let gd' := fold_left (fun gd p => fuse_one p gd) (seq a k) gd in chains (fst gd') (snd gd') sh.
  Proof.
    induction k as [|k IH]; intros a [g done] sh E C L; cbn [seq fold_left fst snd] in *.
    - exists sh. cbn [fst snd]. auto.
    - destruct (fuse_one_chains g done sh a C) as (sh' & C').
      { split; [lia|]. intros H. apply L in H. lia. }
      eapply (IH (S a) _ sh'); eauto; [lia|].
      intros x H. apply fuse_one_done in H as [->|H]; auto. apply L in H. lia.
  Qed.

  (** The passes *)
  Variables (g0 : stages) (dead : list nat) (sh : nat -> shape).
  Hypothesis C : chains g0 dead sh.
  Notation A := (alive dead).

  (** The produced stages are removed from the sets of consumers. *)
  Record passes (gd : stages * list nat) : Prop := {
    ps_body : forall r, A r -> body (fst gd r) = body (g0 r);
    ps_prod : forall r, A r -> producers (fst gd r) = producers (g0 r);
    ps_cons : forall r q, A r -> (In q (consumers (fst gd r)) <-> In q (consumers (g0 r)) /\ ~ In q (snd gd)) }.

  Lemma produce_passes s gd : passes gd -> A s -> passes (produce s gd).
  Proof.
    intros P As. destruct gd as [g done]. unfold produce. cbn [fst snd]. constructor; cbn [fst snd]; intros r; [| |intros q]; intros Ar.
    - unfold each. rewrite <- (ps_body _ P r Ar). cbn [fst]. destruct (mem r (producers (g s))); reflexivity.
    - unfold each. rewrite <- (ps_prod _ P r Ar). cbn [fst]. destruct (mem r (producers (g s))); reflexivity.
    - unfold each. pose proof (ps_prod _ P s As) as Es. pose proof (ps_cons _ P r q Ar) as Eq'. cbn [fst snd] in *. rewrite Es.
      rewrite in_add. destruct (mem r (producers (g0 s))) eqn:M.
      + cbn [set_consumers consumers]. rewrite in_remove, Eq'. tauto.
      + rewrite Eq'. apply mem_not in M. split; [|tauto]. intros (H1 & H2). split; auto. intros [->|H3]; auto.
        apply M. apply (ch_mirror _ _ _ C); auto.
  Qed.
  Lemma produce_done s gd x : In x (snd (produce s gd)) <-> x = s \/ In x (snd gd).
  Proof. unfold produce. cbn [snd]. apply in_add. Qed.

  Lemma ready_spec dstart : forall k a gd, a + k <= n -> passes gd -> incl dstart (snd gd) -> incl dead dstart ->
    (forall d, In d (snd gd) -> In d dstart \/ d < a) ->
    exists S0, let '(sy, tp, gd') := ready (seq a k) gd in
      sy = map (fun s => body (g0 s)) S0 /\ passes gd' /\
      (forall x, In x (snd gd') <-> In x S0 \/ In x (snd gd)) /\
      NoDup (S0 ++ tp) /\
      (forall x, In x (S0 ++ tp) -> a <= x /\ A x /\ ~ In x dstart /\ incl (consumers (g0 x)) dstart) /\
      (forall x, a <= x < a + k -> A x -> ~ In x dstart -> incl (consumers (g0 x)) dstart -> In x (S0 ++ tp)).
  Proof.
    induction k as [|k IH]; intros a gd L P I1 I2 H; cbn [seq ready].
    - exists []. cbn [map app]. split; auto. split; auto. split; [cbn [In]; tauto|]. split; [constructor|].
      split; [intros x []|intros x Hx; lia].
    - destruct (mem a (snd gd)) eqn:M.
      { apply mem_in in M. destruct (IH (S a) gd) as (S0 & R); auto; [lia|intros d Hd; apply H in Hd as [|]; auto; right; lia|].
        exists S0. destruct (ready (seq (S a) k) gd) as ((sy & tp) & gd'). destruct R as (R1 & R2 & R3 & R4 & R5 & R6).
        split; auto. split; auto. split; auto. split; auto. split.
        - intros x Hx. apply R5 in Hx as (B1 & B2 & B3). split; auto. lia.
        - intros x Hx B1 B2 B3. apply R6; auto. assert (x <> a); [|lia]. intros ->.
          apply H in M as [M|M]; auto; lia. }
      apply mem_not in M.
      assert (Aa : A a) by (split; [lia|]; intros X; apply M, I1, I2, X).
      assert (Ma : ~ In a dstart) by (intros X; apply M, I1, X).
      destruct (consumers (fst gd a)) as [|z zs] eqn:Ec.
      2:{ destruct (IH (S a) gd) as (S0 & R); auto; [lia|intros d Hd; apply H in Hd as [|]; auto; right; lia|].
        exists S0. destruct (ready (seq (S a) k) gd) as ((sy & tp) & gd'). destruct R as (R1 & R2 & R3 & R4 & R5 & R6).
        split; auto. split; auto. split; auto. split; auto. split.
        - intros x Hx. apply R5 in Hx as (B1 & B2 & B3). split; auto. lia.
        - intros x Hx B1 B2 B3. apply R6; auto. assert (x <> a); [|lia]. intros ->.
          assert (Z : In z (consumers (fst gd a))) by (rewrite Ec; left; auto).
          apply (ps_cons _ P) in Z as (Z1 & Z2); [apply Z2, I1, B3, Z1|exact Aa]. }
      assert (Ia : incl (consumers (g0 a)) dstart).
      { intros q Hq. destruct (in_dec Nat.eq_dec q (snd gd)) as [Y|Y].
        - apply H in Y as [Y|Y]; auto. apply (ch_cons _ _ _ C) in Hq; auto. lia.
        - exfalso. assert (Z : In q (consumers (fst gd a))) by (apply (ps_cons _ P); auto). rewrite Ec in Z. destruct Z. }
      destruct (should_async (body (fst gd a))).
      + destruct (IH (S a) gd) as (S0 & R); auto; [lia|intros d Hd; apply H in Hd as [|]; auto; right; lia|].
        exists S0. destruct (ready (seq (S a) k) gd) as ((sy & tp) & gd'). destruct R as (R1 & R2 & R3 & R4 & R5 & R6).
        split; auto. split; auto. split; auto. split.
        { apply (Permutation_NoDup (Permutation_middle S0 tp a)). constructor; auto.
          intros X. apply R5 in X as (X & _). lia. }
        split.
        * intros x Hx. apply (Permutation_in _ (Permutation_sym (Permutation_middle S0 tp a))) in Hx.
          destruct Hx as [<-|Hx]; auto. apply R5 in Hx as (B1 & B2). split; auto. lia.
        * intros x Hx B1 B2 B3. apply (Permutation_in _ (Permutation_middle S0 tp a)).
          destruct (Nat.eq_dec x a) as [->|]; [left; auto|]. right. apply R6; auto. lia.
      + destruct (IH (S a) (produce a gd)) as (S0 & R).
        { lia. } { apply produce_passes; auto. } { intros d Hd. apply produce_done. auto. } { auto. }
        { intros d Hd. apply produce_done in Hd as [->|Hd]; [right; lia|]. apply H in Hd as [|]; auto. }
        exists (a :: S0). destruct (ready (seq (S a) k) (produce a gd)) as ((sy & tp) & gd').
        destruct R as (R1 & R2 & R3 & R4 & R5 & R6).
        split; [cbn [map]; rewrite R1; f_equal; apply (ps_body _ P); auto|]. split; auto. split.
        { intros x. rewrite R3, produce_done. cbn [In]. intuition congruence. }
        split.
        { cbn [app]. constructor; auto. intros X. apply R5 in X as (X & _). lia. }
        cbn [app]. split.
        * intros x [<-|Hx]; auto. apply R5 in Hx as (B1 & B2). split; auto. lia.
        * intros x Hx B1 B2 B3. destruct (Nat.eq_dec x a) as [->|]; [left; auto|]. right. apply R6; auto. lia.
  Qed.

  Definition labels_of (P : list nat) : list nat := flat_map (fun s => labels (sh s)) P.

  Lemma block_shape P : (forall s, In s P -> A s) ->
    exists H, shaped bodies (TBlock (map (fun s => body (g0 s)) P)) H /\ Permutation (labels H) (labels_of P) /\
      (forall s i j, In s P -> before (sh s) i j -> before H i j).
  Proof.
    induction P as [|s P IH]; intros HA; cbn [map].
    - exists HNil. split; [constructor|]. split; [constructor|]. intros s i j [].
    - destruct IH as (H & H1 & H2 & H3); [intros; apply HA; right; auto|].
      exists (HSeq (sh s) H). split; [constructor; auto; apply (ch_shape _ _ _ C), HA; left; auto|]. split.
      + cbn [labels labels_of flat_map]. apply Permutation_app_head, H2.
      + intros q i j [<-|Hq] B; cbn [before]; eauto.
  Qed.

  Lemma asyncs_spec : forall ss tasks gd H P, (forall s, In s ss -> A s) -> passes gd ->
    shaped bodies tasks H -> Permutation (labels H) (labels_of P) -> (forall s i j, In s P -> before (sh s) i j -> before H i j) ->
    exists H', let '(t, gd') := asyncs ss tasks gd in
      passes gd' /\ (forall x, In x (snd gd') <-> In x ss \/ In x (snd gd)) /\
      shaped bodies t H' /\ Permutation (labels H') (labels_of (ss ++ P)) /\
      (forall s i j, In s (ss ++ P) -> before (sh s) i j -> before H' i j).
  Proof.
    induction ss as [|s ss IH]; intros tasks gd H P HA Ps Sh Pe B; cbn [asyncs].
    - exists H. cbn [app]. split; auto. split; [cbn [In]; tauto|]. auto.
    - assert (As : A s) by (apply HA; left; auto).
      destruct (IH (TAsync (body (fst gd s)) tasks) (produce s gd) (HPar (sh s) H) (s :: P)) as (H' & R).
      + intros; apply HA; right; auto.
      + apply produce_passes; auto.
      + constructor; auto. rewrite (ps_body _ Ps) by auto. apply (ch_shape _ _ _ C); auto.
      + cbn [labels labels_of flat_map]. apply Permutation_app_head, Pe.
      + intros q i j [<-|Hq] Bq; cbn [before]; eauto.
      + exists H'. destruct (asyncs ss (TAsync (body (fst gd s)) tasks) (produce s gd)) as (t & gd').
        destruct R as (R1 & R2 & R3 & R4 & R5). split; auto. split.
        { intros x. rewrite R2, produce_done. cbn [In]. intuition congruence. }
        split; auto. split.
        { rewrite R4. unfold labels_of. apply Permutation_flat_map. cbn [app]. symmetry. apply Permutation_middle. }
        intros q i j Hq. apply R5. apply (Permutation_in _ (Permutation_middle ss P s)). exact Hq.
  Qed.

  Lemma group_spec S0 tp gd : passes gd -> (forall s, In s (S0 ++ tp) -> A s) ->
    exists H, let '(t, gd') := group (map (fun s => body (g0 s)) S0) (rev tp) gd in
      passes gd' /\ (forall x, In x (snd gd') <-> In x tp \/ In x (snd gd)) /\
      shaped bodies t H /\ Permutation (labels H) (labels_of (S0 ++ tp)) /\
      (forall s i j, In s (S0 ++ tp) -> before (sh s) i j -> before H i j).
  Proof.
    intros P HA. unfold group. destruct (rev tp) as [|s rest] eqn:E.
    - assert (tp = []) by (rewrite <- (rev_involutive tp), E; auto). subst tp. rewrite app_nil_r in *.
      destruct (block_shape S0) as (H & H1 & H2 & H3); auto. exists H. split; auto. split; [cbn [In]; tauto|]. auto.
    - assert (Pe : Permutation (rest ++ S0 ++ [s]) (S0 ++ tp)).
      { rewrite (Permutation_app_comm S0 [s]). cbn [app]. rewrite <- Permutation_middle.
        change (s :: rest ++ S0) with ((s :: rest) ++ S0). rewrite <- E, <- Permutation_rev. apply Permutation_app_comm. }
      assert (Et : forall x, In x tp <-> x = s \/ In x rest).
      { intros x. rewrite in_rev, E. cbn [In]. intuition congruence. }
      assert (As : A s). { apply HA, in_app_iff. right. apply Et. auto. }
      destruct (block_shape (S0 ++ [s])) as (H & H1 & H2 & H3).
      { intros q Hq. apply HA. apply in_app_iff in Hq as [Hq|[<-|[]]]; apply in_app_iff; auto. right. apply Et; auto. }
      rewrite map_app in H1. cbn [map] in H1. rewrite <- (ps_body _ P s As) in H1.
      destruct (asyncs_spec rest _ (produce s gd) H (S0 ++ [s])
        (fun q Hq => HA q (in_or_app S0 tp q (or_intror (proj2 (Et q) (or_intror Hq)))))
        (produce_passes s gd P As) H1 H2 H3) as (H' & R).
      exists H'. destruct (asyncs rest (TBlock (map (fun s => body (g0 s)) S0 ++ [body (fst gd s)])) (produce s gd)) as (t & gd').
      destruct R as (R1 & R2 & R3 & R4 & R5). split; auto. split.
      { intros x. rewrite R2, produce_done, Et. tauto. }
      split; auto. split.
      { rewrite R4. unfold labels_of. apply Permutation_flat_map, Pe. }
      intros q i j Hq. apply R5. apply (Permutation_in _ (Permutation_sym Pe)), Hq.
  Qed.

  Lemma groups_spec : forall fuel gd result P H,
    n < fuel + length P -> passes gd -> NoDup P ->
    (forall r, In r P -> A r) -> (forall r, In r (snd gd) <-> In r P \/ In r dead) ->
    shaped bodies result H -> Permutation (labels H) (labels_of P) ->
    (forall r, In r P -> incl (consumers (g0 r)) P) ->
    (forall r i j, In r P -> before (sh r) i j -> before H i j) ->
    (forall r q i j, In r P -> In q (consumers (g0 r)) -> In i (labels (sh r)) -> In j (labels (sh q)) -> before H i j) ->
    exists H', let t := groups fuel n gd result in
      shaped bodies t H' /\ (exists P, Permutation (labels H') (labels_of P) /\ NoDup P /\ (forall r, In r P <-> A r)) /\
      (forall r i j, A r -> before (sh r) i j -> before H' i j) /\
      (forall r q i j, A r -> In q (consumers (g0 r)) -> In i (labels (sh r)) -> In j (labels (sh q)) -> before H' i j).
  Proof.
    induction fuel as [|fuel IH]; intros gd result P H F Ps N PA Dn Sh Pe Up In1 Ac; cbn [groups].
    { exfalso. assert (length P <= length (seq 0 n)).
      { apply NoDup_incl_length; auto. intros r Hr. apply PA in Hr as (Hr & _). apply in_seq. lia. }
      rewrite seq_length in *. lia. }
    destruct (ready_spec (snd gd) n 0 gd) as (S0 & R); auto.
    { intros x; auto. } { intros x Hx. apply Dn. auto. }
    destruct (ready (seq 0 n) gd) as ((sy & tp) & gd1). destruct R as (R1 & R2 & R3 & R4 & R5 & R6).
    assert (Finish : S0 ++ tp = [] -> forall r, In r P <-> A r).
    { intros E r. split; auto. rewrite E in R6. intros Ar.
      assert (K : forall m r, n - r <= m -> A r -> In r P).
      { induction m as [|m IHm]; intros q Hq Aq.
        - destruct Aq. lia.
        - destruct (in_dec Nat.eq_dec q P) as [Y|Y]; auto. exfalso.
          apply (R6 q); auto; [destruct Aq; lia| |].
          + rewrite Dn. intros [Z|Z]; auto. apply Aq, Z.
          + intros z Hz. apply Dn. left. apply (ch_cons _ _ _ C) in Hz as (Hz & Lz); auto.
            apply IHm; auto. lia. }
      apply (K (n - r)); auto. }
    assert (Step : S0 ++ tp <> [] -> exists H', let t := let '(tasks, gd) := group sy (rev tp) gd1 in groups fuel n gd (TBlock [tasks; result]) in
      shaped bodies t H' /\ (exists P, Permutation (labels H') (labels_of P) /\ NoDup P /\ (forall r, In r P <-> A r)) /\
      (forall r i j, A r -> before (sh r) i j -> before H' i j) /\
      (forall r q i j, A r -> In q (consumers (g0 r)) -> In i (labels (sh r)) -> In j (labels (sh q)) -> before H' i j)).
    { intros NE. subst sy.
      destruct (group_spec S0 tp gd1 R2) as (HG & G); [intros s Hs; apply R5; auto|].
      destruct (group (map (fun s => body (g0 s)) S0) (rev tp) gd1) as (tasks & gd2). destruct G as (G1 & G2 & G3 & G4 & G5).
      assert (New : forall r, In r (S0 ++ tp) -> ~ In r P).
      { intros r Hr X. apply R5 in Hr as (_ & _ & Y & _). apply Y, Dn. auto. }
      apply (IH gd2 (TBlock [tasks; result]) ((S0 ++ tp) ++ P) (HSeq HG (HSeq H HNil))).
      - rewrite app_length. destruct (S0 ++ tp) as [|? ?]; [congruence|]. cbn [length]. lia.
      - auto.
      - clear - R4 N New. induction (S0 ++ tp) as [|x l IHl]; cbn [app]; auto.
        apply NoDup_cons_iff in R4 as (R4 & R4'). constructor.
        + rewrite in_app_iff. intros [X|X]; auto. apply (New x); auto. left; auto.
        + apply IHl; auto. intros r Hr. apply New. right; auto.
      - intros r Hr. apply in_app_iff in Hr as [Hr|Hr]; auto. apply R5; auto.
      - intros r. rewrite G2, R3, Dn, !in_app_iff. tauto.
      - apply shaped_cons; [exact G3|]. apply shaped_cons; [exact Sh|]. apply shaped_nil.
      - cbn [labels]. rewrite app_nil_r. unfold labels_of. rewrite flat_map_app. apply Permutation_app; auto.
      - intros r Hr. apply in_app_iff in Hr as [Hr|Hr].
        + pose proof (R5 r Hr) as (_ & Ar & _ & Y). intros q Hq. pose proof (ch_cons _ _ _ C r q Ar Hq) as (Aq & _).
          apply in_app_iff. right. apply Y, Dn in Hq as [Hq|Hq]; auto. exfalso. apply Aq, Hq.
        + intros q Hq. apply in_app_iff. right. eapply Up; eauto.
      - intros r i j Hr B. apply in_app_iff in Hr as [Hr|Hr]; cbn [before].
        + right. left. eapply G5; eauto.
        + right. right. right. left. eapply In1; eauto.
      - intros r q i j Hr Hq Hi Hj. cbn [before labels]. rewrite app_nil_r. apply in_app_iff in Hr as [Hr|Hr].
        + left. split.
          * eapply Permutation_in; [symmetry; exact G4|]. apply in_flat_map. eauto.
          * eapply Permutation_in; [symmetry; exact Pe|]. apply in_flat_map. exists q. split; auto.
            pose proof (R5 r Hr) as (_ & Ar & _ & Y). pose proof (ch_cons _ _ _ C r q Ar Hq) as (Aq & _).
            apply Y, Dn in Hq as [Hq|Hq]; auto. exfalso. apply Aq, Hq.
        + right. right. right. left. eapply Ac; eauto. }
    destruct sy as [|y sy]; [destruct tp as [|t tp]|].
    - destruct S0; [|discriminate]. exists H. specialize (Finish eq_refl). split; auto.
      split; [exists P; auto|]. split.
      + intros r i j Ar. apply In1, Finish, Ar.
      + intros r q i j Ar. apply Ac, Finish, Ar.
    - apply Step. intros E. apply app_eq_nil in E as (_ & E). discriminate.
    - apply Step. intros E. apply app_eq_nil in E as (E & _). subst. discriminate.
  Qed.
End Schedule.
