(** Proofs for C67, fifth part: what a folded buffer holds. *)
From Coq Require Import ZArith List Bool Lia Arith.
From Verif Require Import Sema_Model Sema_Spec Sema_Proofs Sema2_Proofs Sema3_Proofs Sema4_Proofs.
Import ListNotations.
Local Open Scope Z_scope.

Definition upto (r : rows) (e : nat) : Z := match e with O => first r - 1 | S i => top r i end.

Lemma from_upto r f o j : good_rows r f o -> from r j = upto r j + 1.
Proof. intros H. destruct j; cbn [from upto]; [lia|]. pose proof (no_gap _ _ _ H j). lia. Qed.
Lemma computed_in r f o j x : good_rows r f o -> In x (computed r j) <-> upto r j < x <= upto r (S j).
Proof.
  intros H. unfold computed. rewrite in_map_iff, (from_upto r f o j H). cbn [upto]. split.
  - intros (i & <- & I). apply in_seq in I. lia.
  - intros L. exists (Z.to_nat (x - (upto r j + 1))). split; [lia|]. apply in_seq. lia.
Qed.
Lemma upto_size r f o j : good_rows r f o -> upto r (S j) - upto r j <= f.
Proof.
  intros H. destruct j; cbn [upto].
  - pose proof (start_size _ _ _ H). lia.
  - pose proof (no_gap _ _ _ H j). pose proof (window_size _ _ _ H (S j)). lia.
Qed.
Lemma top_mono r f o : good_rows r f o -> forall i j, (i <= j)%nat -> top r i <= top r j.
Proof. intros H i j L. induction L; [lia|]. pose proof (not_back _ _ _ H m). lia. Qed.
Lemma top_grow r f o : good_rows r f o -> forall i n, top r (i + n)%nat <= top r i + Z.of_nat n * o.
Proof.
  intros H i. induction n as [|n IH]; [rewrite Nat.add_0_r; lia|]. rewrite Nat.add_succ_r. pose proof (new_size _ _ _ H (i + n)%nat). lia.
Qed.

Lemma puts_other fold v : forall xs m a, (forall x, In x xs -> x mod fold <> a) -> fold_left (fun m x => put m (x mod fold) (v x)) xs m a = m a.
Proof.
  induction xs as [|x xs IH]; intros m a H; auto. cbn [fold_left]. rewrite IH by (intros y Hy; apply H; right; auto). unfold put.
  destruct (Z.eqb_spec (x mod fold) a) as [E|E]; auto. exfalso. apply (H x); [left; auto|auto].
Qed.
Lemma puts_this fold v : forall xs m r, In r xs -> (forall x, In x xs -> x mod fold = r mod fold -> x = r) -> fold_left (fun m x => put m (x mod fold) (v x)) xs m (r mod fold) = v r.
Proof.
  induction xs as [|x xs IH]; intros m r I H; [destruct I|]. cbn [fold_left].
  destruct (in_dec Z.eq_dec r xs) as [K|K].
  - apply IH; auto. intros y Hy. apply H. right; auto.
  - destruct I as [->|I]; [|contradiction]. rewrite puts_other.
    + unfold put. rewrite Z.eqb_refl. reflexivity.
    + intros y Hy E. rewrite (H y) in Hy; [contradiction|right; auto|auto].
Qed.
Lemma apart fold a b : 0 < fold -> 0 < b - a < fold -> a mod fold <> b mod fold.
Proof.
  intros F L E. assert (D : (b - a) mod fold = 0) by (rewrite Zminus_mod, E, Z.sub_diag; apply Z.mod_0_l; lia).
  rewrite Z.mod_small in D by lia. lia.
Qed.

Record MInv (fold : Z) (r : rows) (c bp : nat) (s : state) (e b : nat) : Prop := {
  m_eb : e = b \/ b = S e;
  m_some : forall j, (j < b)%nat -> exists q, pc s j q;
  m_ended : forall j q, pc s j q -> (j < e)%nat <-> (S bp < q)%nat;
  m_began : forall j q, pc s j q -> (j < b)%nat <-> (bp < q)%nat;
  m_mem : forall x, first r <= x <= upto r e -> upto r b - fold < x -> memory_after fold r c (log s) (x mod fold) = Some x
}.

Lemma memory_inv l P r f o fold c bp : shape l P -> good_rows r f o -> f <= fold -> 0 < fold -> staged_part P c -> at_ l (Begin c) bp ->
  forall s, reaches l s -> exists e b, MInv fold r c bp s e b.
Proof.
  intros H G LF F0 C B. assert (En : at_ l (End c) (S bp)).
  { destruct C as (p & k & Hp & Hk). destruct (part_at l P c p H Hp) as (b' & B' & En & _). rewrite (at_unique _ _ _ _ _ H B' B) in *. auto. }
  apply (reach_ind l (fun s => exists e b, MInv fold r c bp s e b)).
  - exists 0%nat, 0%nat. constructor; auto.
    + intros j L. lia.
    + intros j q K. unfold pc in K. destruct j; discriminate.
    + intros j q K. unfold pc in K. destruct j; discriminate.
    + intros x L. cbn [upto] in L. lia.
  - intros s a s' R (e & b & M) E. pose proof (reach_inv l P s H R) as I. apply step_inv' in E as [(_ & _ & E & EL)|(j & q & op & _ & Hq & Ho & E & EL)].
    + exists e, b. assert (X : forall i q, pc s' i q -> pc s i q \/ (q = 0%nat /\ (b <= i)%nat)).
      { intros i q K. unfold pc in K. rewrite E in K. destruct (lt_dec i (length (pcs s))) as [L|L].
        - rewrite nth_error_app1 in K by auto. auto.
        - rewrite nth_error_app2 in K by lia. right. destruct (i - length (pcs s))%nat as [|d]; [|destruct d; discriminate]. injection K as <-. split; auto.
          destruct (le_lt_dec b i) as [K|K]; auto. destruct (m_some _ _ _ _ _ _ _ M i K) as (q & Hq). apply pc_lt in Hq. lia. }
      constructor.
      * apply M.
      * intros j L. destruct (m_some _ _ _ _ _ _ _ M j L) as (q & Hq). exists q. pose proof (pc_lt _ _ _ Hq). unfold pc in *. rewrite E, nth_error_app1; auto.
      * intros j q K. apply X in K as [K|(-> & K)]; [apply (m_ended _ _ _ _ _ _ _ M j q K)|]. destruct (m_eb _ _ _ _ _ _ _ M); lia.
      * intros j q K. apply X in K as [K|(-> & K)]; [apply (m_began _ _ _ _ _ _ _ M j q K)|]. lia.
      * rewrite EL. apply M.
    + assert (XJ : pc s' j (S q)). { unfold pc. rewrite E. eapply set_pc_same; eauto. }
      assert (XO : forall i q, i <> j -> pc s' i q <-> pc s i q). { intros i q' N. unfold pc. rewrite E, set_pc_other by auto. tauto. }
      destruct (m_ended _ _ _ _ _ _ _ M j q Hq) as (E1 & E2), (m_began _ _ _ _ _ _ _ M j q Hq) as (B1 & B2).
      assert (MA : forall es, log s' = log s ++ es -> memory_after fold r c (log s') = fold_left (happens fold r c) es (memory_after fold r c (log s))).
      { intros es ->. unfold memory_after. apply fold_left_app. }
      specialize (MA _ EL).
      assert (S1 : forall i, (i < b)%nat -> exists q, pc s' i q).
      { intros i L. destruct (Nat.eq_dec i j) as [->|N]; [eauto|]. destruct (m_some _ _ _ _ _ _ _ M i L) as (q' & K). exists q'. apply XO; auto. }
      destruct (Nat.eq_dec q bp) as [->|N1]; [|destruct (Nat.eq_dec q (S bp)) as [->|N2]].
      * unfold at_ in Ho, B. rewrite B in Ho. injection Ho as <-. cbn [fold_left happens] in MA. rewrite Nat.eqb_refl in MA.
        assert (Lj : (b <= j)%nat) by (destruct (le_lt_dec b j) as [|K]; auto; specialize (B1 K); lia).
        assert (j = b) as ->.
        { destruct (Nat.eq_dec j b) as [|N]; auto. destruct (gate l P s c bp b j bp H I C B) as (q' & Hq' & K); auto; [lia|].
          pose proof (m_began _ _ _ _ _ _ _ M b q' Hq') as Y. lia. }
        assert (e = b) as ->.
        { destruct (m_eb _ _ _ _ _ _ _ M) as [K|K]; auto. destruct (gate l P s c bp e b bp H I C B) as (q' & Hq' & G'); auto; [lia|].
          pose proof (m_ended _ _ _ _ _ _ _ M e q' Hq') as Y. lia. }
        exists b, (S b). constructor; auto.
        -- intros i L. destruct (Nat.eq_dec i b) as [->|N]; [eauto|]. apply S1. lia.
        -- intros i q' K. destruct (Nat.eq_dec i b) as [->|N]; [rewrite (pc_fun _ _ _ _ K XJ); lia|]. apply XO in K; auto. apply (m_ended _ _ _ _ _ _ _ M i q' K).
        -- intros i q' K. destruct (Nat.eq_dec i b) as [->|N]; [rewrite (pc_fun _ _ _ _ K XJ); lia|]. apply XO in K; auto. pose proof (m_began _ _ _ _ _ _ _ M i q' K). lia.
        -- intros x L1 L2. rewrite MA, (puts_other fold (fun _ => None)).
           ++ apply (m_mem _ _ _ _ _ _ _ M); auto. destruct b as [|b]; cbn [upto] in *; [lia|]. pose proof (not_back _ _ _ G b). lia.
           ++ intros y Hy. apply (computed_in r f o b y G) in Hy. apply not_eq_sym. apply apart; auto. lia.
      * unfold at_ in Ho, En. rewrite En in Ho. injection Ho as <-. cbn [fold_left happens] in MA. rewrite Nat.eqb_refl in MA.
        assert (b = S e /\ j = e) as (-> & ->). { destruct (m_eb _ _ _ _ _ _ _ M); lia. }
        exists (S e), (S e). constructor; auto.
        -- intros i q' K. destruct (Nat.eq_dec i e) as [->|N]; [rewrite (pc_fun _ _ _ _ K XJ); lia|]. apply XO in K; auto. pose proof (m_ended _ _ _ _ _ _ _ M i q' K). lia.
        -- intros i q' K. destruct (Nat.eq_dec i e) as [->|N]; [rewrite (pc_fun _ _ _ _ K XJ); lia|]. apply XO in K; auto. apply (m_began _ _ _ _ _ _ _ M i q' K).
        -- intros x L1 L2. rewrite MA. pose proof (upto_size r f o e G) as Z1. destruct (Z_le_gt_dec x (upto r e)) as [K|K].
           ++ rewrite (puts_other fold (fun y => Some y)); [apply (m_mem _ _ _ _ _ _ _ M); auto; lia|].
              intros y Hy. apply (computed_in r f o e y G) in Hy. apply not_eq_sym. apply apart; auto. lia.
           ++ apply (puts_this fold (fun y => Some y)); [apply (computed_in r f o e x G); lia|]. intros y Hy Eq. apply (computed_in r f o e y G) in Hy.
              destruct (Z.lt_trichotomy x y) as [T|[T|T]]; auto; exfalso; [apply (apart fold x y)|apply (apart fold y x)]; auto; lia.
      * exists e, b. assert (NC : forall m, fold_left (happens fold r c) (match op with Begin u => [Began j u] | End u => [Ended j u] | _ => [] end) m = m).
        { intros m. destruct op as [k|u|u|k]; auto; cbn [fold_left happens]; (destruct (Nat.eqb_spec u c) as [->|N]; [exfalso|reflexivity]).
          - apply N1. apply (at_unique _ _ _ _ _ H Ho B).
          - apply N2. apply (at_unique _ _ _ _ _ H Ho En). }
        rewrite NC in MA. constructor; auto.
        -- apply M.
        -- intros i q' K. destruct (Nat.eq_dec i j) as [->|N]; [rewrite (pc_fun _ _ _ _ K XJ); lia|]. apply XO in K; auto. apply (m_ended _ _ _ _ _ _ _ M i q' K).
        -- intros i q' K. destruct (Nat.eq_dec i j) as [->|N]; [rewrite (pc_fun _ _ _ _ K XJ); lia|]. apply XO in K; auto. apply (m_began _ _ _ _ _ _ _ M i q' K).
        -- rewrite MA. apply M.
Qed.

Lemma data l P r f o c d s i x : shape l P -> good_rows r f o -> staged_part P c -> staged_part P d -> (c < d)%nat -> reaches l s ->
  busy s i d -> first r <= x -> low r i <= x <= top r i ->
  let fold := fold_factor f o (l_workers l) in memory_after fold r c (log s) (x mod fold) = Some x.
Proof.
  intros H G C D L R (Bg & NE) F1 F2 fold. pose proof (reach_inv l P s H R) as I.
  pose proof (window_size _ _ _ G i) as Wi. pose proof (not_back _ _ _ G i). pose proof (new_size _ _ _ G i). pose proof (sh_workers _ _ H) as W.
  assert (0 < f /\ 0 <= o) as (Hf & Ho) by lia.
  assert (K0 : 0 <= (Z.of_nat (l_workers l) - 1) * o) by nia. assert (f <= fold /\ 0 < fold) as (LF & F0) by (unfold fold, fold_factor; lia).
  apply (i_began _ _ I) in Bg as (q & bd & Hq & Bd & Lq).
  assert (Ed : at_ l (End d) (S bd)).
  { destruct D as (p & k & Hp & Hk). destruct (part_at l P d p H Hp) as (b' & B' & En & _). rewrite (at_unique _ _ _ _ _ H B' Bd) in *. auto. }
  assert (Lq2 : (q <= S bd)%nat). { destruct (le_lt_dec q (S bd)); auto. exfalso. apply NE. apply (i_ended _ _ I). eauto. }
  destruct C as (p & k & Hp & Hk). destruct (part_at l P c p H Hp) as (bp & B & En & _). assert (C : staged_part P c) by (exists p, k; auto).
  destruct (memory_inv l P r f o fold c bp H G LF F0 C B s R) as (e & b & M). apply (m_mem _ _ _ _ _ _ _ M).
  - pose proof (order_at _ _ _ _ _ _ H L En Bd). assert (Le : (i < e)%nat) by (apply (m_ended _ _ _ _ _ _ _ M i q Hq); lia).
    destruct e as [|e]; [lia|]. cbn [upto]. pose proof (top_mono _ _ _ G i e ltac:(lia)). lia.
  - assert (Lb : (i < b)%nat).
    { pose proof (order_at _ _ _ _ _ _ H L En Bd). apply (m_began _ _ _ _ _ _ _ M i q Hq). lia. }
    destruct b as [|j]; [lia|]. cbn [upto]. destruct (m_some _ _ _ _ _ _ _ M j ltac:(lia)) as (qj & Hj). apply pc_lt in Hj.
    pose proof (window l P s d bd i j q H I D Bd ltac:(lia) Hj Hq Lq2) as Wn.
    pose proof (top_grow _ _ _ G i (j - i)) as T. replace (i + (j - i))%nat with j in T by lia.
    assert (Z.of_nat (j - i) * o <= (Z.of_nat (l_workers l) - 1) * o) by nia. unfold fold, fold_factor. lia.
Qed.
