(** Lemmas about the thread-pool model. *)
From Coq Require Import ZArith List Bool Lia Permutation Sorting.
From Verif Require Import Pool_Model.
Import ListNotations.
Local Open Scope Z_scope.

(** * Lists *)

Lemma upd_length {A} (l : list A) i x : length (upd l i x) = length l.
Proof. revert i; induction l as [|y l IH]; intros [|i]; cbn; auto. Qed.

Lemma upd_split {A} (l : list A) i y :
  nth_error l i = Some y ->
  exists l1 l2, l = l1 ++ y :: l2 /\ length l1 = i /\ forall x, upd l i x = l1 ++ x :: l2.
Proof.
  revert i; induction l as [|z l IH]; intros [|i] H; cbn in H; try discriminate.
  - injection H as <-. exists [], l. repeat split; auto.
  - destruct (IH _ H) as (l1 & l2 & -> & <- & Hu).
    exists (z :: l1), l2. repeat split; auto. intros x; cbn. now rewrite Hu.
Qed.

Lemma nth_error_upd {A} (l : list A) i j x :
  nth_error (upd l i x) j =
  if Nat.eqb i j then match nth_error l i with Some _ => Some x | None => None end
  else nth_error l j.
Proof.
  revert i j; induction l as [|z l IH]; intros [|i] [|j]; cbn; auto.
  - now destruct (Nat.eqb i j).
Qed.

Lemma nth_error_upd_same {A} (l : list A) i x y :
  nth_error l i = Some y -> nth_error (upd l i x) i = Some x.
Proof. intros H. rewrite nth_error_upd, Nat.eqb_refl, H. reflexivity. Qed.

Lemma nth_error_upd_other {A} (l : list A) i j x :
  i <> j -> nth_error (upd l i x) j = nth_error l j.
Proof. intros H. rewrite nth_error_upd. apply Nat.eqb_neq in H. now rewrite H. Qed.

Definition zrange (a b : Z) : list Z := map (fun k => a + Z.of_nat k) (seq 0 (Z.to_nat (b - a))).

Lemma zrange_in a b x : In x (zrange a b) <-> a <= x < b.
Proof.
  unfold zrange. rewrite in_map_iff. split.
  - intros (k & <- & Hk). apply in_seq in Hk. lia.
  - intros H. exists (Z.to_nat (x - a)). split; [lia|]. apply in_seq. lia.
Qed.

Lemma zrange_nil a b : b <= a -> zrange a b = [].
Proof. intros H. unfold zrange. replace (Z.to_nat (b - a)) with O by lia. reflexivity. Qed.

Lemma zrange_snoc a b : a <= b -> zrange a (b + 1) = zrange a b ++ [b].
Proof.
  intros H. unfold zrange. replace (Z.to_nat (b + 1 - a)) with (S (Z.to_nat (b - a))) by lia.
  rewrite seq_S, map_app. cbn. f_equal. f_equal. lia.
Qed.

Lemma zrange_split a b c : a <= b <= c -> zrange a c = zrange a b ++ zrange b c.
Proof.
  intros [H1 H2]. replace c with (b + (c - b)) by lia.
  assert (0 <= c - b) as H by lia. revert H. generalize (c - b) as k. clear H2 c.
  apply natlike_ind.
  - rewrite Z.add_0_r, (zrange_nil b b) by lia. now rewrite app_nil_r.
  - intros k Hk IH. replace (b + Z.succ k) with (b + k + 1) by lia.
    rewrite !zrange_snoc by lia. rewrite IH. now rewrite app_assoc.
Qed.

Lemma zrange_NoDup a b : NoDup (zrange a b).
Proof.
  unfold zrange. apply FinFun.Injective_map_NoDup; [|apply seq_NoDup].
  intros x y H. lia.
Qed.

Lemma zrange_length a b : length (zrange a b) = Z.to_nat (b - a).
Proof. unfold zrange. now rewrite map_length, seq_length. Qed.

Lemma range_zrange n : range n = zrange 0 n.
Proof. unfold range, zrange. rewrite Z.sub_0_r. apply map_ext. intros; lia. Qed.

(** * Specification vocabulary (also used in the property statements) *)

Definition items (t : nat) (log : list (nat * Z)) : list Z :=
  map snd (filter (fun p => Nat.eqb t (fst p)) log).

Definition frames (s : state) : list frame := concat (threads s).

Definition works_on (t : nat) (f : frame) : bool :=
  match f with FWork t' _ _ _ _ _ => Nat.eqb t t' | _ => false end.

Definition run_item (t : nat) (f : frame) : list Z :=
  match f with
  | FWork t' _ _ (Some i) _ _ => if Nat.eqb t t' then [i] else []
  | _ => []
  end.
Definition running (t : nat) (fs : list frame) : list Z := flat_map (run_item t) fs.

Definition pend (t : nat) (f : frame) : Z :=
  match f with FWork t' _ _ _ d _ => if Nat.eqb t t' then d else 0 | _ => 0 end.
Definition sumZ (l : list Z) : Z := fold_right Z.add 0 l.
Definition pending (t : nat) (fs : list frame) : Z := sumZ (map (pend t) fs).

Definition wid (t : nat) (f : frame) : list Z :=
  match f with FWork t' w _ _ _ _ => if Nat.eqb t t' then [w] else [] | _ => [] end.
Definition wids (t : nat) (fs : list frame) : list Z := flat_map (wid t) fs.

Definition exhausted (s : shard) : Prop := s_end s <= s_i s.

(** * Invariant *)

Fixpoint chain (b n : Z) (l : list shard) : Prop :=
  match l with
  | [] => b = n
  | s :: l' => s_begin s = b /\ b <= s_end s /\ b <= s_i s /\ chain (s_end s) n l'
  end.

Definition handed (s : shard) : list Z := zrange (s_begin s) (Z.min (s_i s) (s_end s)).

Definition frame_ok (ts : list task) (f : frame) : Prop :=
  match f with
  | FWork t w rem cur d h =>
      exists k, nth_error ts t = Some k /\ 0 <= d /\
        (forall j sh, nth_error (t_shards k) j = Some sh -> In j rem \/ exhausted sh) /\
        (forall j, In j rem -> (j < length (t_shards k))%nat) /\
        (rem = [] -> cur = None)
  | FSpin t => (t < length ts)%nat
  | FLoop (CDone t) cv b => (t < length ts)%nat /\ cv = CvHelper
  | _ => True
  end.

Record task_inv (k : task) (fs : list frame) (st fn : list Z) (ncomp : nat) (t : nat) : Prop := {
  ti_n : 0 < t_n k;
  ti_chain : chain 0 (t_n k) (t_shards k);
  ti_started : Permutation st (flat_map handed (t_shards k));
  ti_fin : Permutation st (fn ++ running t fs);
  ti_todo : t_todo k = t_n k - Z.of_nat (length fn) + pending t fs;
  ti_wids : NoDup (wids t fs);
  ti_wrange : Forall (fun w => 0 <= w /\ t_maxw k <= w < t_limit k) (wids t fs);
  ti_maxw : t_maxw k <= t_limit k;
  ti_comp : ncomp = if t_todo k =? 0 then 1%nat else 0%nat
}.

Record Inv (ts : list task) (fs : list frame) (st fn : list (nat * Z)) (cm rt : list nat) : Prop := {
  i_tasks : forall t k, nth_error ts t = Some k ->
     task_inv k fs (items t st) (items t fn) (count_occ Nat.eq_dec cm t) t;
  i_frames : Forall (frame_ok ts) fs;
  i_fresh : forall t i, In (t, i) st \/ In (t, i) fn -> (t < length ts)%nat;
  i_cfresh : forall t, In t cm -> (t < length ts)%nat;
  i_ret : forall t, In t rt -> exists k, nth_error ts t = Some k /\ t_todo k = 0
}.

Lemma flat_map_perm {A B} (f : A -> list B) l l' :
  Permutation l l' -> Permutation (flat_map f l) (flat_map f l').
Proof.
  induction 1; cbn.
  - constructor.
  - now apply Permutation_app_head.
  - rewrite !app_assoc. apply Permutation_app_tail, Permutation_app_comm.
  - etransitivity; eassumption.
Qed.

Lemma sumZ_perm l l' : Permutation l l' -> sumZ l = sumZ l'.
Proof. unfold sumZ. induction 1; cbn; lia. Qed.

Lemma task_inv_perm k fs fs' st fn c t :
  Permutation fs fs' -> task_inv k fs st fn c t -> task_inv k fs' st fn c t.
Proof.
  intros P [H1 H2 H3 H4 H5 H6 H7 H8 H9].
  assert (Permutation (wids t fs) (wids t fs')) as PW by now apply flat_map_perm.
  constructor; auto.
  - rewrite H4. apply Permutation_app_head. now apply flat_map_perm.
  - rewrite H5. f_equal. apply sumZ_perm. now apply Permutation_map.
  - eapply Permutation_NoDup; eassumption.
  - eapply Permutation_Forall; eassumption.
Qed.

Lemma Inv_perm ts fs fs' st fn cm rt :
  Permutation fs fs' -> Inv ts fs st fn cm rt -> Inv ts fs' st fn cm rt.
Proof.
  intros P [H1 H2 H3 H4 H5]. constructor; auto.
  - intros t k H. eapply task_inv_perm; eauto.
  - eapply Permutation_Forall; eassumption.
Qed.

Lemma frames_upd s tid stk stk' :
  nth_error (threads s) tid = Some stk ->
  exists rest, Permutation (frames s) (stk ++ rest) /\
               Permutation (concat (upd (threads s) tid stk')) (stk' ++ rest).
Proof.
  intros H. destruct (upd_split _ _ _ H) as (l1 & l2 & E & _ & Hu).
  exists (concat l1 ++ concat l2). unfold frames. rewrite E at 1. rewrite Hu.
  rewrite !concat_app. cbn. split.
  - rewrite Permutation_app_swap_app. reflexivity.
  - rewrite Permutation_app_swap_app. reflexivity.
Qed.

Lemma app_swap_head {A} (x y z : list A) : Permutation (x ++ y ++ z) (y ++ x ++ z).
Proof. apply Permutation_app_swap_app. Qed.

Lemma task_inv_ext k fs fs' st fn c t :
  running t fs' = running t fs -> pending t fs' = pending t fs -> wids t fs' = wids t fs ->
  task_inv k fs st fn c t -> task_inv k fs' st fn c t.
Proof.
  intros E1 E2 E3 [H1 H2 H3 H4 H5 H6 H7 H8 H9].
  constructor; auto; try (rewrite E1; assumption); try (rewrite E2; assumption);
    rewrite E3; assumption.
Qed.

(** progress of tasks that keeps the frames well-formed *)
Definition task_mono (k k' : task) : Prop :=
  length (t_shards k') = length (t_shards k) /\
  forall j sh', nth_error (t_shards k') j = Some sh' ->
     exists sh, nth_error (t_shards k) j = Some sh /\ (exhausted sh -> exhausted sh').

Definition tasks_mono (ts ts' : list task) : Prop :=
  forall t k, nth_error ts t = Some k -> exists k', nth_error ts' t = Some k' /\ task_mono k k'.

Lemma task_mono_refl k : task_mono k k.
Proof. split; [reflexivity|]. intros j sh H. exists sh. auto. Qed.

Lemma tasks_mono_upd ts t k k' :
  nth_error ts t = Some k -> task_mono k k' -> tasks_mono ts (upd ts t k').
Proof.
  intros H M t0 k0 H0. rewrite nth_error_upd. destruct (Nat.eqb_spec t t0) as [<-|N].
  - rewrite H. exists k'. split; [reflexivity|]. congruence.
  - exists k0. split; [assumption|apply task_mono_refl].
Qed.

Lemma nth_error_lt {A} (l : list A) i x : nth_error l i = Some x -> (i < length l)%nat.
Proof. intros H. apply nth_error_Some. congruence. Qed.

Lemma tasks_mono_length ts ts' : tasks_mono ts ts' -> (length ts <= length ts')%nat.
Proof.
  intros M. destruct (Nat.le_gt_cases (length ts) (length ts')) as [H|H]; [exact H|].
  destruct (nth_error ts (length ts')) as [k|] eqn:E.
  - destruct (M _ _ E) as (k' & E' & _). apply nth_error_lt in E'. lia.
  - apply nth_error_None in E. lia.
Qed.

Lemma frame_ok_mono ts ts' f : tasks_mono ts ts' -> frame_ok ts f -> frame_ok ts' f.
Proof.
  intros M. pose proof (tasks_mono_length _ _ M) as L.
  destruct f as [t w rem cur d h|t|c cv b| |]; cbn.
  - intros (k & Hk & Hd & Hs & Hr & Hc). destruct (M _ _ Hk) as (k' & Hk' & Hl & Hm).
    exists k'. split; [assumption|]. split; [assumption|]. split; [|split; [rewrite Hl; assumption|assumption]].
    intros j sh' Hj. destruct (Hm _ _ Hj) as (sh & Hsh & He).
    destruct (Hs _ _ Hsh); auto.
  - intros; lia.
  - destruct c; auto. intros [H ?]. split; [lia|auto].
  - auto.
  - auto.
Qed.

Lemma frames_ok_mono ts ts' fs :
  tasks_mono ts ts' -> Forall (frame_ok ts) fs -> Forall (frame_ok ts') fs.
Proof. intros M. apply Forall_impl. intros f. now apply frame_ok_mono. Qed.

Definition neutral (f : frame) : Prop := forall t, works_on t f = false.

Lemma neutral_eqs f fs t : neutral f ->
  running t (f :: fs) = running t fs /\ pending t (f :: fs) = pending t fs /\ wids t (f :: fs) = wids t fs.
Proof.
  intros N. destruct f as [t' w rem cur d h|t'|c cv b| |]; cbn; try (repeat split; reflexivity).
  exfalso. specialize (N t'). cbn in N. rewrite Nat.eqb_refl in N. discriminate.
Qed.

Lemma Inv_push_neutral ts f fs st fn cm rt :
  neutral f -> frame_ok ts f -> Inv ts fs st fn cm rt -> Inv ts (f :: fs) st fn cm rt.
Proof.
  intros N F [H1 H2 H3 H4 H5]. constructor; auto.
  intros t k Hk. destruct (neutral_eqs f fs t N) as (E1 & E2 & E3).
  eapply task_inv_ext; eauto.
Qed.

Lemma Inv_pop_neutral ts f fs st fn cm rt :
  neutral f -> Inv ts (f :: fs) st fn cm rt -> Inv ts fs st fn cm rt.
Proof.
  intros N [H1 H2 H3 H4 H5]. constructor; auto.
  - intros t k Hk. destruct (neutral_eqs f fs t N) as (E1 & E2 & E3).
    eapply task_inv_ext; [| | |apply H1, Hk]; auto.
  - now inversion H2.
Qed.

Lemma neutral_loop c cv b : neutral (FLoop c cv b). Proof. intros t; reflexivity. Qed.
Lemma neutral_spin t : neutral (FSpin t). Proof. intros t'; reflexivity. Qed.
Lemma neutral_idle : neutral FIdle. Proof. intros t'; reflexivity. Qed.
Lemma neutral_notify : neutral FNotify. Proof. intros t'; reflexivity. Qed.
#[export] Hint Resolve neutral_loop neutral_spin neutral_idle neutral_notify : pool.

(** ** Replacing one task *)
Lemma i_ret_upd ts t k k' rt :
  nth_error ts t = Some k -> (t_todo k = 0 -> t_todo k' = 0) ->
  (forall t, In t rt -> exists k, nth_error ts t = Some k /\ t_todo k = 0) ->
  (forall t0, In t0 rt -> exists k0, nth_error (upd ts t k') t0 = Some k0 /\ t_todo k0 = 0).
Proof.
  intros H E R t0 Ht. destruct (R _ Ht) as (k0 & Hk0 & Z0). rewrite nth_error_upd.
  destruct (Nat.eqb_spec t t0) as [<-|N].
  - rewrite H. exists k'. split; auto. apply E. congruence.
  - exists k0. auto.
Qed.

Lemma Inv_alloc ts t k fs st fn cm rt :
  nth_error ts t = Some k -> Inv ts fs st fn cm rt ->
  Inv (upd ts t (alloc_worker k)) fs st fn cm rt.
Proof.
  intros H [H1 H2 H3 H4 H5]. constructor.
  - intros t0 k0 Hk0. rewrite nth_error_upd in Hk0. destruct (Nat.eqb_spec t t0) as [<-|N].
    + rewrite H in Hk0. injection Hk0 as <-. destruct (H1 _ _ H) as [A1 A2 A3 A4 A5 A6 A7 A8 A9].
      constructor; cbn; auto; try lia.
      eapply Forall_impl; [|exact A7]. cbn. intros; lia.
    + apply H1; assumption.
  - eapply frames_ok_mono; [|exact H2]. eapply tasks_mono_upd; [exact H|].
    split; [reflexivity|]. cbn. intros j sh Hs. exists sh. auto.
  - intros. rewrite upd_length. eauto.
  - intros. rewrite upd_length. eauto.
  - eapply i_ret_upd; eauto.
Qed.

Lemma shard_order_all k w j : (j < length (t_shards k))%nat -> In j (shard_order k w).
Proof.
  intros H. unfold shard_order.
  set (sc := length (t_shards k)) in *.
  assert (0 <= w mod Z.of_nat sc < Z.of_nat sc) as B by (apply Z.mod_pos_bound; lia).
  apply in_or_app. rewrite !in_seq. lia.
Qed.

Lemma shard_order_range k w j : t_shards k <> [] -> In j (shard_order k w) -> (j < length (t_shards k))%nat.
Proof.
  intros H. unfold shard_order.
  set (sc := length (t_shards k)) in *.
  assert (sc <> 0)%nat as Hsc by (unfold sc; destruct (t_shards k); [congruence|discriminate]).
  assert (0 <= w mod Z.of_nat sc < Z.of_nat sc) as B by (apply Z.mod_pos_bound; lia).
  rewrite in_app_iff, !in_seq. lia.
Qed.

Lemma Inv_alloc_push ts t k fs st fn cm rt h :
  nth_error ts t = Some k -> 0 <= t_maxw (alloc_worker k) -> Inv ts fs st fn cm rt ->
  Inv (upd ts t (alloc_worker k))
      (FWork t (t_maxw (alloc_worker k)) (shard_order k (t_maxw (alloc_worker k))) None 0 h :: fs)
      st fn cm rt.
Proof.
  intros H W I. pose proof (Inv_alloc _ _ _ _ _ _ _ _ H I) as J.
  destruct I as [I1 _ _ _ _]. pose proof (I1 _ _ H) as [B1 B2 _ _ _ _ B7 B8 _]. clear I1.
  assert (t_shards k <> []) as NE by (intros E; rewrite E in B2; cbn in B2; lia).
  destruct J as [H1 H2 H3 H4 H5]. constructor; auto.
  - intros t0 k0 Hk0. specialize (H1 _ _ Hk0).
    destruct H1 as [A1 A2 A3 A4 A5 A6 A7 A8 A9].
    destruct (Nat.eqb_spec t0 t) as [->|N].
    + rewrite (nth_error_upd_same _ _ _ _ H) in Hk0. injection Hk0 as <-.
      constructor; auto.
      * unfold pending in *. cbn [map sumZ fold_right pend]. rewrite Nat.eqb_refl.
        unfold sumZ in *. lia.
      * cbn [wids flat_map wid]. rewrite Nat.eqb_refl. cbn. constructor; [|exact A6].
        intros Hin. rewrite Forall_forall in B7. specialize (B7 _ Hin). cbn in *. lia.
      * cbn [wids flat_map wid]. rewrite Nat.eqb_refl. cbn. constructor; [|exact A7].
        cbn in *. lia.
    + eapply task_inv_ext; [| | |constructor; eauto].
      * reflexivity.
      * unfold pending. cbn. apply Nat.eqb_neq in N. rewrite N. reflexivity.
      * cbn. apply Nat.eqb_neq in N. rewrite N. reflexivity.
  - constructor; [|exact H2]. cbn. exists (alloc_worker k).
    split; [eapply nth_error_upd_same; eauto|]. split; [lia|]. split.
    + intros j sh Hs. left. apply shard_order_all. cbn in Hs. now apply nth_error_lt in Hs.
    + split; [|reflexivity]. intros j Hj. apply (shard_order_range k (t_maxw (alloc_worker k))); auto.
Qed.

Lemma Inv_dequeue stk : forall q ts fs st fn cm rt q' ts' r,
  Inv ts fs st fn cm rt -> dequeue stk ts q = (q', ts', r) ->
  match r with
  | None => Inv ts' fs st fn cm rt
  | Some (t, w) => exists k', nth_error ts' t = Some k' /\
      Inv ts' (FWork t w (shard_order k' w) None 0 true :: fs) st fn cm rt
  end.
Proof.
  induction q as [|t q IH]; intros ts fs st fn cm rt q' ts' r I D; cbn [dequeue] in D.
  - injection D as <- <- <-. exact I.
  - destruct (nth_error ts t) as [k|] eqn:Hk; [|injection D as <- <- <-; exact I].
    destruct (all_work_started k).
    { eapply IH; eauto. }
    destruct (mem t stk).
    { destruct (dequeue stk ts q) as [[q1 ts1] r1] eqn:D1. injection D as <- <- <-. eapply IH; eauto. }
    destruct (Z.ltb_spec (t_maxw (alloc_worker k)) 0) as [L|L].
    { eapply IH; [|exact D]. apply Inv_alloc; assumption. }
    assert (nth_error (upd ts t (alloc_worker k)) t = Some (alloc_worker k)) as E
        by (eapply nth_error_upd_same; eauto).
    destruct (t_maxw (alloc_worker k) =? 0); injection D as <- <- <-;
      (exists (alloc_worker k); split; [exact E|]; apply (Inv_alloc_push ts t k); auto).
Qed.

Definition bump (sh : shard) : shard := Shard (s_begin sh) (s_i sh + 1) (s_end sh).

Lemma chain_upd : forall l b n j sh,
  chain b n l -> nth_error l j = Some sh -> chain b n (upd l j (bump sh)).
Proof.
  induction l as [|s l IH]; intros b n [|j] sh C H; cbn in *; try discriminate.
  - injection H as ->. intuition lia.
  - destruct C as (C1 & C2 & C3 & C4). intuition.
Qed.

Lemma chain_nth : forall l b n j sh,
  chain b n l -> nth_error l j = Some sh -> b <= s_begin sh <= s_i sh /\ s_begin sh <= s_end sh /\ s_end sh <= n.
Proof.
  assert (forall l b n, chain b n l -> b <= n) as Hle.
  { induction l as [|s l IH]; intros b n C; cbn in C; [lia|].
    destruct C as (C1 & C2 & C3 & C4). apply IH in C4. lia. }
  induction l as [|s l IH]; intros b n [|j] sh C H; cbn in *; try discriminate.
  - injection H as ->. destruct C as (C1 & C2 & C3 & C4). apply Hle in C4. lia.
  - destruct C as (C1 & C2 & C3 & C4). specialize (IH _ _ _ _ C4 H). lia.
Qed.

Lemma handed_bump_full sh : s_end sh <= s_i sh -> handed (bump sh) = handed sh.
Proof. intros H. unfold handed, bump. cbn. f_equal. lia. Qed.

Lemma handed_bump sh : s_begin sh <= s_i sh < s_end sh -> handed (bump sh) = handed sh ++ [s_i sh].
Proof.
  intros H. unfold handed, bump. cbn. rewrite !Z.min_l by lia. apply zrange_snoc. lia.
Qed.

Lemma flat_map_upd {A B} (f : A -> list B) l j x y :
  nth_error l j = Some x -> f y = f x -> flat_map f (upd l j y) = flat_map f l.
Proof.
  intros H E. destruct (upd_split _ _ _ H) as (l1 & l2 & -> & _ & Hu).
  rewrite Hu, !flat_map_app. cbn. now rewrite E.
Qed.

Lemma flat_map_upd_snoc {A B} (f : A -> list B) l j x y b :
  nth_error l j = Some x -> f y = f x ++ [b] -> Permutation (flat_map f (upd l j y)) (b :: flat_map f l).
Proof.
  intros H E. destruct (upd_split _ _ _ H) as (l1 & l2 & -> & _ & Hu).
  rewrite Hu, !flat_map_app. cbn. rewrite E, <- app_assoc. cbn.
  rewrite !app_assoc. symmetry. apply Permutation_middle.
Qed.

Lemma shard_mono_bump k j sh : nth_error (t_shards k) j = Some sh ->
  task_mono k (Task (t_n k) (t_limit k) (t_maxw k) (t_todo k) (upd (t_shards k) j (bump sh))).
Proof.
  intros H. split; [apply upd_length|]. cbn. intros j' sh' Hs.
  rewrite nth_error_upd in Hs. destruct (Nat.eqb_spec j j') as [<-|N].
  - rewrite H in Hs. injection Hs as <-. exists sh. split; [exact H|]. unfold exhausted, bump. cbn. lia.
  - exists sh'. auto.
Qed.

Lemma running_cons_neq t t' w rem c d h fs : t <> t' ->
  running t (FWork t' w rem c d h :: fs) = running t fs.
Proof. intros N. cbn. destruct c; auto. apply Nat.eqb_neq in N. now rewrite N. Qed.
Lemma pending_cons_neq t t' w rem c d h fs : t <> t' ->
  pending t (FWork t' w rem c d h :: fs) = pending t fs.
Proof. intros N. unfold pending. cbn. apply Nat.eqb_neq in N. now rewrite N. Qed.
Lemma wids_cons_neq t t' w rem c d h fs : t <> t' ->
  wids t (FWork t' w rem c d h :: fs) = wids t fs.
Proof. intros N. cbn. apply Nat.eqb_neq in N. now rewrite N. Qed.
Lemma pending_cons_eq t w rem c d h fs :
  pending t (FWork t w rem c d h :: fs) = d + pending t fs.
Proof. unfold pending. cbn. now rewrite Nat.eqb_refl. Qed.
Lemma wids_cons_eq t w rem c d h fs :
  wids t (FWork t w rem c d h :: fs) = w :: wids t fs.
Proof. cbn. now rewrite Nat.eqb_refl. Qed.
Lemma running_cons_some t w rem i d h fs :
  running t (FWork t w rem (Some i) d h :: fs) = i :: running t fs.
Proof. cbn. now rewrite Nat.eqb_refl. Qed.
Lemma running_cons_none t t' w rem d h fs :
  running t (FWork t' w rem None d h :: fs) = running t fs.
Proof. reflexivity. Qed.

Lemma task_inv_other k t t' fs st fn c w rem cur d h w' rem' cur' d' h' :
  t <> t' ->
  task_inv k (FWork t' w rem cur d h :: fs) st fn c t ->
  task_inv k (FWork t' w' rem' cur' d' h' :: fs) st fn c t.
Proof.
  intros N. apply task_inv_ext.
  - now rewrite !running_cons_neq by assumption.
  - now rewrite !pending_cons_neq by assumption.
  - now rewrite !wids_cons_neq by assumption.
Qed.

Lemma Inv_fetch_none ts t k j sh w rem d h fs st fn cm rt :
  nth_error ts t = Some k -> nth_error (t_shards k) j = Some sh -> s_end sh <= s_i sh ->
  Inv ts (FWork t w (j :: rem) None d h :: fs) st fn cm rt ->
  Inv (upd ts t (Task (t_n k) (t_limit k) (t_maxw k) (t_todo k) (upd (t_shards k) j (bump sh))))
      (FWork t w rem None d h :: fs) st fn cm rt.
Proof.
  intros H Hs E [H1 H2 H3 H4 H5].
  set (k' := Task _ _ _ _ _).
  assert (tasks_mono ts (upd ts t k')) as M by (eapply tasks_mono_upd; [exact H|now apply shard_mono_bump]).
  constructor.
  - intros t0 k0 Hk0. rewrite nth_error_upd in Hk0. destruct (Nat.eqb_spec t t0) as [<-|N].
    + rewrite H in Hk0. injection Hk0 as <-. destruct (H1 _ _ H) as [A1 A2 A3 A4 A5 A6 A7 A8 A9].
      rewrite pending_cons_eq in A5. rewrite wids_cons_eq in A6, A7. rewrite running_cons_none in A4.
      constructor; cbn [k' t_n t_limit t_maxw t_todo t_shards]; auto.
      * now apply chain_upd.
      * rewrite (flat_map_upd handed _ _ sh); auto. now apply handed_bump_full.
      * now rewrite pending_cons_eq.
      * now rewrite wids_cons_eq.
      * now rewrite wids_cons_eq.
    + eapply task_inv_other; [congruence|]. apply H1. exact Hk0.
  - inversion H2 as [|f l F1 F2 E0]; subst. constructor; [|eapply frames_ok_mono; eauto].
    destruct F1 as (k1 & Hk1 & Hd & Hsh & Hr & Hc). exists k'.
    split; [eapply nth_error_upd_same; eauto|]. split; [assumption|]. split; [|split; [|auto]].
    2: { intros j' Hj'. cbn. rewrite upd_length. assert (k1 = k) as <- by congruence. apply Hr. now right. }
    intros j' sh' Hj'. cbn in Hj'. assert (k1 = k) as -> by congruence.
    rewrite nth_error_upd in Hj'. destruct (Nat.eqb_spec j j') as [<-|N].
    + rewrite Hs in Hj'. injection Hj' as <-. right. unfold exhausted, bump. cbn. lia.
    + destruct (Hsh _ _ Hj') as [[->|Hin]|He]; [congruence|auto|auto].
  - intros. rewrite upd_length. eauto.
  - intros. rewrite upd_length. eauto.
  - eapply i_ret_upd; eauto.
Qed.

Lemma items_cons_eq t i l : items t ((t, i) :: l) = i :: items t l.
Proof. unfold items. cbn. now rewrite Nat.eqb_refl. Qed.
Lemma items_cons_neq t t' i l : t <> t' -> items t ((t', i) :: l) = items t l.
Proof. intros N. unfold items. cbn. apply Nat.eqb_neq in N. now rewrite N. Qed.

Lemma Inv_fetch_some ts t k j sh w rem d h fs st fn cm rt :
  nth_error ts t = Some k -> nth_error (t_shards k) j = Some sh -> s_i sh < s_end sh ->
  Inv ts (FWork t w (j :: rem) None d h :: fs) st fn cm rt ->
  Inv (upd ts t (Task (t_n k) (t_limit k) (t_maxw k) (t_todo k) (upd (t_shards k) j (bump sh))))
      (FWork t w (j :: rem) (Some (s_i sh)) d h :: fs) ((t, s_i sh) :: st) fn cm rt.
Proof.
  intros H Hs E [H1 H2 H3 H4 H5].
  set (k' := Task _ _ _ _ _).
  assert (tasks_mono ts (upd ts t k')) as M by (eapply tasks_mono_upd; [exact H|now apply shard_mono_bump]).
  constructor.
  - intros t0 k0 Hk0. rewrite nth_error_upd in Hk0. destruct (Nat.eqb_spec t t0) as [<-|N].
    + rewrite H in Hk0. injection Hk0 as <-. destruct (H1 _ _ H) as [A1 A2 A3 A4 A5 A6 A7 A8 A9].
      rewrite pending_cons_eq in A5. rewrite wids_cons_eq in A6, A7. rewrite running_cons_none in A4.
      pose proof (chain_nth _ _ _ _ _ A2 Hs) as B.
      constructor; cbn [k' t_n t_limit t_maxw t_todo t_shards]; auto.
      * now apply chain_upd.
      * rewrite items_cons_eq. symmetry. rewrite (flat_map_upd_snoc handed _ _ sh _ (s_i sh)); auto.
        -- constructor. now symmetry.
        -- apply handed_bump. lia.
      * rewrite items_cons_eq, running_cons_some. rewrite A4. apply Permutation_middle.
      * now rewrite pending_cons_eq.
      * now rewrite wids_cons_eq.
      * now rewrite wids_cons_eq.
    + eapply task_inv_other; [congruence|]. rewrite items_cons_neq by congruence. apply H1. exact Hk0.
  - inversion H2 as [|f l F1 F2 E0]; subst. constructor; [|eapply frames_ok_mono; eauto].
    assert (frame_ok (upd ts t k') (FWork t w (j :: rem) None d h)) as (k1 & F3 & F4 & F5 & F6 & _)
      by (eapply frame_ok_mono; eauto).
    exists k1. repeat (split; [assumption|]). discriminate.
  - intros t0 i [[Ht|Hi]|Hi]; rewrite upd_length; eauto.
    injection Ht as <- <-. eapply nth_error_lt; eauto.
  - intros. rewrite upd_length. eauto.
  - eapply i_ret_upd; eauto.
Qed.

Lemma Inv_finish ts t i w rem d h fs st fn cm rt :
  Inv ts (FWork t w rem (Some i) d h :: fs) st fn cm rt ->
  Inv ts (FWork t w rem None (d + 1) h :: fs) st ((t, i) :: fn) cm rt.
Proof.
  intros [H1 H2 H3 H4 H5].
  inversion H2 as [|f l F1 F2 E0]; subst. destruct F1 as (k1 & F3 & F4 & F5 & F6 & _).
  constructor; auto.
  - intros t0 k0 Hk0. destruct (Nat.eqb_spec t0 t) as [->|N].
    + destruct (H1 _ _ Hk0) as [A1 A2 A3 A4 A5 A6 A7 A8 A9].
      rewrite pending_cons_eq in A5. rewrite wids_cons_eq in A6, A7. rewrite running_cons_some in A4.
      constructor; auto.
      * rewrite items_cons_eq, running_cons_none. rewrite A4. symmetry. apply Permutation_middle.
      * rewrite items_cons_eq, pending_cons_eq. cbn [length]. lia.
      * now rewrite wids_cons_eq.
      * now rewrite wids_cons_eq.
    + eapply task_inv_other; [exact N|]. rewrite items_cons_neq by congruence. apply H1. exact Hk0.
  - constructor; auto. exists k1. split; [assumption|]. split; [lia|]. split; [assumption|]. split; [assumption|reflexivity].
  - intros t0 i0 [Hi|[Ht|Hi]]; eauto. injection Ht as <- <-. eapply nth_error_lt; eauto.
Qed.

Lemma chain_handed_incl : forall l b n, chain b n l ->
  forall x, In x (flat_map handed l) -> b <= x < n.
Proof.
  assert (forall l b n, chain b n l -> b <= n) as Hle.
  { induction l as [|s l IH]; intros b n C; cbn in C; [lia|].
    destruct C as (C1 & C2 & C3 & C4). apply IH in C4. lia. }
  induction l as [|s l IH]; intros b n C x Hx; cbn in *; [easy|].
  destruct C as (C1 & C2 & C3 & C4). apply in_app_or in Hx as [Hx|Hx].
  - apply zrange_in in Hx. apply Hle in C4. lia.
  - specialize (IH _ _ C4 _ Hx). lia.
Qed.

Lemma chain_handed_NoDup : forall l b n, chain b n l -> NoDup (flat_map handed l).
Proof.
  induction l as [|s l IH]; intros b n C; cbn in *; [constructor|].
  destruct C as (C1 & C2 & C3 & C4).
  assert (forall l1 l2 : list Z, NoDup l1 -> NoDup l2 -> (forall x, In x l1 -> ~ In x l2) -> NoDup (l1 ++ l2)) as ND.
  { induction l1 as [|a l1 IH1]; intros l2 N1 N2 D; cbn; [exact N2|].
    inversion N1 as [|? ? Ha N1']; subst. constructor.
    - rewrite in_app_iff. intros [Hi|Hi]; [easy|]. apply (D a); [now left|exact Hi].
    - apply IH1; auto. intros x Hx. apply D. now right. }
  apply ND.
  - apply zrange_NoDup.
  - eapply IH; eauto.
  - intros x Hx Hx'. apply zrange_in in Hx. apply (chain_handed_incl _ _ _ C4) in Hx'. lia.
Qed.

Lemma chain_handed_all : forall l b n, chain b n l ->
  (forall sh, In sh l -> exhausted sh) -> flat_map handed l = zrange b n.
Proof.
  assert (forall l b n, chain b n l -> b <= n) as Hle.
  { induction l as [|s l IH]; intros b n C; cbn in C; [lia|].
    destruct C as (C1 & C2 & C3 & C4). apply IH in C4. lia. }
  induction l as [|s l IH]; intros b n C E; cbn in *.
  - subst. now rewrite zrange_nil by lia.
  - destruct C as (C1 & C2 & C3 & C4). rewrite (IH _ _ C4) by auto.
    pose proof (Hle _ _ _ C4) as L.
    unfold handed. rewrite C1.
    assert (exhausted s) as Ex by (apply E; now left). unfold exhausted in Ex.
    rewrite Z.min_r by lia. symmetry. apply zrange_split. lia.
Qed.

Lemma sub_range_length l n : NoDup l -> (forall x, In x l -> 0 <= x < n) -> Z.of_nat (length l) <= Z.max 0 n.
Proof.
  intros N R.
  assert (incl l (zrange 0 n)) as I by (intros x Hx; apply zrange_in; auto).
  apply NoDup_incl_length in I; [|exact N]. rewrite zrange_length in I. lia.
Qed.

Lemma pending_nonneg ts t fs : Forall (frame_ok ts) fs -> 0 <= pending t fs.
Proof.
  unfold pending. induction 1 as [|f fs F _ IH]; [cbn; lia|].
  cbn [map sumZ fold_right]. fold (sumZ (map (pend t) fs)).
  destruct f as [t' w rem cur d h|t'|c cv b| |]; cbn [pend]; try lia.
  destruct (Nat.eqb t t'); [|lia]. destruct F as (k & _ & Hd & _). lia.
Qed.

(** consequences for one task *)
Lemma task_inv_facts k fs st fn c t :
  task_inv k fs st fn c t ->
  NoDup st /\ (forall x, In x st -> 0 <= x < t_n k) /\
  NoDup fn /\ (forall x, In x fn -> In x st) /\
  Z.of_nat (length fn) <= t_n k.
Proof.
  intros [A1 A2 A3 A4 A5 A6 A7 A8 A9].
  assert (NoDup st) as N1.
  { eapply Permutation_NoDup; [symmetry; exact A3|]. eapply chain_handed_NoDup; eauto. }
  assert (forall x, In x st -> 0 <= x < t_n k) as R.
  { intros x Hx. eapply (chain_handed_incl _ _ _ A2). eapply Permutation_in; eauto. }
  assert (NoDup fn) as N2.
  { eapply Permutation_NoDup in A4; [|exact N1].
    clear - A4. induction fn as [|a l IH]; [constructor|]. cbn in A4. inversion A4 as [|? ? X Y]; subst.
    constructor; [|auto]. intros Hi. apply X. apply in_or_app. now left. }
  assert (forall x, In x fn -> In x st) as S.
  { intros x Hx. eapply Permutation_in; [symmetry; exact A4|]. apply in_or_app. now left. }
  repeat split; auto; try (apply R; auto).
  pose proof (sub_range_length fn (t_n k) N2 (fun x Hx => R x (S x Hx))). lia.
Qed.

Lemma task_inv_done ts k fs st fn c t :
  Forall (frame_ok ts) fs -> task_inv k fs st fn c t -> t_todo k = 0 ->
  Permutation fn (zrange 0 (t_n k)) /\ Permutation st fn /\ running t fs = [] /\ pending t fs = 0.
Proof.
  intros F I Z0. pose proof (task_inv_facts _ _ _ _ _ _ I) as (N1 & R1 & N2 & S & L).
  destruct I as [A1 A2 A3 A4 A5 A6 A7 A8 A9].
  pose proof (pending_nonneg _ t _ F) as P.
  assert (Z.of_nat (length fn) = t_n k) as E by lia.
  assert (Permutation fn (zrange 0 (t_n k))) as PF.
  { apply NoDup_Permutation_bis; auto.
    - rewrite zrange_length. lia.
    - intros x Hx. apply zrange_in. auto. }
  split; [exact PF|].
  assert (length st <= length fn)%nat as L2.
  { pose proof (sub_range_length st (t_n k) N1 R1). lia. }
  assert (running t fs = []) as Rn.
  { apply Permutation_length in A4. rewrite app_length in A4.
    destruct (running t fs); [reflexivity|]. cbn in A4. lia. }
  rewrite Rn, app_nil_r in A4. repeat split; auto. lia.
Qed.

Lemma count_occ_cons_if (l : list nat) (t t' : nat) :
  count_occ Nat.eq_dec (t' :: l) t = ((if Nat.eqb t t' then 1 else 0) + count_occ Nat.eq_dec l t)%nat.
Proof.
  cbn. destruct (Nat.eq_dec t' t) as [->|N].
  - now rewrite Nat.eqb_refl.
  - destruct (Nat.eqb_spec t t'); [congruence|reflexivity].
Qed.

Definition reported (k : task) (d : Z) : task :=
  if 0 <? d then Task (t_n k) (t_limit k) (t_maxw k) (t_todo k - d) (t_shards k) else k.

Lemma Inv_report ts t k w d h fs st fn cm rt :
  nth_error ts t = Some k ->
  Inv ts (FWork t w [] None d h :: fs) st fn cm rt ->
  let k' := reported k d in
  let compl := (0 <? d) && (t_todo k' =? 0) in
  Inv (upd ts t k') fs st fn (if compl then t :: cm else cm) rt.
Proof.
  intros H [H1 H2 H3 H4 H5] k' compl.
  inversion H2 as [|f l F1 F2 E0]; subst.
  pose proof (task_inv_done _ _ _ _ _ _ _ H2 (H1 _ _ H)) as D0.
  assert (t_todo k = 0 -> 0 < d -> False) as D.
  { intros Z0 Hd. destruct (D0 Z0) as (_ & _ & _ & D1). rewrite pending_cons_eq in D1.
    pose proof (pending_nonneg _ t _ F2). lia. }
  clear D0.
  assert (0 <= d) as Dn by (destruct F1 as (? & _ & ? & _); assumption).
  assert (t_shards k' = t_shards k /\ t_n k' = t_n k /\ t_maxw k' = t_maxw k /\ t_limit k' = t_limit k
          /\ t_todo k' = t_todo k - d) as (ES & EN & EM & EL & ET).
  { unfold k', reported. destruct (Z.ltb_spec 0 d); cbn; repeat split; auto. lia. }
  constructor.
  - intros t0 k0 Hk0. rewrite nth_error_upd in Hk0. destruct (Nat.eqb_spec t t0) as [<-|N].
    + rewrite H in Hk0. injection Hk0 as <-. destruct (H1 _ _ H) as [A1 A2 A3 A4 A5 A6 A7 A8 A9].
      rewrite pending_cons_eq in A5. rewrite wids_cons_eq in A6, A7. rewrite running_cons_none in A4.
      constructor; rewrite ?ES, ?EN, ?EM, ?EL; auto.
      * lia.
      * now inversion A6.
      * now inversion A7.
      * unfold compl.
        destruct (Z.ltb_spec 0 d) as [Hd|Hd]; cbn [andb].
        -- destruct (Z.eqb_spec (t_todo k' ) 0) as [Z0|Z0].
           ++ rewrite count_occ_cons_if, Nat.eqb_refl, A9.
              destruct (Z.eqb_spec (t_todo k) 0); [exfalso; auto|reflexivity].
           ++ rewrite A9. destruct (Z.eqb_spec (t_todo k) 0); [exfalso; auto|reflexivity].
        -- assert (t_todo k' = t_todo k) as -> by lia. exact A9.
    + assert (count_occ Nat.eq_dec (if compl then t :: cm else cm) t0 = count_occ Nat.eq_dec cm t0) as ->.
      { destruct compl; [|reflexivity]. rewrite count_occ_cons_if.
        destruct (Nat.eqb_spec t0 t); [congruence|reflexivity]. }
      eapply task_inv_ext; [| | |apply H1; exact Hk0].
      * now rewrite running_cons_none.
      * now rewrite pending_cons_neq by congruence.
      * now rewrite wids_cons_neq by congruence.
  - eapply frames_ok_mono; [|exact F2]. eapply tasks_mono_upd; [exact H|].
    split; [now rewrite ES|]. rewrite ES. intros j sh Hs. exists sh. auto.
  - intros. rewrite upd_length. eauto.
  - intros t0 Ht. rewrite upd_length. destruct compl; eauto. destruct Ht as [<-|Ht]; eauto.
    eapply nth_error_lt; eauto.
  - eapply i_ret_upd; eauto. intros Z0.
    destruct (Z.eq_dec d 0); [lia|]. exfalso. apply D; lia.
Qed.

(** ** enqueue *)
Lemma to_int_small z : 0 <= z <= int_max -> to_int z = z.
Proof. unfold to_int, int_max. intros H. rewrite Z.mod_small; lia. Qed.

Lemma shard_count_range n maxw :
  0 < n -> - 2 ^ 31 <= maxw <= int_max -> 1 <= shard_count n maxw <= 8.
Proof.
  intros Hn Hm. unfold shard_count, ordered. destruct (Z.ltb_spec maxw int_max) as [H|H]; [lia|].
  assert (maxw = int_max) as -> by lia. unfold eff_workers.
  rewrite (Z.mod_small int_max size_max) by (unfold int_max, size_max; lia).
  rewrite to_int_small by (unfold int_max; lia).
  unfold max_shards. rewrite Z.mod_small; unfold size_max; [|unfold int_max; lia].
  unfold int_max. lia.
Qed.

Lemma mk_shards_chain n c : 0 < c -> 0 <= n -> n * c < size_max -> forall k i,
  i + Z.of_nat k = c -> 0 <= i -> chain ((i * n) / c) n (mk_shards ((i * n) / c) n c k i).
Proof.
  intros Hc Hn Hs. induction k as [|k IH]; intros i Hi Hi0; cbn [mk_shards chain].
  - replace i with c by lia. rewrite Z.mul_comm. apply Z.div_mul. lia.
  - assert (0 <= (i + 1) * n < size_max) as B by nia.
    rewrite (Z.mod_small _ _ B). cbn [s_begin s_end s_i].
    split; [reflexivity|]. split; [apply Z.div_le_mono; nia|]. split; [lia|].
    apply IH; lia.
Qed.

Lemma mk_shards_fresh n c : forall k i b, flat_map handed (mk_shards b n c k i) = [].
Proof.
  induction k as [|k IH]; intros i b; cbn [mk_shards flat_map]; [reflexivity|].
  rewrite IH. unfold handed. cbn [s_begin s_i s_end]. rewrite zrange_nil by lia. reflexivity.
Qed.

Lemma items_fresh t log : (forall i, ~ In (t, i) log) -> items t log = [].
Proof.
  intros H. unfold items. induction log as [|[t' i] l IH]; cbn; [reflexivity|].
  destruct (Nat.eqb_spec t t') as [->|N].
  - exfalso. apply (H i). now left.
  - apply IH. intros j Hj. apply (H j). now right.
Qed.

Lemma fresh_frames ts fs t : Forall (frame_ok ts) fs -> (length ts <= t)%nat ->
  running t fs = [] /\ pending t fs = 0 /\ wids t fs = [].
Proof.
  intros F L. induction F as [|f fs F _ (IH1 & IH2 & IH3)]; [repeat split; reflexivity|].
  destruct f as [t' w rem cur d h|t'|c cv b| |].
  2-5: cbn; auto.
  destruct F as (k & Hk & _). apply nth_error_lt in Hk.
  rewrite running_cons_neq, pending_cons_neq, wids_cons_neq by lia. auto.
Qed.

Lemma nth_error_snoc {A} (l : list A) x i y :
  nth_error (l ++ [x]) i = Some y -> nth_error l i = Some y \/ (i = length l /\ y = x).
Proof.
  intros H. destruct (Nat.lt_ge_cases i (length l)) as [L|L].
  - rewrite nth_error_app1 in H by exact L. auto.
  - rewrite nth_error_app2 in H by exact L. destruct (i - length l)%nat as [|m] eqn:E.
    + cbn in H. injection H as <-. right. split; [lia|reflexivity].
    + cbn in H. destruct m; discriminate.
Qed.

Lemma Inv_enqueue ts fs st fn cm rt n maxw :
  0 < n -> n * 8 < size_max -> - 2 ^ 31 <= maxw <= int_max ->
  Inv ts fs st fn cm rt -> Inv (ts ++ [make_task n maxw]) fs st fn cm rt.
Proof.
  intros Hn Hs Hm [H1 H2 H3 H4 H5].
  pose proof (shard_count_range n maxw Hn Hm) as SC.
  assert (tasks_mono ts (ts ++ [make_task n maxw])) as M.
  { intros t k Hk. exists k. split; [|apply task_mono_refl]. rewrite nth_error_app1; auto.
    eapply nth_error_lt; eauto. }
  constructor.
  - intros t k Hk. apply nth_error_snoc in Hk as [Hk|[-> ->]]; [now apply H1|].
    destruct (fresh_frames _ _ (length ts) H2 ltac:(lia)) as (E1 & E2 & E3).
    rewrite (items_fresh _ st), (items_fresh _ fn).
    2: intros i Hi; specialize (H3 _ _ (or_intror Hi)); lia.
    2: intros i Hi; specialize (H3 _ _ (or_introl Hi)); lia.
    assert (count_occ Nat.eq_dec cm (length ts) = 0%nat) as ->.
    { apply count_occ_not_In. intros Hi. specialize (H4 _ Hi). lia. }
    constructor; unfold make_task; cbn [t_n t_limit t_maxw t_todo t_shards].
    + exact Hn.
    + pose proof (mk_shards_chain n (shard_count n maxw) ltac:(lia) ltac:(lia) ltac:(nia)
        (Z.to_nat (shard_count n maxw)) 0 ltac:(lia) ltac:(lia)) as C.
      rewrite Z.mul_0_l, Z.div_0_l in C by lia. exact C.
    + rewrite mk_shards_fresh. constructor.
    + rewrite E1. constructor.
    + rewrite E2. cbn. lia.
    + rewrite E3. constructor.
    + rewrite E3. constructor.
    + lia.
    + destruct (Z.eqb_spec n 0); [lia|reflexivity].
  - eapply frames_ok_mono; eauto.
  - intros t i Hi. rewrite app_length. specialize (H3 _ _ Hi). lia.
  - intros t Hi. rewrite app_length. specialize (H4 _ Hi). lia.
  - intros t Hi. destruct (H5 _ Hi) as (k & Hk & Z0). exists k. split; [|exact Z0].
    rewrite nth_error_app1; auto. eapply nth_error_lt; eauto.
Qed.

(** ** wake-ups do not matter for safety *)
Lemma wake_frame_works h w f : forall t, run_item t (wake_frame h w f) = run_item t f /\
  pend t (wake_frame h w f) = pend t f /\ wid t (wake_frame h w f) = wid t f.
Proof.
  destruct f as [t' w0 rem cur d hh|t'|c cv b| |]; intros t; cbn; auto.
  destruct cv, b; cbn; auto; destruct h, w; cbn; auto.
Qed.

Lemma wake_frame_ok h w ts f : frame_ok ts f -> frame_ok ts (wake_frame h w f).
Proof.
  destruct f as [t' w0 rem cur d hh|t'|c cv b| |]; cbn; auto.
  destruct cv, b; cbn; auto; destruct h, w; cbn; auto.
Qed.

(** [fs'] arises from [fs] by waking some frames *)
Inductive woken : list frame -> list frame -> Prop :=
| woken_nil : woken [] []
| woken_cons f f' fs fs' : f' = f \/ (exists h w, f' = wake_frame h w f) -> woken fs fs' -> woken (f :: fs) (f' :: fs').

Lemma woken_refl fs : woken fs fs.
Proof. induction fs; constructor; auto. Qed.

Lemma woken_app a a' b b' : woken a a' -> woken b b' -> woken (a ++ b) (a' ++ b').
Proof. induction 1; cbn; auto. intros. constructor; auto. Qed.

Lemma woken_map h w fs : woken fs (map (wake_frame h w) fs).
Proof. induction fs; cbn; constructor; eauto. Qed.

Lemma woken_all h w ths : woken (concat ths) (concat (wake_all h w ths)).
Proof.
  induction ths as [|x l IH]; cbn; [constructor|]. apply woken_app; auto. apply woken_map.
Qed.

Lemma woken_one h w tid ths : woken (concat ths) (concat (wake_one h w tid ths)).
Proof.
  unfold wake_one. destruct (nth_error ths tid) as [stk|] eqn:E; [|apply woken_refl].
  destruct (upd_split _ _ _ E) as (l1 & l2 & -> & _ & Hu). rewrite Hu, !concat_app. cbn.
  repeat apply woken_app; auto using woken_refl, woken_map.
Qed.

Lemma woken_eqs fs fs' t : woken fs fs' ->
  running t fs' = running t fs /\ pending t fs' = pending t fs /\ wids t fs' = wids t fs.
Proof.
  unfold running, pending, wids.
  induction 1 as [|f f' fs fs' [->|(h & w & ->)] W (IH1 & IH2 & IH3)]; cbn; auto.
  - fold (sumZ (map (pend t) fs')). fold (sumZ (map (pend t) fs)). rewrite IH1, IH2, IH3. auto.
  - destruct (wake_frame_works h w f t) as (E1 & E2 & E3).
    fold (sumZ (map (pend t) fs')). fold (sumZ (map (pend t) fs)). rewrite IH1, IH2, IH3, E1, E2, E3. auto.
Qed.

Lemma woken_ok ts fs fs' : woken fs fs' -> Forall (frame_ok ts) fs -> Forall (frame_ok ts) fs'.
Proof.
  induction 1 as [|f f' fs fs' [->|(h & w & ->)] W IH]; intros F; inversion F; subst; constructor; auto.
  now apply wake_frame_ok.
Qed.

Lemma Inv_woken ts fs fs' st fn cm rt :
  woken fs fs' -> Inv ts fs st fn cm rt -> Inv ts fs' st fn cm rt.
Proof.
  intros W [H1 H2 H3 H4 H5]. constructor; auto.
  - intros t k Hk. destruct (woken_eqs _ _ t W) as (E1 & E2 & E3).
    eapply task_inv_ext; [| | |apply H1, Hk]; auto.
  - eapply woken_ok; eauto.
Qed.

Lemma Inv_return ts fs st fn cm rt t k :
  nth_error ts t = Some k -> t_todo k = 0 ->
  Inv ts fs st fn cm rt -> Inv ts fs st fn cm (t :: rt).
Proof.
  intros Hk Z0 [H1 H2 H3 H4 H5]. constructor; auto.
  intros t0 [<-|Ht]; eauto.
Qed.

(** ** every step *)
Definition action_ok (a : action) : Prop :=
  match a with
  | AEnqueue n maxw _ _ => n * 8 < size_max /\ - 2 ^ 31 <= maxw <= int_max
  | _ => True
  end.

Definition SInv (s : state) : Prop :=
  Inv (tasks s) (frames s) (started s) (finished s) (completed s) (returned s).

Lemma step_inv s tid a s' : action_ok a -> step s tid a = Some s' -> SInv s -> SInv s'.
Proof.
  unfold step, SInv. intros OK H I.
  destruct (nth_error (threads s) tid) as [stk|] eqn:Ht; [|discriminate].
  destruct a as [n maxw hw ww|t|p cv|p b| | | | | |sl| | | |].
  - (* AEnqueue *)
    destruct (user_code stk && (0 <? n) && (n <? size_max)) eqn:G; [|discriminate].
    apply andb_prop in G as [G _]. apply andb_prop in G as [_ G]. apply Z.ltb_lt in G.
    injection H as <-. cbn [tasks started finished completed returned]. unfold frames. cbn [threads].
    destruct OK as [OK1 OK2].
    apply Inv_enqueue; auto.
    match goal with |- context [if ?b then _ else _] => destruct b end.
    + eapply Inv_woken; [apply woken_one|]. eapply Inv_woken; [apply woken_one|]. exact I.
    + eapply Inv_woken; [apply woken_all|]. exact I.
  - (* AWaitTask *)
    destruct (user_code stk && negb (mem t (task_stack stk))); [|discriminate].
    destruct (nth_error (tasks s) t) as [k|] eqn:Hk; [|discriminate].
    injection H as <-. cbn [tasks started finished completed returned]. unfold frames. cbn [threads].
    match goal with |- context [upd (threads s) tid ?x] =>
      destruct (frames_upd s tid stk x Ht) as (rest & P1 & P2) end.
    eapply Inv_perm; [symmetry; exact P2|]. apply (Inv_perm _ _ _ _ _ _ _ P1) in I.
    destruct (Z.ltb_spec (t_maxw k - 1) 0) as [L|L]; cbn [app].
    + apply Inv_push_neutral; [auto with pool| |].
      * cbn [frame_ok]. rewrite upd_length. eapply nth_error_lt; eauto.
      * apply Inv_alloc; auto.
    + exact (Inv_alloc_push _ _ _ _ _ _ _ _ false Hk L I).
  - (* AWaitPred *)
    destruct (user_code stk); [|discriminate]. injection H as <-.
    cbn [set_thread tasks started finished completed returned]. unfold frames. cbn [threads set_thread].
    destruct (frames_upd s tid stk (FLoop (CPred p) cv false :: stk) Ht) as (rest & P1 & P2).
    eapply Inv_perm; [symmetry; exact P2|]. apply (Inv_perm _ _ _ _ _ _ _ P1) in I.
    cbn [app]. apply Inv_push_neutral; [auto with pool|exact Logic.I|exact I].
  - (* AAtomicSet *)
    destruct (user_code stk); [|discriminate]. injection H as <-.
    cbn [tasks started finished completed returned]. unfold frames. cbn [threads].
    eapply Inv_woken; [apply woken_all|]. exact I.
  - (* AFetch *)
    destruct stk as [|[t w [|j rem] [i|] dn h|t|c cv b| |] below]; try discriminate.
    destruct (nth_error (tasks s) t) as [k|] eqn:Hk; [|discriminate].
    destruct (nth_error (t_shards k) j) as [sh|] eqn:Hs; [|discriminate].
    destruct (Z.leb_spec (s_end sh) (s_i sh)) as [L|L]; injection H as <-;
      cbn [tasks started finished completed returned]; unfold frames; cbn [threads];
      match goal with |- context [upd (threads s) tid ?x] =>
        destruct (frames_upd s tid _ x Ht) as (rest & P1 & P2) end;
      (eapply Inv_perm; [symmetry; exact P2|]); apply (Inv_perm _ _ _ _ _ _ _ P1) in I; cbn [app] in *.
    + apply (Inv_fetch_none _ _ _ _ _ _ _ _ _ _ _ _ _ _ Hk Hs L I).
    + apply (Inv_fetch_some _ _ _ _ _ _ _ _ _ _ _ _ _ _ Hk Hs L I).
  - (* AFinish *)
    destruct stk as [|[t w rem [i|] dn h|t|c cv b| |] below]; try discriminate.
    injection H as <-. cbn [tasks started finished completed returned]. unfold frames. cbn [threads].
    match goal with |- context [upd (threads s) tid ?x] =>
      destruct (frames_upd s tid _ x Ht) as (rest & P1 & P2) end.
    eapply Inv_perm; [symmetry; exact P2|]. apply (Inv_perm _ _ _ _ _ _ _ P1) in I.
    cbn [app] in *. eapply Inv_finish; exact I.
  - (* AReport *)
    destruct stk as [|[t w [|j rem] [i|] dn h|t|c cv b| |] below]; try discriminate.
    destruct (nth_error (tasks s) t) as [k|] eqn:Hk; [|discriminate].
    assert (forall f : list frame, neutral (FSpin t) -> True) as _ by auto.
    change (if 0 <? dn then Task (t_n k) (t_limit k) (t_maxw k) (t_todo k - dn) (t_shards k) else k)
      with (reported k dn) in H.
    assert (nth_error (upd (tasks s) t (reported k dn)) t = Some (reported k dn)) as E
      by (eapply nth_error_upd_same; eauto).
    cbv zeta in H.
    destruct h.
    + injection H as <-. cbn [tasks started finished completed returned]. unfold frames. cbn [threads].
      match goal with |- context [upd (threads s) tid ?x] =>
        destruct (frames_upd s tid _ x Ht) as (rest & P1 & P2) end.
      eapply Inv_perm; [symmetry; exact P2|]. apply (Inv_perm _ _ _ _ _ _ _ P1) in I. cbn [app] in I.
      pose proof (Inv_report _ _ _ _ _ _ _ _ _ _ _ Hk I) as J. cbv zeta in J.
      destruct ((0 <? dn) && (t_todo (reported k dn) =? 0)); cbn [app]; auto.
      apply Inv_push_neutral; [auto with pool|exact Logic.I|exact J].
    + destruct ((0 <? dn) && (t_todo (reported k dn) =? 0)) eqn:C; cbn [andb] in H.
      * destruct (done (reported k dn)) eqn:D.
        -- injection H as <-. cbn [tasks started finished completed returned]. unfold frames. cbn [threads].
           match goal with |- context [upd (threads s) tid ?x] =>
             destruct (frames_upd s tid _ x Ht) as (rest & P1 & P2) end.
           eapply Inv_perm; [symmetry; exact P2|]. apply (Inv_perm _ _ _ _ _ _ _ P1) in I. cbn [app] in I.
           pose proof (Inv_report _ _ _ _ _ _ _ _ _ _ _ Hk I) as J. cbv zeta in J. rewrite C in J.
           eapply Inv_return; eauto. unfold done in D. now apply Z.eqb_eq.
        -- exfalso. apply andb_prop in C as [_ C]. unfold done in D. congruence.
      * injection H as <-. cbn [tasks started finished completed returned]. unfold frames. cbn [threads].
        match goal with |- context [upd (threads s) tid ?x] =>
          destruct (frames_upd s tid _ x Ht) as (rest & P1 & P2) end.
        eapply Inv_perm; [symmetry; exact P2|]. apply (Inv_perm _ _ _ _ _ _ _ P1) in I. cbn [app] in I.
        pose proof (Inv_report _ _ _ _ _ _ _ _ _ _ _ Hk I) as J. cbv zeta in J. rewrite C in J.
        cbn [app]. apply Inv_push_neutral; auto with pool. cbn [frame_ok]. rewrite upd_length. eapply nth_error_lt; eauto.
  - (* ASpinDone *)
    destruct stk as [|[t w rem cur dn h|t|c cv b| |] below]; try discriminate.
    destruct (nth_error (tasks s) t) as [k|] eqn:Hk; [|discriminate].
    destruct (done k) eqn:D; [|discriminate].
    injection H as <-. cbn [tasks started finished completed returned]. unfold frames. cbn [threads].
    match goal with |- context [upd (threads s) tid ?x] =>
      destruct (frames_upd s tid _ x Ht) as (rest & P1 & P2) end.
    eapply Inv_perm; [symmetry; exact P2|]. apply (Inv_perm _ _ _ _ _ _ _ P1) in I. cbn [app] in I.
    eapply Inv_return; eauto. { unfold done in D. now apply Z.eqb_eq. }
    eapply Inv_pop_neutral; [|exact I]. auto with pool.
  - (* ASpinGiveUp *)
    destruct stk as [|[t w rem cur dn h|t|c cv b| |] below]; try discriminate.
    injection H as <-. cbn [set_thread tasks started finished completed returned]. unfold frames. cbn [set_thread threads].
    match goal with |- context [upd (threads s) tid ?x] =>
      destruct (frames_upd s tid _ x Ht) as (rest & P1 & P2) end.
    eapply Inv_perm; [symmetry; exact P2|]. apply (Inv_perm _ _ _ _ _ _ _ P1) in I. cbn [app] in *.
    apply Inv_push_neutral; auto with pool.
    + destruct I as [_ F _ _ _]. inversion F as [|? ? F1]; subst. cbn in *. auto.
    + eapply Inv_pop_neutral; [|exact I]. auto with pool.
  - (* ACheck *)
    destruct stk as [|[t w rem cur dn h|t|c cv [|]| |] below]; try discriminate.
    destruct (cond_holds s c) eqn:C.
    + injection H as <-. cbn [tasks started finished completed returned]. unfold frames. cbn [threads].
      match goal with |- context [upd (threads s) tid ?x] =>
        destruct (frames_upd s tid _ x Ht) as (rest & P1 & P2) end.
      eapply Inv_perm; [symmetry; exact P2|]. apply (Inv_perm _ _ _ _ _ _ _ P1) in I. cbn [app] in *.
      assert (Inv (tasks s) (below ++ rest) (started s) (finished s) (completed s) (returned s)) as J
        by (eapply Inv_pop_neutral; [|exact I]; auto with pool).
      destruct c as [t|p]; cbn [ret_of app]; auto. cbn in C.
      destruct (nth_error (tasks s) t) as [k|] eqn:Hk; [|discriminate].
      eapply Inv_return; eauto. unfold done in C. now apply Z.eqb_eq.
    + destruct (dequeue (task_stack (FLoop c cv false :: below)) (tasks s) (queue s)) as [[q' ts'] r] eqn:D.
      injection H as <-. cbn [tasks started finished completed returned]. unfold frames. cbn [threads].
      match goal with |- context [upd (threads s) tid ?x] =>
        destruct (frames_upd s tid _ x Ht) as (rest & P1 & P2) end.
      eapply Inv_perm; [symmetry; exact P2|]. apply (Inv_perm _ _ _ _ _ _ _ P1) in I.
      pose proof (Inv_dequeue _ _ _ _ _ _ _ _ _ _ _ I D) as J.
      destruct r as [[t w]|].
      * destruct J as (k' & Hk' & J). rewrite Hk'. cbn [app] in *. exact J.
      * cbn [app] in *. apply Inv_push_neutral; auto with pool.
        -- destruct J as [_ F _ _ _]. inversion F as [|? ? F1]; subst. cbn in *. auto.
        -- eapply Inv_pop_neutral; [|exact J]. auto with pool.
  - (* ASpurious *)
    destruct stk as [|[t w rem cur dn h|t|c cv [|]| |] below]; try discriminate.
    injection H as <-. cbn [set_thread tasks started finished completed returned]. unfold frames. cbn [set_thread threads].
    match goal with |- context [upd (threads s) tid ?x] =>
      destruct (frames_upd s tid _ x Ht) as (rest & P1 & P2) end.
    eapply Inv_perm; [symmetry; exact P2|]. apply (Inv_perm _ _ _ _ _ _ _ P1) in I. cbn [app] in *.
    apply Inv_push_neutral; auto with pool.
    + destruct I as [_ F _ _ _]. inversion F as [|? ? F1]; subst. cbn in *. auto.
    + eapply Inv_pop_neutral; [|exact I]. auto with pool.
  - (* ANotify *)
    destruct stk as [|[t w rem cur dn h|t|c cv b| |] below]; try discriminate.
    injection H as <-. cbn [tasks started finished completed returned]. unfold frames. cbn [threads].
    eapply Inv_woken; [apply woken_all|].
    match goal with |- context [upd (threads s) tid ?x] =>
      destruct (frames_upd s tid _ x Ht) as (rest & P1 & P2) end.
    eapply Inv_perm; [symmetry; exact P2|]. apply (Inv_perm _ _ _ _ _ _ _ P1) in I. cbn [app] in *.
    eapply Inv_pop_neutral; [|exact I]. auto with pool.
  - (* AEnterIdle *)
    destruct (user_code stk); [|discriminate]. injection H as <-.
    cbn [set_thread tasks started finished completed returned]. unfold frames. cbn [threads set_thread].
    destruct (frames_upd s tid stk (FIdle :: stk) Ht) as (rest & P1 & P2).
    eapply Inv_perm; [symmetry; exact P2|]. apply (Inv_perm _ _ _ _ _ _ _ P1) in I.
    cbn [app]. apply Inv_push_neutral; [auto with pool|exact Logic.I|exact I].
  - (* AIdle *)
    destruct stk as [|[t w rem cur dn h|t|c cv b| |] below]; try discriminate.
    destruct (dequeue (task_stack (FIdle :: below)) (tasks s) (queue s)) as [[q' ts'] r] eqn:D.
    injection H as <-. cbn [tasks started finished completed returned]. unfold frames. cbn [threads].
    match goal with |- context [upd (threads s) tid ?x] =>
      destruct (frames_upd s tid _ x Ht) as (rest & P1 & P2) end.
    eapply Inv_perm; [symmetry; exact P2|]. apply (Inv_perm _ _ _ _ _ _ _ P1) in I.
    pose proof (Inv_dequeue _ _ _ _ _ _ _ _ _ _ _ I D) as J.
    destruct r as [[t w]|].
    + destruct J as (k' & Hk' & J). rewrite Hk'. cbn [app] in *. exact J.
    + cbn [app] in *. eapply Inv_pop_neutral; [|exact J]. auto with pool.
Qed.

Lemma init_inv nt : SInv (init nt).
Proof.
  unfold SInv, init, frames. cbn.
  assert (concat (repeat (@nil frame) nt) = []) as -> by (induction nt; cbn; auto).
  constructor; cbn.
  - intros t k H. destruct t; discriminate.
  - constructor.
  - intros t i [[]|[]].
  - intros t [].
  - intros t [].
Qed.

Definition sched_ok (l : list (nat * action)) : Prop := Forall (fun p => action_ok (snd p)) l.

Lemma run_inv l : forall s s', sched_ok l -> run s l = Some s' -> SInv s -> SInv s'.
Proof.
  induction l as [|[tid a] l IH]; intros s s' OK R I; cbn in R.
  - injection R as <-. exact I.
  - inversion OK as [|? ? O1 O2]; subst. destruct (step s tid a) as [s1|] eqn:E; [|discriminate].
    eapply IH; eauto. eapply step_inv; eauto.
Qed.
