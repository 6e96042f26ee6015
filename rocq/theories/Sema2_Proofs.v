(** Proofs for C67, second part: the invariant of the runs of a pipelined loop. *)
From Coq Require Import ZArith List Bool Lia Arith.
From Verif Require Import Sema_Model Sema_Spec Sema_Proofs.
Import ListNotations.
Local Open Scope Z_scope.

Definition at_ (l : loop) (o : op) (p : nat) : Prop := nth_error (l_ops l) p = Some o.

(** ** Where the operations are. *)
Lemma ops_split sm : forall P i u p, nth_error P u = Some p ->
  exists l1 l2, ops_from sm i P = l1 ++ part_ops sm (i + u) p ++ l2.
Proof.
  induction P as [|q P IH]; intros i u p H; [destruct u; discriminate|]. destruct u as [|u]; cbn [nth_error] in H.
  - injection H as ->. exists [], (ops_from sm (S i) P). cbn [ops_from app]. rewrite Nat.add_0_r. reflexivity.
  - destruct (IH (S i) u p H) as (l1 & l2 & E). exists (part_ops sm i q ++ l1), l2. cbn [ops_from]. rewrite E, <- app_assoc.
    replace (S i + u)%nat with (i + S u)%nat by lia. reflexivity.
Qed.
Lemma ops_split2 sm : forall P i u v p q, (u < v)%nat -> nth_error P u = Some p -> nth_error P v = Some q ->
  exists l1 l2 l3, ops_from sm i P = l1 ++ part_ops sm (i + u) p ++ l2 ++ part_ops sm (i + v) q ++ l3.
Proof.
  induction P as [|x P IH]; intros i u v p q L Hu Hv; [destruct u; discriminate|]. destruct v as [|v]; [lia|]. cbn [nth_error] in Hv.
  destruct u as [|u]; cbn [nth_error] in Hu.
  - injection Hu as ->. destruct (ops_split sm P (S i) v q Hv) as (l1 & l2 & E). exists [], l1, l2. cbn [ops_from app]. rewrite E, Nat.add_0_r.
    replace (S i + v)%nat with (i + S v)%nat by lia. reflexivity.
  - destruct (IH (S i) u v p q ltac:(lia) Hu Hv) as (l1 & l2 & l3 & E). exists (part_ops sm i x ++ l1), l2, l3. cbn [ops_from]. rewrite E, <- app_assoc.
    replace (S i + u)%nat with (i + S u)%nat by lia. replace (S i + v)%nat with (i + S v)%nat by lia. reflexivity.
Qed.
Lemma ops_in sm o : forall P i, In o (ops_from sm i P) -> exists u p, nth_error P u = Some p /\ In o (part_ops sm (i + u) p).
Proof.
  induction P as [|x P IH]; intros i H; [destruct H|]. cbn [ops_from] in H. apply in_app_iff in H as [H|H].
  - exists 0%nat, x. rewrite Nat.add_0_r. auto.
  - apply IH in H as (u & p & H1 & H2). exists (S u), p. replace (i + S u)%nat with (S i + u)%nat by lia. auto.
Qed.
Lemma stages_in P k : In k (stages_of P) <-> exists u p, nth_error P u = Some p /\ p_stage p = Some k.
Proof.
  unfold stages_of. rewrite in_flat_map. split.
  - intros (p & H & K). apply In_nth_error in H as (u & H). exists u, p. destruct (p_stage p); [destruct K as [->|[]]; auto|destruct K].
  - intros (u & p & H & K). exists p. split; [apply nth_error_In in H; auto|]. rewrite K. left; auto.
Qed.
Lemma part_stage sm i p k : In (Wait k) (part_ops sm i p) \/ In (Signal k) (part_ops sm i p) -> p_stage p = Some k /\ sm = true.
Proof.
  unfold part_ops. destruct (p_stage p) as [k'|]; [destruct sm|]; cbn [In]; intros H; intuition (try discriminate; congruence).
Qed.
Lemma part_begin sm i p u : In (Begin u) (part_ops sm i p) \/ In (End u) (part_ops sm i p) -> u = i.
Proof.
  unfold part_ops. destruct (p_stage p) as [k'|]; [destruct sm|]; cbn [In]; intros H; intuition (try discriminate; congruence).
Qed.
Lemma nodup_app {A} (a b : list A) : NoDup a -> NoDup b -> (forall x, In x a -> ~ In x b) -> NoDup (a ++ b).
Proof.
  induction 1 as [|x a N _ IH]; intros B D; auto. cbn [app]. constructor.
  - rewrite in_app_iff. intros [H|H]; auto. apply (D x); [left; auto|auto].
  - apply IH; auto. intros y H. apply D. right; auto.
Qed.
Lemma ops_nodup sm : forall P i, NoDup (stages_of P) -> NoDup (ops_from sm i P).
Proof.
  induction P as [|p P IH]; intros i N; [constructor|]. cbn [ops_from].
  assert (N' : NoDup (stages_of P)).
  { unfold stages_of in N. cbn [flat_map] in N. destruct (p_stage p); [|exact N]. apply NoDup_cons_iff in N. apply N. }
  apply nodup_app; auto.
  - unfold part_ops. destruct (p_stage p); [destruct sm|]; repeat (apply NoDup_cons; [cbn [In]; intuition discriminate|]); constructor.
  - intros o H K. apply ops_in in K as (u & q & Hu & K). destruct o as [k|v|v|k].
    + destruct (part_stage _ _ _ _ (or_introl H)) as (H1 & _), (part_stage _ _ _ _ (or_introl K)) as (K1 & _).
      unfold stages_of in N. cbn [flat_map] in N. rewrite H1 in N. apply NoDup_cons_iff in N as (N & _). apply N. apply stages_in. eauto.
    + pose proof (part_begin _ _ _ _ (or_introl H)). pose proof (part_begin _ _ _ _ (or_introl K)). lia.
    + pose proof (part_begin _ _ _ _ (or_intror H)). pose proof (part_begin _ _ _ _ (or_intror K)). lia.
    + destruct (part_stage _ _ _ _ (or_intror H)) as (H1 & _), (part_stage _ _ _ _ (or_intror K)) as (K1 & _).
      unfold stages_of in N. cbn [flat_map] in N. rewrite H1 in N. apply NoDup_cons_iff in N as (N & _). apply N. apply stages_in. eauto.
Qed.

(** ** The loops of [pipelined]. *)
Record shape (l : loop) (P : list part) : Prop := {
  sh_ops : l_ops l = ops_from (Nat.ltb 1 (l_stages l)) 0 P;
  sh_stages : stages_of P = seq 0 (l_stages l);
  sh_workers : l_workers l = Nat.max 1 (l_stages l);
  sh_step : 0 < l_step l
}.
Lemma pipelined_shape maxw mn mx st b : 0 < st -> shape (pipelined maxw mn mx st b) (loop_parts maxw b).
Proof.
  intros H. unfold pipelined, loop_parts. pose proof (mutate_outer maxw b (Sync 0 None) eq_refl) as M.
  destruct (mutate maxw true b (Sync 0 None)) as [r s']. destruct M as (_ & _ & M & _). cbn [sync_stages fst] in *. rewrite Nat.sub_0_r in M.
  constructor; auto.
Qed.

Lemma shape_nodup l P : shape l P -> NoDup (l_ops l).
Proof. intros H. rewrite (sh_ops _ _ H). apply ops_nodup. rewrite (sh_stages _ _ H). apply seq_NoDup. Qed.
Lemma at_unique l P o p q : shape l P -> at_ l o p -> at_ l o q -> p = q.
Proof.
  intros H A B. pose proof (shape_nodup _ _ H) as N. rewrite NoDup_nth_error in N. apply N.
  - apply nth_error_Some. unfold at_ in A. congruence.
  - unfold at_ in *. congruence.
Qed.
Lemma at_lt l o p : at_ l o p -> (p < length (l_ops l))%nat.
Proof. unfold at_. intros H. apply nth_error_Some. congruence. Qed.

(** Part u: it begins at b, ends right after; with semaphores around if it is a stage. *)
Lemma part_at l P u p : shape l P -> nth_error P u = Some p -> exists b, at_ l (Begin u) b /\ at_ l (End u) (S b) /\
  (forall k, p_stage p = Some k -> (1 < l_stages l)%nat -> exists w, b = S w /\ at_ l (Wait k) w /\ at_ l (Signal k) (S (S b))).
Proof.
  intros H Hu. destruct (ops_split (Nat.ltb 1 (l_stages l)) P 0 u p Hu) as (l1 & l2 & E). rewrite <- (sh_ops _ _ H) in E. cbn [Nat.add] in E.
  unfold part_ops in E. destruct (p_stage p) as [k|] eqn:K; [destruct (Nat.ltb_spec 1 (l_stages l)) as [L|L]|].
  - exists (S (length l1)). unfold at_. rewrite E.
    assert (X : forall i, nth_error (l1 ++ [Wait k; Begin u; End u; Signal k] ++ l2) (length l1 + i) = nth_error ([Wait k; Begin u; End u; Signal k] ++ l2) i).
    { intros i. rewrite nth_error_app2 by lia. f_equal. lia. }
    pose proof (X 0%nat) as X0. pose proof (X 1%nat) as X1. pose proof (X 2%nat) as X2. pose proof (X 3%nat) as X3.
    cbn [app nth_error] in X0, X1, X2, X3. rewrite Nat.add_0_r in X0.
    replace (length l1 + 1)%nat with (S (length l1)) in X1 by lia. replace (length l1 + 2)%nat with (S (S (length l1))) in X2 by lia.
    replace (length l1 + 3)%nat with (S (S (S (length l1)))) in X3 by lia.
    split; [exact X1|]. split; [exact X2|]. intros k' E' _. injection E' as <-. exists (length l1). auto.
  - exists (length l1). unfold at_. rewrite E. 
    assert (X : forall i, nth_error (l1 ++ [Begin u; End u] ++ l2) (length l1 + i) = nth_error ([Begin u; End u] ++ l2) i).
    { intros i. rewrite nth_error_app2 by lia. f_equal. lia. }
    pose proof (X 0%nat) as X0. pose proof (X 1%nat) as X1. cbn [app nth_error] in X0, X1. rewrite Nat.add_0_r in X0. replace (length l1 + 1)%nat with (S (length l1)) in X1 by lia.
    split; auto. split; auto. intros k' _ L'. lia.
  - exists (length l1). unfold at_. rewrite E. 
    assert (X : forall i, nth_error (l1 ++ [Begin u; End u] ++ l2) (length l1 + i) = nth_error ([Begin u; End u] ++ l2) i).
    { intros i. rewrite nth_error_app2 by lia. f_equal. lia. }
    pose proof (X 0%nat) as X0. pose proof (X 1%nat) as X1. cbn [app nth_error] in X0, X1. rewrite Nat.add_0_r in X0. replace (length l1 + 1)%nat with (S (length l1)) in X1 by lia.
    split; auto. split; auto. intros k' E'. discriminate.
Qed.
Lemma wait_at l P k : shape l P -> (k < l_stages l)%nat -> (1 < l_stages l)%nat -> exists u p w, nth_error P u = Some p /\ p_stage p = Some k /\
  at_ l (Wait k) w /\ at_ l (Begin u) (S w) /\ at_ l (End u) (S (S w)) /\ at_ l (Signal k) (S (S (S w))).
Proof.
  intros H L M. assert (I : In k (stages_of P)) by (rewrite (sh_stages _ _ H); apply in_seq; lia).
  apply stages_in in I as (u & p & Hu & Hk). destruct (part_at l P u p H Hu) as (b & B & E & X). destruct (X k Hk M) as (w & -> & W & Sg).
  exists u, p, w. auto 10.
Qed.
Lemma stage_at l P o q k : shape l P -> at_ l o q -> o = Wait k \/ o = Signal k -> (k < l_stages l)%nat /\ (1 < l_stages l)%nat.
Proof.
  intros H A O. unfold at_ in A. apply nth_error_In in A. rewrite (sh_ops _ _ H) in A. apply ops_in in A as (u & p & Hu & K).
  assert (p_stage p = Some k /\ Nat.ltb 1 (l_stages l) = true) as (E & L).
  { apply (part_stage _ (0 + u)). destruct O as [->| ->]; auto. }
  apply Nat.ltb_lt in L. split; auto. assert (I : In k (stages_of P)) by (apply stages_in; eauto). rewrite (sh_stages _ _ H) in I. apply in_seq in I. lia.
Qed.
Lemma order_at l P u v b e : shape l P -> (u < v)%nat -> at_ l (End u) e -> at_ l (Begin v) b -> (e < b)%nat.
Proof.
  intros H L E B.
  assert (exists p, nth_error P u = Some p) as (p & Hp).
  { pose proof (nth_error_In _ _ E) as I. rewrite (sh_ops _ _ H) in I. apply ops_in in I as (u' & p & Hu & K). apply (fun x => part_begin _ _ _ _ (or_intror x)) in K. cbn [Nat.add] in K. subst. eauto. }
  assert (exists q, nth_error P v = Some q) as (q & Hq).
  { pose proof (nth_error_In _ _ B) as I. rewrite (sh_ops _ _ H) in I. apply ops_in in I as (u' & q & Hu & K). apply (fun x => part_begin _ _ _ _ (or_introl x)) in K. cbn [Nat.add] in K. subst. eauto. }
  destruct (ops_split2 (Nat.ltb 1 (l_stages l)) P 0 u v p q L Hp Hq) as (l1 & l2 & l3 & X). rewrite <- (sh_ops _ _ H) in X. cbn [Nat.add] in X.
  assert (In (End u) (part_ops (Nat.ltb 1 (l_stages l)) u p)) as I1.
  { unfold part_ops. destruct (p_stage p); [destruct (Nat.ltb 1 (l_stages l))|]; cbn [In]; auto. }
  assert (In (Begin v) (part_ops (Nat.ltb 1 (l_stages l)) v q)) as I2.
  { unfold part_ops. destruct (p_stage q); [destruct (Nat.ltb 1 (l_stages l))|]; cbn [In]; auto. }
  apply In_nth_error in I1 as (i1 & I1). apply In_nth_error in I2 as (i2 & I2).
  assert (L1 : (i1 < length (part_ops (Nat.ltb 1 (l_stages l)) u p))%nat) by (apply nth_error_Some; congruence).
  assert (L2 : (i2 < length (part_ops (Nat.ltb 1 (l_stages l)) v q))%nat) by (apply nth_error_Some; congruence).
  assert (A1 : at_ l (End u) (length l1 + i1)).
  { unfold at_. rewrite X. rewrite nth_error_app2 by lia. replace (length l1 + i1 - length l1)%nat with i1 by lia. rewrite nth_error_app1; auto. }
  assert (A2 : at_ l (Begin v) (length l1 + (length (part_ops (Nat.ltb 1 (l_stages l)) u p) + (length l2 + i2)))).
  { unfold at_. rewrite X. rewrite nth_error_app2 by lia. rewrite nth_error_app2 by lia. rewrite nth_error_app2 by lia. rewrite nth_error_app1 by lia.
    rewrite <- I2. f_equal. lia. }
  rewrite (at_unique _ _ _ _ _ H E A1), (at_unique _ _ _ _ _ H B A2). lia.
Qed.

(** ** Lists of program counters. *)
Lemma set_pc_length : forall l j v, length (set_pc l j v) = length l.
Proof. induction l; intros [|j] v; cbn [set_pc length]; auto. Qed.
Lemma set_pc_same : forall l j v q, nth_error l j = Some q -> nth_error (set_pc l j v) j = Some v.
Proof. induction l; intros [|j] v q H; cbn [set_pc nth_error] in *; try discriminate; auto. eapply IHl; eauto. Qed.
Lemma set_pc_other : forall l j v i, i <> j -> nth_error (set_pc l j v) i = nth_error l i.
Proof. induction l; intros [|j] v [|i] H; cbn [set_pc nth_error]; auto; congruence. Qed.
Lemma set_pc_count (f : nat -> bool) : forall l j v q, nth_error l j = Some q -> f q = true -> (length (filter f (set_pc l j v)) <= length (filter f l))%nat.
Proof.
  induction l as [|x l IH]; intros [|j] v q H F; cbn [set_pc nth_error filter] in *; try discriminate.
  - injection H as ->. rewrite F. destruct (f v); cbn [length]; lia.
  - specialize (IH j v q H F). destruct (f x); cbn [length]; lia.
Qed.
Lemma set_pc_in : forall l j v x, In x (set_pc l j v) -> x = v \/ In x l.
Proof. induction l; intros [|j] v x H; cbn [set_pc In] in *; try tauto; destruct H as [H|H]; auto. apply IHl in H as [H|H]; auto. Qed.
Lemma count_range (f : nat -> bool) : forall l a m, (forall i, (a <= i < a + m)%nat -> exists q, nth_error l i = Some q /\ f q = true) -> (m <= length (filter f l))%nat.
Proof.
  induction l as [|x l IH]; intros a m H.
  - destruct m; [lia|]. destruct (H a ltac:(lia)) as (q & E & _). destruct a; discriminate.
  - destruct a as [|a].
    + destruct m as [|m]; [lia|]. destruct (H 0%nat ltac:(lia)) as (q & E & F). cbn [nth_error] in E. injection E as ->. cbn [filter]. rewrite F. cbn [length].
      apply le_n_S, (IH 0%nat). intros i Hi. apply (H (S i)). lia.
    + assert (m <= length (filter f l))%nat. { apply (IH a). intros i Hi. apply (H (S i)). lia. }
      cbn [filter]. destruct (f x); cbn [length]; lia.
Qed.
