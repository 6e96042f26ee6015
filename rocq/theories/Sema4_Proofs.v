(** Proofs for C67, fourth part: what the invariant gives. *)
From Coq Require Import ZArith List Bool Lia Arith.
From Verif Require Import Sema_Model Sema_Spec Sema_Proofs Sema2_Proofs Sema3_Proofs.
Import ListNotations.
Local Open Scope Z_scope.

Definition staged_part (P : list part) (c : nat) : Prop := exists p k, nth_error P c = Some p /\ p_stage p = Some k.

Lemma part_in_log l P u o q : shape l P -> at_ l o q -> o = Begin u \/ o = End u -> exists p, nth_error P u = Some p.
Proof.
  intros H A O. unfold at_ in A. apply nth_error_In in A. rewrite (sh_ops _ _ H) in A. apply ops_in in A as (v & p & Hv & K).
  assert (u = (0 + v)%nat) by (apply (part_begin _ _ _ _ ltac:(destruct O as [->| ->]; eauto))). subst u. eauto.
Qed.

(** An iteration that gets to a stage finds it done by all the ones before. *)
Lemma gate l P s c b i j q : shape l P -> Inv l s -> staged_part P c -> at_ l (Begin c) b -> (i < j)%nat -> pc s j q -> (b <= q)%nat ->
  exists q', pc s i q' /\ (S b < q')%nat.
Proof.
  intros H I (p & k & Hp & Hk) B L E Q. destruct (pc_some s i) as (q' & E'). { apply pc_lt in E. lia. } exists q'. split; auto.
  destruct (part_at l P c p H Hp) as (b' & B' & En & X). rewrite (at_unique _ _ _ _ _ H B' B) in *. clear B' b'.
  destruct (le_lt_dec (l_stages l) 1) as [S1|S1].
  - assert (W : l_workers l = 1%nat) by (rewrite (sh_workers _ _ H); lia). pose proof (i_one _ _ I W _ _ _ L E) as F. rewrite (pc_fun _ _ _ _ E' F).
    apply at_lt in En. auto.
  - destruct (X k Hk S1) as (w & -> & A & Sg). destruct (i_sem _ _ I k w A) as (m & Lm & O & _). destruct (O j q E) as (_ & O2), (O i q' E') as (O1 & _).
    assert (j <= m)%nat by (destruct (le_lt_dec j m); auto; specialize (O2 l0); lia). specialize (O1 ltac:(lia)). lia.
Qed.

(** The iterations between one that has not done part c and one that was started. *)
Lemma window l P s c b i j q : shape l P -> Inv l s -> staged_part P c -> at_ l (Begin c) b -> (i <= j)%nat -> (j < length (pcs s))%nat ->
  pc s i q -> (q <= S b)%nat -> (j - i < l_workers l)%nat.
Proof.
  intros H I C B L J E Q. apply (in_flight l s i j I L). intros k Hk. destruct (pc_some s k) as (qk & Ek); [lia|]. exists qk. split; auto.
  destruct C as (p & kk & Hp & Hkk). destruct (part_at l P c p H Hp) as (b' & B' & En & _). rewrite (at_unique _ _ _ _ _ H B' B) in *. clear B' b'.
  destruct (Nat.eq_dec k i) as [->|N]; [rewrite (pc_fun _ _ _ _ Ek E); apply at_lt in En; lia|].
  destruct (lt_dec qk (length (l_ops l))) as [K|K]; auto. exfalso.
  destruct (gate l P s c b i k qk H I) as (q' & E' & G); auto; [exists p, kk; auto|lia|apply at_lt in B; lia|]. rewrite (pc_fun _ _ _ _ E' E) in G. lia.
Qed.

Lemma step_inv' l s a s' : step l s a = Some s' ->
  (a = Start /\ (length (pcs s) < iterations l)%nat /\ pcs s' = pcs s ++ [0%nat] /\ log s' = log s) \/
  exists j q o, a = Step j /\ pc s j q /\ at_ l o q /\ pcs s' = set_pc (pcs s) j (S q) /\
    log s' = log s ++ match o with Begin u => [Began j u] | End u => [Ended j u] | _ => [] end.
Proof.
  destruct a as [|j]; cbn [step].
  - destruct (_ && _) eqn:G; [|discriminate]. intros E. injection E as <-. left. apply andb_true_iff in G as (G & _). apply Nat.ltb_lt in G. auto.
  - destruct (nth_error (pcs s) j) as [v|] eqn:Ev; [|discriminate]. destruct (nth_error (l_ops l) v) as [o|] eqn:Eo; [|discriminate].
    intros E. right. exists j, v, o. split; auto. split; auto. split; auto.
    destruct o; [destruct (sems s k _ <? 1); [discriminate|]| | |]; injection E as <-; cbn [pcs log]; rewrite ?app_nil_r; auto.
Qed.

Lemma app_last {A} (l1 l2 l : list A) x y : l1 ++ x :: l2 = l ++ [y] -> (l2 = [] /\ l1 = l /\ x = y) \/ exists l3, l2 = l3 ++ [y] /\ l1 ++ x :: l3 = l.
Proof.
  destruct l2 as [|z l2] using rev_ind; intros H.
  - apply app_inj_tail in H as (H1 & H2). auto.
  - right. exists l2. rewrite app_comm_cons, app_assoc in H. apply app_inj_tail in H as (H1 & H2). subst. auto.
Qed.

Lemma in_order l P c : shape l P -> staged_part P c -> forall s, reaches l s ->
  forall i j l1 l2, (i < j)%nat -> log s = l1 ++ Began j c :: l2 -> In (Ended i c) l1.
Proof.
  intros H C. apply (reach_ind l (fun s => forall i j l1 l2, (i < j)%nat -> log s = l1 ++ Began j c :: l2 -> In (Ended i c) l1)).
  - intros i j l1 l2 _ E. cbn in E. destruct l1; discriminate.
  - intros s a s' R IH E i j l1 l2 L LG. pose proof (reach_inv l P s H R) as I. apply step_inv' in E as [(_ & _ & _ & E)|(j' & q & o & _ & Hq & Ho & _ & E)].
    + rewrite E in LG. eapply IH; eauto.
    + rewrite E in LG. destruct o as [k|u|u|k]; try (rewrite app_nil_r in LG; eapply IH; eauto; fail).
      * symmetry in LG. apply app_last in LG as [(-> & -> & X)|(l3 & -> & X)]; [|eapply IH; eauto]. injection X as -> ->.
        destruct (gate l P s u q i j' q H I C Ho L Hq (le_n _)) as (q' & Hq' & G).
        apply (i_ended _ _ I). destruct C as (p & k & Hp & Hk). destruct (part_at l P u p H Hp) as (b' & B' & En & _). rewrite (at_unique _ _ _ _ _ H B' Ho) in *. eauto.
      * symmetry in LG. apply app_last in LG as [(-> & -> & X)|(l3 & -> & X)]; [discriminate|eapply IH; eauto].
Qed.

(** ** Progress. *)
Lemma progress l P s j q : shape l P -> Inv l s -> pc s j q -> (q < length (l_ops l))%nat ->
  (forall i, (i < j)%nat -> pc s i (length (l_ops l))) -> exists s', step l s (Step j) = Some s'.
Proof.
  intros H I E Q F. cbn [step]. unfold pc in E. rewrite E. destruct (nth_error (l_ops l) q) as [o|] eqn:Eo; [|apply nth_error_None in Eo; lia].
  destruct o as [k|u|u|k]; eauto. destruct (sems s k (place l (sym l j / l_step l - 1)) <? 1) eqn:G; eauto. exfalso. apply Z.ltb_lt in G.
  destruct (i_sem _ _ I k q Eo) as (p & L & O & D).
  assert (p = j) as ->.
  { destruct (Nat.lt_trichotomy p j) as [K|[K|K]]; auto.
    - specialize (F p K). destruct D as [(_ & D)|(_ & q' & Hq' & D)]; [specialize (D _ F); lia|]. rewrite (pc_fun _ _ _ _ Hq' F) in D.
      destruct (stage_at _ _ _ _ k H Eo (or_introl eq_refl)) as (Lk & L1). destruct (wait_at l P k H Lk L1) as (u & pt & w' & _ & _ & A' & _ & _ & Sg).
      rewrite (at_unique _ _ _ _ _ H A' Eo) in Sg. apply at_lt in Sg. lia.
    - destruct (O j q E) as (O1 & _). specialize (O1 K). lia. }
  destruct D as [(T & _)|(_ & q' & Hq' & D)]; [|rewrite (pc_fun _ _ _ _ Hq' E) in D; lia].
  rewrite T, sym_div in G by apply H. rewrite Z.eqb_refl in G. lia.
Qed.

Lemma first_unfinished (n : nat) : forall l, (forall p, In p l -> (p <= n)%nat) -> (forall p, In p l -> p = n) \/
  exists j q, nth_error l j = Some q /\ (q < n)%nat /\ forall i, (i < j)%nat -> nth_error l i = Some n.
Proof.
  induction l as [|x l IH]; intros H; [left; intros p []|]. destruct (Nat.eq_dec x n) as [->|N].
  - destruct IH as [A|(j & q & A & B & C)].
    + intros p Hp. apply H. right; auto.
    + left. intros p [<-|Hp]; auto.
    + right. exists (S j), q. split; auto. split; auto. intros [|i] Hi; cbn [nth_error]; auto. apply C. lia.
  - right. exists 0%nat, x. cbn [nth_error]. split; auto. split; [specialize (H x (or_introl eq_refl)); lia|]. intros i Hi. lia.
Qed.

Lemma no_deadlock l P s : shape l P -> Inv l s -> all_done l s \/ exists a s', step l s a = Some s'.
Proof.
  intros H I. destruct (first_unfinished (length (l_ops l)) (pcs s)) as [A|(j & q & A & B & C)].
  - intros p Hp. apply In_nth_error in Hp as (j & Hj). apply (i_pc _ _ I j p Hj).
  - destruct (Nat.eq_dec (length (pcs s)) (iterations l)) as [E|N]; [left; split; auto|]. right. exists Start. cbn [step].
    assert (R : running l s = 0%nat).
    { unfold running. assert (X : forall l0, (forall p, In p l0 -> p = length (l_ops l)) -> filter (fun p => Nat.ltb p (length (l_ops l))) l0 = []).
      { induction l0 as [|x l0 IH]; intros K; auto. cbn [filter]. rewrite (K x) by (left; auto). rewrite Nat.ltb_irrefl. apply IH. intros p Hp. apply K. right; auto. }
      rewrite X by auto. reflexivity. }
    rewrite R. pose proof (i_len _ _ I). pose proof (sh_workers _ _ H). replace (Nat.ltb (length (pcs s)) (iterations l)) with true by (symmetry; apply Nat.ltb_lt; lia).
    replace (Nat.ltb 0 (l_workers l)) with true by (symmetry; apply Nat.ltb_lt; lia). cbn [andb]. eauto.
  - right. exists (Step j). apply (progress l P s j q H I A B C).
Qed.

Definition total (l : list nat) : nat := fold_right Nat.add 0%nat l.
Lemma total_app a b : total (a ++ b) = (total a + total b)%nat.
Proof. unfold total. induction a; cbn [app fold_right]; lia. Qed.
Lemma total_set : forall l j q, nth_error l j = Some q -> total (set_pc l j (S q)) = S (total l).
Proof.
  unfold total. induction l as [|x l IH]; intros [|j] q H; cbn [nth_error set_pc fold_right] in *; try discriminate.
  - injection H as ->. lia.
  - rewrite (IH j q H). lia.
Qed.
Lemma run_total l : forall acts s s', run l s acts = Some s' -> (length (pcs s') + total (pcs s') = length (pcs s) + total (pcs s) + length acts)%nat.
Proof.
  induction acts as [|a acts IH]; intros s s' R; cbn [run] in R; [injection R as <-; cbn [length]; lia|]. destruct (step l s a) as [s1|] eqn:E; [|discriminate].
  specialize (IH s1 s' R). rewrite IH. apply step_inv' in E as [(_ & _ & E & _)|(j & q & o & _ & Hq & _ & E & _)]; rewrite E.
  - rewrite app_length, total_app. cbn [length total fold_right]. lia.
  - rewrite set_pc_length, total_set by auto. cbn [length]. lia.
Qed.
Lemma total_le n : forall l, (forall p, In p l -> (p <= n)%nat) -> (total l <= length l * n)%nat.
Proof.
  unfold total. induction l as [|x l IH]; intros H; cbn [fold_right length]; [lia|]. specialize (H x (or_introl eq_refl)) as Hx. specialize (IH (fun p Hp => H p (or_intror Hp))). lia.
Qed.
Lemma ends l P acts s : shape l P -> run l (init l) acts = Some s -> (length acts <= iterations l * S (length (l_ops l)))%nat.
Proof.
  intros H R. pose proof (reach_inv l P s H (ex_intro _ acts R)) as I. pose proof (run_total _ _ _ _ R) as T. cbn [init pcs length total fold_right] in T.
  pose proof (total_le (length (l_ops l)) (pcs s)) as X. specialize (X ltac:(intros p Hp; apply In_nth_error in Hp as (j & Hj); apply (i_pc _ _ I j p Hj))).
  pose proof (i_len _ _ I) as L. pose proof (Nat.mul_le_mono_r _ _ (length (l_ops l)) L). rewrite Nat.mul_succ_r. lia.
Qed.

(** ** What an iteration did. *)
Definition op_events (j : nat) (o : op) : list event := match o with Begin u => [Began j u] | End u => [Ended j u] | _ => [] end.
Definition did (l : loop) (j q : nat) : list event := flat_map (op_events j) (firstn q (l_ops l)).

Lemma firstn_S {A} : forall (l : list A) q o, nth_error l q = Some o -> firstn (S q) l = firstn q l ++ [o].
Proof. induction l as [|x l IH]; intros [|q] o H; cbn [nth_error] in H; try discriminate. - injection H as ->. reflexivity. - rewrite firstn_cons, (IH q o H). reflexivity. Qed.

Lemma own_log l : forall s, reaches l s -> forall j, filter (of_iteration j) (log s) = match nth_error (pcs s) j with Some q => did l j q | None => [] end.
Proof.
  apply (reach_ind l (fun s => forall j, filter (of_iteration j) (log s) = match nth_error (pcs s) j with Some q => did l j q | None => [] end)).
  - intros [|j]; reflexivity.
  - intros s a s' _ IH E j. apply step_inv' in E as [(_ & _ & E & EL)|(j' & q & o & _ & Hq & Ho & E & EL)]; rewrite EL, E.
    + rewrite IH. destruct (lt_dec j (length (pcs s))) as [L|L].
      * rewrite nth_error_app1 by auto. reflexivity.
      * rewrite nth_error_app2 by lia. destruct (nth_error (pcs s) j) eqn:X; [exfalso; apply L, nth_error_Some; congruence|].
        destruct (j - length (pcs s))%nat as [|d]; [reflexivity|]. cbn [nth_error]. destruct d; reflexivity.
    + rewrite filter_app, IH. destruct (Nat.eq_dec j j') as [->|N].
      * rewrite (set_pc_same _ _ _ _ Hq). unfold pc in Hq. rewrite Hq. unfold did. unfold at_ in Ho. rewrite (firstn_S _ _ _ Ho), flat_map_app. cbn [flat_map]. rewrite app_nil_r. f_equal.
        destruct o; cbn [op_events filter of_iteration]; rewrite ?Nat.eqb_refl; reflexivity.
      * rewrite set_pc_other by auto. destruct o; cbn [filter of_iteration]; rewrite ?app_nil_r; auto;
          (destruct (Nat.eqb_spec j' j); [congruence|rewrite app_nil_r; reflexivity]).
Qed.
Lemma events_of sm j : forall P i, flat_map (op_events j) (ops_from sm i P) = flat_map (fun u => [Began j u; Ended j u]) (seq i (length P)).
Proof.
  induction P as [|p P IH]; intros i; auto. cbn [ops_from length seq flat_map]. rewrite flat_map_app, IH. f_equal.
  unfold part_ops. destruct (p_stage p); [destruct sm|]; reflexivity.
Qed.
