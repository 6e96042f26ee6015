(** Proofs for C67, first part: the stages. *)
From Coq Require Import ZArith List Bool Lia Arith.
From Verif Require Import Sema_Model Sema_Spec.
Import ListNotations.
Local Open Scope Z_scope.

Lemma folding_app a b : folding (a ++ b) = (folding a + folding b)%nat.
Proof. unfold folding. rewrite filter_app, app_length. lia. Qed.
Lemma stages_of_app a b : stages_of (a ++ b) = stages_of a ++ stages_of b.
Proof. apply flat_map_app. Qed.
Lemma finish_calls i r s : calls (fst (finish i r s)) = calls r.
Proof. unfold finish. destruct i, (stage s); reflexivity. Qed.

Lemma mutate_calls maxw : forall b i s, calls (fst (mutate maxw i b s)) = body_calls b.
Proof.
  induction b as [id f|a IHa b IHb|b IH|b IH]; intros i s; cbn [mutate body_calls].
  - rewrite finish_calls. reflexivity.
  - specialize (IHa i s). destruct (mutate maxw i a s) as [a' s1]. specialize (IHb i s1).
    destruct (mutate maxw i b s1) as [b' s2]. rewrite finish_calls. cbn [calls fst] in *. congruence.
  - specialize (IH i s). destruct (mutate maxw i b s) as [a' s1]. rewrite finish_calls. exact IH.
  - specialize (IH false s). destruct (mutate maxw false b s) as [a' s1]. rewrite finish_calls. exact IH.
Qed.

Lemma parts_calls : forall s, flat_map p_calls (parts s) = calls s.
Proof.
  induction s; cbn [parts calls flat_map p_calls]; rewrite ?flat_map_app, ?app_nil_r; congruence.
Qed.

(** Inside of a nested loop. *)
Lemma finish_false r s : finish false r s = (r, s). Proof. reflexivity. Qed.
Lemma mutate_inner maxw : forall b s,
  let s' := snd (mutate maxw false b s) in
  (stage s <> None -> s' = s) /\
  (stage s = None -> s' = s \/ (s' = Sync (S (sync_stages s)) (Some (sync_stages s)) /\ Z.of_nat (sync_stages s) + 1 < maxw /\ (1 <= folding (body_calls b))%nat)) /\
  ((0 < folding (body_calls b))%nat -> Z.of_nat (sync_stages s) + 1 < maxw -> stage s' <> None).
Proof.
  induction b as [id f|a IHa b IHb|b IH|b IH]; intros s; cbn zeta; cbn [mutate body_calls].
  - rewrite finish_false. cbn [snd]. unfold folding. destruct f; cbn [filter snd length].
    + unfold add_synchronization. destruct (Z.geb_spec (Z.of_nat (sync_stages s) + 1) maxw) as [L|L].
      * split; [auto|]. split; [auto|]. lia.
      * destruct (stage s) eqn:E.
        -- split; [auto|]. split; [congruence|]. intros _ _. congruence.
        -- split; [congruence|]. split; [|intros _ _; discriminate]. intros _. right. split; [reflexivity|]. split; [lia|lia].
    + split; [auto|]. split; [auto|]. lia.
  - specialize (IHa s). destruct (mutate maxw false a s) as [a' s1]. specialize (IHb s1).
    destruct (mutate maxw false b s1) as [b' s2]. rewrite finish_false. cbn [snd] in *. rewrite folding_app.
    destruct IHa as (A1 & A2 & A3), IHb as (B1 & B2 & B3). split; [|split].
    + intros H. rewrite (A1 H) in *. auto.
    + intros H. destruct (A2 H) as [->|(E & L & F)].
      * destruct (B2 H) as [->|(E2 & L2 & F2)]; auto. right. split; auto. split; auto. lia.
      * right. rewrite (B1 ltac:(rewrite E; discriminate)). split; auto. split; auto. lia.
    + intros F L. destruct (Nat.eq_dec (folding (body_calls a)) 0) as [Z0|Z0].
      * destruct (stage s) eqn:E.
        -- rewrite A1 in * by congruence. rewrite B1 by congruence. congruence.
        -- destruct (A2 eq_refl) as [->|(-> & _ & F')]; [apply B3; auto; lia|lia].
      * assert (stage s1 <> None) by (apply A3; auto; lia). rewrite B1 by auto. auto.
  - specialize (IH s). destruct (mutate maxw false b s) as [a' s1]. rewrite finish_false. exact IH.
  - specialize (IH s). destruct (mutate maxw false b s) as [a' s1]. rewrite finish_false. exact IH.
Qed.

Lemma no_filter l : folding l = 0%nat -> existsb snd l = false.
Proof. unfold folding. induction l as [|[i f] l IH]; auto. destruct f; cbn [filter snd existsb length]; [lia|auto]. Qed.
Lemma filter_exists l : existsb snd l = true -> (0 < folding l)%nat.
Proof. intros H. destruct (Nat.eq_dec (folding l) 0) as [E|E]; [|lia]. apply no_filter in E. congruence. Qed.

(** Outside: the stages are numbered in the order of the program. *)
Lemma mutate_outer maxw : forall b s, stage s = None ->
  let '(r, s') := mutate maxw true b s in
  stage s' = None /\ (sync_stages s <= sync_stages s' <= sync_stages s + folding (body_calls b))%nat /\
  stages_of (parts r) = seq (sync_stages s) (sync_stages s' - sync_stages s) /\
  (Z.of_nat (sync_stages s') < maxw \/ s' = s) /\
  (forall p, In p (parts r) -> p_stage p = None -> existsb snd (p_calls p) = true -> maxw <= Z.of_nat (sync_stages s + folding (body_calls b))).
Proof.
  induction b as [id f|a IHa b IHb|b IH|b IH]; intros s N; cbn [mutate body_calls].
  - destruct f; unfold folding; cbn [filter snd length].
    + unfold add_synchronization. destruct (Z.geb_spec (Z.of_nat (sync_stages s) + 1) maxw) as [L|L].
      * unfold finish. rewrite N. cbn [parts stages_of flat_map p_stage]. split; auto. split; [lia|]. split; [rewrite Nat.sub_diag; reflexivity|].
        split; auto. intros p _ _ _. lia.
      * rewrite N. unfold finish. cbn [stage sync_stages parts stages_of flat_map p_stage]. split; auto. split; [lia|].
        split; [replace (S (sync_stages s) - sync_stages s)%nat with 1%nat by lia; reflexivity|]. split; [left; lia|].
        intros p [<-|[]]. discriminate.
    + unfold finish. rewrite N. cbn [parts stages_of flat_map p_stage]. split; auto. split; [lia|]. split; [rewrite Nat.sub_diag; reflexivity|].
      split; auto. intros p [<-|[]] _. discriminate.
  - specialize (IHa s N). destruct (mutate maxw true a s) as [a' s1]. destruct IHa as (N1 & L1 & E1 & M1 & P1).
    specialize (IHb s1 N1). destruct (mutate maxw true b s1) as [b' s2]. destruct IHb as (N2 & L2 & E2 & M2 & P2).
    unfold finish. rewrite N2. rewrite folding_app. cbn [parts]. split; auto. split; [lia|]. split; [|split].
    + rewrite stages_of_app, E1, E2. replace (sync_stages s2 - sync_stages s)%nat with ((sync_stages s1 - sync_stages s) + (sync_stages s2 - sync_stages s1))%nat by lia.
      rewrite seq_app. f_equal. f_equal. lia.
    + destruct M2 as [M2| -> ]; auto.
    + intros p Hp Hn Hc. apply in_app_iff in Hp as [Hp|Hp]; [specialize (P1 p Hp Hn Hc)|specialize (P2 p Hp Hn Hc)]; lia.
  - specialize (IH s N). destruct (mutate maxw true b s) as [b' s1]. unfold finish. destruct IH as (N1 & IH). rewrite N1. auto.
  - pose proof (mutate_inner maxw b s) as H. pose proof (mutate_calls maxw b false s) as C. destruct (mutate maxw false b s) as [b' s1]. cbn [snd fst] in *. cbn zeta in H.
    destruct H as (_ & H & H3). destruct (H N) as [->|(-> & L & F)].
    + unfold finish. rewrite N. cbn [parts stages_of flat_map p_stage]. split; auto. split; [lia|]. split; [rewrite Nat.sub_diag; reflexivity|].
      split; auto. intros p [<-|[]] _ X. cbn [p_calls] in X. rewrite C in X. apply filter_exists in X. specialize (H3 X). rewrite N in H3.
      destruct (Z_lt_ge_dec (Z.of_nat (sync_stages s) + 1) maxw) as [K|K]; [exfalso; apply H3; auto|lia].
    + unfold finish. cbn [stage sync_stages parts stages_of flat_map p_stage]. split; auto. split; [lia|].
      split; [replace (S (sync_stages s) - sync_stages s)%nat with 1%nat by lia; reflexivity|]. split; [left; lia|].
      intros p [<-|[]]. discriminate.
Qed.
