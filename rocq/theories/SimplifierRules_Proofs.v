(** The rules of visit_binary that use the residue class of the left operand. *)
From Coq Require Import ZArith List Bool Lia.
From Verif Require Import Arith_Model Arith_Spec Arith_Proofs ModRem_Model ModRem_Proofs Buf_Model Expr_Model Expr_Spec Expr_Proofs Match_Model
  Match_Proofs Expr_Props Rewrite_Model Rewrite_Proofs RewriteMatch_Proofs RewriteApply_Proofs RuleTac Rewrite_Props Simplify_Model Simplify_Proofs
  Interval_Model BoundsOf_Model BoundsOf_Spec BoundsOf_Proofs Knowledge_Model Simplifier_Model.
Import ListNotations.
Open Scope Z_scope.

(** a rule whose left hand side is an operator that does not commute *)
Lemma apply_at W r l o pa pb alts a b e' :
  wfp (PBin o pa pb) = true -> logic_opt pa = false -> logic_opt pb = false -> is_opt pa = false -> is_opt pb = false -> could_commute o pa pb = false ->
  forallb (fun q => lits_ok (fst q) && lits_ok (snd q)) alts = true ->
  consts_all in64 a -> consts_all in64 b ->
  apply_rule (Rule l (PBin o pa pb) alts) (EBin o a b) = Val (Some e') ->
  exists v c pr y, psem v c pa = meaning W r a /\ psem v c pb = meaning W r b /\ (forall n, in64 (c n)) /\
    salts v c pr alts = Some y /\ refines y (meaning W r e').
Proof.
  intros Wf La Lb Oa Ob Nc Wa Ca Cb H.
  unfold apply_rule in H. cbn [r_lhs r_alts] in H. apply bind_inv in H as ([m|] & Hm & H); [|discriminate].
  unfold match_any_variant in Hm. apply any_some in Hm as (variant & bits & Hm).
  assert (P0 : in64 0) by (unfold in64; cbn; lia). assert (P1 : in64 1) by (unfold in64; cbn; lia).
  cbn [wfp] in Wf. rewrite !andb_true_iff in Wf. destruct Wf as [[[Wfa Wfb] _] _].
  rewrite match_bin_eq in Hm. assert (E : binop_eqb o o = true) by (destruct o; reflexivity). rewrite E, Nc in Hm.
  apply both_inv in Hm as (m1 & b1 & H1 & H2).
  apply (match_pat_ok W r in64 in64 (fun _ h => h) P0 P1 stair_in64 variant pa _ _ _ _ _ Wfa Ca) in H1.
  apply (match_pat_ok W r in64 in64 (fun _ h => h) P0 P1 stair_in64 variant pb _ _ _ _ _ Wfb Cb) in H2.
  destruct (mok_seq W r in64 _ _ _ _ (EBin o a b) _ _ _ H1 H2) as (_ & Cq & _ & _ & Sm).
  { left. repeat constructor. } { left. apply sub_r. constructor. }
  destruct (Sm m (bext_refl m)) as (Sa & Sb). apply logic_opt_sim in Sa, Sb; auto.
  assert (Cm : forall n, in64 (bound_const m n)).
  { intros n. unfold bound_const. destruct (b_const m n) eqn:En; [eapply Cq; eauto; intros ? ?; discriminate|exact P0]. }
  destruct (find_ok W r (fun k n => test_pred k (bound_var m n)) (bound_const m) (bound_var m) Cm _ Wa _ H) as (y & Hy & Ry).
  exists (vals W r m), (bound_const m), (fun k n => test_pred k (bound_var m n)), y. auto.
Qed.

Lemma emod0_div m c k : emod m c = 0 -> c <> 0 -> exists j, m * k = c * j.
Proof. intros H N. pose proof (euclid_ediv m c N) as (E & _). rewrite H in E. exists (ediv m c * k). rewrite E at 1. ring. Qed.
Lemma ediv_0r a : ediv a 0 = 0. Proof. unfold ediv. reflexivity. Qed.

Section Rules.
  Variable W : world.
  Variable r : env.
  Notation M := (meaning W r).

  Lemma lits al : mr_repr 64 al -> in_range 64 (modulus al) = true /\ in_range 64 (remainder al) = true.
  Proof. intros (A & B). unfold in_range. split; apply andb_true_iff; split; apply Z.leb_le; lia. Qed.

  Lemma refines_fin z x : refines (Fin z) x -> x = Fin z. Proof. intros [H|H]; [discriminate|congruence]. Qed.

  Lemma rule_div_sum_ok al a b e x y : mr_repr 64 al -> consts_all in64 a -> consts_all in64 b -> M a = Fin x -> M b = Fin y -> mr_in al x ->
    apply_rule (rule_div_sum (modulus al) (remainder al)) (EBin Div a b) = Val (Some e) -> M e = Fin (ediv x y).
  Proof.
    intros K Ca Cb Ea Eb I H. destruct (lits al K) as (L1 & L2). unfold rule_div_sum in H.
    apply (apply_at W r) in H as (v & c & pr & z & Sa & Sb & _ & Hz & R); auto.
    2: { cbn [forallb fst snd lits_ok]. rewrite L1, L2. reflexivity. }
    rewrite Ea in Sa. rewrite Eb in Sb. cbn [psem xbin] in Sa, Sb. injection Sb as <-.
    destruct (v 0%nat) as [x0| | |] eqn:V; cbn [xadd] in Sa; try discriminate. injection Sa as <-.
    cbn [salts sx ozbin guarded zbin truthy] in Hz. destruct (emod (modulus al) (c 1%nat) =? 0) eqn:D; cbn in Hz; [|discriminate].
    apply Z.eqb_eq in D. cbn [sxx is_index andb omap2 ofin sx ozbin guarded zbin] in Hz. rewrite V in Hz. cbn [sxx sx ozbin guarded zbin omap2] in Hz.
    destruct (in_range 64 (remainder al - c 0%nat)); cbn in Hz; [|discriminate].
    match type of Hz with context [in_range 64 ?t] => destruct (in_range 64 t) end; cbn in Hz; [|discriminate].
    injection Hz as <-. apply refines_fin in R. rewrite R. f_equal.
    destruct (Z.eq_dec (c 1%nat) 0) as [->|N]; [rewrite !ediv_0r; reflexivity|].
    destruct I as (k & I). destruct (emod0_div _ _ k D N) as (j & J). rewrite J in I.
    replace (x0 + c 0%nat) with (remainder al + c 1%nat * j) by lia. replace x0 with (remainder al - c 0%nat + c 1%nat * j) by lia.
    rewrite !ediv_shift by exact N. lia.
  Qed.
  Lemma rule_div_difference_ok al a b e x y : mr_repr 64 al -> consts_all in64 a -> consts_all in64 b -> M a = Fin x -> M b = Fin y -> mr_in al x ->
    apply_rule (rule_div_difference (modulus al) (remainder al)) (EBin Div a b) = Val (Some e) -> M e = Fin (ediv x y).
  Proof.
    intros K Ca Cb Ea Eb I H. destruct (lits al K) as (L1 & L2). unfold rule_div_difference in H.
    apply (apply_at W r) in H as (v & c & pr & z & Sa & Sb & _ & Hz & R); auto.
    2: { cbn [forallb fst snd lits_ok]. rewrite L1, L2. reflexivity. }
    rewrite Ea in Sa. rewrite Eb in Sb. cbn [psem xbin] in Sa, Sb. injection Sb as <-.
    destruct (v 0%nat) as [x0| | |] eqn:V; cbn [xsub xneg xadd] in Sa; try discriminate. injection Sa as <-.
    cbn [salts sx ozbin guarded zbin truthy] in Hz. destruct (emod (modulus al) (c 1%nat) =? 0) eqn:D; cbn in Hz; [|discriminate].
    apply Z.eqb_eq in D. cbn [sxx is_index andb omap2 ofin sx ozbin guarded zbin] in Hz. rewrite V in Hz. cbn [sxx sx ozbin guarded zbin omap2] in Hz.
    destruct (in_range 64 (c 0%nat - remainder al)); cbn in Hz; [|discriminate].
    match type of Hz with context [in_range 64 ?t] => destruct (in_range 64 t) end; cbn in Hz; [|discriminate].
    injection Hz as <-. apply refines_fin in R. rewrite R. f_equal.
    destruct (Z.eq_dec (c 1%nat) 0) as [->|N]; [rewrite !ediv_0r; reflexivity|].
    destruct I as (k & I). destruct (emod0_div _ _ k D N) as (j & J). rewrite J in I.
    replace (c 0%nat + - x0) with (remainder al + c 1%nat * j) by lia. replace x0 with (c 0%nat - remainder al + c 1%nat * (- j)) by lia.
    rewrite !ediv_shift by exact N. lia.
  Qed.
  Lemma rule_mod_ok al a b e x y : mr_repr 64 al -> consts_all in64 a -> consts_all in64 b -> M a = Fin x -> M b = Fin y -> mr_in al x ->
    apply_rule (rule_mod (modulus al) (remainder al)) (EBin Mod a b) = Val (Some e) -> M e = Fin (emod x y).
  Proof.
    intros K Ca Cb Ea Eb I H. destruct (lits al K) as (L1 & L2). unfold rule_mod in H.
    apply (apply_at W r) in H as (v & c & pr & z & Sa & Sb & _ & Hz & R); auto.
    2: { cbn [forallb fst snd lits_ok]. rewrite L1, L2. reflexivity. }
    rewrite Ea in Sa. rewrite Eb in Sb. cbn [psem xbin] in Sa, Sb. injection Sb as <-.
    cbn [salts sx ozbin guarded zbin truthy] in Hz. destruct (emod (modulus al) (c 0%nat) =? 0) eqn:D; cbn in Hz; [|discriminate].
    apply Z.eqb_eq in D. injection Hz as <-. apply refines_fin in R. rewrite R. f_equal.
    destruct (Z.eq_dec (c 0%nat) 0) as [->|N]; [rewrite !emod_0; reflexivity|].
    destruct I as (k & I). destruct (emod0_div _ _ k D N) as (j & J). rewrite J in I. subst x.
    pose proof (euclid_ediv (remainder al) (c 0%nat) N) as U1. pose proof (euclid_ediv (c 0%nat * j + remainder al) (c 0%nat) N) as U2.
    assert (U3 : euclid (c 0%nat * j + remainder al) (c 0%nat) (ediv (remainder al) (c 0%nat) + j) (emod (remainder al) (c 0%nat))) by (unfold euclid in *; lia).
    destruct (euclid_unique _ _ _ _ _ _ U2 U3). congruence.
  Qed.
  Lemma apply_aligned_ok o al a b e x y : mr_repr 64 al -> consts_all in64 a -> consts_all in64 b -> M a = Fin x -> M b = Fin y -> mr_in al x ->
    apply_aligned o al a b = Val (Some e) -> M e = Fin (zop o x y).
  Proof.
    intros K Ca Cb Ea Eb I H. unfold apply_aligned in H. destruct o; try discriminate H; cbn [aligned_rules apply_rules zop] in *.
    - apply bind_inv in H as ([e1|] & H1 & H).
      + injection H as <-. exact (rule_div_sum_ok al a b e1 x y K Ca Cb Ea Eb I H1).
      + apply bind_inv in H as ([e1|] & H2 & H); [|discriminate]. injection H as <-. exact (rule_div_difference_ok al a b e1 x y K Ca Cb Ea Eb I H2).
    - apply bind_inv in H as ([e1|] & H1 & H); [|discriminate]. injection H as <-. exact (rule_mod_ok al a b e1 x y K Ca Cb Ea Eb I H1).
  Qed.
End Rules.
