From Coq Require Import ZArith List Bool Lia.
From Verif Require Import Arith_Model Arith_Spec Arith_Proofs ModRem_Model ModRem_Proofs Buf_Model Expr_Model Expr_Spec Expr_Proofs Expr_Props Match_Model
  Match_Proofs Rewrite_Model Rewrite_Proofs RewriteMatch_Proofs RewriteApply_Proofs RuleTac Rewrite_Props Simplify_Model Simplify_Proofs Simplify_Props
  Const_Model Const_Proofs Const_Props Interval_Model Interval_Spec Interval_Props BoundsOf_Model BoundsOf_Spec BoundsOf_Proofs BoundsOf_Props Deps_Spec
  Subst_Model Subst_Spec SubstBuffer_Props Knowledge_Model Knowledge_Spec Knowledge_Proofs Knowledge_Props
  Simplifier_Model Simplifier_Spec SimplifierRules_Proofs SimplifierMono_Proofs SimplifierGuard_Model SimplifierGuard_Spec SimplifierGuard_Proofs.
Import ListNotations.
Open Scope Z_scope.

Section Sound.
  Variable W : world.
  Variable r : env.
  Variable same : path -> expr -> expr -> bool.
  Variable reuse : path -> expr -> expr -> bool.
  Variable reuse_select : path -> bool.
  Variable G : guards.
  Hypothesis GS : guards_sound W r reuse reuse_select G.
  Hypothesis HW : world_ok W.
  Hypothesis Hsem : semaphores_return_one W.
  Hypothesis ranks : forall p b, w_buf W p = Some b -> Z.of_nat (rank b) < 2 ^ 31.
  Notation M := (meaning W r).
  Notation enc := (encloses W r).
  Notation P := (guarded_prims G W same reuse reuse_select).

  Lemma bin_ok o a b e : g_bin G o a b = true -> simplify_bin o a b = Val e -> refines (xbin o (M a) (M b)) (M e).
  Proof. intros K H. destruct (s_bin _ _ _ _ _ GS o a b K) as (A & B & C & D). exact (C12_binary W r o a b e A B C D H). Qed.

  Lemma undefined_shape o op a b : undefined_bounds o op a b = true -> M (i_min a) = Bad.
  Proof.
    unfold undefined_bounds. destruct o; try discriminate. destruct op; try discriminate. destruct (i_min a); try discriminate. reflexivity.
  Qed.

  Lemma bounds_bin_ok p f o op a b i va vb : bounds_range W r reuse p o op a b ->
    bounds_of_bin W (reuse p) (fun e => e' <- f e ;; when (g_inner G e e') (Val e')) o op a b = Val i -> logic_op o = false ->
    (forall e e' z, f e = Val e' -> M e = Fin z -> M e' = Fin z) ->
    (arith_op o = true -> forall ea eb, op = Some (ea, eb) -> M ea = Fin va /\ M eb = Fin vb) ->
    enc a va -> enc b vb -> enc i (zop o va vb) /\ (compare_op o = true -> truth_ends W r i (zop o va vb)).
  Proof.
    intros (Ka & Kb & R) H Nl Hf Hop Ea Eb.
    set (f' := fun e => e' <- f e ;; when (g_inner G e e') (Val e')) in *.
    assert (I : forall e e', f' e = Val e' -> f e = Val e' /\ (M e = Bad \/ exists z, M e = Fin z) /\ consts_all below30 e').
    { intros e e' K. unfold f' in K. apply bind_inv in K as (e1 & He & K). apply when_inv in K as (Ki & K). injection K as ->.
      split; [exact He|exact (s_inner _ _ _ _ _ GS e e' Ki)]. }
    assert (F1 : forall e e', f' e = Val e' -> refines (M e) (M e')).
    { intros e e' K. destruct (I e e' K) as (He & [B|(z & B)] & _); [left; exact B|]. right. rewrite B, (Hf e e' z He B). reflexivity. }
    assert (F2 : forall e e', f' e = Val e' -> consts_all below30 e') by (intros e e' K; apply (I e e' K)).
    assert (T : forall lin sign, arith_op o = true -> tighten_range lin op sign -> forall j, lin = Val j -> tighten_ok W r j op sign va vb).
    { intros lin sign Ar Tr j Hj x y Eop. destruct (Tr x y Eop) as (C1 & C2 & S & E). destruct (Hop Ar x y Eop) as (V1 & V2). destruct (E j Hj) as (E1 & E2). auto 10. }
    assert (B01 : compare_op o = true -> bool_ends W r i -> enc i (zop o va vb) -> truth_ends W r i (zop o va vb)).
    { intros Co Be E. apply bool_truth; auto. apply zop_bool, Co. }
    destruct o; try discriminate Nl; cbn [bounds_of_bin zop] in *.
    - destruct R as (Ca & Cb & Tr). split; [|discriminate]. exact (C13_add W r (reuse p) f' op a b va vb i Ka Kb Ea Eb Ca Cb F1 F2 (T _ _ eq_refl Tr) H).
    - destruct R as (Ca & Cb & Tr). split; [|discriminate]. exact (C13_sub W r (reuse p) f' op a b va vb i Ka Kb Ea Eb Ca Cb F1 F2 (T _ _ eq_refl Tr) H).
    - destruct R as (Ca & Cb & Mo & Sm). split; [|discriminate]. exact (C13_mul W r (reuse p) a b va vb i Ka Kb Ea Eb Ca Cb Mo Sm H).
    - destruct R as (Ca & Cb & Mo & S1 & S2). split; [|discriminate]. exact (C13_div W r (reuse p) a b va vb i Ka Kb Ea Eb Ca Cb Mo S1 S2 H).
    - destruct R as (Ca & Cb & Sm). split; [|discriminate]. exact (C13_mod W r (reuse p) a b va vb i HW Ka Kb Ea Eb Ca Cb Sm H).
    - split; [|discriminate]. exact (C13_min W r (reuse p) a b va vb i Ka Kb Ea Eb R H).
    - split; [|discriminate]. exact (C13_max W r (reuse p) a b va vb i Ka Kb Ea Eb R H).
    - pose proof (C13_equal W r (reuse p) a b va vb i Ka Kb Ea Eb R H) as E. split; [exact E|]. intros Co. apply (B01 Co); [|exact E].
      exact (equal_bool W r (reuse p) Equal a b va vb Ka Kb Ea Eb R eq_refl i H eq_refl).
    - pose proof (C13_not_equal W r (reuse p) a b va vb i Ka Kb Ea Eb R H) as E. split; [exact E|]. intros Co. apply (B01 Co); [|exact E].
      exact (not_equal_bool W r (reuse p) NotEqual a b va vb Ka Kb Ea Eb R eq_refl i H eq_refl).
    - pose proof (C13_less W r (reuse p) a b va vb i Ka Kb Ea Eb R H) as E. split; [exact E|]. intros Co. apply (B01 Co); [|exact E].
      exact (less_bool W r (reuse p) Less a b va vb Ka Kb Ea Eb R eq_refl i (or_introl eq_refl) H).
    - pose proof (C13_less_equal W r (reuse p) a b va vb i Ka Kb Ea Eb R H) as E. split; [exact E|]. intros Co. apply (B01 Co); [|exact E].
      exact (less_bool W r (reuse p) LessEqual a b va vb Ka Kb Ea Eb R eq_refl i (or_intror eq_refl) H).
  Qed.

  Lemma guarded_sound : prims_sound W r P.
  Proof.
    constructor; cbn [guarded_prims code_prims p_visit p_same p_bin p_not p_select p_call p_add_constant p_true p_false p_bounds_bin p_bounds_not p_bounds_select p_bounds_call
      p_align p_aligned p_learn p_subst p_at].
    - exact (s_visit _ _ _ _ _ GS).
    - intros o a b e H. apply when_inv in H as (K & H). exact (bin_ok o a b e K H).
    - intros a e H. apply when_inv in H as (K & H). exact (C12_not W r a e (s_not _ _ _ _ _ GS a K) H).
    - intros c t f e H. apply when_inv in H as (K & H). destruct (s_select _ _ _ _ _ GS c t f K) as (A & B & C & F). exact (C12_select W r c t f e A B C F H).
    - intros fn t args e z H E. apply when_inv in H as (K & H). destruct (s_call _ _ _ _ _ GS fn t args K) as (A & B & C).
      destruct (C12_call W r fn t args e HW Hsem A B H) as [(S1 & S2)|R].
      + subst e. exfalso. exact (C S1 H).
      + rewrite E in R. exact (exact_fin _ _ R).
    - intros a c e H D. apply when_inv in H as (K & H). destruct (s_add_constant _ _ _ _ _ GS a c K) as (A & B). exact (C44_add_constant a c e A B H D W r).
    - intros e H. apply believe_inv in H as (H & K). destruct (s_answer _ _ _ _ _ GS e (K eq_refl)) as (B & N). split; [exact N|exact (prove_true_sound W r e B N H)].
    - intros e H. apply believe_inv in H as (H & K). destruct (s_answer _ _ _ _ _ GS e (K eq_refl)) as (B & N). exact (prove_false_sound W r e B N H).
    - intros p f i b H Hb. apply when_inv in H as (_ & H). apply believe_inv in Hb as (Hb & _). cbn [bounds_of_bin] in H.
      unfold bounds_of_not_equal, both_points in H. cbn [i_undef i_point andb] in H. vm_compute in H. injection H as <-. vm_compute in Hb. injection Hb as <-. reflexivity.
    - intros p f o op a b i va vb Nl H Hf Hop Ea Eb. apply when_inv in H as (K & H). apply orb_true_iff in K as [K|K].
      + exact (bounds_bin_ok p f o op a b i va vb (s_bounds_bin _ _ _ _ _ GS p o op a b K) H Nl Hf Hop Ea Eb).
      + apply undefined_shape in K. destruct Ea as (L & _). rewrite K in L. destruct L.
    - intros p f o op a b i va vb Nl H Ta Tb. apply when_inv in H as (K & H). apply orb_true_iff in K as [K|K].
      + destruct (s_bounds_bin _ _ _ _ _ GS p o op a b K) as (Ka & Kb & R). destruct o; try discriminate Nl; cbn [bounds_of_bin] in H; destruct R as (Ca & Cb).
        * exact (logic_truth W r (reuse p) And a b va vb i (or_introl eq_refl) Ka Kb Ca Cb Ta Tb H).
        * exact (logic_truth W r (reuse p) Or a b va vb i (or_intror eq_refl) Ka Kb Ca Cb Ta Tb H).
      + destruct o; discriminate.
    - intros p x a i vx va H Ex V Ta. apply when_inv in H as (K & H). destruct (s_bounds_not _ _ _ _ _ GS a K) as (Ka & Ca).
      refine (not_truth W r x _ a va vx i Ka Ca Ex V Ta _ H). intros S. apply andb_true_iff in S as (S & S2). apply andb_true_iff in S as (_ & S1).
      apply match_eq in S1, S2. auto.
    - intros p c t f i vc v H Tc Et Ef. apply when_inv in H as (K & H).
      exact (select_truth W r reuse_select p c t f i vc v (s_bounds_select _ _ _ _ _ GS p c t f K) Tc Et Ef H).
    - intros fn t args bs i v H E Ab. apply when_inv in H as (K & H). pose proof (s_bounds_call _ _ _ _ _ GS fn bs K) as B.
      assert (D : fn = i_abs \/ fn <> i_abs) by (destruct fn; auto; right; discriminate). destruct D as [->|N].
      + destruct (Ab eq_refl) as (b & va & -> & Eb & ->). specialize (B eq_refl). inversion B as [|? ? (B1 & B2 & B3) _]; subst.
        exact (C13_abs W r t args b va i HW B1 Eb B2 B3 H).
      + exact (C13_call_other W r fn t args bs v i N E H).
    - intros o a b c x y Ar H X Y. apply when_inv in H as (K & H). destruct (s_align _ _ _ _ _ GS o a b K) as (A & B & Z0).
      assert (w : 0 < 64) by lia. destruct o; try discriminate Ar; cbn [modulus_of zop] in *.
      + exact (mr_add_sound 64 a b c w A B H x y X Y).
      + exact (mr_sub_sound 64 a b c w A B H x y X Y).
      + exact (mr_mul_sound 64 a b c w A B H x y X Y).
      + exact (mr_div_sound 64 a b c w A B H x y X Y).
      + exact (mr_mod_sound 64 a b c w A B (Z0 eq_refl) H x y X Y).
    - intros o a b c x Ar H X. apply when_inv in H as (K & H). destruct (s_align _ _ _ _ _ GS o a b K) as (A & B & _).
      destruct o; try discriminate Ar; cbn [modulus_of] in H; exact (mr_union_sound 64 a b c ltac:(lia) A B H x X).
    - intros o al a b e x y H Ea Eb I. apply when_inv in H as (K & H). destruct (s_aligned _ _ _ _ _ GS al a b K) as (A & B & C).
      exact (apply_aligned_ok W r o al a b e x y A B C Ea Eb I H).
    - intros pos v b c k H (S1 & S2 & S3 & S4) T. apply when_inv in H as (K & H). destruct (s_learn _ _ _ _ _ GS pos c K) as (C & L).
      refine (C41_learn W r (g_bin G) pos (knowledge_new v b) c k _ ranks C _ L T H).
      + intros o x y e. exact (bin_ok o x y e).
      + unfold knows. cbn [knowledge_new k_vars k_bufs k_facts]. auto.
    - intros a b x y z H E Ex. apply when_inv in H as (K & H). injection H as <-. destruct (s_subst _ _ _ _ _ GS a b x K) as (Da & Db & Pl & Bi & Ad).
      rewrite (C47_meaning W r x a b Da Db Pl Bi Ad E). exact Ex.
    - exact (s_at _ _ _ _ _ GS).
  Qed.
End Sound.
