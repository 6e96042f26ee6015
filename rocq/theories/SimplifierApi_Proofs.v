From Coq Require Import ZArith List Bool Lia.
From Verif Require Import Arith_Model Arith_Spec Arith_Proofs ModRem_Model ModRem_Proofs Buf_Model Expr_Model Expr_Spec Expr_Proofs Expr_Props Match_Model
  Match_Proofs Rewrite_Model Rewrite_Proofs RewriteMatch_Proofs RewriteApply_Proofs RuleTac Rewrite_Props Simplify_Model Simplify_Proofs Simplify_Props
  Interval_Model Interval_Spec Interval_Props BoundsOf_Model BoundsOf_Spec BoundsOf_Proofs
  Knowledge_Model Knowledge_Spec Knowledge_Proofs Simplifier_Model Simplifier_Spec Simplifier_Proofs.
Import ListNotations.
Open Scope Z_scope.

(** What the caller says about the variables is true: the value of a variable with an
    interval is between the ends that are there, and that of a variable with a residue class
    is in it.  (is_point is only true of equal ends, and residue classes are reduced ones of
    index_t.) *)
Definition given_ok (W : world) (r : env) (bounds : nat -> option interval) (alignment : nat -> option modrem) : Prop :=
  (forall s i, bounds s = Some i -> interval_ok i /\ forall z, r s = Fin z ->
     (defined (i_min i) = true -> lower (meaning W r (i_min i)) z) /\ (defined (i_max i) = true -> upper (meaning W r (i_max i)) z)) /\
  (forall s m, alignment s = Some m -> mr_repr 64 m /\ mr_reduced m /\ forall z, r s = Fin z -> mr_in m z).

Section Api.
  Variable W : world.
  Variable r : env.
  Notation M := (meaning W r).

  Lemma undef_ok : interval_ok i_undef. Proof. intros H. discriminate H. Qed.
  Lemma all_repr : mr_repr 64 mr_all /\ mr_reduced mr_all.
  Proof. split; [split; vm_compute; split; discriminate|]. left. vm_compute. reflexivity. Qed.
  Lemma initial_ok bounds alignment : given_ok W r bounds alignment -> state_ok W r (initial_state bounds alignment).
  Proof.
    intros (B & A). destruct all_repr as (R1 & R2).
    split; [|split; [|split; intros s b H; discriminate H]]; cbn [initial_state s_vars]; intros s i H.
    - destruct (bounds s) as [bi|] eqn:Bs, (alignment s) as [m|] eqn:As; try discriminate H; injection H as <-; unfold info_wf; cbn [x_bounds x_align].
      + destruct (B s bi Bs) as (K & _). destruct (A s m As) as (A1 & A2 & _). auto.
      + destruct (B s bi Bs) as (K & _). auto.
      + destruct (A s m As) as (A1 & A2 & _). split; [exact undef_ok|auto].
    - intros z Ez. cbn [meaning] in Ez. destruct (bounds s) as [bi|] eqn:Bs, (alignment s) as [m|] eqn:As; try discriminate H; injection H as <-; cbn [x_bounds x_align x_known].
      + destruct (B s bi Bs) as (_ & K). destruct (K z Ez) as (L & U). destruct (A s m As) as (_ & _ & A3). split; [exact L|]. split; [exact U|]. split; [exact (A3 z Ez)|discriminate].
      + destruct (B s bi Bs) as (_ & K). destruct (K z Ez) as (L & U). split; [exact L|]. split; [exact U|]. split; [apply mr_in_all|discriminate].
      + destruct (A s m As) as (_ & _ & A3). split; [discriminate|]. split; [discriminate|]. split; [exact (A3 z Ez)|discriminate].
  Qed.

  Lemma any_pattern p e m : wfp p = true -> logic_opt p = false -> match_any_variant p e = Val (Some m) -> psem (vals W r m) (bound_const m) p = M e.
  Proof.
    intros Wf Lo Hm. unfold match_any_variant in Hm. apply any_some in Hm as (variant & bits & Hm).
    pose proof (match_pat_ok W r (fun _ => True) (fun _ => True) (fun _ h => h) I I (fun _ _ _ _ _ _ _ _ _ _ _ _ => conj I I) variant p _ _ _ _ _ Wf (fun _ _ => I) Hm) as (_ & _ & _ & _ & Sm).
    specialize (Sm m (bext_refl m)). apply logic_opt_sim in Sm; auto.
  Qed.

  Variable P : prims.
  Hypothesis OK : prims_sound W r P.
  Hypothesis sane : buffers_sane W.
  Variable bounds : nat -> option interval.
  Variable alignment : nat -> option modrem.
  Hypothesis given : given_ok W r bounds alignment.
  Variable fuel : nat.

  Lemma run_ok p e e' i z : mutate P fuel p (s0 bounds alignment) e = Val (e', i) -> M e = Fin z -> sound_result W r e' i z.
  Proof. intros H E. exact (mutate_ok W r P OK sane fuel p _ e e' i z (initial_ok _ _ given) H E). Qed.

  Lemma deep_point x lo hi : interval_ok x -> M (i_min x) = Fin lo -> M (i_max x) = Fin hi -> deep_is_point x = true -> lo = hi.
  Proof.
    intros K L U D. unfold deep_is_point in D. apply orb_true_iff in D as [D|D].
    - destruct (K D) as (E & _). rewrite E, L in U. congruence.
    - apply match_eq in D. rewrite D, U in L. congruence.
  Qed.

  (** the values between the ends stay the same, and what is known about the ends is true *)
  Definition ends_known (li hi : expr_info) (a b : Z) : Prop := encloses W r (x_bounds li) a /\ encloses W r (x_bounds hi) b.
  Lemma interval_run_ok x i li hi a b : interval_ok x -> mutate_interval P bounds alignment fuel x = Val (i, li, hi) ->
    M (i_min x) = Fin a -> M (i_max x) = Fin b ->
    (forall v, encloses W r i v <-> a <= v <= b) /\ ends_known li hi a b.
  Proof.
    intros K H A B. unfold mutate_interval in H.
    assert (En : forall j, (forall v, encloses W r j v <-> a <= v <= b) -> forall v, encloses W r (ensure_is_point j) v <-> a <= v <= b).
    { intros j V v. unfold ensure_is_point. destruct (negb (i_point j) && match_expr (i_min j) (i_max j)) eqn:Q; [|auto].
      apply andb_true_iff in Q as (_ & Q). apply match_eq in Q. rewrite <- V. unfold encloses. cbn [point i_min i_max]. rewrite Q. tauto. }
    assert (Two : forall x y, M x = Fin a -> M y = Fin b -> forall v, encloses W r (i_bounds x y) v <-> a <= v <= b).
    { intros u w Hu Hw v. unfold encloses. cbn [i_bounds i_min i_max]. rewrite Hu, Hw. cbn [lower upper]. tauto. }
    destruct (deep_is_point x) eqn:D.
    - pose proof (deep_point x a b K A B D) as E. subst b. apply bind_inv in H as ((e, ei) & He & H). injection H as <- <- <-.
      destruct (run_ok _ _ _ _ _ He A) as (V & Ei & _). split; [|split; exact Ei]. exact (Two e e V V).
    - apply bind_inv in H as ((lo, li0) & Hl & H). apply bind_inv in H as ((h, hi0) & Hh & H). apply bind_inv in H as (m & Hm & H). injection H as <- <- <-.
      destruct (run_ok _ _ _ _ _ Hl A) as (Vl & El & _). destruct (run_ok _ _ _ _ _ Hh B) as (Vh & Eh & _).
      split; [|split; assumption]. apply En.
      destruct m as [bs|]; [|exact (Two lo h Vl Vh)]. destruct (match_expr (bound_var bs 1) h) eqn:Q; [|exact (Two lo h Vl Vh)]. apply match_eq in Q.
      destruct (defined lo); [|discriminate Hm]. pose proof (any_pattern emptiness_pattern lo bs eq_refl eq_refl Hm) as S. rewrite Vl in S.
      cbn [emptiness_pattern psem] in S. unfold vals in S. rewrite Q in *. rewrite Vh in S. intros v. unfold encloses. cbn [i_bounds i_min i_max]. rewrite Vh. cbn [upper].
      destruct (M (bound_var bs 0)) as [z| | |]; cbn [xbin xcmp xadd xselect truthy of_bool] in S; try discriminate S.
      + unfold truthy in S. destruct (Z.ltb_spec b z); cbn [of_bool] in S; injection S as <-; cbn [lower]; lia.
      + cbn in S. injection S as <-. cbn [lower]. lia.
  Qed.
End Api.
