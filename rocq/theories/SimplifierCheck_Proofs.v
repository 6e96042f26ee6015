From Coq Require Import ZArith List Bool Lia.
From Verif Require Import Arith_Model Arith_Spec Arith_Proofs ModRem_Model ModRem_Proofs Buf_Model Expr_Model Expr_Spec Expr_Proofs Expr_Props Match_Model
  Match_Proofs Rewrite_Model Rewrite_Proofs RewriteMatch_Proofs RuleTac Rewrite_Props Simplify_Model Simplify_Proofs Simplify_Props Const_Model Const_Proofs Const_Props
  Interval_Model Interval_Spec Interval_Props BoundsOf_Model BoundsOf_Spec BoundsOf_Proofs Deps_Spec
  Subst_Model Subst_Spec Knowledge_Model Knowledge_Spec Simplifier_Model SimplifierGuard_Model SimplifierGuard_Spec SimplifierCheck_Model.
Import ListNotations.
Open Scope Z_scope.

Ltac ands := repeat match goal with H : _ && _ = true |- _ => apply andb_true_iff in H as (? & ?) end.

Lemma fine_sub x e : subexpr x e -> fine e = true -> fine x = true.
Proof.
  induction 1; cbn [fine]; auto; intros K; ands; auto.
  apply IHsubexpr. exact (proj1 (forallb_forall fine args) H1 a H).
Qed.
Lemma fine_30 e : fine e = true -> consts_all below30 e.
Proof. intros H z K. apply (fine_sub _ _ K) in H. cbn [fine] in H. ands. split; apply Z.ltb_lt; assumption. Qed.
Lemma fine_64 e : fine e = true -> consts_all in64 e.
Proof. intros H. apply c30_c64, fine_30, H. Qed.
Lemma below30_64 z : below30 z -> in64 z.
Proof. unfold below30, in64. cbn. lia. Qed.
Lemma fine_consts e : fine e = true -> consts_ok e.
Proof.
  induction e as [|s f d|lets body IHlets IHbody|o a b IHa IHb|a IHa|q t f IHq IHt IHf|fn t args IHargs|c0] using expr_ind'; cbn [fine consts_ok]; auto; intros K; ands; auto.
  - discriminate.
  - clear H0. induction args as [|x l IH]; [exact I|]. inversion IHargs as [|? ? X L]; subst. cbn [forallb] in H. ands. split; [apply X; assumption|apply IH; assumption].
  - apply below30_64. split; apply Z.ltb_lt; assumption.
Qed.
Lemma fine_binds s e : fine e = true -> ~ binds s e.
Proof.
  induction e as [|u f d|lets body IHlets IHbody|o a b IHa IHb|a IHa|q t f IHq IHt IHf|fn t args IHargs|c0] using expr_ind'; cbn [fine binds]; auto; intros K; ands; try tauto.
  - discriminate.
  - clear H0. induction args as [|x l IH]; [tauto|]. inversion IHargs as [|? ? X L]; subst. cbn [forallb] in H. ands. cbn [any_of]. intros [B|B]; [exact (X ltac:(assumption) B)|exact (IH L ltac:(assumption) B)].
Qed.
Lemma fine_heads e : fine e = true -> plain_heads e.
Proof.
  induction e as [|u f d|lets body IHlets IHbody|o a b IHa IHb|a IHa|q t f IHq IHt IHf|fn t args IHargs|c0] using expr_ind'; cbn [fine plain_heads]; auto; intros K; ands; auto.
  - discriminate.
  - split.
    + intros ->. destruct args as [|[| ? [] ?| | | | | |] ?]; cbn [plain_head] in *; try discriminate; exact I.
    + clear H0. induction args as [|x l IH]; [exact I|]. inversion IHargs as [|? ? X L]; subst. cbn [forallb] in H. ands. split; [apply X; assumption|apply IH; assumption].
Qed.
Lemma point_ok_ok i : point_ok i = true -> interval_ok i.
Proof. unfold point_ok, interval_ok. intros H P. rewrite P in H. cbn [negb orb] in H. ands. split; [apply match_eq|]; assumption. Qed.
Lemma ends_fine_30 i : ends_fine i = true -> ends30 i.
Proof. unfold ends_fine. intros H x [->| ->]; ands; apply fine_30; assumption. Qed.
Lemma ends_fine_64 i : ends_fine i = true -> ends64 i.
Proof. unfold ends_fine. intros H x [->| ->]; ands; apply fine_64; assumption. Qed.
Lemma ends_logical_ok i : ends_logical i = true -> ends_bounds_ok i.
Proof. unfold ends_logical, ends_fine. intros H x [->| ->]; ands; (split; [apply fine_64|]; assumption). Qed.
Lemma on_val_inv {A} (x : res A) f a : on_val x f = true -> x = Val a -> f a = true.
Proof. intros H ->. exact H. Qed.
Lemma for_ends_inv a b f : for_ends a b f = true -> forall x y, end_of a x -> end_of b y -> f x y = true.
Proof. unfold for_ends. intros H x y [->| ->] [->| ->]; ands; assumption. Qed.
Lemma inf_lit_inv e : inf_lit e = true -> infinity_lit e.
Proof. unfold inf_lit. intros H. apply orb_true_iff in H as [H|H]; apply match_eq in H; [left|right]; exact H. Qed.
Lemma const_0_inv e : const_0 e = true -> e = EConst 0.
Proof. destruct e; try discriminate. cbn [const_0]. intros H. apply Z.eqb_eq in H. congruence. Qed.
Lemma modrem_ok_inv m : modrem_ok m = true -> mr_repr 64 m.
Proof. unfold modrem_ok, mr_repr, in_range. intros H. ands. repeat match goal with K : (_ <=? _) = true |- _ => apply Z.leb_le in K end. auto. Qed.
Lemma in_range_64 z : in_range 64 z = true -> in64 z.
Proof. unfold in_range, in64. intros H. ands. apply Z.leb_le in H, H0. auto. Qed.

Section Checks.
  Variable W : world.
  Variable r : env.
  Variable reuse : path -> expr -> expr -> bool.
  Variable reuse_select : path -> bool.
  Notation M := (meaning W r).

  Lemma finite_head e : finite_all W r e = true -> exists z, M e = Fin z /\ in64 z.
  Proof.
    intros H. assert (K : match M e with Fin z => in_range 64 z | _ => false end = true).
    { destruct e; cbn [finite_all] in H; ands; assumption. }
    destruct (M e); try discriminate. eexists. split; [reflexivity|]. apply in_range_64, K.
  Qed.
  Lemma finite_sub x e : subexpr x e -> finite_all W r e = true -> finite_all W r x = true.
  Proof.
    induction 1; auto; cbn [finite_all]; intros K; ands; auto.
    apply IHsubexpr. eapply (proj1 (forallb_forall _ args)); [|exact H]. assumption.
  Qed.
  Lemma finite_all_ok e : finite_all W r e = true -> all_finite W r e.
  Proof. intros H x K. apply finite_head, (finite_sub _ _ K), H. Qed.

  Lemma bin_check o a b : ck_bin W r o a b = true -> operands_ok W r o a b.
  Proof.
    unfold ck_bin. intros H. ands. split; [apply fine_64; assumption|]. split; [apply fine_64; assumption|].
    split; [intros _; split; apply fine_30; assumption|]. intros E K.
    apply orb_true_iff in H0 as [H0|H0].
    - rewrite E in H0. destruct K as [K|K]; rewrite K in H0; rewrite ?orb_true_r in H0; discriminate H0.
    - ands. split; apply finite_all_ok; assumption.
  Qed.
  Lemma stairs_check a b sign : ck_stairs a b sign = true -> stairs_small (Some (a, b)) sign.
  Proof.
    intros H a' b' l m sb c E El Em Es K. injection E as <- <-. unfold ck_stairs in H. rewrite El in H. cbn [on_val] in H. rewrite Em in H. cbn [on_val] in H.
    rewrite Es in H. cbn [on_val] in H. ands. destruct K as [K|K]; rewrite K in *;
      [apply (fine_30 (EConst c) H), sub_refl|apply (fine_30 (EConst c) H0), sub_refl].
  Qed.
  Lemma tighten_check linear op sign : ck_tighten linear op sign = true -> tighten_range linear op sign.
  Proof.
    intros H a b ->. cbn [ck_tighten] in H. ands. split; [apply fine_30; assumption|]. split; [apply fine_30; assumption|].
    split; [apply stairs_check; assumption|]. intros j Ej. rewrite Ej in H0. cbn [on_val] in H0. ands. split; [apply ends_fine_30; assumption|].
    intros k Ek. apply ends_fine_30. match goal with K : on_val (tighten_stairs _ _ _ _) _ = true |- _ => rewrite Ek in K; exact K end.
  Qed.
  Lemma mul_check p x y : ck_mul W r reuse p x y = true -> mul_ok W r (reuse p) x y.
  Proof.
    unfold ck_mul. intros H K. apply orb_true_iff in H as [H|H].
    - exfalso. apply negb_true_iff, orb_false_iff in H as (A & B). unfold infinite in K.
      destruct K as [(K1 & [K2|K2])|([K1|K1] & K2)]; rewrite K1, K2 in *; discriminate.
    - ands. split; [apply negb_true_iff; assumption|]. apply orb_true_iff in H0 as [H0|H0]; ands; [left|right]; split;
        first [apply const_0_inv; assumption|apply inf_lit_inv; assumption].
  Qed.
  Lemma products_check p a b : ck_products reuse p a b = true -> mul_small (reuse p) a b.
  Proof.
    unfold ck_products. intros H. ands. split.
    - intros e (x & y & X & Y & E). pose proof (for_ends_inv _ _ _ H x y X Y) as K. cbv beta in K. rewrite E in K. apply fine_30, K.
    - intros e (m & m' & (x & y & X & Y & E) & (x' & y' & X' & Y' & E') & D).
      pose proof (for_ends_inv _ _ _ H0 x y X Y) as K. cbv beta in K. pose proof (for_ends_inv _ _ _ K x' y' X' Y') as K'. cbv beta in K'.
      rewrite E in K'. cbn [on_val] in K'. rewrite E' in K'. cbn [on_val] in K'. ands. destruct D as [D|D]; rewrite D in *; apply fine_30; assumption.
  Qed.
  Lemma div_check p x y : ck_div W r reuse p x y = true -> div_ok W r (reuse p) x y.
  Proof.
    unfold ck_div. intros H. ands. split.
    - intros I (z & Z0). apply orb_true_iff in H as [H|H].
      + exfalso. rewrite Z0 in H. unfold infinite in I. destruct I as [I|I]; rewrite I in H; discriminate H.
      + ands. split; [apply negb_true_iff; assumption|]. split; [|apply inf_lit_inv; assumption]. destruct x; try discriminate. eauto.
    - intros I Z0. rewrite Z0 in H0. unfold infinite in I. destruct I as [I|I]; rewrite I in H0; discriminate H0.
  Qed.
  Lemma each_check f a : ck_each f a = true -> forall x e, end_of a x -> f x = Val e -> consts_all below30 e.
  Proof. unfold ck_each. intros H x e [->| ->] E; ands; rewrite E in *; apply fine_30; assumption. Qed.
  Lemma mod_check b : ck_mod W b = true -> mod_small W b.
  Proof.
    unfold ck_mod. intros H. ands. split; [intros x e; apply each_check; assumption|].
    intros m e [->|[(x & [->| ->] & E)|(x & y & X & Y & E)]] K.
    - rewrite K in H3. apply fine_30, H3.
    - rewrite E in H2. cbn [on_val] in H2. rewrite K in H2. apply fine_30, H2.
    - rewrite E in H1. cbn [on_val] in H1. rewrite K in H1. apply fine_30, H1.
    - rewrite X in H0. cbn [on_val] in H0. rewrite Y in H0. cbn [on_val] in H0. rewrite E in H0. cbn [on_val] in H0. rewrite K in H0. apply fine_30, H0.
  Qed.
  Lemma bounds_bin_check p o op a b : ck_bounds_bin W r reuse p o op a b = true -> bounds_range W r reuse p o op a b.
  Proof.
    unfold ck_bounds_bin, bounds_range. intros H. ands.
    split; [apply point_ok_ok; assumption|]. split; [apply point_ok_ok; assumption|].
    pose proof (ends_fine_64 a ltac:(assumption)) as Ea. pose proof (ends_fine_64 b ltac:(assumption)) as Eb.
    assert (X : (for_ends a b (ck_bin W r o) = true -> forall x y, end_of a x -> end_of b y -> operands_ok W r o x y)).
    { intros K x y U V. apply bin_check. exact (for_ends_inv _ _ _ K x y U V). }
    destruct o; try (apply X; assumption); try (split; [exact Ea|split; [exact Eb|]]; apply tighten_check; assumption); try (split; assumption); ands.
    - split; [apply ends_logical_ok; assumption|]. split; [apply ends_logical_ok; assumption|].
      split; [|apply products_check; assumption]. intros x y U V. apply mul_check. eapply for_ends_inv; eassumption.
    - split; [apply ends_logical_ok; assumption|]. split; [apply ends_logical_ok; assumption|].
      split; [intros x y U V; apply div_check; eapply for_ends_inv; eassumption|]. split; [apply ends_fine_30; assumption|].
      intros x e; apply each_check; assumption.
    - split; [exact Ea|]. split; [apply ends_logical_ok; assumption|apply mod_check; assumption].
  Qed.
  Lemma not_bad e : negb (is_bad (M e)) = true -> M e <> Bad.
  Proof. intros H K. rewrite K in H. discriminate H. Qed.
  Lemma select_check p c t f : ck_bounds_select W r reuse_select p c t f = true -> select_range W r reuse_select p c t f.
  Proof.
    unfold ck_bounds_select, select_range. intros H. ands.
    split; [apply point_ok_ok; assumption|]. split; [apply point_ok_ok; assumption|]. split; [apply point_ok_ok; assumption|]. split.
    - intros P R. apply orb_true_iff in H1 as [K|K]; [rewrite P, R in K; discriminate K|]. ands.
      split; [apply ends_fine_64; assumption|]. split; [apply ends_fine_64; assumption|]. split; [apply ends_fine_64; assumption|]. apply finite_all_ok. assumption.
    - intros P. rewrite P in H0. cbn [orb] in H0. ands. split; [apply ends_fine_30; assumption|]. split; [apply ends_fine_30; assumption|].
      intros x [K|K]; apply not_bad.
      + pose proof (for_ends_inv _ _ _ ltac:(eassumption) x (i_min f) K (or_introl eq_refl)) as Q. cbv beta in Q. ands. assumption.
      + pose proof (for_ends_inv _ _ _ ltac:(eassumption) (i_min t) x (or_introl eq_refl) K) as Q. cbv beta in Q. ands. assumption.
  Qed.
  Lemma is_01_inv x : is_01 x = true -> x = Fin 0 \/ x = Fin 1.
  Proof. destruct x; try discriminate. cbn [is_01]. intros H. apply orb_true_iff in H as [H|H]; apply Z.eqb_eq in H; subst; auto. Qed.
  Lemma order_check a b : ck_order a b = true -> plain_order a b.
  Proof. unfold ck_order, plain_order. intros H. ands. split; apply negb_true_iff; assumption. Qed.
  Lemma equal_check a : ck_equal a = true -> plain_equal a.
  Proof. intros H x ->. discriminate H. Qed.
  Lemma learn_check pos c : ck_learnable W r pos c = true -> learnable W r pos c.
  Proof.
    revert pos.
    induction c as [|u f d|lets body IHlets IHbody|o a b IHa IHb|a IHa|q t f IHq IHt IHf|fn t args IHargs|c0] using expr_ind'; intros [|]; cbn [ck_learnable learnable];
      try (intros _; exact I); try (intros H; apply is_01_inv; exact H).
    - destruct f; try (intros _; exact I); intros H; apply is_01_inv; exact H.
    - destruct o; intros H; ands; try (apply is_01_inv; exact H); try (apply order_check; exact H); try (apply equal_check; exact H). split; auto.
    - destruct o; intros H; ands; try exact I; try (apply order_check; exact H); try (apply equal_check; exact H). split; auto.
    - apply IHa.
    - apply IHa.
  Qed.

  Theorem checks_sound : guards_sound W r reuse reuse_select (checks W r reuse reuse_select).
  Proof.
    constructor; cbn [checks g_visit g_bin g_not g_select g_call g_add_constant g_answer g_bounds_bin g_inner g_bounds_not g_bounds_select g_bounds_call g_align
      g_aligned g_learn g_subst g_at].
    - intros o a b z H _. cbn [ck_visit] in H. ands. destruct (M a); try discriminate; destruct (M b); try discriminate; eauto.
    - exact bin_check.
    - exact fine_64.
    - intros c t f H. unfold ck_select in H. ands. split; [apply fine_64; assumption|]. split; [apply fine_64; assumption|]. split; [apply fine_64; assumption|].
      apply finite_all_ok; assumption.
    - intros fn t l H. unfold ck_call in H. ands. split; [|split].
      + apply Forall_forall. intros x I. apply fine_64. exact (proj1 (forallb_forall _ l) H x I).
      + intros -> s d l' -> p b E Eb. cbn [ck_based] in H1. rewrite E, Eb in H1. intros dm I. pose proof (proj1 (forallb_forall _ _) H1 dm I) as K. cbv beta in K. ands.
        split; [assumption|apply Z.eqb_eq; assumption].
      + intros K. rewrite K in H0. discriminate H0.
    - intros a c H. ands. split; [apply fine_consts|apply in_range_64]; assumption.
    - intros e H. unfold ck_answer in H. ands. split; [split; [apply fine_64; assumption|assumption]|apply not_bad; assumption].
    - exact bounds_bin_check.
    - intros e e' H. ands. split; [|apply fine_30; assumption]. destruct (M e); try discriminate; eauto.
    - intros a H. ands. split; [apply point_ok_ok|apply ends_fine_64]; assumption.
    - exact select_check.
    - intros fn bs H ->. cbn [ck_bounds_call] in H. apply Forall_forall. intros b I. pose proof (proj1 (forallb_forall _ _) H b I) as K. cbv beta in K. ands.
      split; [apply point_ok_ok; assumption|]. split; [apply ends_fine_64; assumption|]. intros P. rewrite P in *. cbn [orb] in *. intros x e; apply each_check; assumption.
    - intros o a b H. unfold ck_align in H. ands. split; [apply modrem_ok_inv; assumption|]. split; [apply modrem_ok_inv; assumption|].
      intros ->. intros (y & E). apply orb_true_iff in H0 as [H0|H0]; [apply orb_true_iff in H0 as [H0|H0]|].
      + apply Z.eqb_eq, H0.
      + ands. exfalso. match goal with K : negb (emod _ _ =? 0) = true, N : negb (modulus b =? 0) = true |- _ => apply negb_true_iff, Z.eqb_neq in K, N; apply K;
          assert (D : remainder b = - y * modulus b) by lia; rewrite D; destruct (Z.lt_trichotomy (modulus b) 0) as [B|[B|B]]; [|contradiction|] end.
        * rewrite emod_neg by lia. replace (- y * modulus b) with (y * - modulus b) by ring. apply Z_mod_mult.
        * rewrite emod_pos by lia. apply Z_mod_mult.
      + ands. apply Z.eqb_eq in H0. rewrite H0 in E. lia.
    - intros al a b H. ands. split; [apply modrem_ok_inv; assumption|]. split; apply fine_64; assumption.
    - intros pos c H. ands. split; [apply fine_64; assumption|apply learn_check; assumption].
    - intros a b x H. unfold ck_subst in H. ands. split; [assumption|]. split; [assumption|]. split; [apply fine_heads; assumption|].
      split; [intros s B; exfalso; exact (fine_binds s x ltac:(assumption) B)|].
      intros _ s d ->. destruct b as [|s' [] d'| | | | | |]; try discriminate. eauto.
    - intros s n low p b d H E Eb En. unfold ck_at in H. rewrite E, Eb, En in H. cbv zeta in H |- *. ands. split; [assumption|apply Z.eqb_eq; assumption].
  Qed.
End Checks.
