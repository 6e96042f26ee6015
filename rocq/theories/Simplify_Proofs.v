(** Proofs about the simplification of one node (C12). *)
From Coq Require Import ZArith List Bool Lia.
From Verif Require Import Arith_Model Arith_Spec Arith_Proofs Buf_Model Expr_Model Expr_Spec Expr_Proofs Expr_Props Match_Model
  Rewrite_Model Rewrite_Proofs RewriteMatch_Proofs RewriteApply_Proofs RuleTac Rules RulesAll_Proofs Rewrite_Props Simplify_Model.
Import ListNotations.
Open Scope Z_scope.

(** ** The constants of the results are index_t values *)
Notation c64 := (consts_all in64).

Lemma c64_bin o a b : c64 (EBin o a b) <-> c64 a /\ c64 b.
Proof.
  split.
  - intros H; split; intros z Hz; apply H; [apply sub_l|apply sub_r]; auto.
  - intros [A B] z Hz. inversion Hz; subst; auto.
Qed.
Lemma c64_not a : c64 (ENot a) <-> c64 a.
Proof. split; [intros H z Hz; apply H; constructor; auto|]. intros A z Hz. inversion Hz; subst; auto. Qed.
Lemma c64_sel a b c : c64 (ESelect a b c) <-> c64 a /\ c64 b /\ c64 c.
Proof.
  split.
  - intros H; split; [|split]; intros z Hz; apply H; [apply sub_c|apply sub_t|apply sub_f]; auto.
  - intros (A & B & C) z Hz. inversion Hz; subst; auto.
Qed.
Lemma c64_call fn t l : c64 (ECall fn t l) <-> Forall c64 l.
Proof.
  split.
  - intros H. apply Forall_forall. intros x Hx z Hz. apply H. eapply sub_arg; eauto.
  - intros H z Hz. inversion Hz; subst. rewrite Forall_forall in H. eapply H; eauto.
Qed.
Lemma c64_const z : c64 (EConst z) <-> in64 z.
Proof. split; [intros H; apply H; constructor|]. intros H y Hy. inversion Hy; subst; auto. Qed.
Lemma c64_undef : c64 EUndef. Proof. intros z H; inversion H. Qed.
Lemma c64_make o a b : c64 a -> c64 b -> c64 (make_bin o a b).
Proof. intros A B. unfold make_bin. destruct (commutative o && should_commute a b); apply c64_bin; auto. Qed.
Lemma c64_0 : in64 0. Proof. unfold in64; cbn; lia. Qed.
Lemma c64_1 : in64 1. Proof. unfold in64; cbn; lia. Qed.
Lemma c64_boolean a : c64 a -> c64 (boolean a).
Proof.
  intros A. unfold boolean. destruct (negb (defined a) || is_boolean a); auto.
  destruct (as_constant a); [apply c64_const, in64_bool|]. apply c64_make; auto. apply c64_const, c64_0.
Qed.
Lemma c64_sub_bin o a b : c64 a -> c64 b -> c64 (sub_bin o a b).
Proof.
  intros A B. assert (Z0 : c64 (EConst 0)) by apply c64_const, c64_0.
  destruct o; cbn [sub_bin]; repeat match goal with |- c64 (if ?x then _ else _) => destruct x end;
    auto using c64_make, c64_boolean.
Qed.

Section Consts.
  Variable pr : predk -> nat -> bool.
  Variable cs : nat -> Z.
  Variable vs : nat -> expr.
  Hypothesis Hcs : forall n, in64 (cs n).
  Hypothesis Hvs : forall n, c64 (vs n).

  Lemma isub_const p f e : lits_ok p = true -> (r <- isub pr cs p ;; let '(f, v) := r in Val (f, EConst v)) = Val (f, e) -> c64 e.
  Proof.
    intros L H. apply bind_inv in H as ([fi vi] & Hi & H). injection H as <- <-.
    apply c64_const. eapply isub_ok; eauto.
  Qed.
  Lemma esub_const p : lits_ok p = true -> forall f e, esub pr cs vs p = Val (f, e) -> c64 e.
  Proof.
    induction p; intros L f0 e H.
    - cbn [esub] in H. injection H as <- <-. auto.
    - eapply isub_const; [exact L|exact H].
    - eapply isub_const; [exact L|exact H].
    - cbn [esub lits_ok] in *. eauto.
    - cbn [esub] in H. destruct (is_index p1 && is_index p2).
      { eapply isub_const; [exact L|exact H]. }
      cbn [lits_ok] in L; apply andb_true_iff in L as [L1 L2].
      apply bind_inv in H as ([fa ea] & Ha & H). apply bind_inv in H as ([fb eb] & Hb & H). injection H as <- <-.
      apply c64_sub_bin; eauto.
    - cbn [esub] in H. destruct (is_index p).
      { eapply isub_const; [exact L|exact H]. }
      cbn [lits_ok] in L. apply bind_inv in H as ([fa ea] & Ha & H). injection H as <- <-. apply c64_not; eauto.
    - cbn [esub lits_ok] in *. rewrite !andb_true_iff in L. destruct L as [[L1 L2] L3].
      apply bind_inv in H as ([fa ea] & Ha & H). apply bind_inv in H as ([fb eb] & Hb & H).
      apply bind_inv in H as ([fc ec] & Hc & H). injection H as <- <-. apply c64_sel. split; [eapply IHp1; eauto|split; [eapply IHp2; eauto|eapply IHp3; eauto]].
    - cbn [esub] in H. injection H as <- <-. apply c64_call; constructor.
    - cbn [esub lits_ok] in *. apply bind_inv in H as ([fa ea] & Ha & H). injection H as <- <-. apply c64_call. apply Forall_cons; [eapply IHp; eauto|apply Forall_nil].
    - cbn [esub lits_ok] in *. apply andb_true_iff in L as [L1 L2].
      apply bind_inv in H as ([fa ea] & Ha & H). apply bind_inv in H as ([fb eb] & Hb & H). injection H as <- <-.
      apply c64_call. apply Forall_cons; [eapply IHp1; eauto|]. apply Forall_cons; [eapply IHp2; eauto|apply Forall_nil].
    - cbn [esub lits_ok] in *. rewrite !andb_true_iff in L. destruct L as [[[L1 L2] L3] L4].
      apply bind_inv in H as ([fx ex] & Hx & H). apply bind_inv in H as ([fa va] & Ha & H).
      apply bind_inv in H as ([fb vb] & Hb & H). apply bind_inv in H as ([fc vc] & Hc & H).
      injection H as <- <-.
      apply isub_ok in Ha as [Ha _]; auto. apply isub_ok in Hb as [Hb _]; auto. apply isub_ok in Hc as [Hc _]; auto.
      apply IHp1 in Hx; auto. apply c64_const in Ha, Hb, Hc.
      destruct (va =? 0), (vb =? 1), (vc =? 1); unfold e_add, e_div, e_mul; auto using c64_make.
    - eapply isub_const; [exact L|exact H].
    - cbn [esub lits_ok] in *. apply bind_inv in H as ([fa ea] & Ha & H). injection H as <- <-. apply c64_boolean; eauto.
    - eapply isub_const; [exact L|exact H].
    - eapply isub_const; [exact L|exact H].
  Qed.
  Lemma find_const l : forallb (fun q => lits_ok (fst q) && lits_ok (snd q)) l = true ->
    forall e, find_replacement pr cs vs l = Val (Some e) -> c64 e.
  Proof.
    induction l as [|[q p] l IH]; cbn [forallb fst snd find_replacement]; intros L e H; [discriminate|].
    rewrite !andb_true_iff in L. destruct L as [[Lq Lp] L].
    apply bind_inv in H as ([fp vp] & Hp & H). destruct (truthy vp && negb fp); [|exact (IH L e H)].
    apply bind_inv in H as ([fr er] & Hr & H). destruct fr; [exact (IH L e H)|]. injection H as <-. exact (esub_const q Lq _ _ Hr).
  Qed.
End Consts.

Lemma apply_rule_consts ru e e' : wf_rule ru = true -> c64 e -> apply_rule ru e = Val (Some e') -> c64 e'.
Proof.
  unfold wf_rule. intros Wf Ce H. rewrite !andb_true_iff in Wf. destruct Wf as [[[Wp Wl] Wr] Wa].
  unfold apply_rule in H. apply bind_inv in H as ([m|] & Hm & H); [|discriminate].
  unfold match_any_variant in Hm. apply any_some in Hm as (variant & bits & Hm).
  pose proof (match_pat_ok ex_world (fun _ => Fin 0) in64 in64 (fun _ h => h) c64_0 c64_1 stair_in64 variant (r_lhs ru) _ _ _ _ _ Wp Ce Hm) as (_ & Cq & Vs & _ & _).
  eapply find_const; [| |exact Wa|exact H].
  - intros n. unfold bound_const. destruct (b_const m n) eqn:E; [eapply Cq; eauto; intros ? ?; discriminate|apply c64_0].
  - intros n. unfold bound_var. destruct (b_var m n) eqn:E; [|apply c64_undef].
    destruct (Vs _ _ E) as [K|[K|(z & -> & Hz)]]; [discriminate| |apply c64_const; auto].
    intros z Hz. apply Ce. eapply subexpr_trans; eauto.
Qed.

(** ** Tables *)

Definition table_applicable (W : world) (r : env) (l : list rule) (e : expr) : Prop :=
  forall ru e', In ru l -> apply_rule ru e = Val (Some e') -> rule_applicable W r ru e.

Lemma rewrite_or_ok W r l e d e' : incl l all_rules -> c64 e -> table_applicable W r l e -> c64 d ->
  refines (meaning W r e) (meaning W r d) ->
  rewrite_or l e d = Val e' -> refines (meaning W r e) (meaning W r e') /\ c64 e'.
Proof.
  intros Inc Ce Ap Cd Rd H. unfold rewrite_or in H. apply bind_inv in H as (o & Ho & H). injection H as <-.
  destruct o as [x|]; [|auto].
  apply C11_first_rule in Ho as (l1 & ru & l2 & -> & _ & A).
  assert (I : In ru (l1 ++ ru :: l2)) by (apply in_or_app; right; left; reflexivity).
  split.
  - exact (rule_sound W r ru e x (Inc _ I) Ce (Ap _ _ I A) A).
  - exact (apply_rule_consts ru e x (proj1 (in_rules_ok ru (Inc _ I))) Ce A).
Qed.

(** tables without exceptional rules *)
Lemma table_free W r l e : existsb needs_small l = false -> existsb needs_finite l = false -> table_applicable W r l e.
Proof.
  intros S F ru e' I _. split; intros K; exfalso.
  - assert (existsb needs_small l = true) by (apply existsb_exists; eauto). congruence.
  - assert (existsb needs_finite l = true) by (apply existsb_exists; eauto). congruence.
Qed.

Ltac incl_all := unfold all_rules; intros ? ?; repeat (apply in_or_app; first [left; assumption | right]); assumption.
Lemma incl_min : incl min_rules all_rules. Proof. incl_all. Qed.
Lemma incl_max : incl max_rules all_rules. Proof. incl_all. Qed.
Lemma incl_add : incl add_rules all_rules. Proof. incl_all. Qed.
Lemma incl_sub : incl sub_rules all_rules. Proof. incl_all. Qed.
Lemma incl_mul : incl mul_rules all_rules. Proof. incl_all. Qed.
Lemma incl_div : incl div_rules all_rules. Proof. incl_all. Qed.
Lemma incl_mod : incl mod_rules all_rules. Proof. incl_all. Qed.
Lemma incl_less : incl less_rules all_rules. Proof. incl_all. Qed.
Lemma incl_equal : incl equal_rules all_rules. Proof. incl_all. Qed.
Lemma incl_and : incl logical_and_rules all_rules. Proof. incl_all. Qed.
Lemma incl_or : incl logical_or_rules all_rules. Proof. incl_all. Qed.
Lemma incl_not : incl logical_not_rules all_rules. Proof. incl_all. Qed.
Lemma incl_select : incl select_rules all_rules. Proof. incl_all. Qed.
Lemma incl_call : incl call_rules all_rules. Proof. incl_all. Qed.

(** ** The exceptional rules of the min, max and equal tables only apply to some nodes *)

Lemma top_match ru e e' o p1 p2 : r_lhs ru = PBin o p1 p2 -> is_opt p1 = false -> is_opt p2 = false ->
  apply_rule ru e = Val (Some e') ->
  exists v x y bx ba b m1 m, (e = EBin o x y \/ e = EBin o y x) /\
    match_pat v p1 x no_binds bx = Val (Some m1, ba) /\ match_pat v p2 y m1 ba = Val (Some m, b).
Proof.
  intros L O1 O2 H. unfold apply_rule in H. apply bind_inv in H as ([m|] & Hm & H); [|discriminate].
  unfold match_any_variant in Hm. apply any_some in Hm as (variant & bits & Hm). rewrite L in Hm.
  rewrite match_bin_eq in Hm.
  assert (N : forall b, match p1, p2 with
             | POpt _ d, _ => both variant p1 p2 (EConst d) e no_binds b
             | _, POpt _ d => both variant p1 p2 e (EConst d) no_binds b
             | _, _ => Val (None, b)
             end <> Val (Some m, bits)).
  { intros b X. destruct p1; try discriminate; destruct p2; discriminate. }
  destruct e; try (exfalso; eapply N; exact Hm).
  destruct (binop_eqb o op) eqn:Eo; [|exfalso; eapply N; exact Hm].
  assert (o = op) by (destruct o, op; try discriminate; reflexivity). subst op.
  destruct (could_commute o p1 p2); [destruct (Z.testbit variant 0)|]; apply both_inv in Hm as (m1 & b1 & X1 & X2);
    do 8 eexists; (split; [|split; [exact X1|exact X2]]); auto.
Qed.

Lemma lit_match ru e e' o z : r_lhs ru = PBin o (PWild 0) (PLit z) -> apply_rule ru e = Val (Some e') -> subexpr (EConst z) e.
Proof.
  intros L H. destruct (top_match ru e e' _ _ _ L eq_refl eq_refl H) as (v & x & y & bx & ba & b & m1 & m & E & _ & H2).
  cbn [match_pat] in H2. destruct y; cbn [is_const] in H2; try discriminate.
  destruct (Z.eqb_spec c z); [|discriminate]. subst c. destruct E as [-> | ->]; [apply sub_r|apply sub_l]; constructor.
Qed.
Definition is_select (e : expr) : bool := match e with ESelect _ _ _ => true | _ => false end.
Lemma sel_match ru e e' o p c t f : r_lhs ru = PBin o p (PSel c t f) -> is_opt p = false -> apply_rule ru e = Val (Some e') ->
  exists a b, e = EBin o a b /\ (is_select a = true \/ is_select b = true).
Proof.
  intros L O H. destruct (top_match ru e e' _ _ _ L O eq_refl H) as (v & x & y & bx & ba & b & m1 & m & E & _ & H2).
  cbn [match_pat] in H2. destruct y; try discriminate. destruct E as [-> | ->]; do 2 eexists; (split; [reflexivity|]); cbn; auto.
Qed.

Notation c30 := (consts_all below30).
Lemma c30_c64 e : c30 e -> c64 e. Proof. intros H z Hz. apply in64_small, below30_small, H, Hz. Qed.
Lemma c30_bin o a b : c30 a -> c30 b -> c30 (EBin o a b).
Proof. intros A B z Hz. inversion Hz; subst; auto. Qed.

Lemma exc_in l ru : In ru l -> needs_finite ru = true -> In ru (filter needs_finite l).
Proof. intros; apply filter_In; auto. Qed.
Lemma exc_min : filter needs_finite min_rules = [r_min_36; r_min_38]. Proof. reflexivity. Qed.
Lemma exc_max : filter needs_finite max_rules = [r_max_163; r_max_165]. Proof. reflexivity. Qed.
Lemma exc_equal : filter needs_finite equal_rules = [r_equal_625; r_equal_626]. Proof. reflexivity. Qed.
Lemma exc_less : filter needs_finite less_rules = []. Proof. reflexivity. Qed.
Lemma exc_select : existsb needs_small select_rules = false. Proof. reflexivity. Qed.

Lemma c30_max e z : c30 e -> subexpr (EConst z) e -> z = 9223372036854775807 \/ z = -9223372036854775808 -> False.
Proof. intros C S K. specialize (C _ S). unfold below30 in C. change (2 ^ 30) with 1073741824 in C. lia. Qed.

Lemma table_min W r e : c30 e -> table_applicable W r min_rules e.
Proof.
  intros C ru e' I A. split; [auto|]. intros F. exfalso.
  pose proof (exc_in _ _ I F) as K. clear F. rename K into F. rewrite exc_min in F. destruct F as [<-|[<-|[]]].
  - apply (c30_max e 9223372036854775807); auto. eapply lit_match; [|exact A]; reflexivity.
  - apply (c30_max e (-9223372036854775808)); auto. eapply lit_match; [|exact A]; reflexivity.
Qed.
Lemma table_max W r e : c30 e -> table_applicable W r max_rules e.
Proof.
  intros C ru e' I A. split; [auto|]. intros F. exfalso.
  pose proof (exc_in _ _ I F) as K. clear F. rename K into F. rewrite exc_max in F. destruct F as [<-|[<-|[]]].
  - apply (c30_max e (-9223372036854775808)); auto. eapply lit_match; [|exact A]; reflexivity.
  - apply (c30_max e 9223372036854775807); auto. eapply lit_match; [|exact A]; reflexivity.
Qed.
Lemma table_less W r e : c30 e -> table_applicable W r less_rules e.
Proof.
  intros C ru e' I A. split; [auto|]. intros F. exfalso.
  pose proof (exc_in _ _ I F) as K. clear F. rename K into F. rewrite exc_less in F. destruct F.
Qed.

(** every subexpression has an index_t value *)
Definition all_finite (W : world) (r : env) (e : expr) : Prop :=
  forall x, subexpr x e -> exists z, meaning W r x = Fin z /\ in64 z.
Lemma all_finite_app W r e : all_finite W r e ->
  (forall x, subexpr x e -> is_fin (meaning W r x)) /\ Forall (fun x => in64x (meaning W r x)) (eoperands e).
Proof.
  intros F. split.
  - intros x Sx. destruct (F x Sx) as (z & -> & _). exact I.
  - apply Forall_forall. intros x Hx. assert (Sx : subexpr x e).
    { destruct e; cbn [eoperands In] in Hx; try tauto.
      - destruct Hx as [<-|[<-|[]]]; [apply sub_l|apply sub_r]; constructor.
      - destruct Hx as [<-|[]]; repeat constructor.
      - destruct Hx as [<-|[<-|[<-|[]]]]; [apply sub_c|apply sub_t|apply sub_f]; constructor.
      - eapply sub_arg; eauto. constructor. }
    destruct (F x Sx) as (z & -> & B). exact B.
Qed.
Lemma all_finite_equal W r a b : all_finite W r a -> all_finite W r b -> all_finite W r (EBin Equal a b).
Proof.
  intros A B x Sx. inversion Sx; subst; auto.
  destruct (A a (sub_refl a)) as (za & Ea & _), (B b (sub_refl b)) as (zb & Eb & _).
  cbn [meaning]. rewrite Ea, Eb. cbn [xbin xcmp]. eexists; split; [reflexivity|apply in64_bool].
Qed.
Lemma table_equal W r a b : c30 a -> c30 b ->
  (is_select a = true \/ is_select b = true -> all_finite W r a /\ all_finite W r b) ->
  table_applicable W r equal_rules (EBin Equal a b).
Proof.
  intros Ca Cb F ru e' I A. split; [intros _; apply c30_bin; auto|]. intros NF.
  pose proof (exc_in _ _ I NF) as K. clear NF. rename K into NF. rewrite exc_equal in NF.
  assert (S : is_select a = true \/ is_select b = true).
  { destruct NF as [<-|[<-|[]]].
    - eapply sel_match in A as (x & y & E & S); [|reflexivity|reflexivity]. injection E as -> ->. exact S.
    - eapply sel_match in A as (x & y & E & S); [|reflexivity|reflexivity]. injection E as -> ->. exact S. }
  destruct (F S) as [Fa Fb]. apply all_finite_app, all_finite_equal; auto.
Qed.
Lemma table_select W r e : all_finite W r e -> table_applicable W r select_rules e.
Proof.
  intros F ru e' I A. split; [intros K; exfalso|intros _; apply all_finite_app; auto].
  assert (existsb needs_small select_rules = true) by (apply existsb_exists; eauto). rewrite exc_select in H; discriminate.
Qed.

(** ** The binary operators *)

Section Bin.
  Variable W : world.
  Variable r : env.
  Notation M := (meaning W r).
  Definition good (x : xval) (e : expr) : Prop := refines x (M e) /\ c64 e.

  Lemma commute_inv a b a' b' : commute a b = (a', b') -> (a' = a /\ b' = b) \/ (a' = b /\ b' = a).
  Proof. unfold commute. destruct (should_commute a b); intros [= <- <-]; auto. Qed.
  Lemma commute_mean o a b a' b' : commutative o = true -> commute a b = (a', b') -> xbin o (M a') (M b') = xbin o (M a) (M b).
  Proof. intros C H. apply commute_inv in H as [[-> ->]|[-> ->]]; auto. apply xbin_comm; auto. Qed.

  Lemma indet_mean e : is_indeterminate e = true -> M e = Bad.
  Proof.
    unfold is_indeterminate, is_call. destruct e; try discriminate. destruct fn; try discriminate. reflexivity.
  Qed.
  Lemma inf_mean e : (is_infinity e = 1 /\ M e = PInf) \/ (is_infinity e = -1 /\ M e = NInf) \/ is_infinity e = 0.
  Proof.
    unfold is_infinity, is_positive_infinity, is_negative_infinity, is_call.
    destruct e; auto. destruct fn; cbn; auto.
  Qed.
  Lemma default_ok o a b l : incl l all_rules -> c64 a -> c64 b -> table_applicable W r l (EBin o a b) ->
    forall e, rewrite_or l (EBin o a b) (make_bin o a b) = Val e -> good (xbin o (M a) (M b)) e.
  Proof.
    intros I A B T e H. change (xbin o (M a) (M b)) with (M (EBin o a b)).
    refine (rewrite_or_ok W r l _ _ e I (proj2 (c64_bin _ _ _) (conj A B)) T (c64_make _ _ _ A B) _ H).
    rewrite make_bin_mean. apply refines_refl.
  Qed.

  Lemma folded_inv ov a b : folded ov a b = true -> exists x y, a = EConst x /\ b = EConst y /\ ov 64 x y = false.
  Proof.
    unfold folded. destruct a; try discriminate; destruct b; try discriminate. cbn [as_constant].
    intros H. apply negb_true_iff in H. eauto.
  Qed.
  Lemma xbin_bad_l o x : xbin o Bad x = Bad.
  Proof. destruct o, x; reflexivity. Qed.
  Lemma xbin_bad_r o x : xbin o x Bad = Bad.
  Proof. destruct o, x; reflexivity. Qed.
  Lemma indet_l o a b : c64 a -> is_indeterminate a = true -> good (xbin o (M a) (M b)) a.
  Proof. intros C H. split; [|auto]. rewrite (indet_mean a H), xbin_bad_l. apply refines_bad. Qed.
  Lemma indet_r o a b : c64 b -> is_indeterminate b = true -> good (xbin o (M a) (M b)) b.
  Proof. intros C H. split; [|auto]. rewrite (indet_mean b H), xbin_bad_r. apply refines_bad. Qed.
  Lemma const_good x z : refines x (Fin z) -> in64 z -> good x (EConst z).
  Proof. intros R I. split; [exact R|apply c64_const; auto]. Qed.
  Lemma c64_indet : c64 indeterminate. Proof. apply c64_call; constructor. Qed.
  Lemma c64_inf s : c64 (infinity s). Proof. unfold infinity. destruct (s <? 0); apply c64_call; constructor. Qed.

  Lemma bin_fold o x y v : in64 x -> in64 y -> eval_bin o x y = Val v -> good (xbin o (Fin x) (Fin y)) (EConst v).
  Proof.
    intros X Y H. pose proof (eval_bin_in64 _ _ _ _ X Y H) as I. apply const_good; auto.
    right. eapply eval_bin_mean; eauto.
  Qed.

  Ltac comm a0 b0 a b Ca Cb :=
    let E := fresh "E" in
    destruct (commute a0 b0) as [a b] eqn:E;
    assert (c64 a /\ c64 b) as [Ca Cb] by (apply commute_inv in E as [[-> ->]|[-> ->]]; auto);
    first [rewrite <- (commute_mean Min a0 b0 a b eq_refl E) | rewrite <- (commute_mean Max a0 b0 a b eq_refl E)
    | rewrite <- (commute_mean Add a0 b0 a b eq_refl E) | rewrite <- (commute_mean Mul a0 b0 a b eq_refl E)
    | rewrite <- (commute_mean Equal a0 b0 a b eq_refl E) | rewrite <- (commute_mean And a0 b0 a b eq_refl E)
    | rewrite <- (commute_mean Or a0 b0 a b eq_refl E)].
  Lemma commute_c30 a0 b0 a b : commute a0 b0 = (a, b) -> c30 a0 -> c30 b0 -> c30 a /\ c30 b.
  Proof. intros E. apply commute_inv in E as [[-> ->]|[-> ->]]; auto. Qed.

  Definition two_consts (a b : expr) : option (Z * Z) :=
    match as_constant a, as_constant b with Some x, Some y => Some (x, y) | _, _ => None end.
  Lemma two_inv a b p : two_consts a b = Some p -> a = EConst (fst p) /\ b = EConst (snd p).
  Proof. unfold two_consts. destruct a; try discriminate. destruct b; try discriminate. intros [= <-]. auto. Qed.

  Lemma simplify_min_ok a0 b0 e : c30 a0 -> c30 b0 -> simplify_min a0 b0 = Val e -> good (xbin Min (M a0) (M b0)) e.
  Proof.
    intros A B H. unfold simplify_min in H. apply c30_c64 in A as A', B as B'. comm a0 b0 a b Ca Cb.
    destruct (commute_c30 _ _ _ _ E A B) as [C3 C4].
    assert (K : (if is_indeterminate a then Val a else if is_indeterminate b then Val b
      else rewrite_or min_rules (EBin Min a b) (make_bin Min a b)) = Val e -> good (xbin Min (M a) (M b)) e).
    { clear H. intros H. destruct (is_indeterminate a) eqn:Ia; [injection H as <-; apply indet_l; auto|].
      destruct (is_indeterminate b) eqn:Ib; [injection H as <-; apply indet_r; auto|].
      refine (default_ok _ _ _ _ incl_min Ca Cb _ _ H). apply table_min, c30_bin; auto. }
    destruct a; cbn [as_constant] in H; auto. destruct b; cbn [as_constant] in H; auto.
    injection H as <-. apply c64_const in Ca, Cb. apply (bin_fold Min); auto.
  Qed.
  Lemma simplify_max_ok a0 b0 e : c30 a0 -> c30 b0 -> simplify_max a0 b0 = Val e -> good (xbin Max (M a0) (M b0)) e.
  Proof.
    intros A B H. unfold simplify_max in H. apply c30_c64 in A as A', B as B'. comm a0 b0 a b Ca Cb.
    destruct (commute_c30 _ _ _ _ E A B) as [C3 C4].
    assert (K : (if is_indeterminate a then Val a else if is_indeterminate b then Val b
      else rewrite_or max_rules (EBin Max a b) (make_bin Max a b)) = Val e -> good (xbin Max (M a) (M b)) e).
    { clear H. intros H. destruct (is_indeterminate a) eqn:Ia; [injection H as <-; apply indet_l; auto|].
      destruct (is_indeterminate b) eqn:Ib; [injection H as <-; apply indet_r; auto|].
      refine (default_ok _ _ _ _ incl_max Ca Cb _ _ H). apply table_max, c30_bin; auto. }
    destruct a; cbn [as_constant] in H; auto. destruct b; cbn [as_constant] in H; auto.
    injection H as <-. apply c64_const in Ca, Cb. apply (bin_fold Max); auto.
  Qed.

  Lemma simplify_add_ok a0 b0 e : c64 a0 -> c64 b0 -> simplify_add a0 b0 = Val e -> good (xbin Add (M a0) (M b0)) e.
  Proof.
    intros A B H. unfold simplify_add in H. comm a0 b0 a b Ca Cb.
    destruct (folded add_overflows a b) eqn:Fo.
    { apply folded_inv in Fo as (x & y & -> & -> & _). apply c64_const in Ca, Cb. cbn [cst] in H.
      apply bind_inv in H as (v & Hv & H). injection H as <-. apply (bin_fold Add); auto. }
    destruct (is_indeterminate a) eqn:Ia; [injection H as <-; apply indet_l; auto|].
    destruct (is_indeterminate b) eqn:Ib; [injection H as <-; apply indet_r; auto|].
    destruct (negb (is_infinity a =? 0) && negb (is_infinity b =? 0)) eqn:If.
    - injection H as <-.
      destruct (inf_mean a) as [[Ea Ma]|[[Ea Ma]|Ea]], (inf_mean b) as [[Eb Mb]|[[Eb Mb]|Eb]]; rewrite Ea, Eb in *;
        try discriminate; cbn [Z.eqb Pos.eqb]; (split; [|auto using c64_indet]); rewrite ?Ma, ?Mb; cbn; rewrite ?Ma, ?Mb;
        try apply refines_refl; apply refines_bad.
    - refine (default_ok _ _ _ _ incl_add Ca Cb _ _ H). apply table_free; reflexivity.
  Qed.

  Lemma simplify_sub_ok a b e : c64 a -> c64 b -> simplify_sub a b = Val e -> good (xbin Sub (M a) (M b)) e.
  Proof.
    intros Ca Cb H. unfold simplify_sub in H.
    destruct (folded sub_overflows a b) eqn:Fo.
    { apply folded_inv in Fo as (x & y & -> & -> & _). apply c64_const in Ca, Cb. cbn [cst] in H.
      apply bind_inv in H as (v & Hv & H). injection H as <-. apply (bin_fold Sub); auto. }
    destruct (match as_constant b with Some y => negb (sub_overflows 64 0 y) | None => false end) eqn:Cn.
    { destruct b; try discriminate. cbn [cst] in H. apply bind_inv in H as (n & Hn & H).
      apply chk_inv in Hn as [-> Hn].
      apply (simplify_add_ok a _ e Ca (proj2 (c64_const _) Hn)) in H.
      destruct H as [H1 H2]. split; [destruct (M a); exact H1|exact H2]. }
    destruct (is_indeterminate a) eqn:Ia; [injection H as <-; apply indet_l; auto|].
    destruct (is_indeterminate b) eqn:Ib; [injection H as <-; apply indet_r; auto|].
    destruct (negb (is_infinity a =? 0) && negb (is_infinity b =? 0)) eqn:If.
    - injection H as <-.
      destruct (inf_mean a) as [[Ea Ma]|[[Ea Ma]|Ea]], (inf_mean b) as [[Eb Mb]|[[Eb Mb]|Eb]]; rewrite Ea, Eb in *;
        try discriminate; cbn [Z.eqb Pos.eqb]; (split; [|auto using c64_indet]); rewrite ?Ma, ?Mb; cbn; rewrite ?Ma, ?Mb;
        try apply refines_refl; apply refines_bad.
    - refine (default_ok _ _ _ _ incl_sub Ca Cb _ _ H). apply table_free; reflexivity.
  Qed.

  Lemma simplify_mul_ok a0 b0 e : c64 a0 -> c64 b0 -> simplify_mul a0 b0 = Val e -> good (xbin Mul (M a0) (M b0)) e.
  Proof.
    intros A B H. unfold simplify_mul in H. comm a0 b0 a b Ca Cb.
    destruct (folded mul_overflows a b) eqn:Fo.
    { apply folded_inv in Fo as (x & y & -> & -> & _). apply c64_const in Ca, Cb. cbn [cst] in H.
      apply bind_inv in H as (v & Hv & H). injection H as <-. apply (bin_fold Mul); auto. }
    destruct (is_indeterminate a) eqn:Ia; [injection H as <-; apply indet_l; auto|].
    destruct (is_indeterminate b) eqn:Ib; [injection H as <-; apply indet_r; auto|].
    destruct (negb (is_infinity a =? 0) && negb (is_infinity b =? 0)) eqn:If.
    - injection H as <-.
      destruct (inf_mean a) as [[Ea Ma]|[[Ea Ma]|Ea]], (inf_mean b) as [[Eb Mb]|[[Eb Mb]|Eb]]; rewrite Ea, Eb in *;
        try discriminate; (split; [|apply c64_inf]); rewrite ?Ma, ?Mb; cbn;
        try apply refines_refl; apply refines_bad.
    - refine (default_ok _ _ _ _ incl_mul Ca Cb _ _ H). apply table_free; reflexivity.
  Qed.

  Lemma simplify_div_ok a b e : c64 a -> c64 b -> simplify_div a b = Val e -> good (xbin Div (M a) (M b)) e.
  Proof.
    intros Ca Cb H. unfold simplify_div in H.
    assert (K : (if is_indeterminate a then Val a else if is_indeterminate b then Val b
      else if negb (is_infinity a =? 0) && negb (is_infinity b =? 0) then Val indeterminate
      else rewrite_or div_rules (EBin Div a b) (make_bin Div a b)) = Val e -> good (xbin Div (M a) (M b)) e).
    { clear H. intros H. destruct (is_indeterminate a) eqn:Ia; [injection H as <-; apply indet_l; auto|].
      destruct (is_indeterminate b) eqn:Ib; [injection H as <-; apply indet_r; auto|].
      destruct (negb (is_infinity a =? 0) && negb (is_infinity b =? 0)) eqn:If.
      - injection H as <-. split; [|apply c64_indet].
        destruct (inf_mean a) as [[Ea Ma]|[[Ea Ma]|Ea]], (inf_mean b) as [[Eb Mb]|[[Eb Mb]|Eb]]; rewrite Ea, Eb in *;
          try discriminate; rewrite ?Ma, ?Mb; cbn; try apply refines_refl; apply refines_bad.
      - refine (default_ok _ _ _ _ incl_div Ca Cb _ _ H). apply table_free; reflexivity. }
    destruct a; cbn [as_constant] in H; auto. destruct b; cbn [as_constant] in H; auto.
    apply bind_inv in H as (v & Hv & H). injection H as <-. apply c64_const in Ca, Cb. apply (bin_fold Div); auto.
  Qed.
  Lemma simplify_mod_ok a b e : c64 a -> c64 b -> simplify_mod a b = Val e -> good (xbin Mod (M a) (M b)) e.
  Proof.
    intros Ca Cb H. unfold simplify_mod in H.
    assert (K : rewrite_or mod_rules (EBin Mod a b) (make_bin Mod a b) = Val e -> good (xbin Mod (M a) (M b)) e).
    { clear H. intros H. refine (default_ok _ _ _ _ incl_mod Ca Cb _ _ H). apply table_free; reflexivity. }
    destruct a; cbn [as_constant] in H; auto. destruct b; cbn [as_constant] in H; auto.
    apply bind_inv in H as (v & Hv & H). injection H as <-. apply c64_const in Ca, Cb. apply (bin_fold Mod); auto.
  Qed.
  Lemma simplify_less_ok a b e : c30 a -> c30 b -> simplify_less a b = Val e -> good (xbin Less (M a) (M b)) e.
  Proof.
    intros A B H. unfold simplify_less in H. apply c30_c64 in A as Ca, B as Cb.
    assert (K : rewrite_or less_rules (EBin Less a b) (make_bin Less a b) = Val e -> good (xbin Less (M a) (M b)) e).
    { clear H. intros H. refine (default_ok _ _ _ _ incl_less Ca Cb _ _ H). apply table_less, c30_bin; auto. }
    destruct a; cbn [as_constant] in H; auto. destruct b; cbn [as_constant] in H; auto.
    injection H as <-. apply c64_const in Ca, Cb. apply (bin_fold Less); auto.
  Qed.
  Lemma simplify_not_ok a e : c64 a -> simplify_not a = Val e -> good (xnot (M a)) e.
  Proof.
    intros Ca H. unfold simplify_not in H.
    assert (K : rewrite_or logical_not_rules (ENot a) (ENot a) = Val e -> good (xnot (M a)) e).
    { clear H. intros H. change (xnot (M a)) with (M (ENot a)). 
      refine (rewrite_or_ok W r _ _ _ e incl_not (proj2 (c64_not _) Ca) _ (proj2 (c64_not _) Ca) (refines_refl _) H).
      apply table_free; reflexivity. }
    destruct a; cbn [as_constant] in H; auto. injection H as <-. apply const_good; [apply refines_refl|apply in64_bool].
  Qed.
  Lemma not_less a b : xnot (xbin Less b a) = xbin LessEqual a b.
  Proof.
    destruct a, b; cbn [xbin xcmp xnot]; try reflexivity. f_equal. rewrite of_bool_eq0.
    destruct (Z.ltb_spec z0 z), (Z.leb_spec z z0); try lia; reflexivity.
  Qed.
  Lemma not_equal a b : xnot (xbin Equal a b) = xbin NotEqual a b.
  Proof. destruct a, b; cbn [xbin xcmp xnot]; try reflexivity. f_equal. rewrite of_bool_eq0. reflexivity. Qed.
  Lemma simplify_less_equal_ok a b e : c30 a -> c30 b -> simplify_less_equal a b = Val e -> good (xbin LessEqual (M a) (M b)) e.
  Proof.
    intros A B H. apply bind_inv in H as (e1 & H1 & H2). apply (simplify_less_ok b a e1 B A) in H1 as [R1 C1].
    apply (simplify_not_ok e1 e C1) in H2 as [R2 C2]. split; [|exact C2].
    rewrite <- not_less. eapply refines_trans; [apply refines_xnot; exact R1|exact R2].
  Qed.
  Lemma simplify_equal_ok a0 b0 e : c30 a0 -> c30 b0 ->
    (is_select a0 = true \/ is_select b0 = true -> all_finite W r a0 /\ all_finite W r b0) ->
    simplify_equal a0 b0 = Val e -> good (xbin Equal (M a0) (M b0)) e.
  Proof.
    intros A B F H. unfold simplify_equal in H. apply c30_c64 in A as A', B as B'. comm a0 b0 a b Ca Cb.
    destruct (commute_c30 _ _ _ _ E A B) as [C3 C4].
    assert (K : rewrite_or equal_rules (EBin Equal a b) (make_bin Equal a b) = Val e -> good (xbin Equal (M a) (M b)) e).
    { clear H. intros H. refine (default_ok _ _ _ _ incl_equal Ca Cb _ _ H). apply table_equal; auto.
      apply commute_inv in E as [[-> ->]|[-> ->]]; [exact F|]. intros K. destruct F; [tauto|split; auto]. }
    destruct a; cbn [as_constant] in H; auto. destruct b; cbn [as_constant] in H; auto.
    injection H as <-. apply c64_const in Ca, Cb. apply (bin_fold Equal); auto.
  Qed.
  Lemma simplify_not_equal_ok a b e : c30 a -> c30 b ->
    (is_select a = true \/ is_select b = true -> all_finite W r a /\ all_finite W r b) ->
    simplify_not_equal a b = Val e -> good (xbin NotEqual (M a) (M b)) e.
  Proof.
    intros A B F H. apply bind_inv in H as (e1 & H1 & H2). apply (simplify_equal_ok a b e1 A B F) in H1 as [R1 C1].
    apply (simplify_not_ok e1 e C1) in H2 as [R2 C2]. split; [|exact C2].
    rewrite <- not_equal. eapply refines_trans; [apply refines_xnot; exact R1|exact R2].
  Qed.

  Lemma simplify_and_ok a0 b0 e : c64 a0 -> c64 b0 -> simplify_and a0 b0 = Val e -> good (xbin And (M a0) (M b0)) e.
  Proof.
    intros A B H. unfold simplify_and in H. comm a0 b0 a b Ca Cb.
    assert (K : rewrite_or logical_and_rules (EBin And a b) (make_bin And a b) = Val e -> good (xbin And (M a) (M b)) e).
    { clear H. intros H. refine (default_ok _ _ _ _ incl_and Ca Cb _ _ H). apply table_free; reflexivity. }
    assert (K2 : forall y, b = EConst y -> Val (if truthy y then boolean a else EConst 0) = Val e -> good (xbin And (M a) (M b)) e).
    { intros y -> Hy. injection Hy as <-. split.
      - cbn [meaning xbin]. destruct (truthy y) eqn:Ty.
        + eapply refines_trans; [|apply boolean_mean]. destruct (M a); cbn [xbool2 xboolean]; try apply refines_bad. rewrite Ty, andb_true_r. apply refines_refl.
        + destruct (M a); cbn [xbool2 meaning]; try apply refines_bad. rewrite Ty, andb_false_r. apply refines_refl.
      - destruct (truthy y); [apply c64_boolean; auto|apply c64_const, c64_0]. }
    destruct b; cbn [as_constant] in H; try (destruct (as_constant a); auto; fail).
    destruct a; cbn [as_constant] in H; try (apply (K2 c); auto; fail).
    injection H as <-. apply c64_const in Ca, Cb. apply (bin_fold And); auto.
  Qed.
  Lemma simplify_or_ok a0 b0 e : c64 a0 -> c64 b0 -> simplify_or a0 b0 = Val e -> good (xbin Or (M a0) (M b0)) e.
  Proof.
    intros A B H. unfold simplify_or in H. comm a0 b0 a b Ca Cb.
    assert (K : rewrite_or logical_or_rules (EBin Or a b) (make_bin Or a b) = Val e -> good (xbin Or (M a) (M b)) e).
    { clear H. intros H. refine (default_ok _ _ _ _ incl_or Ca Cb _ _ H). apply table_free; reflexivity. }
    assert (K2 : forall y, b = EConst y -> Val (if truthy y then EConst 1 else boolean a) = Val e -> good (xbin Or (M a) (M b)) e).
    { intros y -> Hy. injection Hy as <-. split.
      - cbn [meaning xbin]. destruct (truthy y) eqn:Ty.
        + destruct (M a); cbn [xbool2 meaning]; try apply refines_bad. rewrite Ty, orb_true_r. apply refines_refl.
        + eapply refines_trans; [|apply boolean_mean]. destruct (M a); cbn [xbool2 xboolean]; try apply refines_bad. rewrite Ty, orb_false_r. apply refines_refl.
      - destruct (truthy y); [apply c64_const, c64_1|apply c64_boolean; auto]. }
    destruct b; cbn [as_constant] in H; try (destruct (as_constant a); auto; fail).
    destruct a; cbn [as_constant] in H; try (apply (K2 c); auto; fail).
    injection H as <-. apply c64_const in Ca, Cb. apply (bin_fold Or); auto.
  Qed.

  Lemma simplify_select_ok c t f e : c64 c -> c64 t -> c64 f ->
    all_finite W r (ESelect c t f) ->
    simplify_select c t f = Val e -> good (xselect (M c) (M t) (M f)) e.
  Proof.
    intros Cc Ct Cf F H. unfold simplify_select in H.
    destruct (is_true c) eqn:T.
    { injection H as <-. split; auto. apply is_true_inv in T as (z & Hz & ->). cbn [meaning xselect].
      replace (truthy z) with true by (unfold truthy; destruct (Z.eqb_spec z 0); [contradiction|reflexivity]). apply refines_refl. }
    destruct (is_false c) eqn:N.
    { injection H as <-. split; auto. apply is_zero_inv in N as ->. cbn [meaning xselect truthy Z.eqb negb]. apply refines_refl. }
    change (xselect (M c) (M t) (M f)) with (M (ESelect c t f)).
    assert (S : c64 (ESelect c t f)) by (apply c64_sel; auto).
    refine (rewrite_or_ok W r _ _ _ e incl_select S _ S (refines_refl _) H).
    apply table_select; auto.
  Qed.
End Bin.

(** ** Calls *)

(** Every semaphore intrinsic returns 1 (evaluate.cc:232, 249, 272). *)
Definition semaphores_return_one (W : world) : Prop :=
  forall fn l, is_semaphore_fn fn = true -> w_intrinsic W fn l = 1.
(** [b] is not empty in any dimension, and its base is the address of its min *)
Definition based_at_min (b : buf) : Prop :=
  forall d, In d (dims b) -> d_contains d (d_min d) = true /\ d_offset d (d_min d) = 0.

Lemma const_args_mean W r r' fn t l : forallb (fun a => match as_constant a with Some _ => true | None => false end) l = true ->
  meaning W r (ECall fn t l) = meaning W r' (ECall fn t l).
Proof.
  intros H. cbn [meaning].
  assert (E : map (fun a => (defined a, meaning W r a)) l = map (fun a => (defined a, meaning W r' a)) l).
  { apply map_ext_in. intros a Ha. rewrite forallb_forall in H. specialize (H a Ha). destruct a; try discriminate. reflexivity. }
  rewrite E. destruct fn; try reflexivity. cbn [xcall].
  destruct l as [|a l]; [reflexivity|]. cbn [forallb] in H. destruct a; try discriminate. reflexivity.
Qed.

Lemma buffer_at_none ds p l : (forall d, In d ds -> d_contains d (d_min d) = true /\ d_offset d (d_min d) = 0) ->
  forall l', Forall2 (fun q q' => q' = q \/ q' = None) l l' ->
  (forall i d, nth_error ds i = Some d -> nth_error l i <> None -> nth_error l' i = Some None -> nth_error l i = Some None \/ nth_error l i = Some (Some (d_min d))) ->
  buffer_at_loop p ds l' = buffer_at_loop p ds l.
Proof.
  revert ds p. induction l as [|q l IH]; intros ds p P l' F N; inversion F; subst; [reflexivity|].
  destruct ds as [|d ds]; [reflexivity|].
  assert (R : forall p, buffer_at_loop p ds l'0 = buffer_at_loop p ds l).
  { intros p0. apply IH; [intros; apply P; right; auto|auto|]. intros i dd A B C. apply (N (S i) dd A B C). }
  destruct H1 as [-> | ->].
  - destruct q; cbn [buffer_at_loop]; apply R.
  - destruct (N O d eq_refl ltac:(discriminate) eq_refl) as [K|K]; injection K as ->; cbn [buffer_at_loop]; rewrite R; [reflexivity|].
    destruct (P d (or_introl eq_refl)) as [-> ->]. destruct p; [rewrite Z.add_0_r|]; reflexivity.
Qed.
Lemma buffer_at_pad ds : forall l k p, buffer_at_loop p ds (l ++ repeat None k) = buffer_at_loop p ds l.
Proof.
  induction ds as [|d ds IH]; intros l k p; [destruct l, k; reflexivity|].
  destruct l as [|[x|] l]; cbn [app buffer_at_loop]; auto.
  clear -IH. destruct k; cbn [repeat buffer_at_loop]; auto. rewrite <- (app_nil_l (repeat None k)), IH. destruct ds; reflexivity.
Qed.

Section Call.
  Variable W : world.
  Variable r : env.
  Hypothesis HW : world_ok W.
  Notation M := (meaning W r).
  Notation pairs := (map (fun a => (defined a, M a))).

  Lemma const_consts_ok l : Forall c64 l -> forallb (fun a => match as_constant a with Some _ => true | None => false end) l = true ->
    Forall consts_ok l /\ Forall lets_distinct l.
  Proof.
    induction 1 as [|a l A F IH]; cbn [forallb]; intros H; [split; constructor|].
    apply andb_true_iff in H as [H1 H2]. destruct (IH H2). destruct a; try discriminate.
    split; constructor; auto; try exact I. apply c64_const; exact A.
  Qed.

  Lemma finish_call_ok fn t l e : Forall c64 l ->
    forall k, (k = true -> forallb (fun a => match as_constant a with Some _ => true | None => false end) l = true) ->
    finish_call W k fn t l = Val e -> good W r (M (ECall fn t l)) e.
  Proof.
    intros C k K H. unfold finish_call in H. destruct (k && can_evaluate fn) eqn:B.
    - apply andb_true_iff in B as [-> _]. specialize (K eq_refl).
      apply bind_inv in H as ([v c'] & Hv & H). injection H as <-. cbn [fst].
      destruct (const_consts_ok l C K) as [Ck Ld].
      assert (CT : ctx_ok (fun _ => 0)) by (intros s; apply c64_0).
      destruct (C09_evaluate_sound W (fun _ => 0) (ECall fn t l) v c' HW CT) as (Mv & _ & Iv).
      + clear -Ck. induction Ck; cbn; auto.
      + clear -Ld. induction Ld; cbn; auto.
      + exact Hv.
      + apply const_good; [|exact Iv]. right. rewrite (const_args_mean W r (of_context (fun _ => 0)) fn t l K). exact Mv.
    - assert (C' : c64 (ECall fn t l)) by (apply c64_call; exact C).
      refine (rewrite_or_ok W r _ _ _ e incl_call C' _ C' (refines_refl _) H). apply table_free; reflexivity.
  Qed.

  Lemma drop_pairs_sub l : forall l', drop_undefined_pairs l = Val l' -> Forall c64 l -> Forall c64 l' /\
    (forallb (fun a => match as_constant a with Some _ => true | None => false end) l = true -> l' = l).
  Proof.
    assert (G : forall n l, (length l <= n)%nat -> forall l', drop_undefined_pairs l = Val l' -> Forall c64 l -> Forall c64 l' /\
      (forallb (fun a => match as_constant a with Some _ => true | None => false end) l = true -> l' = l)).
    { clear l. induction n; intros l Ln l' H F.
      - destruct l; [|cbn in Ln; lia]. injection H as <-. auto.
      - destruct l as [|s [|m l]]; cbn [drop_undefined_pairs] in H; [injection H as <-; auto|discriminate|].
        apply bind_inv in H as (q & Hq & H). injection H as <-. inversion F as [|? ? Fs F1]; subst. inversion F1 as [|? ? Fm F2]; subst.
        cbn [length] in Ln. destruct (IHn l ltac:(lia) q Hq F2) as [A B]. split.
        + destruct (defined s); auto.
        + cbn [forallb]. rewrite !andb_true_iff. intros (K1 & K2 & K3). rewrite (B K3). destruct s; try discriminate. reflexivity. }
    apply (G (length l)); auto.
  Qed.
  Lemma drop_pairs_args l : forall l' vs, drop_undefined_pairs l = Val l' -> xargs (pairs l) = Some vs -> exists vs', xargs (pairs l') = Some vs'.
  Proof.
    assert (G : forall n l, (length l <= n)%nat -> forall l' vs, drop_undefined_pairs l = Val l' -> xargs (pairs l) = Some vs -> exists vs', xargs (pairs l') = Some vs').
    { clear l. induction n; intros l Ln l' vs H X.
      - destruct l; [|cbn in Ln; lia]. injection H as <-. eauto.
      - destruct l as [|s [|m l]]; cbn [drop_undefined_pairs] in H; [injection H as <-; eauto|discriminate|].
        apply bind_inv in H as (q & Hq & H). injection H as <-. cbn [length] in Ln. cbn [map xargs] in X.
        assert (exists v1, xargs (pairs l) = Some v1) as [v1 E1].
        { destruct (defined s); [destruct (M s); try discriminate|]; destruct (defined m); try (destruct (M m); try discriminate);
            destruct (xargs (pairs l)); try discriminate; eauto. }
        destruct (IHn l ltac:(lia) q v1 Hq E1) as [v2 E2].
        destruct (defined s) eqn:Ds; [|eauto]. cbn [map xargs] in *. rewrite Ds in *. destruct (M s); try discriminate.
        destruct (defined m); [destruct (M m); try discriminate|]; rewrite E2; cbn [option_map]; eauto. }
    apply (G (length l)); auto.
  Qed.

  Lemma clear_c64 s : forall l d, Forall c64 l -> Forall c64 (clear_mins s d l).
  Proof. intros l; induction l; intros d H; inversion H; subst; cbn [clear_mins]; constructor; auto. destruct (is_min_of a s d); auto using c64_undef. Qed.
  Lemma pop_app l : exists k, l = pop_undefined l ++ repeat EUndef k.
  Proof.
    induction l as [|e l [k IH]]; [exists O; reflexivity|]. cbn [pop_undefined]. destruct (pop_undefined l) as [|y l'] eqn:E.
    - destruct (defined e) eqn:D.
      + exists k. cbn [app]. rewrite IH at 1. reflexivity.
      + exists (S k). destruct e; try discriminate. cbn [app repeat]. rewrite IH at 1. reflexivity.
    - exists k. cbn [app] in *. rewrite IH at 1. reflexivity.
  Qed.
  Lemma pop_c64 l : Forall c64 l -> Forall c64 (pop_undefined l).
  Proof. intros H. destruct (pop_app l) as [k E]. rewrite E in H. apply Forall_app in H. tauto. Qed.

  Lemma firstn_len {A} (l : list A) n : (length (firstn n l) <= n)%nat.
  Proof. rewrite firstn_length. lia. Qed.

  (** the arguments of buffer_at after the minima are cleared *)
  Lemma clear_args s p b : r s = Fin p -> w_buf W p = Some b ->
    forall l d n vs, 0 <= d -> xargs (firstn n (pairs l)) = Some vs ->
    exists vs', xargs (firstn n (pairs (clear_mins s d l))) = Some vs' /\
      Forall2 (fun q q' => q' = q \/ q' = None) vs vs' /\
      forall i, nth_error vs' i = Some None -> nth_error vs i = Some None \/ nth_error vs i = Some (Some (d_min (dim_at b (Z.to_nat d + i)))).
  Proof.
    intros Hs Hb. induction l as [|a l IH]; intros d n vs Hd H.
    - cbn [map clear_mins] in *. rewrite firstn_nil in *. injection H as <-. exists []. split; [reflexivity|split; [constructor|]].
      intros [|i]; discriminate.
    - destruct n; cbn [map firstn xargs clear_mins] in *.
      { injection H as <-. exists []. split; [reflexivity|split; [constructor|]]. intros [|i]; discriminate. }
      assert (exists q vs1, xargs (firstn n (pairs l)) = Some vs1 /\ vs = q :: vs1 /\
        ((defined a = false /\ q = None) \/ (defined a = true /\ exists z, M a = Fin z /\ q = Some z))) as (q & vs1 & E1 & -> & Q).
      { destruct (defined a).
        - destruct (M a); try discriminate. destruct (xargs (firstn n (pairs l))) as [v1|]; [|discriminate]. injection H as <-.
          do 2 eexists; split; [reflexivity|split; [reflexivity|]]. right; eauto.
        - destruct (xargs (firstn n (pairs l))) as [v1|]; [|discriminate]. injection H as <-.
          do 2 eexists; split; [reflexivity|split; [reflexivity|]]. left; eauto. }
      destruct (IH (d + 1) n vs1 ltac:(lia) E1) as (vs' & E2 & F2 & N2).
      assert (N3 : forall i, nth_error vs' i = Some None -> nth_error vs1 i = Some None \/ nth_error vs1 i = Some (Some (d_min (dim_at b (Z.to_nat d + S i))))).
      { intros i Hi. destruct (N2 i Hi) as [K|K]; [auto|right]. rewrite K. do 4 f_equal. lia. }
      destruct (is_min_of a s d) eqn:Mn.
      + cbn [defined xargs]. rewrite E2. exists (None :: vs'). split; [reflexivity|]. split; [constructor; auto|].
        intros [|i] Hi; [|exact (N3 i Hi)]. cbn [nth_error]. destruct Q as [[_ ->]|(_ & z & Mz & ->)]; [auto|]. right.
        unfold is_min_of in Mn. destruct a; try discriminate. destruct f; try discriminate.
        apply andb_true_iff in Mn as [M1 M2]. apply Nat.eqb_eq in M1. apply Z.eqb_eq in M2. subst.
        cbn [meaning] in Mz. rewrite Hs, Hb in Mz. injection Mz as <-. cbn [field_value]. unfold dim_int.
        destruct (Z.ltb_spec d 0); [lia|]. rewrite Nat.add_0_r. reflexivity.
      + exists (q :: vs'). split.
        * destruct Q as [[-> ->]|(-> & z & -> & ->)]; rewrite E2; reflexivity.
        * split; [constructor; auto|]. intros [|i] Hi; [|exact (N3 i Hi)]. left; exact Hi.
  Qed.

  Lemma xargs_app l : forall k n vs, xargs (firstn n (pairs (l ++ repeat EUndef k))) = Some vs ->
    exists vs' j, xargs (firstn n (pairs l)) = Some vs' /\ vs = vs' ++ repeat None j.
  Proof.
    induction l as [|a l IH]; intros k n vs H.
    - cbn [app map] in *. rewrite firstn_nil. exists []. cbn [xargs].
      revert n vs H. induction k; intros n vs H.
      + cbn [repeat map] in H. rewrite firstn_nil in H. injection H as <-. exists O. auto.
      + destruct n; cbn [repeat map firstn xargs defined] in H; [injection H as <-; exists O; auto|].
        destruct (xargs (firstn n (pairs (repeat EUndef k)))) eqn:E; [|discriminate]. injection H as <-.
        destruct (IHk n _ E) as (j & _ & ->). exists (S j). auto.
    - destruct n; cbn [app map firstn xargs] in *; [injection H as <-; exists [], O; auto|].
      destruct (defined a); [destruct (M a); try discriminate|];
        (destruct (xargs (firstn n (pairs (l ++ repeat EUndef k)))) eqn:E; [|discriminate]; injection H as <-;
         destruct (IH _ _ _ E) as (v' & j & -> & ->); do 2 eexists; split; reflexivity).
  Qed.

  Lemma buffer_at_args s d t l : (forall p b, r s = Fin p -> w_buf W p = Some b -> based_at_min b) ->
    refines (M (ECall i_buffer_at t (EVar s f_none d :: l)))
            (M (ECall i_buffer_at t (EVar s f_none d :: pop_undefined (clear_mins s 0 l)))).
  Proof.
    intros P. cbn [meaning xcall map]. destruct (r s) as [p| | |] eqn:Hs; try apply refines_bad.
    destruct (w_buf W p) as [b|] eqn:Hb; [|apply refines_bad].
    destruct (xargs (firstn (rank b) (pairs l))) as [vs|] eqn:E; [|apply refines_bad].
    destruct (clear_args s p b Hs Hb l 0 _ _ ltac:(lia) E) as (vs' & E' & F & N).
    destruct (pop_app (clear_mins s 0 l)) as [k Ek]. rewrite Ek in E'.
    destruct (xargs_app _ _ _ _ E') as (v2 & j & E2 & ->). rewrite E2. right. do 2 f_equal.
    unfold buffer_at. rewrite <- (buffer_at_pad (dims b) v2 j). symmetry.
    apply buffer_at_none; [apply (P p b eq_refl Hb)|exact F|].
    intros i dd Hd _ Hn. destruct (N i Hn) as [K|K]; [auto|right]. rewrite K. do 3 f_equal.
    unfold dim_at. cbn [Z.to_nat Nat.add]. apply nth_error_nth. exact Hd.
  Qed.

  Lemma simplify_call_ok fn t l e : Forall c64 l ->
    semaphores_return_one W ->
    (fn = i_buffer_at -> forall s d l', l = EVar s f_none d :: l' -> forall p b, r s = Fin p -> w_buf W p = Some b -> based_at_min b) ->
    simplify_call W fn t l = Val e -> (is_semaphore_fn fn = true /\ e = EUndef) \/ good W r (M (ECall fn t l)) e.
  Proof.
    intros C Sm P H. unfold simplify_call in H. destruct (is_semaphore_fn fn) eqn:S.
    { apply bind_inv in H as (l' & Hl & H). destruct l' as [|a l']; [injection H as <-; auto|right].
      destruct (drop_pairs_sub _ _ Hl C) as [C' K].
      apply finish_call_ok in H; [|exact C'|].
      - destruct H as [R Ce]. split; [|exact Ce]. eapply refines_trans; [|exact R].
        assert (X : forall l, M (ECall fn t l) = match xargs (pairs l) with Some l => Fin (w_intrinsic W fn l) | None => Bad end)
          by (destruct fn; try discriminate; reflexivity).
        rewrite !X. destruct (xargs (pairs l)) as [vs|] eqn:E; [|apply refines_bad].
        destruct (drop_pairs_args _ _ _ Hl E) as [vs' ->]. right. f_equal. rewrite !Sm by exact S. reflexivity.
      - intros K1. rewrite (K K1). exact K1. }
    right.
    assert (FC : finish_call W (forallb (fun a => match as_constant a with Some _ => true | None => false end) l) fn t l = Val e -> good W r (M (ECall fn t l)) e)
      by (intros H'; eapply finish_call_ok; [exact C| |exact H']; auto).
    destruct fn; try discriminate; auto.
    - destruct l as [|x [|y l]]; try discriminate.
      inversion C as [|? ? Cx _]; subst.
      assert (X : M (ECall i_abs t [x]) = xabs (M x)) by reflexivity.
      destruct (is_non_negative x) eqn:N1.
      { injection H as <-. split; [|exact Cx]. rewrite X. pose proof (test_pred_ok W r k_non_negative x N1) as Q. cbn [psound] in Q.
        destruct (M x); cbn in *; try (right; reflexivity); try contradiction. right. f_equal. lia. }
      destruct (is_non_positive x) eqn:N2.
      { destruct (simplify_sub_ok W r (EConst 0) x e (proj2 (c64_const 0) c64_0) Cx H) as [R Ce]. split; [|exact Ce].
        eapply refines_trans; [|exact R]. rewrite X. pose proof (test_pred_ok W r k_non_positive x N2) as Q. cbn [psound] in Q.
        destruct (M x); cbn in *; try (right; reflexivity); try contradiction. right. f_equal. lia. }
      auto.
    - destruct l as [|x l]; auto. destruct x; try (destruct l; [auto|discriminate]). destruct f; try (destruct l; [auto|discriminate]).
      inversion C as [|? ? Cx Cl]; subst.
      apply finish_call_ok in H.
      + destruct H as [R Ce]. split; [|exact Ce]. eapply refines_trans; [|exact R]. apply buffer_at_args. eapply P; reflexivity.
      + constructor; [exact Cx|]. apply pop_c64, clear_c64, Cl.
      + cbn [forallb as_constant andb]. discriminate.
  Qed.
End Call.
