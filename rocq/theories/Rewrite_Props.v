(** C10 (every rewrite rule preserves value) and C11 (the rewrite engine is sound). *)
From Coq Require Import ZArith List Bool Lia.
From Verif Require Import Arith_Model Arith_Spec Arith_Proofs Expr_Model Expr_Spec Expr_Proofs Expr_Props Match_Model
  Rewrite_Model Rewrite_Proofs RewriteMatch_Proofs RewriteApply_Proofs RuleTac Rules RulesAll_Proofs.
Import ListNotations.
Open Scope Z_scope.

(** All the tables of simplify_rules.h. *)
Definition all_rules : list rule :=
  min_rules ++ max_rules ++ add_rules ++ sub_rules ++ mul_rules ++ div_rules ++ mod_rules ++ less_rules ++
  equal_rules ++ logical_and_rules ++ logical_or_rules ++ logical_not_rules ++ select_rules ++ call_rules.

Lemma all_rules_valid : Forall rule_valid all_rules.
Proof.
  unfold all_rules. repeat (apply Forall_app; split);
  auto using min_rules_ok, max_rules_ok, add_rules_ok, sub_rules_ok, mul_rules_ok, div_rules_ok, mod_rules_ok,
    less_rules_ok, equal_rules_ok, logical_and_rules_ok, logical_or_rules_ok, logical_not_rules_ok, select_rules_ok,
    call_rules_ok.
Qed.
Lemma all_rules_wf : forallb wf_rule all_rules = true.
Proof. vm_compute. reflexivity. Qed.

Lemma stair_in64 : forall vb ac ab t va nb, in64 vb -> in64 ac ->
    cabs 64 vb = Val ab -> csub 64 ab 1 = Val t -> csub 64 t ac = Val va -> cneg 64 vb = Val nb -> in64 va /\ in64 nb.
Proof.
  intros vb ac ab t va nb _ _ _ _ H1 H2. split.
  - apply chk_inv in H1 as [-> H]; exact H.
  - apply chk_inv in H2 as [-> H]; exact H.
Qed.
Definition below30 (z : Z) : Prop := - 2 ^ 30 < z < 2 ^ 30.
Lemma stair_small : forall vb ac ab t va nb, below30 vb -> below30 ac ->
    cabs 64 vb = Val ab -> csub 64 ab 1 = Val t -> csub 64 t ac = Val va -> cneg 64 vb = Val nb -> small va /\ small nb.
Proof.
  unfold below30, small. change (2 ^ 30) with 1073741824. change (2 ^ 31) with 2147483648.
  intros vb ac ab t va nb B1 B2 H1 H2 H3 H4.
  apply chk_inv in H1 as [-> _]. apply chk_inv in H2 as [-> _]. apply chk_inv in H3 as [-> _]. apply chk_inv in H4 as [-> _].
  lia.
Qed.
Lemma in64_small z : small z -> in64 z.
Proof. unfold small, in64, imin, imax. change (2 ^ 31) with 2147483648. change (2 ^ (64 - 1)) with 9223372036854775808. lia. Qed.
Lemma below30_small z : below30 z -> small z.
Proof. unfold small, below30. change (2 ^ 31) with 2147483648. change (2 ^ 30) with 1073741824. lia. Qed.

Lemma in_rules_ok ru : In ru all_rules -> wf_rule ru = true /\ rule_valid ru.
Proof.
  intros I. split.
  - pose proof all_rules_wf as H. rewrite forallb_forall in H. auto.
  - pose proof all_rules_valid as H. rewrite Forall_forall in H. auto.
Qed.

(** *** C10 *)

(** The hypotheses under which applying the rule [ru] to [e] keeps its value in the
    environment [r]. *)
Definition rule_applicable (W : world) (r : env) (ru : rule) (e : expr) : Prop :=
  (needs_small ru = true -> consts_all below30 e) /\
  (needs_finite ru = true -> (forall x, subexpr x e -> is_fin (meaning W r x)) /\
                             Forall (fun x => in64x (meaning W r x)) (eoperands e)).

Lemma rule_sound W r ru e e' :
  In ru all_rules -> consts_all in64 e -> rule_applicable W r ru e ->
  apply_rule ru e = Val (Some e') -> refines (meaning W r e) (meaning W r e').
Proof.
  intros I C [HS HF] H. apply in_rules_ok in I as [Wf V]. unfold rule_valid in V.
  destruct (needs_small ru) eqn:ES.
  - eapply (apply_rule_ok W r below30 small below30_small in64_small) with (F := needs_finite ru); eauto;
      try (unfold below30, small; lia).
    + exact stair_small.
    + intros F. apply HF; auto.
    + intros F. apply HF; auto.
  - eapply (apply_rule_ok W r in64 in64 (fun _ h => h) (fun _ h => h)) with (F := needs_finite ru); eauto;
      try (unfold in64; cbn; lia).
    + exact stair_in64.
    + intros F. apply HF; auto.
    + intros F. apply HF; auto.
Qed.

(** Every rule of the tables outside of the exceptional lines below: whenever it
    rewrites [e] to [e'], the two have the same value in every environment (if [e] has
    one), including infinite values, in unbounded integer arithmetic. *)
Theorem C10_rule_preserves_value : forall W r ru e e',
  In ru all_rules ->
  ~ In (r_line ru) [36; 38; 163; 165; 625; 626; 827; 828; 829; 830; 833; 834; 835; 836] ->
  ~ In (r_line ru) [65; 150; 184; 269; 507; 633; 637] ->
  consts_all in64 e ->
  apply_rule ru e = Val (Some e') ->
  refines (meaning W r e) (meaning W r e').
Proof.
  intros W r ru e e' I NF NS C H. apply (rule_sound W r ru); auto. split; intros K; exfalso.
  - apply NS. unfold needs_small in K. apply existsb_exists in K as (x & Hx & E). apply Z.eqb_eq in E. rewrite E. exact Hx.
  - apply NF. unfold needs_finite in K. apply existsb_exists in K as (x & Hx & E). apply Z.eqb_eq in E. rewrite E. exact Hx.
Qed.

(** The exceptional rules that mix up INT64_MAX and infinity, or that make the result
    depend on an operand the original did not look at: they keep the value when every
    subexpression has a finite value and the operands are index_t values. *)
Theorem C10_rule_preserves_value_finite : forall W r ru e e',
  In ru all_rules ->
  ~ In (r_line ru) [65; 150; 184; 269; 507; 633; 637] ->
  consts_all in64 e ->
  (forall x, subexpr x e -> exists z, meaning W r x = Fin z /\ - 2 ^ 63 <= z < 2 ^ 63) ->
  apply_rule ru e = Val (Some e') ->
  refines (meaning W r e) (meaning W r e').
Proof.
  intros W r ru e e' I NS C Fi H. apply (rule_sound W r ru); auto. split; intros K.
  - exfalso. apply NS. unfold needs_small in K. apply existsb_exists in K as (x & Hx & E). apply Z.eqb_eq in E. rewrite E. exact Hx.
  - split.
    + intros x Sx. destruct (Fi x Sx) as (z & -> & _). exact Logic.I.
    + apply Forall_forall. intros x Hx. assert (Sx : subexpr x e).
      { destruct e; cbn [eoperands In] in Hx; try tauto.
        - destruct Hx as [<-|[<-|[]]]; [apply sub_l|apply sub_r]; constructor.
        - destruct Hx as [<-|[]]; repeat constructor.
        - destruct Hx as [<-|[<-|[<-|[]]]]; [apply sub_c|apply sub_t|apply sub_f]; constructor.
        - eapply sub_arg; eauto. constructor. }
      destruct (Fi x Sx) as (z & -> & B). cbn. unfold in64, imin, imax. change (2 ^ (64 - 1)) with (2 ^ 63). lia.
Qed.

(** All rules: with constants below 2^30 as well. *)
Theorem C10_rule_preserves_value_small : forall W r ru e e',
  In ru all_rules ->
  (forall z, subexpr (EConst z) e -> - 2 ^ 30 < z < 2 ^ 30) ->
  (needs_finite ru = true ->
   forall x, subexpr x e -> exists z, meaning W r x = Fin z /\ - 2 ^ 63 <= z < 2 ^ 63) ->
  apply_rule ru e = Val (Some e') ->
  refines (meaning W r e) (meaning W r e').
Proof.
  intros W r ru e e' I C Fi H. apply (rule_sound W r ru); auto.
  - intros z Hz. apply in64_small, below30_small. apply C; auto.
  - split; [auto|]. intros K. specialize (Fi K). split.
    + intros x Sx. destruct (Fi x Sx) as (z & -> & _). exact Logic.I.
    + apply Forall_forall. intros x Hx. assert (Sx : subexpr x e).
      { destruct e; cbn [eoperands In] in Hx; try tauto.
        - destruct Hx as [<-|[<-|[]]]; [apply sub_l|apply sub_r]; constructor.
        - destruct Hx as [<-|[]]; repeat constructor.
        - destruct Hx as [<-|[<-|[<-|[]]]]; [apply sub_c|apply sub_t|apply sub_f]; constructor.
        - eapply sub_arg; eauto. constructor. }
      destruct (Fi x Sx) as (z & -> & B). cbn. unfold in64, imin, imax. change (2 ^ (64 - 1)) with (2 ^ 63). lia.
Qed.



(** A non-trivial use: min(3*x, 6*y) becomes min(x, 2*y)*3. *)
Example C10_ex : exists ru e e',
  In ru all_rules /\ ~ In (r_line ru) [36; 38; 163; 165; 625; 626; 827; 828; 829; 830; 833; 834; 835; 836] /\
  ~ In (r_line ru) [65; 150; 184; 269; 507; 633; 637] /\ consts_all in64 e /\ apply_rule ru e = Val (Some e') /\
  e = EBin Min (EBin Mul (EVar 0 f_none 0) (EConst 3)) (EBin Mul (EVar 1 f_none 0) (EConst 6)) /\
  e' = EBin Mul (EBin Min (EVar 0 f_none 0) (EBin Mul (EVar 1 f_none 0) (EConst 2))) (EConst 3).
Proof.
  exists r_min_133. do 2 eexists. split; [|split; [|split; [|split; [|split; [|split; reflexivity]]]]].
  - apply in_or_app; left. unfold min_rules. cbn [In]. tauto.
  - cbn; intuition discriminate.
  - cbn; intuition discriminate.
  - apply consts_ok_all. cbn. unfold in64, imin, imax. cbn. lia.
  - vm_compute. reflexivity.
Qed.

(** The restrictions are needed.  min(infinity, INT64_MAX) becomes infinity. *)
Theorem C10_infinity_refuted : exists ru e e',
  In ru all_rules /\ consts_all in64 e /\ apply_rule ru e = Val (Some e') /\
  forall W r, meaning W r e = Fin 9223372036854775807 /\ meaning W r e' = PInf.
Proof.
  exists r_min_36, (EBin Min (ECall i_positive_infinity None []) (EConst 9223372036854775807)), (ECall i_positive_infinity None []).
  split; [|split; [|split]].
  - apply in_or_app; left. unfold min_rules. cbn [In]. tauto.
  - apply consts_ok_all. cbn. unfold in64, imin, imax. cbn. lia.
  - vm_compute. reflexivity.
  - intros W r. split; reflexivity.
Qed.

(** The staircase conditions convert 64-bit constants to int: min(x*(2^32+1), x) becomes
    x*(2^32+1), wrong for x = 1, with no intermediate overflow. *)
Theorem C10_staircase_truncation_refuted : exists e e',
  consts_all in64 e /\ apply_rules min_rules e = Val (Some e') /\
  forall W, meaning W (fun _ => Fin 1) e = Fin 1 /\ meaning W (fun _ => Fin 1) e' = Fin 4294967297.
Proof.
  exists (EBin Min (EBin Mul (EVar 0 f_none 0) (EConst 4294967297)) (EVar 0 f_none 0)), (EBin Mul (EVar 0 f_none 0) (EConst 4294967297)).
  split; [|split].
  - apply consts_ok_all. cbn. unfold in64, imin, imax. cbn. lia.
  - vm_compute. reflexivity.
  - intros W. split; reflexivity.
Qed.

(** When c0 + c1 overflows, the condition of line 65 counts as false, and the second
    alternative is taken though c0 + c1 >= 0:
    min(x, min(y, x + 2^62) + 2^62) becomes min(y, x + 2^62) + 2^62. *)
Theorem C10_overflowed_condition_refuted : exists e e',
  consts_all in64 e /\ apply_rules min_rules e = Val (Some e') /\
  forall W, meaning W (fun _ => Fin 0) e = Fin 0 /\ meaning W (fun _ => Fin 0) e' = Fin (2 ^ 62).
Proof.
  exists (EBin Min (EVar 0 f_none 0) (EBin Add (EBin Min (EVar 1 f_none 0) (EBin Add (EVar 0 f_none 0) (EConst 4611686018427387904))) (EConst 4611686018427387904))),
    (EBin Add (EBin Min (EVar 1 f_none 0) (EBin Add (EVar 0 f_none 0) (EConst 4611686018427387904))) (EConst 4611686018427387904)).
  split; [|split].
  - apply consts_ok_all. cbn. unfold in64, imin, imax. cbn. lia.
  - vm_compute. reflexivity.
  - intros W. split; reflexivity.
Qed.

(** *** C11 *)

(** The engine applied to any valid rule keeps the value: whatever operand order the
    matcher picks, optional patterns, implicit staircases, side conditions and their
    overflow.  [valid_rule ru]: for all values [v] of the wildcards and all 64-bit
    constants [c], the value of the alternative selected by the conditions is the value
    of the left hand side. *)
Theorem C11_engine_sound : forall W r ru e e',
  wf_rule ru = true ->
  rule_ok in64 false ru ->
  consts_all in64 e ->
  apply_rule ru e = Val (Some e') ->
  refines (meaning W r e) (meaning W r e').
Proof.
  intros W r ru e e' Wf Ok C H.
  eapply (apply_rule_ok W r in64 in64 (fun _ h => h) (fun _ h => h)) with (F := false); eauto;
      try (unfold in64; cbn; lia); try discriminate. exact stair_in64.
Qed.

(** A list of rules gives the result of its first applicable rule; nothing is returned
    exactly when no rule applies. *)
Theorem C11_first_rule : forall l e,
  (forall e', apply_rules l e = Val (Some e') <->
     exists l1 ru l2, l = l1 ++ ru :: l2 /\ Forall (fun r => apply_rule r e = Val None) l1 /\
                      apply_rule ru e = Val (Some e')) /\
  (apply_rules l e = Val None <-> Forall (fun r => apply_rule r e = Val None) l).
Proof.
  intros l e; induction l as [|ru l [IH1 IH2]].
  - split.
    + intros e'; split; [discriminate|]. intros (l1 & ? & ? & E & _). destruct l1; discriminate.
    + split; [constructor|reflexivity].
  - cbn [apply_rules].
    destruct (apply_rule ru e) as [[e1|]|] eqn:E; cbn [bind].
    + split.
      * intros e'; split.
        -- intros [= <-]. exists [], ru, l. auto.
        -- intros (l1 & ru' & l2 & El & F & A). destruct l1; injection El as -> ->; [congruence|].
           inversion F; subst; congruence.
      * split; [discriminate|]. intros F; inversion F; subst; congruence.
    + split.
      * intros e'. rewrite IH1. split.
        -- intros (l1 & ru' & l2 & -> & F & A). exists (ru :: l1), ru', l2. auto.
        -- intros (l1 & ru' & l2 & El & F & A). destruct l1; injection El as -> ->; [congruence|].
           inversion F; subst. exists l1, ru', l2. auto.
      * rewrite IH2. split; [auto|]. intros F; inversion F; auto.
    + split.
      * intros e'; split; [discriminate|]. intros (l1 & ru' & l2 & El & F & A). destruct l1; injection El as -> ->; [congruence|].
        inversion F; subst; congruence.
      * split; [discriminate|]. intros F; inversion F; subst; congruence.
Qed.

(** If the search over operand orders finds no match, no choice of orders matches. *)
Theorem C11_no_match_missed : forall p e, match_any_variant p e = Val None ->
  forall order m bits, match_pat order p e no_binds 0 <> Val (Some m, bits).
Proof. exact match_any_none. Qed.

(** and a match found is a match for some choice of orders *)
Theorem C11_match_found : forall p e m, match_any_variant p e = Val (Some m) ->
  exists order bits, match_pat order p e no_binds 0 = Val (Some m, bits).
Proof. intros p e m H. eapply any_some; exact H. Qed.
