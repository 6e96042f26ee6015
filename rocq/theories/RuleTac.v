(** Tactics and lemmas for proving that individual rewrite rules are valid. *)
From Coq Require Import ZArith List Bool Lia.
From Verif Require Import Arith_Model Arith_Spec Arith_Proofs Expr_Model Expr_Spec Expr_Proofs Rewrite_Model Rewrite_Proofs.
Import ListNotations.
Open Scope Z_scope.

Lemma leb_b a b : (a <=? b) = false -> b < a. Proof. apply Z.leb_gt. Qed.

(** [truthy] of a comparison *)
Lemma truthy_1 : truthy 1 = true. Proof. reflexivity. Qed.
Lemma truthy_0 : truthy 0 = false. Proof. reflexivity. Qed.
Lemma of_bool_eq0 b : (of_bool b =? 0) = negb b. Proof. destruct b; reflexivity. Qed.

Lemma in_range64 z : in_range 64 z = true -> -9223372036854775808 <= z <= 9223372036854775807.
Proof. intros H; apply in_range_iff in H; exact H. Qed.
Lemma in_range64_f z : in_range 64 z = false -> ~ (-9223372036854775808 <= z <= 9223372036854775807).
Proof. intros H K. change (imin 64 <= z <= imax 64) in K. apply in_range_iff in K. congruence. Qed.

Ltac rule_intro :=
  let H := fresh "H" in
  lazymatch goal with |- rule_ok _ _ ?r => unfold rule_ok; unfold r end;
  intros v c pr Hc Hpr HF Hops y H;
  cbn [r_lhs r_alts salts sx sxx is_index andb orb negb ozbin omap2 ofin zbin guarded psem operands pvars app
       xcall0 xcall1 xcall2 xbin] in *;
  repeat match goal with
  | H : context [truthy (of_bool ?b)] |- _ => rewrite truthy_of_bool in H
  | H : context [of_bool ?b =? 0] |- _ => rewrite of_bool_eq0 in H
  end;
  rewrite ?truthy_1 in *.

(** split the conditions in the hypothesis about the replacement *)
Ltac prop1 E :=
  first
  [ apply andb_true_iff in E; let E1 := fresh "E" in let E2 := fresh "E" in destruct E as [E1 E2]; prop1 E1; prop1 E2
  | apply in_range64 in E
  | apply in_range64_f in E
  | apply Z.leb_le in E | apply Z.leb_gt in E | apply Z.ltb_lt in E | apply Z.ltb_ge in E
  | apply Z.eqb_eq in E | apply Z.eqb_neq in E
  | idtac ].
Ltac split_if :=
  match goal with
  | Hpr : (forall k n, ?pr k n = true -> psound k (?v n)), H : context [?pr ?k ?n] |- _ =>
      lazymatch type of H with forall _, _ => fail | _ => idtac end;
      let E := fresh "E" in destruct (pr k n) eqn:E; [apply Hpr in E; cbn [psound] in E | clear E]; cbn [of_bool truthy Z.eqb negb andb orb] in H
  | H : context [in_range 64 ?z] |- _ =>
      let E := fresh "E" in destruct (in_range 64 z) eqn:E; [apply in_range64 in E | apply in_range64_f in E]; cbn [andb orb negb ofin omap2 ozbin guarded zbin] in H
  | H : context [?a <=? ?b] |- _ => destruct (Z.leb_spec a b); cbn [of_bool truthy Z.eqb negb andb orb] in H
  | H : context [?a <? ?b] |- _ => destruct (Z.ltb_spec a b); cbn [of_bool truthy Z.eqb negb andb orb] in H
  | H : context [?a =? ?b] |- _ => destruct (Z.eqb_spec a b); cbn [of_bool truthy Z.eqb negb andb orb] in H
  | H : Some ?x = Some ?y |- _ => injection H as H; first [subst y | subst]
  | H : None = Some _ |- _ => discriminate H
  end.

Ltac finish_z :=
  try solve [left; reflexivity | right; reflexivity | lia];
  try (right; f_equal; lia).

(** split the conditions in the goal *)
Ltac split_goal :=
  repeat match goal with
  | |- context [?a <=? ?b] => destruct (Z.leb_spec a b); cbn [of_bool truthy Z.eqb negb andb orb]
  | |- context [?a <? ?b] => destruct (Z.ltb_spec a b); cbn [of_bool truthy Z.eqb negb andb orb]
  | |- context [?a =? ?b] => destruct (Z.eqb_spec a b); cbn [of_bool truthy Z.eqb negb andb orb]
  end.

Ltac xcbn :=
  cbn [xadd xsub xneg xmul xdiv xmod xmin xmax xcmp xbool2 xnot xselect xabs xshort2 xstair xboolean xcall1 xcall2 xbin of_bool truthy negb andb orb Bool.eqb Z.eqb
       psound in64x is_fin] in *.

Ltac kill := try (left; reflexivity); try (right; reflexivity); try contradiction; try discriminate.

Ltac prep :=
  repeat match goal with
  | H : Forall _ _ |- _ => clear H
  | H : false = true -> _ |- _ => clear H
  | H : forall k n, ?pr k n = true -> psound k (?v n) |- _ => clear H; try clear pr
  end.
(** consider the kinds of values of the wildcards, dropping cases as soon as possible *)
Ltac split_vals :=
  repeat (match goal with
  | |- context [?f ?n] =>
      is_var f; lazymatch type of f with nat -> xval => idtac end;
      let x := fresh "x" in
      try match goal with HF : true = true -> _ |- _ =>
        let K := fresh in pose proof (HF eq_refl n ltac:(cbn; tauto)) as K end;
      set (x := f n) in *; clearbody x; destruct x; xcbn; kill
  end).
Ltac split1 :=
  match goal with
  | |- context [?a <=? ?b] => destruct (Z.leb_spec a b)
  | |- context [?a <? ?b] => destruct (Z.ltb_spec a b)
  | |- context [?a =? ?b] => destruct (Z.eqb_spec a b)
  | H : _ \/ _ |- _ => destruct H
  end.
Ltac norm := unfold truthy, xinf in *; xcbn; unfold truthy, xinf in *; rewrite ?of_bool_eq0, ?negb_involutive, ?andb_true_r, ?andb_false_r, ?orb_true_r, ?orb_false_r.
Ltac fin_goal :=
  norm;
  repeat (split1; try (exfalso; lia); norm);
  kill; try lia; try (right; f_equal; lia); try (right; f_equal; ring); try (exfalso; nia); try (right; f_equal; nia).
Ltac rule := rule_intro; repeat split_if; prep; xcbn; kill; split_vals; fin_goal.

(** Rules whose claim needs more than 64-bit constants.  [needs_finite]: the value of every
    wildcard must be finite (the rule mixes INT64_MAX/INT64_MIN with infinities, or drops a
    possibly indeterminate operand).  [needs_small]: the constants must be below 2^31 in
    absolute value (the first condition overflows, or is computed in 32-bit ints). *)
Definition needs_finite (r : rule) : bool :=
  existsb (Z.eqb (r_line r)) [36; 38; 163; 165; 625; 626; 827; 828; 829; 830; 833; 834; 835; 836].
Definition needs_small (r : rule) : bool :=
  existsb (Z.eqb (r_line r)) [65; 150; 184; 269; 507; 633; 637].
Definition small (z : Z) : Prop := - 2 ^ 31 < z < 2 ^ 31.
Definition rule_valid (r : rule) : Prop :=
  rule_ok (if needs_small r then small else in64) (needs_finite r) r.

Lemma eu_pos a b : 0 < b -> exists q r, ediv a b = q /\ emod a b = r /\ a = b * q + r /\ 0 <= r < b.
Proof. intros H; exists (ediv a b), (emod a b). pose proof (euclid_ediv a b ltac:(lia)) as [E1 E2]. repeat split; lia. Qed.
Lemma eu_neg a b : b < 0 -> exists q r, ediv a b = q /\ emod a b = r /\ a = b * q + r /\ 0 <= r < - b.
Proof. intros H; exists (ediv a b), (emod a b). pose proof (euclid_ediv a b ltac:(lia)) as [E1 E2]. repeat split; lia. Qed.
Lemma emod0_mul a b : b <> 0 -> emod a b = 0 -> exists k, a = b * k /\ ediv a b = k.
Proof. intros H E; exists (ediv a b); split; [|reflexivity]. pose proof (euclid_ediv a b H) as [E1 E2]. lia. Qed.

Lemma emod_add_emod x y b : emod (x + emod y b) b = emod (x + y) b.
Proof.
  unfold emod. destruct (Z.eqb_spec b 0); [reflexivity|]. rewrite Z.add_mod_idemp_r by lia. reflexivity.
Qed.
Lemma emod_same b : emod b b = 0.
Proof. unfold emod. destruct (Z.eqb_spec b 0); [reflexivity|]. destruct (Z.abs_spec b) as [[? ->]|[? ->]].
  - apply Z.mod_same; lia.
  - replace b with ((-1) * (- b)) at 1 by lia. apply Z.mod_mul; lia. Qed.
Ltac gen_c := repeat match goal with
  | c : nat -> Z |- context [?c0 ?n] => constr_eq c0 c; let x := fresh "k" in set (x := c n) in *; clearbody x
  | c : nat -> Z, H : context [?c0 ?n] |- _ => constr_eq c0 c; lazymatch type of H with forall _, _ => fail | _ => idtac end; let x := fresh "k" in set (x := c n) in *; clearbody x
  end.
Ltac noediv t := lazymatch t with context [ediv _ _] => fail | context [emod _ _] => fail | _ => idtac end.
Ltac divis := repeat match goal with
  | H : emod ?a ?b = 0 |- _ => is_var a; 
     let k := fresh "q" in let E1 := fresh "E" in let E2 := fresh "E" in
     destruct (emod0_mul a b ltac:(lia) H) as (k & E1 & E2); clear H; rewrite ?E2 in *; clear E2; subst a
  end.
Ltac eu1 a b :=
  noediv a; noediv b;
  let q := fresh "q" in let r := fresh "r" in let E1 := fresh "E" in let E2 := fresh "E" in let E3 := fresh "Eu" in let E4 := fresh "Er" in
  first
  [ let H := fresh in assert (H : b = 0) by lia; rewrite ?H, ?ediv_0, ?emod_0 in *
  | let H := fresh in assert (H : 0 < b) by first [lia | nia]; destruct (eu_pos a b H) as (q & r & E1 & E2 & E3 & E4); rewrite ?E1, ?E2 in *; clear E1 E2
  | let H := fresh in assert (H : b < 0) by first [lia | nia]; destruct (eu_neg a b H) as (q & r & E1 & E2 & E3 & E4); rewrite ?E1, ?E2 in *; clear E1 E2
  | let H := fresh in destruct (Z.lt_trichotomy b 0) as [H | [H | H]] ].
Ltac eu := repeat match goal with
  | |- context [ediv ?a ?b] => eu1 a b
  | |- context [emod ?a ?b] => eu1 a b
  | H : context [ediv ?a ?b] |- _ => eu1 a b
  | H : context [emod ?a ?b] |- _ => eu1 a b
  end.
Ltac minmax := repeat match goal with
  | |- context [Z.min ?a ?b] => destruct (Z.min_spec a b) as [[? ->] | [? ->]]
  | |- context [Z.max ?a ?b] => destruct (Z.max_spec a b) as [[? ->] | [? ->]]
  | H : context [Z.min ?a ?b] |- _ => let E := fresh in destruct (Z.min_spec a b) as [[? E] | [? E]]; rewrite E in *; clear E
  | H : context [Z.max ?a ?b] |- _ => let E := fresh in destruct (Z.max_spec a b) as [[? E] | [? E]]; rewrite E in *; clear E
  end.
Ltac zgoal := lazymatch goal with
  | |- refines (Fin ?a) (Fin ?b) => right; f_equal; lazymatch goal with |- ?x = ?x => reflexivity | _ => apply Z.le_antisymm end
  | |- refines _ _ => exfalso
  | _ => idtac end.
Ltac injf := repeat match goal with H : Fin _ = Fin _ |- _ => injection H as H end.
Ltac hsplit := repeat (match goal with
  | H : context [?a =? ?b] |- _ => destruct (Z.eqb_spec a b); cbn [of_bool negb andb orb] in *; try lia
  | H : context [?a <? ?b] |- _ => destruct (Z.ltb_spec a b); cbn [of_bool negb andb orb] in *; try lia
  | H : 0 = ?k * ?q |- _ => let K := fresh in assert (K : q = 0) by nia; clear H; subst q
  end).
Ltac fin2 := injf; gen_c; divis; norm; rewrite ?emod_add_emod, ?emod_same;
  repeat match goal with H : ?k = 0 |- _ => is_var k; subst k end; rewrite ?Z.add_0_r in *;
  repeat (split1; try (exfalso; lia); norm); kill; 
  try solve [hsplit; minmax; eu; kill; zgoal; first [lia | nia]].
Ltac rule2 := rule_intro; repeat split_if; prep; unfold xstair in *; xcbn; kill; split_vals; fin2.

Ltac hyps c := repeat match goal with
  | Hc : forall n, small (c n) |- context [c ?m] => lazymatch goal with H : small (c m) |- _ => fail | _ => pose proof (Hc m) end
  | Hc : forall n, small (c n), H : context [c ?m] |- _ => lazymatch type of H with forall _, _ => fail | _ => lazymatch goal with H : small (c m) |- _ => fail | _ => pose proof (Hc m) end end
  end.
Ltac addc := match goal with c : nat -> Z |- _ => hyps c end; unfold small in *; 
   try change (2 ^ 31) with 2147483648 in *.
Ltac opsb := repeat match goal with H : Forall _ (_ :: _) |- _ => inversion_clear H | H : Forall _ [] |- _ => clear H end.

Lemma mul_small a b : -2147483648 < a <= 2147483648 -> -2147483648 < b <= 2147483648 -> -9223372036854775808 <= a * b <= 9223372036854775807.
Proof. intros. nia. Qed.
Ltac nov := match goal with H : ~ (_ <= ?z <= _) |- _ => exfalso; apply H; first [lia | apply mul_small; lia] end.
Ltac ruleC := rule_intro; addc; repeat (split_if; try nov); prep; xcbn; kill; split_vals; fin2.
Ltac ruleB := rule_intro; repeat split_if; match goal with H : true = true -> Forall _ _ |- _ => specialize (H eq_refl) end; opsb; cbn [psem] in *; prep; xcbn; kill; split_vals; xcbn; unfold in64 in *; change (imin 64) with (-9223372036854775808) in *; change (imax 64) with 9223372036854775807 in *; fin2; try solve [right; f_equal; lia].

Lemma rsum_facts k0 k1 k2 k3 k4 k5 i : small k0 -> small k1 -> small k2 -> small k3 -> small k4 -> small k5 ->
  staircase_sum_bounds (wrap 32 k0) (wrap 32 k1) (wrap 32 (0 - k2)) (wrap 32 k3) (wrap 32 k4) (wrap 32 k5) = Val i ->
  (forall m, iv_min i = Some m -> 
     ((k1 = 0 /\ k4 = 0) \/ (k1 <> 0 /\ k4 <> 0 /\ k2 * k4 = k5 * k1)) /\
     forall z, m <= ediv (z + k3) k4 * k5 - ediv (z + k0) k1 * k2) /\
  (forall m, iv_max i = Some m -> 
     ((k1 = 0 /\ k4 = 0) \/ (k1 <> 0 /\ k4 <> 0 /\ k2 * k4 = k5 * k1)) /\
     forall z, ediv (z + k3) k4 * k5 - ediv (z + k0) k1 * k2 <= m).
Proof.
  unfold small. change (2 ^ 31) with 2147483648. intros S0 S1 S2 S3 S4 S5 H.
  rewrite !wrap_in_range in H by (unfold imin, imax; change (2 ^ (32 - 1)) with 2147483648; lia).
  assert (SL : iv_min i <> None \/ iv_max i <> None ->
     ((k1 = 0 /\ k4 = 0) \/ (k1 <> 0 /\ k4 <> 0 /\ k2 * k4 = k5 * k1))).
  { clear S0 S3. unfold staircase_sum_bounds in H.
    destruct (Z.eqb_spec k1 0) as [->|Hb10]; cbn [andb orb] in H.
    - destruct (Z.eqb_spec k4 0) as [->|Hb20]; [auto|].
      apply bind_inv in H as (l & _ & H). apply bind_inv in H as (nc2 & _ & H). apply bind_inv in H as (r & _ & H).
      destruct (negb (l =? r)); inversion H; subst; cbn [iv_min iv_max]; intros [K|K]; congruence.
    - apply bind_inv in H as (l & Hl & H). apply bind_inv in H as (nc2 & Hn & H). apply bind_inv in H as (r & Hr & H).
      apply chk_inv in Hl as [-> _]. apply chk_inv in Hn as [-> _]. apply chk_inv in Hr as [-> _].
      destruct (Z.eqb_spec ((0 - k2) * k4) (- k5 * k1)) as [Hc|]; cbn [negb] in H.
      2:{ inversion H; subst; cbn [iv_min iv_max]; intros [K|K]; congruence. }
      destruct (Z.eqb_spec k4 0) as [Hb20|Hb20].
      { inversion H; subst; cbn [iv_min iv_max]; intros [K|K]; congruence. }
      intros _. right. repeat split; auto. lia. }
  pose proof (staircase_sum_bounds_sound k0 k1 (0 - k2) k3 k4 k5 i ltac:(unfold imin, imax; change (2 ^ (32 - 1)) with 2147483648; lia) ltac:(unfold imin, imax; change (2 ^ (32 - 1)) with 2147483648; lia) H) as B.
  split; intros m E.
  - split. { apply SL; left; congruence. } intros z. destruct (B z) as [B1 _]. specialize (B1 _ E). unfold stair_sumZ, stairZ in B1. lia.
  - split. { apply SL; right; congruence. } intros z. destruct (B z) as [_ B1]. specialize (B1 _ E). unfold stair_sumZ, stairZ in B1. lia.
Qed.
Lemma inf_slope k1 k2 k4 k5 : (k1 = 0 /\ k4 = 0) \/ (k1 <> 0 /\ k4 <> 0 /\ k2 * k4 = k5 * k1) ->
  exists s, xmul (xinf k1) (Fin k2) = s /\ xmul (xinf k4) (Fin k5) = s /\ (s = Bad \/ s = PInf \/ s = NInf).
Proof.
  intros [[-> ->]|(N1 & N4 & E)]; [exists Bad; cbn; auto|].
  exists (if k2 =? 0 then Bad else if 0 <? k1 then (if 0 <? k2 then PInf else NInf) else (if 0 <? k2 then NInf else PInf)).
  unfold xinf. destruct (Z.eqb_spec k1 0); [lia|]. destruct (Z.eqb_spec k4 0); [lia|].
  destruct (Z.eqb_spec k2 0) as [->|].
  - assert (k5 = 0) by nia. subst. destruct (0 <? k1), (0 <? k4); cbn; auto.
  - assert (k5 <> 0) by nia.
    destruct (Z.ltb_spec 0 k1), (Z.ltb_spec 0 k2), (Z.ltb_spec 0 k4), (Z.ltb_spec 0 k5); try (exfalso; nia);
    cbn [xmul]; unfold xinf; destruct (Z.eqb_spec k2 0), (Z.eqb_spec k5 0), (Z.eqb_spec (-k2) 0), (Z.eqb_spec (-k5) 0); try lia;
    destruct (Z.ltb_spec 0 k2), (Z.ltb_spec 0 k5), (Z.ltb_spec 0 (-k2)), (Z.ltb_spec 0 (-k5)); try lia; auto.
Qed.
Lemma inf_slope_neg k1 k2 k4 k5 : (k1 = 0 /\ k4 = 0) \/ (k1 <> 0 /\ k4 <> 0 /\ k2 * k4 = k5 * k1) ->
  exists s, xmul (xinf (- k1)) (Fin k2) = s /\ xmul (xinf (- k4)) (Fin k5) = s /\ (s = Bad \/ s = PInf \/ s = NInf).
Proof. intros H. apply inf_slope. destruct H as [[-> ->]|(N1 & N4 & E)]; [auto|]. right. lia. Qed.
Ltac slopes Es := 
  let s := fresh "s" in let A := fresh in let B := fresh in
  first [destruct (inf_slope _ _ _ _ Es) as (s & A & B & [ -> | [ -> | -> ] ]); rewrite A, B
  | destruct (inf_slope_neg _ _ _ _ Es) as (s & A & B & [ -> | [ -> | -> ] ]); rewrite A, B ]; cbn [xmin xmax xadd xcmp]; kill.
Ltac ruleS := rule_intro; addc;
  lazymatch goal with H : context [in_range 64 (0 - ?k)] |- _ =>
    replace (in_range 64 (0 - k)) with true in H by (symmetry; apply in_range_iff; unfold imin, imax; change (2 ^ (64 - 1)) with 9223372036854775808; lia)
  end; 
  lazymatch goal with H : context [staircase_sum_bounds ?a ?b ?c ?d ?e ?f] |- _ =>
    let i := fresh "i" in let E := fresh "E" in
    destruct (staircase_sum_bounds a b c d e f) as [i|] eqn:E; [|discriminate H];
    apply rsum_facts in E; [|unfold small; change (2 ^ 31) with 2147483648; lia ..];
    destruct E as [E1 E2]; destruct (iv_min i) as [m1|]; destruct (iv_max i) as [m2|];
    try (destruct (E1 _ eq_refl) as [Es E3]); try (destruct (E2 _ eq_refl) as [Es2 E4]); clear E1 E2
  end;
  unfold ozbin, imin, imax in *; change (2 ^ (64 - 1)) with 9223372036854775808 in *;
  cbn [omap2 guarded zbin] in *;
  repeat (split_if; try nov); prep; unfold xstair in *; xcbn; kill; try lia; split_vals;
  repeat match goal with z : Z, E : forall _ : Z, _ |- _ => specialize (E z) end;
  try (right; f_equal; lia);
  try match goal with Es : _ /\ _ \/ _ |- _ => slopes Es end;
  repeat (split1; try (exfalso; lia)); kill.
