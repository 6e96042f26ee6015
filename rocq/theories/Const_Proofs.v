(** Proofs about constant bounds (C43) and adding constants (C44). *)
From Coq Require Import ZArith List Bool Lia.
From Verif Require Import Arith_Model Arith_Spec Arith_Proofs Buf_Model Expr_Model Expr_Spec Expr_Proofs Expr_Props Match_Model
  Rewrite_Model Rewrite_Proofs RewriteMatch_Proofs Rewrite_Props Simplify_Proofs Const_Model.
Import ListNotations.
Open Scope Z_scope.

(** the order of the extended integers *)
Definition xle (a b : xval) : Prop :=
  match a, b with
  | Bad, _ | _, Bad => False
  | NInf, _ | _, PInf => True
  | Fin x, Fin y => x <= y
  | PInf, _ | _, NInf => False
  end.
(** [c] is the value [x] (sign 0), a lower bound of it (negative) or an upper bound
    (positive), unless [x] is meaningless *)
Definition bounds_value (s c : Z) (x : xval) : Prop :=
  x = Bad \/ (if s =? 0 then x = Fin c else if s <? 0 then xle (Fin c) x else xle x (Fin c)).

(** The operands of && || ! and_then or_else are boolean, constant or variables. *)
Definition plain_boolean (e : expr) : bool :=
  is_boolean e || match e with EConst _ | EVar _ _ _ | EUndef => true | _ => false end.
Fixpoint logical_ok (e : expr) {struct e} : bool :=
  match e with
  | EBin o a b => logical_ok a && logical_ok b &&
      match o with And | Or => plain_boolean a && plain_boolean b | _ => true end
  | ENot a => logical_ok a && plain_boolean a
  | ESelect c t f => logical_ok c && logical_ok t && logical_ok f
  | ECall fn _ args =>
      (fix go (l : list expr) : bool := match l with [] => true | x :: l' => logical_ok x && go l' end) args &&
      match fn with i_and_then | i_or_else => forallb plain_boolean args | _ => true end
  | _ => true
  end.

(** stripping a result never uncovers a constant *)
Definition nostrip (e : expr) : Prop := forall c, strip_boolean e = EConst c -> e = EConst c.

Lemma nostrip_other e : match e with EBin NotEqual _ _ => False | _ => True end -> nostrip e.
Proof. intros H c E. destruct e; try exact E; try discriminate. destruct op; try exact E; contradiction. Qed.
Lemma nostrip_ne a b : nostrip a -> (forall c, a = EConst c -> b <> EConst 0) -> nostrip (EBin NotEqual a b).
Proof.
  intros Na Nb c E. cbn [strip_boolean] in E. destruct (is_zero b) eqn:Zb; [|discriminate].
  apply is_zero_inv in Zb. subst b. apply Na in E. exfalso. exact (Nb c E eq_refl).
Qed.
Lemma nostrip_make o a b : nostrip a -> nostrip b -> (forall x y, a = EConst x -> b = EConst y -> False) -> nostrip (make_bin o a b).
Proof.
  intros Na Nb N. unfold make_bin. destruct (commutative o && should_commute a b).
  - destruct o; try (apply nostrip_other; exact I). apply nostrip_ne; auto. intros c -> ->. eauto.
  - destruct o; try (apply nostrip_other; exact I). apply nostrip_ne; auto. intros c -> ->. eauto.
Qed.
Lemma nostrip_const c : nostrip (EConst c). Proof. intros d E; exact E. Qed.
Lemma nostrip_undef : nostrip EUndef. Proof. intros d E; exact E. Qed.

Lemma not_constant e : as_constant e = None -> forall c, e <> EConst c.
Proof. intros H c ->. discriminate. Qed.
Lemma constant_inv e c : as_constant e = Some c -> e = EConst c.
Proof. destruct e; try discriminate. intros [= ->]. reflexivity. Qed.
Lemma make_not_const o a b c : make_bin o a b <> EConst c.
Proof. unfold make_bin. destruct (commutative o && should_commute a b); discriminate. Qed.
Lemma strip_idem e c : nostrip e -> as_constant (strip_boolean e) = Some c -> e = EConst c.
Proof. intros N H. apply constant_inv in H. auto. Qed.
Lemma strip_nostrip e : nostrip (strip_boolean e).
Proof.
  induction e; try (apply nostrip_other; exact I).
  destruct op; try (apply nostrip_other; exact I). cbn [strip_boolean].
  destruct (is_zero e2) eqn:E2; [assumption|]. intros c H. cbn [strip_boolean] in H. rewrite E2 in H. discriminate.
Qed.
Lemma nostrip_boolean e : nostrip e -> nostrip (boolean e).
Proof.
  intros N. unfold boolean. destruct (negb (defined e) || is_boolean e); auto.
  destruct (as_constant e) eqn:E; [apply nostrip_const|]. apply nostrip_make; auto using nostrip_const.
  intros x y -> _. discriminate.
Qed.
Lemma boolean_const e c : boolean e = EConst c -> exists z, e = EConst z /\ c = of_bool (truthy z).
Proof.
  unfold boolean. destruct (negb (defined e) || is_boolean e) eqn:B.
  - intros ->. exists c. split; auto. cbn in B. unfold is_boolean in B. cbn in B.
    destruct (Z.eqb_spec c 1); [subst; reflexivity|]. destruct (Z.eqb_spec c 0); [subst; reflexivity|]. discriminate.
  - destruct (as_constant e) eqn:E; [|intros H; exfalso; eapply make_not_const; exact H].
    intros [= <-]. apply constant_inv in E. eauto.
Qed.

(** *** the helpers *)
Definition ok1 (s : Z) (r : expr) (x : xval) : Prop := nostrip r /\ forall c, r = EConst c -> in64 c /\ bounds_value s c x.

Lemma bv_bad s c : bounds_value s c Bad. Proof. left; reflexivity. Qed.
Lemma bv_exact s c : bounds_value s c (Fin c).
Proof. right. destruct (s =? 0); [reflexivity|]. destruct (s <? 0); cbn [xle]; lia. Qed.
Lemma bv_of_exact s c x : bounds_value 0 c x -> bounds_value s c x.
Proof. intros [->|H]; [apply bv_bad|]. cbn in H. subst. apply bv_exact. Qed.
Lemma ok1_undef s x : ok1 s EUndef x. Proof. split; [apply nostrip_undef|discriminate]. Qed.
Lemma ok1_const s c x : in64 c -> bounds_value s c x -> ok1 s (EConst c) x.
Proof. intros I B. split; [apply nostrip_const|]. intros d [= <-]. auto. Qed.
Lemma ok1_make s o a b x : nostrip a -> nostrip b -> as_constant a = None \/ as_constant b = None -> ok1 s (make_bin o a b) x.
Proof.
  intros N1 N2 K. split.
  - apply nostrip_make; auto. intros p q -> ->. destruct K; discriminate.
  - intros c H. exfalso. eapply make_not_const; exact H.
Qed.
Lemma ok1_other s e x : match e with EBin _ _ _ | EConst _ => False | _ => True end -> ok1 s e x.
Proof. intros H. split; [apply nostrip_other; destruct e; auto; contradiction|]. intros c ->. contradiction. Qed.

Lemma c_min_max_ok s o x y r1 r2 : o = Min \/ o = Max -> ok1 s r1 x -> ok1 s r2 y -> ok1 s (c_min_max s o r1 r2) (xbin o x y).
Proof.
  intros O (N1 & B1) (N2 & B2). unfold c_min_max.
  destruct (as_constant r1) as [p|] eqn:E1, (as_constant r2) as [q|] eqn:E2.
  - apply constant_inv in E1, E2. subst. specialize (B1 p eq_refl) as (C1 & B1). specialize (B2 q eq_refl) as (C2 & B2).
    apply ok1_const; [unfold in64 in *; destruct O as [-> | ->]; lia|]. unfold bounds_value in *.
      destruct B1 as [->|B1]; [left; destruct O as [-> | ->]; reflexivity|].
      destruct B2 as [->|B2]; [left; destruct O as [-> | ->]; destruct x; reflexivity|].
      right. destruct (s =? 0); [subst; destruct O as [-> | ->]; reflexivity|].
      destruct (s <? 0); destruct O as [-> | ->]; destruct x, y; cbn [xbin xmin xmax xle] in *; try contradiction; try lia; auto.
  - apply constant_inv in E1. subst. destruct (match o with Min => 0 <? s | _ => s <? 0 end) eqn:T.
    + specialize (B1 p eq_refl) as (C1 & B1). apply ok1_const; [exact C1|]. unfold bounds_value in *.
      destruct B1 as [->|B1]; [left; destruct O as [-> | ->]; reflexivity|].
      destruct y as [v| | |]; try (left; destruct O as [-> | ->]; destruct x; reflexivity); right;
        destruct (Z.eqb_spec s 0); try (subst; destruct O as [-> | ->]; discriminate);
        destruct (Z.ltb_spec s 0), (Z.ltb_spec 0 s); try lia; destruct O as [-> | ->]; try discriminate; destruct x; cbn [xbin xmin xmax xle] in *; try contradiction; try lia; auto.
    + destruct (defined r2); auto using ok1_undef. apply ok1_make; auto using nostrip_const.
  - apply constant_inv in E2. subst. destruct (match o with Min => 0 <? s | _ => s <? 0 end) eqn:T.
    + specialize (B2 q eq_refl) as (C2 & B2). apply ok1_const; [exact C2|]. unfold bounds_value in *.
      destruct B2 as [->|B2]; [left; destruct O as [-> | ->]; destruct x; reflexivity|].
      destruct x as [v| | |]; try (left; destruct O as [-> | ->]; destruct y; reflexivity); right;
        destruct (Z.eqb_spec s 0); try (subst; destruct O as [-> | ->]; discriminate);
        destruct (Z.ltb_spec s 0), (Z.ltb_spec 0 s); try lia; destruct O as [-> | ->]; try discriminate; destruct y; cbn [xbin xmin xmax xle] in *; try contradiction; try lia; auto.
    + destruct (defined r1); auto using ok1_undef. apply ok1_make; auto using nostrip_const.
  - destruct (defined r1 && defined r2); auto using ok1_undef. apply ok1_make; auto.
Qed.

(** make_or_eval_binary on constants *)
Lemma fold_const o x y e c : make_or_eval_binary o x y = Val e -> e = EConst c -> eval_bin o x y = Val c.
Proof.
  intros H E. unfold make_or_eval_binary in H. destruct (binary_overflows o x y).
  - injection H as <-. exfalso. eapply make_not_const; exact E.
  - apply bind_inv in H as (v & Hv & H). subst e. injection H as <-. exact Hv.
Qed.
Lemma fold_nostrip o x y e : o <> NotEqual -> make_or_eval_binary o x y = Val e -> nostrip e.
Proof.
  intros N H. unfold make_or_eval_binary in H. destruct (binary_overflows o x y).
  - injection H as <-. unfold make_bin. destruct (commutative o && should_commute (EConst x) (EConst y)); apply nostrip_other; destruct o; try exact I; congruence.
  - apply bind_inv in H as (v & Hv & H). injection H as <-. apply nostrip_const.
Qed.
Lemma fold_nostrip' o x y e : make_or_eval_binary o x y = Val e -> nostrip e.
Proof.
  intros H. assert (D : o = NotEqual \/ o <> NotEqual) by (destruct o; auto; right; discriminate).
  destruct D as [->|D]; [|exact (fold_nostrip _ _ _ _ D H)].
  unfold make_or_eval_binary in H. cbn [binary_overflows eval_bin bind] in H. injection H as <-. apply nostrip_const.
Qed.

Lemma c_binary_ok s o r1 r2 r z : c_binary o r1 r2 = Val r -> nostrip r1 -> nostrip r2 ->
  (forall p q c, r1 = EConst p -> r2 = EConst q -> eval_bin o p q = Val c -> in64 c /\ bounds_value s c z) ->
  ok1 s r z.
Proof.
  intros H N1 N2 B. unfold c_binary in H.
  assert (K : as_constant r1 = None \/ as_constant r2 = None -> Val (if defined r1 && defined r2 then make_bin o r1 r2 else EUndef) = Val r -> ok1 s r z).
  { intros K E. injection E as <-. destruct (defined r1 && defined r2); auto using ok1_undef, ok1_make. }
  destruct (as_constant r1) as [p|] eqn:E1; [|auto]. destruct (as_constant r2) as [q|] eqn:E2; [|auto].
  apply constant_inv in E1, E2. subst.
  split; [eapply fold_nostrip'; eauto|]. intros c E. exact (B p q c eq_refl eq_refl (fold_const _ _ _ _ _ H E)).
Qed.
Lemma exact_binary o x y p q c : in64 p -> in64 q -> bounds_value 0 p x -> bounds_value 0 q y -> eval_bin o p q = Val c -> bounds_value 0 c (xbin o x y).
Proof.
  intros P Q [->|X] [->|Y] H; try (rewrite Rewrite_Proofs.xbin_bad_l; apply bv_bad); try (rewrite Rewrite_Proofs.xbin_bad_r; apply bv_bad).
  cbn in X, Y. subst. right. change (0 =? 0) with true. cbv iota. eapply eval_bin_mean; eauto.
Qed.
Lemma exact_ok s o x y r1 r2 r : c_binary o r1 r2 = Val r -> ok1 0 r1 x -> ok1 0 r2 y -> ok1 s r (xbin o x y).
Proof.
  intros H (N1 & B1) (N2 & B2). eapply c_binary_ok; eauto. intros p q c E1 E2 E.
  destruct (B1 p E1) as [I1 V1], (B2 q E2) as [I2 V2]. split; [exact (eval_bin_in64 _ _ _ _ I1 I2 E)|]. apply bv_of_exact. exact (exact_binary o x y p q c I1 I2 V1 V2 E).
Qed.
Lemma add_bound s x y p q c : bounds_value s p x -> bounds_value s q y -> eval_bin Add p q = Val c -> bounds_value s c (xbin Add x y).
Proof.
  intros X Y H. cbn [eval_bin] in H. apply chk_inv in H as [-> _].
  destruct X as [->|X]; [apply bv_bad|]. destruct Y as [->|Y]; [rewrite Rewrite_Proofs.xbin_bad_r; apply bv_bad|].
  unfold bounds_value. destruct (s =? 0); [subst; right; reflexivity|].
  destruct (s <? 0); destruct x, y; cbn [xbin xadd xle] in *; try contradiction; try (right; lia); auto.
Qed.
Lemma bv_neg s c x : bounds_value s c x -> bounds_value (- s) (- c) (xneg x).
Proof.
  unfold bounds_value. destruct (Z.eqb_spec s 0) as [->|n].
  - cbn. intros [->|H]; auto; right; subst; reflexivity.
  - destruct (Z.eqb_spec (- s) 0); [lia|]. destruct (Z.ltb_spec s 0), (Z.ltb_spec (- s) 0); try lia;
      destruct x; cbn [xneg xle]; intros [H1|H1]; try discriminate; auto; right; try lia; auto.
Qed.
Lemma sub_bound s x y p q c : bounds_value s p x -> bounds_value (- s) q y -> eval_bin Sub p q = Val c -> bounds_value s c (xbin Sub x y).
Proof.
  intros X Y H. cbn [eval_bin] in H. apply chk_inv in H as [-> _].
  destruct X as [->|X]; [apply bv_bad|]. destruct Y as [->|Y]; [rewrite Rewrite_Proofs.xbin_bad_r; apply bv_bad|].
  unfold bounds_value. destruct (Z.eqb_spec s 0) as [->|n]; [cbn in Y; subst; right; reflexivity|].
  destruct (Z.eqb_spec (- s) 0); [lia|].
  destruct (Z.ltb_spec s 0), (Z.ltb_spec (- s) 0); try lia; destruct x, y; cbn [xbin xsub xneg xadd xle] in *; try contradiction; try (right; lia); auto.
Qed.
Lemma add_ok s x y r1 r2 r : c_binary Add r1 r2 = Val r -> ok1 s r1 x -> ok1 s r2 y -> ok1 s r (xbin Add x y).
Proof.
  intros H (N1 & B1) (N2 & B2). eapply c_binary_ok; eauto. intros p q c E1 E2 E.
  destruct (B1 p E1) as [I1 V1], (B2 q E2) as [I2 V2]. split; [exact (eval_bin_in64 _ _ _ _ I1 I2 E)|]. eapply add_bound; eauto.
Qed.
Lemma sub_ok s x y r1 r2 r : c_binary Sub r1 r2 = Val r -> ok1 s r1 x -> ok1 (- s) r2 y -> ok1 s r (xbin Sub x y).
Proof.
  intros H (N1 & B1) (N2 & B2). eapply c_binary_ok; eauto. intros p q c E1 E2 E.
  destruct (B1 p E1) as [I1 V1], (B2 q E2) as [I2 V2]. split; [exact (eval_bin_in64 _ _ _ _ I1 I2 E)|]. eapply sub_bound; eauto.
Qed.

(** multiplying by a constant, dividing by a constant *)
Lemma mul_bound s x p y q : x = Bad \/ x = Fin p -> p <> 0 -> bounds_value (s * Z.sgn p) q y -> bounds_value s (p * q) (xbin Mul x y).
Proof.
  intros [->| ->] P Y; [apply bv_bad|]. destruct Y as [->|Y]; [apply bv_bad|]. right.
  destruct (Z.eqb_spec s 0) as [->|n]; [cbn in Y; subst; reflexivity|].
  destruct (Z.eqb_spec (s * Z.sgn p) 0); [lia|].
  destruct (Z.ltb_spec s 0), (Z.ltb_spec (s * Z.sgn p) 0); destruct y as [v| | |]; cbn [xbin xmul xinf xle] in *; try contradiction;
    try (unfold xinf; destruct (Z.eqb_spec p 0), (Z.ltb_spec 0 p), (Z.eqb_spec (- p) 0), (Z.ltb_spec 0 (- p)); try lia; try exact I; nia); nia.
Qed.
Lemma ediv_mono a a' b : 0 < b -> a <= a' -> ediv a b <= ediv a' b.
Proof. intros B H. rewrite !ediv_pos by lia. apply Z.div_le_mono; lia. Qed.
Lemma ediv_anti a a' b : b < 0 -> a <= a' -> ediv a' b <= ediv a b.
Proof. intros B H. rewrite !ediv_neg by lia. assert (a / - b <= a' / - b) by (apply Z.div_le_mono; lia). lia. Qed.
Lemma div_bound s x p y q : y = Bad \/ y = Fin q -> q <> 0 -> bounds_value (s * Z.sgn q) p x -> bounds_value s (ediv p q) (xbin Div x y).
Proof.
  intros [->| ->] P Y; [rewrite Rewrite_Proofs.xbin_bad_r; apply bv_bad|]. destruct Y as [->|Y]; [apply bv_bad|]. right.
  destruct (Z.eqb_spec s 0) as [->|n]; [cbn in Y; subst; reflexivity|].
  destruct (Z.eqb_spec (s * Z.sgn q) 0); [lia|].
  destruct (Z.lt_trichotomy q 0) as [N|[N|N]]; [|lia|];
  destruct (Z.ltb_spec s 0), (Z.ltb_spec (s * Z.sgn q) 0); try nia; destruct x as [v| | |]; cbn [xbin xdiv xle] in *; try contradiction;
    try (apply ediv_mono; lia); try (apply ediv_anti; lia);
    unfold xinf; destruct (Z.eqb_spec q 0), (Z.ltb_spec 0 q), (Z.eqb_spec (- q) 0), (Z.ltb_spec 0 (- q)); try lia; try exact I.
Qed.

Lemma sign_of_const p : sign_of (EConst p) = Z.sgn p.
Proof. unfold sign_of, is_negative. cbn [is_positive is_negative_infinity is_call as_constant]. destruct (Z.ltb_spec 0 p), (Z.ltb_spec p 0); cbn; lia. Qed.
Lemma eval_mul p q c : eval_bin Mul p q = Val c -> c = p * q.
Proof. cbn [eval_bin]. intros H. apply chk_inv in H as [-> _]. reflexivity. Qed.

(** the result of a boolean node is 0 or 1 *)
Lemma cev_bool req s e c : is_boolean_node e = true -> cev req s e = Val (EConst c) -> c = 0 \/ c = 1.
Proof.
  assert (L : forall s, bound_of_logical s = EConst c -> c = 0 \/ c = 1).
  { intros t. unfold bound_of_logical. destruct (t <? 0); intros [= <-]; auto. }
  assert (OB : forall b, of_bool b = 0 \/ of_bool b = 1) by (intros []; auto).
  intros B H. destruct e as [| | |o a b|a| | |]; try discriminate.
  - destruct o; try discriminate; cbn [cev] in H.
    1-2: destruct (s =? 0); [|injection H as H; destruct (s <? 0); subst; auto; fail]; apply bind_inv in H as (x & Hx & H); apply bind_inv in H as (y & Hy & H);
      unfold c_binary in H; destruct (as_constant x), (as_constant y);
      try (injection H as H; destruct (defined x && defined y); [exfalso; eapply make_not_const; exact H|discriminate]);
      pose proof (fold_const _ _ _ _ _ H eq_refl) as E; cbn [eval_bin] in E; injection E as <-; auto.
    1-2: apply bind_inv in H as (x & Hx & H); apply bind_inv in H as (y & Hy & H); destruct (as_constant x), (as_constant y);
      try (injection H as H; destruct (negb (s =? 0)); [exact (L _ H)|destruct (defined x && defined y); [exfalso; eapply make_not_const; exact H|discriminate]]);
      cbn [eval_bin bind] in H; injection H as <-; auto.
    1-2: apply bind_inv in H as (x & Hx & H); apply bind_inv in H as (y & Hy & H); injection H as H; unfold c_and_or in H;
      destruct (as_constant (strip_boolean y)); cbv zeta beta iota in H;
      (destruct (as_constant _);
       [apply boolean_const in H as (w & _ & ->); auto
       |destruct (negb (s =? 0)); [exact (L _ H)|destruct (_ && _); [exfalso; eapply make_not_const; exact H|discriminate]]]).
  - cbn [cev] in H. apply bind_inv in H as (x & Hx & H). injection H as H.
    destruct (as_constant (strip_boolean x)).
    + injection H as <-. destruct (z =? 0); auto.
    + destruct (negb (s =? 0)); [exact (L _ H)|]. destruct (defined (strip_boolean x)); discriminate.
Qed.

(** what a bound says about a truth value *)
Definition decides (s p : Z) (x : xval) : Prop :=
  x = Bad \/ exists v, x = Fin v /\ (s <= 0 -> truthy p = true -> truthy v = true) /\ (0 <= s -> truthy p = false -> truthy v = false).
Definition okb (s : Z) (r : expr) (x : xval) : Prop := nostrip r /\ forall c, r = EConst c -> decides s c x.

Lemma xbool_cases f x y : xbool2 f x y = Bad \/ exists u v, x = Fin u /\ y = Fin v.
Proof. destruct x, y; auto. right; eauto. Qed.
Lemma logical_bound s b : bounds_value s (if s <? 0 then 0 else 1) (Fin (of_bool b)) \/ s = 0.
Proof. destruct (Z.eqb_spec s 0); [auto|]. left. right. destruct (Z.eqb_spec s 0); [lia|]. destruct (s <? 0), b; cbn; lia. Qed.
Lemma logical_ok1 s x : s <> 0 -> (x = Bad \/ exists b, x = Fin (of_bool b)) -> ok1 s (bound_of_logical s) x.
Proof.
  intros S H. apply ok1_const; [destruct (s <? 0); unfold in64; cbn; lia|]. destruct H as [->|(b & ->)]; [apply bv_bad|].
  destruct (logical_bound s b); auto; lia.
Qed.
Lemma xbin_logical o x y : match o with Less | LessEqual | Equal | NotEqual | And | Or => True | _ => False end ->
  xbin o x y = Bad \/ exists b, xbin o x y = Fin (of_bool b).
Proof. destruct o; try contradiction; intros _; destruct x, y; cbn [xbin xcmp xbool2]; eauto. Qed.

Lemma in64_of_bool b : in64 (of_bool b). Proof. destruct b; unfold in64; cbn; lia. Qed.

(** the combination of two decided truth values, in either order *)
Lemma decide_bound s o p x y q : (o = And /\ decides (Z.min s 0) p x /\ decides (Z.min s 0) q y \/ o = Or /\ decides (Z.max s 0) p x /\ decides (Z.max s 0) q y) ->
  bounds_value s (of_bool (match o with And => andb | _ => orb end (truthy p) (truthy q))) (xbin o x y).
Proof.
  intros H.
  assert (D : exists t, decides t p x /\ decides t q y /\ (t = s \/ t = 0)).
  { destruct H as [(-> & A & B)|(-> & A & B)]; [exists (Z.min s 0)|exists (Z.max s 0)]; (split; [exact A|split; [exact B|lia]]). }
  assert (O : o = And \/ o = Or) by (destruct H as [(-> & _)|(-> & _)]; auto).
  assert (T : s <> 0 -> bounds_value s (if s <? 0 then 0 else 1) (xbin o x y)).
  { intros n. destruct (xbin_logical o x y) as [->|(b & ->)]; [destruct O as [-> | ->]; exact I|apply bv_bad|].
    destruct (logical_bound s b); auto; lia. }
  destruct D as (t & [->|(u & -> & U1 & U2)] & D2 & Ht); [rewrite Rewrite_Proofs.xbin_bad_l; apply bv_bad|].
  destruct D2 as [->|(v & -> & V1 & V2)]; [rewrite Rewrite_Proofs.xbin_bad_r; apply bv_bad|].
  right. assert (X : xbin o (Fin u) (Fin v) = Fin (of_bool (match o with And => andb | _ => orb end (truthy u) (truthy v)))) by (destruct O as [-> | ->]; reflexivity).
  rewrite X. destruct (Z.eqb_spec s 0) as [->|n].
  - assert (t = 0) by lia. subst t. f_equal. f_equal. specialize (U1 ltac:(lia)). specialize (U2 ltac:(lia)). specialize (V1 ltac:(lia)). specialize (V2 ltac:(lia)).
    destruct (truthy p), (truthy q); rewrite ?U1, ?U2, ?V1, ?V2 by reflexivity; reflexivity.
  - destruct (Z.ltb_spec s 0).
    + assert (t <= 0) by lia. specialize (U1 H1). specialize (V1 H1). cbn [xle].
      destruct (truthy p), (truthy q); rewrite ?U1, ?V1 by reflexivity; destruct O as [-> | ->]; cbn [andb orb of_bool];
      repeat match goal with |- context [if ?b then _ else _] => destruct b end; unfold of_bool; repeat match goal with |- context [truthy ?b] => destruct (truthy b) end; cbn; lia.
    + assert (0 <= t) by lia. specialize (U2 H1). specialize (V2 H1). cbn [xle].
      destruct (truthy p), (truthy q); rewrite ?U2, ?V2 by reflexivity; destruct O as [-> | ->]; cbn [andb orb of_bool];
      unfold of_bool; repeat match goal with |- context [truthy ?b] => destruct (truthy b) end; cbn; lia.
Qed.

(** one deciding operand is enough *)
Definition absorbs (o : binop) (p : Z) : bool := match o with And => negb (truthy p) | _ => truthy p end.
Definition inner_sign (o : binop) (s : Z) : Z := match o with And => Z.min s 0 | _ => Z.max s 0 end.
Lemma decide_one s o p x y : o = And \/ o = Or -> decides (inner_sign o s) p x -> absorbs o p = true ->
  bounds_value s (of_bool (truthy p)) (xbin o x y).
Proof.
  intros O [->|(u & -> & U1 & U2)] A; [rewrite Rewrite_Proofs.xbin_bad_l; apply bv_bad|].
  destruct y as [v| | |]; try (destruct O as [-> | ->]; apply bv_bad).
  right. destruct O as [-> | ->]; cbn [absorbs inner_sign xbin xbool2] in *.
  - destruct (truthy p) eqn:P; [discriminate|]. destruct (Z.eqb_spec s 0) as [->|n].
    + rewrite U2 by (try reflexivity; lia). reflexivity.
    + destruct (Z.ltb_spec s 0); cbn [xle]; [destruct (truthy u && truthy v); cbn; lia|].
      rewrite U2 by (try reflexivity; lia). cbn; lia.
  - rewrite A in *. destruct (Z.eqb_spec s 0) as [->|n].
    + rewrite U1 by (try reflexivity; lia). reflexivity.
    + destruct (Z.ltb_spec s 0); cbn [xle]; [|destruct (truthy u || truthy v); cbn; lia].
      rewrite U1 by (try reflexivity; lia). cbn; lia.
Qed.

Lemma okb_strip s r x : okb s r x -> okb s (strip_boolean r) x.
Proof. intros (N & B). split; [apply strip_nostrip|]. intros c E. apply B, N, E. Qed.
Lemma boolean_of_const z : boolean (EConst z) = EConst (of_bool (truthy z)).
Proof.
  unfold boolean, is_boolean. cbn [defined negb orb is_boolean_node is_one is_zero is_const as_constant].
  destruct (Z.eqb_spec z 1); [subst; reflexivity|]. unfold truthy. destruct (Z.eqb_spec z 0); [subst; reflexivity|]. reflexivity.
Qed.
Lemma ok1_boolean s e x : nostrip e -> (forall c, e = EConst c -> bounds_value s (of_bool (truthy c)) x) -> ok1 s (boolean e) x.
Proof.
  intros N B. split; [apply nostrip_boolean; auto|]. intros c E. apply boolean_const in E as (z & E & ->). split; [apply in64_of_bool|auto].
Qed.
Lemma absorb_of o p q : o = And \/ o = Or -> absorbs o p = false -> truthy q = match o with And => andb | _ => orb end (truthy p) (truthy q).
Proof. intros [-> | ->]; cbn [absorbs]; intros A; destruct (truthy p); try discriminate; reflexivity. Qed.

Lemma c_and_or_ok s o x y r1 r2 : o = And \/ o = Or -> okb (inner_sign o s) r1 x -> okb (inner_sign o s) r2 y ->
  ok1 s (c_and_or s o r1 r2) (xbin o x y).
Proof.
  intros O K1 K2. apply okb_strip in K1, K2. unfold c_and_or.
  set (a1 := strip_boolean r1) in *. set (b1 := strip_boolean r2) in *. destruct K1 as (N1 & B1), K2 as (N2 & B2).
  assert (CM : xbin o x y = xbin o y x) by (apply xbin_comm; destruct O as [-> | ->]; reflexivity).
  assert (DB : forall p q u v, decides (inner_sign o s) p u -> decides (inner_sign o s) q v -> absorbs o p = false ->
    bounds_value s (of_bool (truthy q)) (xbin o u v)).
  { intros p q u v D1 D2 A. rewrite (absorb_of o p q O A). apply decide_bound. destruct O as [-> | ->]; auto. }
  assert (E : forall p, (match o with And => negb (truthy p) | _ => truthy p end) = absorbs o p) by (intros; reflexivity).
  assert (Last : forall a b, nostrip a -> nostrip b -> as_constant a = None ->
    ok1 s (if negb (s =? 0) then bound_of_logical s else if defined a && defined b then make_bin o a b else EUndef) (xbin o x y)).
  { intros a b Na Nb A. destruct (Z.eqb_spec s 0); cbn [negb].
    - destruct (defined a && defined b); auto using ok1_undef, ok1_make.
    - apply logical_ok1; auto. apply xbin_logical. destruct O as [-> | ->]; exact I. }
  destruct (as_constant b1) as [q|] eqn:Q.
  - rewrite Q. rewrite E. apply constant_inv in Q. destruct (absorbs o q) eqn:A.
    + apply ok1_boolean; auto. intros c C. rewrite Q in C. injection C as <-. rewrite CM. eapply decide_one; eauto.
    + apply ok1_boolean; auto. intros c C. rewrite CM. exact (DB q c y x (B2 q Q) (B1 c C) A).
  - destruct (as_constant a1) as [p|] eqn:P; [|apply Last; auto]. rewrite E. apply constant_inv in P. destruct (absorbs o p) eqn:A.
    + apply ok1_boolean; auto. intros c C. rewrite P in C. injection C as <-. eapply decide_one; eauto.
    + apply ok1_boolean; auto. intros c C. exact (DB p c x y (B1 p P) (B2 c C) A).
Qed.

(** the short-circuit operators *)
Lemma short_refines stop x y : xshort stop [x; y] = Bad \/
  exists u, x = Fin u /\ (truthy u = stop /\ xshort stop [x; y] = Fin (of_bool stop) \/
    truthy u = negb stop /\ exists v, y = Fin v /\ xshort stop [x; y] = Fin (of_bool (truthy v))).
Proof.
  destruct x as [u| | |]; auto. cbn [xshort]. destruct (Bool.eqb (truthy u) stop) eqn:E.
  - right. exists u. split; auto. left. apply eqb_prop in E. auto.
  - destruct y as [v| | |]; auto. right. exists u. split; auto. right. apply eqb_false_iff in E.
    split; [destruct (truthy u), stop; auto; congruence|]. exists v. split; auto.
    destruct (truthy v), stop; reflexivity.
Qed.
Lemma c_short_ok s fn t x y r1 r2 : fn = i_and_then \/ fn = i_or_else ->
  let o := match fn with i_and_then => And | _ => Or end in
  okb (inner_sign o s) r1 x -> okb (inner_sign o s) r2 y ->
  ok1 s (c_short s fn t r1 r2) (xshort (match fn with i_and_then => false | _ => true end) [x; y]).
Proof.
  intros O o K1 K2. apply okb_strip in K1, K2. unfold c_short.
  set (a := strip_boolean r1) in *. set (b := strip_boolean r2) in *. destruct K1 as (N1 & B1), K2 as (N2 & B2).
  assert (OO : o = And \/ o = Or) by (unfold o; destruct O as [-> | ->]; auto).
  set (stop := match fn with i_and_then => false | _ => true end) in *.
  set (V := xshort stop [x; y]).
  assert (BV : forall z w, V = Fin (of_bool w) -> (s = 0 -> z = w) -> (s < 0 -> z = true -> w = true) -> (0 < s -> w = true -> z = true) -> bounds_value s (of_bool z) V).
  { intros z w -> H0 H1 H2. right. destruct (Z.eqb_spec s 0); [rewrite H0 by auto; reflexivity|].
    destruct (Z.ltb_spec s 0); cbn [xle]; destruct z, w; cbn; lia. }
  assert (ST : stop = match o with And => false | _ => true end) by (unfold stop, o; destruct O as [-> | ->]; reflexivity).
  pose proof (short_refines stop x y) as SR. fold V in SR.
  assert (D1 : forall p, a = EConst p -> truthy p = stop -> bounds_value s (of_bool stop) V).
  { intros p P T. destruct SR as [->|(u & -> & [(A & E)|(A & v & -> & E)])]; [apply bv_bad|eapply BV; eauto|].
    destruct (B1 p P) as [|(u' & [= <-] & U1 & U2)]; [discriminate|]. rewrite ST in *. eapply BV; [exact E|..];
      destruct OO as [R|R]; rewrite R in *; cbn [inner_sign] in *; intros S; auto; intros; try discriminate;
      exfalso; cbn [negb] in *; (rewrite U1 in A by (try exact T; lia); discriminate) || (rewrite U2 in A by (try exact T; lia); discriminate). }
  assert (D2 : forall p q, a = EConst p -> truthy p = negb stop -> b = EConst q -> bounds_value s (of_bool (truthy q)) V).
  { intros p q P T Q. destruct SR as [->|(u & -> & [(A & E)|(A & v & -> & E)])]; [apply bv_bad| |];
      (destruct (B1 p P) as [|(u' & [= <-] & U1 & U2)]; [discriminate|]).
    - exfalso. rewrite ST in *. destruct OO as [R|R]; rewrite R in *; cbn [inner_sign negb] in *;
        (rewrite U1 in A by (try exact T; lia); discriminate) || (rewrite U2 in A by (try exact T; lia); discriminate).
    - destruct (B2 q Q) as [|(v' & [= <-] & V1 & V2)]; [discriminate|]. eapply BV; [exact E|..]; destruct OO as [R|R]; rewrite R in *; cbn [inner_sign] in *; intros S;
        destruct (truthy q) eqn:TQ, (truthy v) eqn:TV; auto; intros; exfalso; first [discriminate (V1 ltac:(lia) eq_refl) | discriminate (V2 ltac:(lia) eq_refl) | discriminate]. }
  assert (D3 : forall q, b = EConst q -> truthy q = stop -> bounds_value s (of_bool stop) V).
  { intros q Q T. destruct SR as [->|(u & -> & [(A & E)|(A & v & -> & E)])]; [apply bv_bad|eapply BV; eauto|].
    destruct (B2 q Q) as [|(v' & [= <-] & V1 & V2)]; [discriminate|]. rewrite ST in *. eapply BV; [exact E|..];
      destruct OO as [R|R]; rewrite R in *; cbn [inner_sign] in *; intros S; auto; try discriminate;
      destruct (truthy v) eqn:TV; auto; intros; exfalso; first [discriminate (V1 ltac:(lia) T) | discriminate (V2 ltac:(lia) T) | discriminate]. }
  assert (W : (match fn with i_and_then => true | _ => false end) = negb stop) by (unfold stop; destruct O as [-> | ->]; reflexivity).
  rewrite W. clearbody stop V.
  destruct (as_constant a) as [p|] eqn:P.
  - apply constant_inv in P. specialize (D1 p P). specialize (D2 p). destruct (truthy p) eqn:T, stop; cbn [negb] in *;
      (apply ok1_boolean; [assumption|]); intros c C; try (rewrite P in C; injection C as <-; rewrite T; auto; fail); auto.
  - destruct (as_constant b) as [q|] eqn:Q.
    + apply constant_inv in Q. specialize (D3 q Q). destruct (truthy q) eqn:T, stop; cbn [negb] in *;
      (apply ok1_boolean; [assumption|]); intros c C; try (rewrite Q in C; injection C as <-; rewrite T; auto; fail); rewrite C in P; discriminate.
    + destruct (Z.eqb_spec s 0); cbn [negb].
      * destruct (defined a && defined b); [|apply ok1_undef]. apply ok1_other; exact I.
      * apply logical_ok1; auto. destruct SR as [->|(u & -> & [(A & E)|(A & v & -> & E)])]; eauto.
Qed.

Section Bounds.
  Variable W : world.
  Variable r : env.
  Let M := meaning W r.

  Lemma node_value e : is_boolean_node e = true -> M e = Bad \/ exists b, M e = Fin (of_bool b).
  Proof.
    destruct e as [| | |o a b|a| | |]; try discriminate; intros H; unfold M; cbn [meaning].
    - apply xbin_logical. destruct o; try discriminate; exact I.
    - destruct (meaning W r a); cbn [xnot]; eauto.
  Qed.
  Lemma okb_of req t e q : plain_boolean e = true -> cev req t e = Val q -> ok1 t q (M e) -> okb t q (M e).
  Proof.
    intros P H (N & B). split; auto. intros c ->. destruct (B c eq_refl) as (_ & BV).
    assert (K : (exists z, e = EConst z) \/ is_boolean_node e = true \/ match e with EVar _ _ _ | EUndef => True | _ => False end).
    { unfold plain_boolean, is_boolean in P. apply orb_true_iff in P as [P|P]; [apply orb_true_iff in P as [P|P]|].
      - apply orb_true_iff in P as [P|P]; auto. destruct e; try discriminate. eauto.
      - destruct e; try discriminate. eauto.
      - destruct e; try discriminate; eauto. }
    destruct K as [(z & ->)|[K|K]].
    - cbn [cev] in H. injection H as <-. right. exists z. unfold M. cbn [meaning]. auto.
    - destruct (node_value e K) as [->|(b & E)]; [left; auto|]. rewrite E in *. right. exists (of_bool b). split; auto.
      destruct (cev_bool _ _ _ _ K H) as [-> | ->]; destruct BV as [BV|BV]; try discriminate;
        destruct (Z.eqb_spec t 0), (Z.ltb_spec t 0); try lia; destruct b; cbn [xle of_bool] in *; split; intros; auto; try discriminate; lia.
    - destruct e; try contradiction; cbn [cev] in H; [discriminate|]. injection H as H. destruct req; discriminate.
  Qed.

  Lemma less_ok s o x y r1 r2 v p q : o = Less \/ o = LessEqual -> r1 = EConst p -> r2 = EConst q -> ok1 (- s) r1 x -> ok1 s r2 y ->
    eval_bin o p q = Val v -> ok1 s (EConst v) (xbin o x y).
  Proof.
    intros O -> -> (_ & B1) (_ & B2) E. destruct (B1 p eq_refl) as (I1 & V1), (B2 q eq_refl) as (I2 & V2).
    apply ok1_const; [exact (eval_bin_in64 _ _ _ _ I1 I2 E)|].
    destruct V1 as [->|V1]; [rewrite Rewrite_Proofs.xbin_bad_l; apply bv_bad|].
    destruct V2 as [->|V2]; [rewrite Rewrite_Proofs.xbin_bad_r; apply bv_bad|].
    assert (EV : v = of_bool (match o with Less => p <? q | _ => p <=? q end)) by (destruct O as [-> | ->]; cbn [eval_bin] in E; injection E as <-; reflexivity).
    subst v. unfold bounds_value. destruct (Z.eqb_spec s 0) as [->|n].
    - cbn in V1. subst. right. destruct O as [-> | ->]; reflexivity.
    - destruct (Z.eqb_spec (- s) 0); [lia|].
      destruct (Z.ltb_spec s 0), (Z.ltb_spec (- s) 0); try lia; destruct O as [-> | ->]; destruct x, y; cbn [xbin xcmp xle] in *; try contradiction; auto;
        right; repeat match goal with |- context [?a <? ?b] => destruct (Z.ltb_spec a b) | |- context [?a <=? ?b] => destruct (Z.leb_spec a b) end; cbn [of_bool]; lia.
  Qed.

  Lemma abs_bound s q x : ok1 s q (xbin Max (Fin 0) (xbin Max x (xbin Sub (Fin 0) x))) -> ok1 s q (xabs x).
  Proof.
    intros (N & B). split; auto. intros c E. destruct (B c E) as (I & V). split; auto.
    replace (xabs x) with (xbin Max (Fin 0) (xbin Max x (xbin Sub (Fin 0) x))); auto.
    destruct x; cbn [xbin xmax xsub xneg xadd xabs]; auto. f_equal. lia.
  Qed.
  Lemma mod_bound q x y s : 0 < s -> ok1 s q (xbin Max (Fin 0) (xbin Sub (xbin Max (xbin Sub (Fin 0) y) y) (Fin 1))) -> ok1 s q (xbin Mod x y).
  Proof.
    intros S (N & B). split; auto. intros c E. destruct (B c E) as (I & V). split; auto.
    destruct x as [a| | |]; try (apply bv_bad). destruct y as [b| | |]; try (apply bv_bad).
    cbn [xbin xmod xmax xsub xneg xadd] in *. destruct V as [V|V]; [discriminate|]. right.
    destruct (Z.eqb_spec s 0); [lia|]. destruct (Z.ltb_spec s 0); [lia|]. cbn [xle] in *.
    destruct (Z.eqb_spec b 0) as [->|Hb]; [rewrite emod_0; lia|]. destruct (euclid_ediv a b Hb). lia.
  Qed.

  Lemma cev_ok req e : c64 e -> logical_ok e = true -> forall s q, cev req s e = Val q -> ok1 s q (M e).
  Proof.
    induction e as [|n f d|l b IHl IHb|o a b IHa IHb|a IHa|c t f IHc IHt IHf|fn tg l IHl|k] using expr_ind'; intros C L s q H.
    - injection H as <-. apply ok1_undef.
    - cbn [cev] in H. injection H as <-. destruct req; [apply ok1_undef|apply ok1_other; exact I].
    - cbn [cev] in H. apply bind_inv in H as (l' & Hl & H). apply bind_inv in H as (b' & Hb & H). injection H as <-. apply ok1_other; exact I.
    - apply c64_bin in C as [Ca Cb]. cbn [logical_ok] in L. apply andb_true_iff in L as [L Lo]. apply andb_true_iff in L as [La Lb].
      specialize (IHa Ca La). specialize (IHb Cb Lb). change (M (EBin o a b)) with (xbin o (M a) (M b)).
      destruct o; cbn [cev] in H.
      + (* add *) apply bind_inv in H as (x & Hx & H). apply bind_inv in H as (y & Hy & H). eapply add_ok; eauto.
      + (* sub *) apply bind_inv in H as (x & Hx & H). apply bind_inv in H as (y & Hy & H). eapply sub_ok; eauto.
      + (* mul *) apply bind_inv in H as (x & Hx & H). apply bind_inv in H as (y & Hy & H).
        pose proof (IHa _ _ Hx) as Kx. pose proof (IHb _ _ Hy) as Ky.
        destruct ((s =? 0) || is_const x 0 || is_const y 0 || _); [eapply exact_ok; eauto|].
        destruct (Z.eqb_spec (sign_of x) 0) as [S1|S1]; cbn [negb] in H.
        * destruct (Z.eqb_spec (sign_of y) 0) as [S2|S2]; cbn [negb] in H.
          { injection H as <-. destruct (defined x && defined y); [|apply ok1_undef]. split; [apply nostrip_other; exact I|discriminate]. }
          apply bind_inv in H as (x' & Hx' & H). pose proof (IHa _ _ Hx') as (N1 & B1). destruct Ky as (N2 & B2).
          eapply c_binary_ok; eauto. intros p q' c E1 E2 E. destruct (B1 p E1) as (I1 & V1), (B2 q' E2) as (I2 & V2).
          split; [exact (eval_bin_in64 _ _ _ _ I1 I2 E)|]. rewrite (eval_mul _ _ _ E). subst y. rewrite sign_of_const in *.
          rewrite (xbin_comm Mul) by reflexivity. rewrite Z.mul_comm. apply mul_bound; auto. lia.
        * apply bind_inv in H as (y' & Hy' & H). pose proof (IHb _ _ Hy') as (N2 & B2). destruct Kx as (N1 & B1).
          eapply c_binary_ok; eauto. intros p q' c E1 E2 E. destruct (B1 p E1) as (I1 & V1), (B2 q' E2) as (I2 & V2).
          split; [exact (eval_bin_in64 _ _ _ _ I1 I2 E)|]. rewrite (eval_mul _ _ _ E). subst x. rewrite sign_of_const in *.
          apply mul_bound; auto. lia.
      + (* div *) apply bind_inv in H as (x & Hx & H). apply bind_inv in H as (y & Hy & H).
        pose proof (IHa _ _ Hx) as Kx. pose proof (IHb _ _ Hy) as Ky.
        destruct ((s =? 0) || is_const x 0 || is_const y 0 || _); [eapply exact_ok; eauto|].
        destruct (Z.eqb_spec (sign_of y) 0) as [S2|S2]; cbn [negb] in H.
        { injection H as <-. destruct (defined x && defined y); [|apply ok1_undef]. split; [apply nostrip_other; exact I|discriminate]. }
        apply bind_inv in H as (x' & Hx' & H). pose proof (IHa _ _ Hx') as (N1 & B1). destruct Ky as (N2 & B2).
        eapply c_binary_ok; eauto. intros p q' c E1 E2 E. destruct (B1 p E1) as (I1 & V1), (B2 q' E2) as (I2 & V2).
        split; [exact (eval_bin_in64 _ _ _ _ I1 I2 E)|]. subst y. rewrite sign_of_const in *.
        pose proof (eval_bin_mean _ _ _ _ I1 I2 E) as E'. cbn [xbin xdiv] in E'. injection E' as <-. apply div_bound; auto. lia.
      + (* mod *) destruct (Z.eqb_spec s 0) as [->|S].
        { apply bind_inv in H as (x & Hx & H). apply bind_inv in H as (y & Hy & H). eapply exact_ok; eauto. }
        destruct (Z.ltb_spec s 0).
        { injection H as <-. apply ok1_const; [unfold in64; cbn; lia|]. destruct (M a) as [u| | |], (M b) as [v| | |]; try apply bv_bad. right.
          destruct (Z.eqb_spec s 0); [lia|]. destruct (Z.ltb_spec s 0); [|lia]. cbn [xbin xmod xle].
          destruct (Z.eqb_spec v 0) as [->|Hb]; [rewrite emod_0; lia|]. destruct (euclid_ediv u v Hb). lia. }
        apply bind_inv in H as (y & Hy & H). apply bind_inv in H as (y' & Hy' & H). apply bind_inv in H as (n & Hn & H). apply bind_inv in H as (m & Hm & H).
        injection H as <-. destruct (same _ _); cbn [negb].
        * destruct req; [apply ok1_undef|]. split; [apply nostrip_other; exact I|discriminate].
        * apply mod_bound; [lia|]. apply c_min_max_ok; auto; [apply ok1_const; [unfold in64; cbn; lia|apply bv_exact]|].
          eapply sub_ok; [exact Hm| |apply ok1_const; [unfold in64; cbn; lia|apply bv_exact]].
          apply c_min_max_ok; auto. eapply sub_ok; [exact Hn|apply ok1_const; [unfold in64; cbn; lia|apply bv_exact]|auto].
      + (* min *) apply bind_inv in H as (x & Hx & H). apply bind_inv in H as (y & Hy & H). injection H as <-. apply c_min_max_ok; auto.
      + (* max *) apply bind_inv in H as (x & Hx & H). apply bind_inv in H as (y & Hy & H). injection H as <-. apply c_min_max_ok; auto.
      + (* equal *) destruct (Z.eqb_spec s 0) as [->|S].
        { apply bind_inv in H as (x & Hx & H). apply bind_inv in H as (y & Hy & H). eapply exact_ok; eauto. }
        injection H as <-. apply logical_ok1; auto. apply xbin_logical; exact I.
      + destruct (Z.eqb_spec s 0) as [->|S].
        { apply bind_inv in H as (x & Hx & H). apply bind_inv in H as (y & Hy & H). eapply exact_ok; eauto. }
        injection H as <-. apply logical_ok1; auto. apply xbin_logical; exact I.
      + (* less *) apply bind_inv in H as (x & Hx & H). apply bind_inv in H as (y & Hy & H).
        pose proof (IHa _ _ Hx) as Kx. pose proof (IHb _ _ Hy) as Ky.
        assert (D : as_constant x = None \/ as_constant y = None -> ok1 s (if negb (s =? 0) then bound_of_logical s else if defined x && defined y then make_bin Less x y else EUndef) (xbin Less (M a) (M b))).
        { intros K. destruct (Z.eqb_spec s 0); cbn [negb]; [|apply logical_ok1; auto; apply xbin_logical; exact I].
          destruct (defined x && defined y); [|apply ok1_undef]. apply ok1_make; auto; [apply Kx|apply Ky]. }
        destruct (as_constant x) as [p|] eqn:E1; [destruct (as_constant y) as [p'|] eqn:E2|].
        * apply bind_inv in H as (v & Hv & H). injection H as <-. apply constant_inv in E1, E2. exact (less_ok s Less _ _ _ _ _ _ _ (or_introl eq_refl) E1 E2 Kx Ky Hv).
        * injection H as <-. apply D; auto.
        * injection H as <-. apply D; auto.
      + apply bind_inv in H as (x & Hx & H). apply bind_inv in H as (y & Hy & H).
        pose proof (IHa _ _ Hx) as Kx. pose proof (IHb _ _ Hy) as Ky.
        assert (D : as_constant x = None \/ as_constant y = None -> ok1 s (if negb (s =? 0) then bound_of_logical s else if defined x && defined y then make_bin LessEqual x y else EUndef) (xbin LessEqual (M a) (M b))).
        { intros K. destruct (Z.eqb_spec s 0); cbn [negb]; [|apply logical_ok1; auto; apply xbin_logical; exact I].
          destruct (defined x && defined y); [|apply ok1_undef]. apply ok1_make; auto; [apply Kx|apply Ky]. }
        destruct (as_constant x) as [p|] eqn:E1; [destruct (as_constant y) as [p'|] eqn:E2|].
        * apply bind_inv in H as (v & Hv & H). injection H as <-. apply constant_inv in E1, E2. exact (less_ok s LessEqual _ _ _ _ _ _ _ (or_intror eq_refl) E1 E2 Kx Ky Hv).
        * injection H as <-. apply D; auto.
        * injection H as <-. apply D; auto.
      + (* and *) apply andb_true_iff in Lo as [P1 P2]. apply bind_inv in H as (x & Hx & H). apply bind_inv in H as (y & Hy & H). injection H as <-.
        apply c_and_or_ok; auto; cbn [inner_sign]; eapply okb_of; eauto; apply IHa || apply IHb; assumption.
      + apply andb_true_iff in Lo as [P1 P2]. apply bind_inv in H as (x & Hx & H). apply bind_inv in H as (y & Hy & H). injection H as <-.
        apply c_and_or_ok; auto; cbn [inner_sign]; eapply okb_of; eauto; apply IHa || apply IHb; assumption.
    - cbn [logical_ok] in L. apply andb_true_iff in L as [La P]. apply (proj1 (c64_not _)) in C. specialize (IHa C La).
      cbn [cev] in H. apply bind_inv in H as (x & Hx & H). injection H as <-. change (M (ENot a)) with (xnot (M a)).
      pose proof (okb_strip _ _ _ (okb_of _ _ _ _ P Hx (IHa _ _ Hx))) as (N & B).
      destruct (as_constant (strip_boolean x)) as [p|] eqn:E.
      + apply constant_inv in E. apply ok1_const; [destruct (p =? 0); unfold in64; cbn; lia|].
        destruct (B p E) as [->|(v & -> & V1 & V2)]; [apply bv_bad|]. right. unfold truthy in *. cbn [xnot].
        destruct (Z.eqb_spec s 0); [subst|destruct (Z.ltb_spec s 0)]; destruct (p =? 0), (v =? 0); cbn [negb of_bool xle] in *; auto; try lia;
          try discriminate (V1 ltac:(lia) eq_refl); try discriminate (V2 ltac:(lia) eq_refl).
      + destruct (Z.eqb_spec s 0); cbn [negb].
        * destruct (defined (strip_boolean x)); [apply ok1_other; exact I|apply ok1_undef].
        * apply logical_ok1; auto. destruct (M a); cbn [xnot]; eauto.
    - cbn [logical_ok] in L. apply andb_true_iff in L as [L Lf]. apply andb_true_iff in L as [Lc Lt]. apply c64_sel in C as (Cc & Ct & Cf).
      specialize (IHc Cc Lc). specialize (IHt Ct Lt). specialize (IHf Cf Lf).
      cbn [cev] in H. apply bind_inv in H as (c' & Hc & H). change (M (ESelect c t f)) with (xselect (M c) (M t) (M f)). pose proof (IHc _ _ Hc) as (Nc & Bc).
      destruct (as_constant (strip_boolean c')) as [p|] eqn:E.
      + apply constant_inv in E. apply Nc in E. destruct (Bc p E) as (_ & [->|V]).
        * cbn [xselect]. destruct (truthy p); [destruct (IHt _ _ H) as (N & B)|destruct (IHf _ _ H) as (N & B)]; (split; auto; intros z Ez; destruct (B z Ez); split; auto; apply bv_bad).
        * cbn in V. rewrite V. cbn [xselect]. destruct (truthy p); auto.
      + apply bind_inv in H as (x & Hx & H). apply bind_inv in H as (y & Hy & H). injection H as <-.
        pose proof (IHt _ _ Hx) as (Nx & Bx). pose proof (IHf _ _ Hy) as (Ny & By).
        assert (S : forall z, ok1 s (if defined (strip_boolean c') && defined x && defined y then ESelect (strip_boolean c') x y else EUndef) z).
        { intros z. destruct (_ && _); [apply ok1_other; exact I|apply ok1_undef]. }
        destruct (as_constant x) as [u|] eqn:E1; [destruct (as_constant y) as [v|] eqn:E2|]; auto.
        apply constant_inv in E1, E2. destruct (Bx u E1) as (I1 & V1), (By v E2) as (I2 & V2).
        assert (K : xselect (M c) (M t) (M f) = Bad \/ xselect (M c) (M t) (M f) = M t \/ xselect (M c) (M t) (M f) = M f).
        { destruct (M c); cbn [xselect]; auto. destruct (truthy z); auto. }
        unfold bounds_value in V1, V2. destruct (Z.ltb_spec s 0).
        { destruct (Z.eqb_spec s 0); [lia|]. apply ok1_const; [unfold in64 in *; lia|]. destruct K as [-> |[-> | ->]]; [apply bv_bad|..]; unfold bounds_value.
          - destruct V1; auto. right. destruct (Z.eqb_spec s 0); [lia|]. destruct (Z.ltb_spec s 0); [|lia]. destruct (M t); cbn [xle] in *; auto; lia.
          - destruct V2; auto. right. destruct (Z.eqb_spec s 0); [lia|]. destruct (Z.ltb_spec s 0); [|lia]. destruct (M f); cbn [xle] in *; auto; lia. }
        destruct (Z.ltb_spec 0 s).
        { destruct (Z.eqb_spec s 0); [lia|]. apply ok1_const; [unfold in64 in *; lia|]. destruct K as [-> |[-> | ->]]; [apply bv_bad|..]; unfold bounds_value.
          - destruct V1; auto. right. destruct (Z.eqb_spec s 0); [lia|]. destruct (Z.ltb_spec s 0); [lia|]. destruct (M t); cbn [xle] in *; auto; lia.
          - destruct V2; auto. right. destruct (Z.eqb_spec s 0); [lia|]. destruct (Z.ltb_spec s 0); [lia|]. destruct (M f); cbn [xle] in *; auto; lia. }
        destruct (defined _); [apply ok1_other; exact I|apply ok1_undef].
    - apply c64_call in C. cbn [logical_ok] in L. apply andb_true_iff in L as [L Lp].
      assert (LF : Forall (fun e => logical_ok e = true) l).
      { clear - L. induction l; constructor; apply andb_true_iff in L as [L1 L2]; auto. }
      change (M (ECall fn tg l)) with (xcall W fn tg r l (map (fun a => (defined a, M a)) l)). cbn [cev] in H. cbv zeta in H.
      assert (R : forall z u, (if req then Val EUndef
          else if s =? 0
               then args' <- (fix go (l : list expr) : res (list expr) :=
                                match l with [] => Val [] | x :: l' => x' <- cev req s x ;; r <- go l' ;; Val (x' :: r) end) l ;;
                    Val (ECall fn tg args')
               else Val (ECall fn tg l)) = Val z -> ok1 s z u).
      { intros z u E. destruct req; [injection E as <-; apply ok1_undef|]. destruct (s =? 0).
        - apply bind_inv in E as (l' & _ & E). injection E as <-. apply ok1_other; exact I.
        - injection E as <-. apply ok1_other; exact I. }
      destruct fn; try (exact (R _ _ H)).
      + (* abs *) destruct l as [|a [|]]; try discriminate. inversion IHl as [|? ? Ia _]; inversion C as [|? ? Ca _]; inversion LF as [|? ? La _]; subst.
        specialize (Ia Ca La). apply bind_inv in H as (y & Hy & H). apply bind_inv in H as (y' & Hy' & H). apply bind_inv in H as (n & Hn & H).
        destruct (negb _); [|exact (R _ _ H)]. injection H as <-. cbn [xcall map]. apply abs_bound.
        apply c_min_max_ok; auto; [apply ok1_const; [unfold in64; cbn; lia|apply bv_exact]|].
        apply c_min_max_ok; auto. eapply sub_ok; [exact Hn|apply ok1_const; [unfold in64; cbn; lia|apply bv_exact]|auto].
      + (* and_then *)
        destruct l as [|a [|b [|]]]; try discriminate. inversion IHl as [|? ? Ia IHl']; inversion IHl' as [|? ? Ib _]; subst.
        inversion C as [|? ? Ca C']; inversion C' as [|? ? Cb _]; subst. inversion LF as [|? ? La L']; inversion L' as [|? ? Lb _]; subst.
        cbn [forallb] in Lp. apply andb_true_iff in Lp as [P1 Lp]. apply andb_true_iff in Lp as [P2 _].
        apply bind_inv in H as (x & Hx & H). apply bind_inv in H as (y & Hy & H). injection H as <-. cbn [xcall map snd].
        refine (c_short_ok s i_and_then tg (M a) (M b) x y (or_introl eq_refl) _ _); cbn [inner_sign]; eapply okb_of; eauto; apply Ia || apply Ib; assumption.
      + destruct l as [|a [|b [|]]]; try discriminate. inversion IHl as [|? ? Ia IHl']; inversion IHl' as [|? ? Ib _]; subst.
        inversion C as [|? ? Ca C']; inversion C' as [|? ? Cb _]; subst. inversion LF as [|? ? La L']; inversion L' as [|? ? Lb _]; subst.
        cbn [forallb] in Lp. apply andb_true_iff in Lp as [P1 Lp]. apply andb_true_iff in Lp as [P2 _].
        apply bind_inv in H as (x & Hx & H). apply bind_inv in H as (y & Hy & H). injection H as <-. cbn [xcall map snd].
        refine (c_short_ok s i_or_else tg (M a) (M b) x y (or_intror eq_refl) _ _); cbn [inner_sign]; eapply okb_of; eauto; apply Ia || apply Ib; assumption.
    - cbn [cev] in H. injection H as <-. apply ok1_const; [apply c64_const; auto|]. apply bv_exact.
  Qed.
End Bounds.

(** *** constant_adder *)
Lemma xadd_assoc_fin x p q : xadd (xadd x (Fin p)) (Fin q) = xadd x (Fin (p + q)).
Proof. destruct x; cbn [xadd]; try reflexivity. f_equal; lia. Qed.
Lemma xadd_min o x y c : o = Min \/ o = Max -> xadd (xbin o x y) (Fin c) = xbin o (xadd x (Fin c)) (xadd y (Fin c)).
Proof. intros [-> | ->]; destruct x, y; cbn [xbin xmin xmax xadd]; try reflexivity; f_equal; lia. Qed.
Lemma xadd_l x y c : xadd (xadd x y) (Fin c) = xadd (xadd x (Fin c)) y.
Proof. destruct x, y; cbn [xadd]; try reflexivity; f_equal; lia. Qed.
Lemma xadd_r x y c : xadd (xadd x y) (Fin c) = xadd x (xadd y (Fin c)).
Proof. destruct x, y; cbn [xadd]; try reflexivity; f_equal; lia. Qed.
Lemma xsub_r x y c : xadd (xsub x y) (Fin c) = xsub x (xadd y (Fin (- c))).
Proof. destruct x, y; cbn [xadd xsub xneg]; try reflexivity; f_equal; lia. Qed.
Lemma xmul_add x y d : y <> 0 -> xadd (xmul x (Fin y)) (Fin (d * y)) = xmul (xadd x (Fin d)) (Fin y).
Proof.
  intros Y. destruct x; cbn [xmul xadd]; try reflexivity; [f_equal; lia|..]; unfold xinf;
    destruct (_ =? 0); try reflexivity; destruct (0 <? _); reflexivity.
Qed.
Lemma refines_xadd x y c : refines x y -> refines (xadd x (Fin c)) (xadd y (Fin c)).
Proof. intros [->| ->]; [left|right]; reflexivity. Qed.
Lemma eq_refines x y : x = y -> refines x y. Proof. intros ->. apply refines_refl. Qed.

Section Adder.
  Variable W : world.
  Definition added (c : Z) (e e' : expr) : Prop := forall r, refines (xadd (meaning W r e) (Fin c)) (meaning W r e').

  Lemma added_add o sign c n a b (ma mb : Z -> Z -> res (expr * Z)) e' n' :
    (o = Add /\ sign = 1 \/ o = Sub /\ sign = -1) ->
    (forall n a' n', ma c n = Val (a', n') -> defined a' = true -> added c a a') ->
    (forall c n b' n', in64 c -> mb c n = Val (b', n') -> defined b' = true -> added c b b') ->
    (k <- cmul 64 c (- sign) ;;
      if is_const b k then Val (a, n + 1)
      else
        ra <- ma c n ;; let '(a', n1) := ra in
        if defined a' then Val (make_bin o a' b, n1)
        else
          c' <- cmul 64 c sign ;;
          rb <- mb c' n1 ;; let '(b', n2) := rb in
          if defined b' then Val (make_bin o a b', n2) else Val (EUndef, n2)) = Val (e', n') ->
    defined e' = true -> added c (EBin o a b) e'.
  Proof.
    intros O Ha Hb H D r. cbn [meaning]. apply bind_inv in H as (k & Hk & H). apply chk_inv in Hk as [-> _].
    destruct (is_const b (c * - sign)) eqn:Eb.
    { injection H as <- <-. destruct b; try discriminate. apply Z.eqb_eq in Eb. subst. cbn [meaning]. apply eq_refines.
      destruct O as [(-> & ->)|(-> & ->)]; cbn [xbin]; unfold xsub; cbn [xneg]; rewrite xadd_assoc_fin;
        (replace (_ + c) with 0 by lia); destruct (meaning W r a); cbn [xadd]; try reflexivity; f_equal; lia. }
    apply bind_inv in H as ((a', n1) & Ea & H). destruct (defined a') eqn:Da.
    { injection H as <- <-. pose proof (Ha _ _ _ Ea Da r) as R.
      eapply refines_trans; [|apply eq_refines; symmetry; apply make_bin_mean].
      eapply refines_trans; [|exact (refines_xbin o _ _ _ _ R (refines_refl _))].
      apply eq_refines. destruct O as [(-> & ->)|(-> & ->)]; cbn [xbin]; [apply xadd_l|]. unfold xsub. apply xadd_l. }
    apply bind_inv in H as (c' & Hc & H). apply chk_inv in Hc as [-> Ic]. apply bind_inv in H as ((b', n2) & Eb' & H). destruct (defined b') eqn:Db; [|injection H as <- <-; discriminate].
    injection H as <- <-. pose proof (Hb _ _ _ _ Ic Eb' Db r) as R.
    eapply refines_trans; [|apply eq_refines; symmetry; apply make_bin_mean].
    eapply refines_trans; [|exact (refines_xbin o _ _ _ _ (refines_refl _) R)].
    apply eq_refines. destruct O as [(-> & ->)|(-> & ->)]; cbn [xbin]; [rewrite xadd_r; replace (c * 1) with c by lia; reflexivity|]. rewrite xsub_r. replace (c * -1) with (- c) by lia. reflexivity.
  Qed.

  Lemma added_min o c n a b (ma mb : Z -> Z -> res (expr * Z)) e' n' :
    o = Min \/ o = Max ->
    (forall n a' n', ma c n = Val (a', n') -> defined a' = true -> added c a a') ->
    (forall n b' n', mb c n = Val (b', n') -> defined b' = true -> added c b b') ->
    (ra <- ma c n ;; let '(a', n1) := ra in
      rb <- mb c n1 ;; let '(b', n2) := rb in
      if defined a' && defined b' then Val (make_bin o a' b', n2)
      else if defined a' && (n <? n2) then Val (make_bin o a' (make_bin Add b (EConst c)), n2 - 1)
      else if defined b' && (n <? n2) then Val (make_bin o (make_bin Add a (EConst c)) b', n2 - 1)
      else Val (EUndef, n2)) = Val (e', n') ->
    defined e' = true -> added c (EBin o a b) e'.
  Proof.
    intros O Ha Hb H D r. cbn [meaning]. rewrite (xadd_min _ _ _ _ O).
    apply bind_inv in H as ((a', n1) & Ea & H). apply bind_inv in H as ((b', n2) & Eb & H).
    assert (T : forall x y, refines (xadd (meaning W r a) (Fin c)) (meaning W r x) -> refines (xadd (meaning W r b) (Fin c)) (meaning W r y) ->
      refines (xbin o (xadd (meaning W r a) (Fin c)) (xadd (meaning W r b) (Fin c))) (meaning W r (make_bin o x y))).
    { intros x y X Y. eapply refines_trans; [exact (refines_xbin o _ _ _ _ X Y)|]. apply eq_refines. symmetry. apply make_bin_mean. }
    assert (S : forall x, refines (xadd (meaning W r x) (Fin c)) (meaning W r (make_bin Add x (EConst c)))).
    { intros x. apply eq_refines. rewrite make_bin_mean. reflexivity. }
    destruct (defined a') eqn:Da, (defined b') eqn:Db; cbn [andb] in H.
    - injection H as <- <-. apply T; [eapply Ha|eapply Hb]; eauto.
    - destruct (n <? n2); injection H as <- <-; [|discriminate]. apply T; [eapply Ha; eauto|apply S].
    - destruct (n <? n2); injection H as <- <-; [|discriminate]. apply T; [apply S|eapply Hb; eauto].
    - injection H as <- <-. discriminate.
  Qed.

  Lemma cadder_ok e : consts_ok e -> forall c n e' n', in64 c -> cadder c n e = Val (e', n') -> defined e' = true -> added c e e'.
  Proof.
    induction e as [|m f d|l b IHl IHb|o a b IHa IHb|a IHa|q t f IHq IHt IHf|fn tg l IHl|k] using expr_ind'; intros C c n e' n' Ic H D; cbn [cadder] in H.
    - injection H as <- <-. discriminate.
    - injection H as <- <-. discriminate.
    - apply bind_inv in H as ((b', n1) & Eb & H). destruct (defined b') eqn:Db; injection H as <- <-; [|discriminate].
      pose proof (IHb (proj2 C) _ _ _ _ Ic Eb Db) as A. intros r. cbn [meaning]. clear - A. revert r. induction l as [|(s, x) l IH]; intros r; cbn [xlets]; [apply A|].
      destruct (meaning W r x); try apply IH. apply refines_bad.
    - cbn [consts_ok] in C. destruct C as [Ca Cb]. specialize (IHa Ca). specialize (IHb Cb). destruct o; try (injection H as <- <-; discriminate).
      + refine (added_add Add 1 c n a b (fun c n => cadder c n a) (fun c n => cadder c n b) e' n' _ _ _ H D); [auto| |exact IHb]. intros n0 a' n1. exact (IHa c n0 a' n1 Ic).
      + refine (added_add Sub (-1) c n a b (fun c n => cadder c n a) (fun c n => cadder c n b) e' n' _ _ _ H D); [auto| |exact IHb]. intros n0 a' n1. exact (IHa c n0 a' n1 Ic).
      + destruct (as_constant b) as [y|] eqn:Eb; [|injection H as <- <-; discriminate]. apply constant_inv in Eb. subst b.
        destruct (Z.eqb_spec y 0) as [|Y]; [injection H as <- <-; discriminate|].
        apply bind_inv in H as (m & Hm & H). destruct (Z.eqb_spec m 0) as [->|]; [|injection H as <- <-; discriminate].
        apply bind_inv in H as (d & Hd & H). apply bind_inv in H as ((a', n1) & Ea & H). apply bind_inv in H as (u & Hu & H).
        destruct (defined a') eqn:Da; injection H as <- <-; [|discriminate]. cbn [consts_ok] in Cb. pose proof (eval_bin_in64 Div _ _ _ Ic Cb Hd) as Id. pose proof (IHa _ _ _ _ Id Ea Da) as A. intros r. cbn [meaning].
        assert (c = d * y) as ->.
        { pose proof (eval_bin_mean Mod _ _ _ Ic Cb Hm) as E1. pose proof (eval_bin_mean Div _ _ _ Ic Cb Hd) as E2. cbn [xbin xmod xdiv] in E1, E2.
          injection E1 as E1. injection E2 as E2. destruct (euclid_ediv c y Y) as [E3 _]. rewrite E1, E2 in E3. lia. }
        rewrite xmul_add by auto. eapply refines_trans; [exact (refines_xbin Mul _ _ _ _ (A r) (refines_refl _))|]. apply eq_refines. symmetry. apply make_bin_mean.
      + refine (added_min Min c n a b (fun c n => cadder c n a) (fun c n => cadder c n b) e' n' _ _ _ H D); [auto| |]; intros n0 a' n1; [exact (IHa c n0 a' n1 Ic)|exact (IHb c n0 a' n1 Ic)].
      + refine (added_min Max c n a b (fun c n => cadder c n a) (fun c n => cadder c n b) e' n' _ _ _ H D); [auto| |]; intros n0 a' n1; [exact (IHa c n0 a' n1 Ic)|exact (IHb c n0 a' n1 Ic)].
    - injection H as <- <-. discriminate.
    - cbn [consts_ok] in C. destruct C as (Cq & Ct & Cf). apply bind_inv in H as ((t', n1) & Et & H). destruct (defined t') eqn:Dt; [|injection H as <- <-; discriminate].
      apply bind_inv in H as ((f', n2) & Ef & H). destruct (defined f') eqn:Df; injection H as <- <-; [|discriminate].
      pose proof (IHt Ct _ _ _ _ Ic Et Dt) as A. pose proof (IHf Cf _ _ _ _ Ic Ef Df) as B. intros r. cbn [meaning].
      destruct (meaning W r q); cbn [xselect]; try apply refines_bad. destruct (truthy z); auto.
    - injection H as <- <-. discriminate.
    - destruct (add_overflows 64 k c); injection H as <- <-; [discriminate|]. intros r. cbn [meaning xadd]. apply refines_refl.
  Qed.
End Adder.
