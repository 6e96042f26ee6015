From Coq Require Import ZArith List Bool Lia.
From Verif Require Import Arith_Model Arith_Spec Arith_Proofs Expr_Model Expr_Spec Expr_Proofs Expr_Props Match_Model Match_Proofs
  Rewrite_Model Rewrite_Proofs RewriteMatch_Proofs RewriteApply_Proofs RuleTac Rules RulesAll_Proofs Rewrite_Props
  Simplify_Model Simplify_Proofs Simplify_Props Const_Model Const_Proofs Const_Props
  Interval_Model Interval_Spec Interval_Props BoundsOf_Model BoundsOf_Spec.
Import ListNotations.
Open Scope Z_scope.

Lemma lower_refines x y v : lower x v -> refines x y -> lower y v.
Proof. intros L [->|<-]; [contradiction|exact L]. Qed.
Lemma upper_refines x y v : upper x v -> refines x y -> upper y v.
Proof. intros L [->|<-]; [contradiction|exact L]. Qed.
Lemma lower_upper_eq x v : lower x v -> upper x v -> x = Fin v.
Proof. destruct x; cbn [lower upper]; try tauto. intros. f_equal. lia. Qed.
Lemma zop_fin o x y : xbin o (Fin x) (Fin y) = Fin (zop o x y).
Proof.
  destruct o; cbn [xbin zop xadd xsub xneg xmul xdiv xmod xmin xmax xcmp xbool2]; try reflexivity; f_equal; unfold of_bool, truthy.
  all: try destruct (x =? y); try destruct (x <? y); try destruct (x <=? y); try destruct (x =? 0), (y =? 0); reflexivity.
Qed.

Lemma mul_0_p : simplify_bin Mul (EConst 0) positive_infinity = Val (EConst 0). Proof. vm_compute. reflexivity. Qed.
Lemma mul_0_n : simplify_bin Mul (EConst 0) negative_infinity = Val (EConst 0). Proof. vm_compute. reflexivity. Qed.
Lemma mul_p_0 : simplify_bin Mul positive_infinity (EConst 0) = Val (EConst 0). Proof. vm_compute. reflexivity. Qed.
Lemma mul_n_0 : simplify_bin Mul negative_infinity (EConst 0) = Val (EConst 0). Proof. vm_compute. reflexivity. Qed.

Section C13.
  Variable W : world.
  Variable r : env.
  Variable reuse : expr -> expr -> bool.
  Notation M := (meaning W r).
  Notation enc := (encloses W r).
  Notation sim := (simp reuse).

  (** the side conditions of C12 on the operands of an operation *)
  Definition operands_ok (o : binop) (x y : expr) : Prop :=
    consts_all in64 x /\ consts_all in64 y /\
    (order_op o = true -> consts_all below30 x /\ consts_all below30 y) /\
    (equality_op o = true -> is_select x = true \/ is_select y = true -> all_finite W r x /\ all_finite W r y).

  Lemma ok_plain o x y : order_op o = false -> consts_all in64 x -> consts_all in64 y -> operands_ok o x y.
  Proof. intros O A B. split; [exact A|split; [exact B|split; intros K; exfalso; destruct o; discriminate]]. Qed.
  Lemma simp_good o x y e : operands_ok o x y -> sim o x y = Val e -> refines (xbin o (M x) (M y)) (M e).
  Proof.
    intros (A & B & C & D) H. unfold simp in H. destruct (reuse x y).
    - injection H as <-. right. reflexivity.
    - exact (C12_binary W r o x y e A B C D H).
  Qed.

  Lemma enc_point a v : interval_ok a -> enc a v -> i_point a = true -> M (i_min a) = Fin v /\ M (i_max a) = Fin v.
  Proof.
    intros K (L & U) P. destruct (K P) as (E & _). rewrite E in *. pose proof (lower_upper_eq _ _ L U). auto.
  Qed.

  (** *** one or two results *)
  Lemma point_enc x i v : (forall e, x = Val e -> refines (Fin v) (M e)) -> point_of x = Val i -> enc i v.
  Proof.
    intros H E. apply bind_inv in E as (e & He & E). injection E as <-. specialize (H e He).
    unfold point. split; cbn [i_min i_max]; destruct H as [?|<-]; try discriminate; cbn [lower upper]; lia.
  Qed.
  Lemma interval_enc x y i v : (forall e, x = Val e -> lower (M e) v) -> (forall e, y = Val e -> upper (M e) v) ->
    interval_of x y = Val i -> enc i v.
  Proof.
    intros H K E. apply bind_inv in E as (e & He & E). apply bind_inv in E as (f & Hf & E). injection E as <-.
    split; cbn [i_bounds i_min i_max]; auto.
  Qed.
  Lemma bounds_enc x y v : lower (M x) v -> upper (M y) v -> enc (i_bounds x y) v.
  Proof. intros; split; assumption. Qed.

  (** *** operators monotone in both operands *)
  Definition mono (o : binop) : bool := match o with Add | Min | Max => true | _ => false end.
  Lemma mono_lower o x y va vb : mono o = true -> lower x va -> lower y vb -> lower (xbin o x y) (zop o va vb).
  Proof. destruct o; try discriminate; intros _; destruct x, y; cbn [xbin zop xadd xmin xmax lower]; intros; try tauto; lia. Qed.
  Lemma mono_upper o x y va vb : mono o = true -> upper x va -> upper y vb -> upper (xbin o x y) (zop o va vb).
  Proof. destruct o; try discriminate; intros _; destruct x, y; cbn [xbin zop xadd xmin xmax upper]; intros; try tauto; lia. Qed.

  Section Linear.
    Variables (o : binop) (a b : interval) (va vb : Z).
    Hypothesis OK : forall x y, end_of a x -> end_of b y -> operands_ok o x y.
    Hypothesis La : lower (M (i_min a)) va.
    Hypothesis Ua : upper (M (i_max a)) va.

    Lemma simp_lower x y v e : end_of a x -> end_of b y -> lower (xbin o (M x) (M y)) v -> sim o x y = Val e -> lower (M e) v.
    Proof. intros Ex Ey L H. exact (lower_refines _ _ _ L (simp_good _ _ _ _ (OK _ _ Ex Ey) H)). Qed.
    Lemma simp_upper x y v e : end_of a x -> end_of b y -> upper (xbin o (M x) (M y)) v -> sim o x y = Val e -> upper (M e) v.
    Proof. intros Ex Ey L H. exact (upper_refines _ _ _ L (simp_good _ _ _ _ (OK _ _ Ex Ey) H)). Qed.
    Lemma simp_point i : interval_ok a -> interval_ok b -> enc a va -> enc b vb -> both_points a b = true ->
      point_of (sim o (i_min a) (i_min b)) = Val i -> enc i (zop o va vb).
    Proof.
      intros Ka Kb Ea Eb P H. apply andb_true_iff in P as (Pa & Pb).
      destruct (enc_point _ _ Ka Ea Pa) as (E1 & _). destruct (enc_point _ _ Kb Eb Pb) as (E2 & _).
      eapply point_enc; [|exact H]. intros e He. pose proof (simp_good _ _ _ _ (OK _ _ (or_introl eq_refl) (or_introl eq_refl)) He) as R.
      rewrite E1, E2, zop_fin in R. exact R.
    Qed.
  End Linear.

  Lemma linear_ok o a b va vb i : mono o = true -> interval_ok a -> interval_ok b -> enc a va -> enc b vb ->
    (forall x y, end_of a x -> end_of b y -> operands_ok o x y) ->
    bounds_of_linear reuse o a b = Val i -> enc i (zop o va vb).
  Proof.
    intros Mo Ka Kb Ea Eb OK H. unfold bounds_of_linear in H. destruct (both_points a b) eqn:P.
    - eapply simp_point; eauto.
    - destruct Ea as (La & Ua), Eb as (Lb & Ub). eapply interval_enc; [| |exact H]; intros e He.
      + refine (simp_lower _ _ _ OK _ _ _ _ (or_introl eq_refl) (or_introl eq_refl) _ He). apply mono_lower; auto.
      + refine (simp_upper _ _ _ OK _ _ _ _ (or_intror eq_refl) (or_intror eq_refl) _ He). apply mono_upper; auto.
  Qed.

  Lemma xsub_lower x y va vb : lower x va -> upper y vb -> lower (xsub x y) (va - vb).
  Proof. destruct x, y; cbn [xsub xneg xadd lower upper]; intros; try tauto; lia. Qed.
  Lemma xsub_upper x y va vb : upper x va -> lower y vb -> upper (xsub x y) (va - vb).
  Proof. destruct x, y; cbn [xsub xneg xadd lower upper]; intros; try tauto; lia. Qed.

  Lemma sub_linear_ok a b va vb i : interval_ok a -> interval_ok b -> enc a va -> enc b vb ->
    (forall x y, end_of a x -> end_of b y -> consts_all in64 x /\ consts_all in64 y) ->
    bounds_of_linear reuse Sub a (swapped b) = Val i -> enc i (va - vb).
  Proof.
    intros Ka Kb Ea Eb C H. unfold bounds_of_linear, both_points, swapped in H. cbn [i_point i_min i_max] in H.
    assert (OK : forall x y, end_of a x -> end_of b y -> operands_ok Sub x y).
    { intros x y Hx Hy. destruct (C x y Hx Hy). apply ok_plain; auto. }
    destruct (i_point a && i_point b) eqn:P.
    - apply andb_true_iff in P as (Pa & Pb).
      destruct (enc_point _ _ Ka Ea Pa) as (E1 & _). destruct (enc_point _ _ Kb Eb Pb) as (_ & E2).
      eapply point_enc; [|exact H]. intros e He. pose proof (simp_good _ _ _ _ (OK _ _ (or_introl eq_refl) (or_intror eq_refl)) He) as R.
      rewrite E1, E2, zop_fin in R. exact R.
    - destruct Ea as (La & Ua), Eb as (Lb & Ub). eapply interval_enc; [| |exact H]; intros e He.
      + refine (simp_lower _ _ _ OK _ _ _ _ (or_introl eq_refl) (or_intror eq_refl) _ He). apply xsub_lower; auto.
      + refine (simp_upper _ _ _ OK _ _ _ _ (or_intror eq_refl) (or_introl eq_refl) _ He). apply xsub_upper; auto.
  Qed.

  (** *** comparisons *)
  Lemma less_ok o a b va vb i : o = Less \/ o = LessEqual -> interval_ok a -> interval_ok b -> enc a va -> enc b vb ->
    (forall x y, end_of a x -> end_of b y -> operands_ok o x y) ->
    bounds_of_less reuse o a b = Val i -> enc i (zop o va vb).
  Proof.
    intros Mo Ka Kb Ea Eb OK H. unfold bounds_of_less in H. destruct (both_points a b) eqn:P.
    - eapply simp_point; eauto.
    - destruct Ea as (La & Ua), Eb as (Lb & Ub). eapply interval_enc; [| |exact H]; intros e He.
      + refine (simp_lower _ _ _ OK _ _ _ _ (or_intror eq_refl) (or_introl eq_refl) _ He).
        destruct Mo as [-> | ->]; destruct (M (i_max a)) as [p| | |], (M (i_min b)) as [q| | |]; cbn [lower upper] in Ua, Lb; try tauto; cbn [xbin xcmp lower zop of_bool];
          try (destruct (va <? vb); lia); try (destruct (va <=? vb); lia).
        * destruct (Z.ltb_spec p q), (Z.ltb_spec va vb); cbn [of_bool]; lia.
        * destruct (Z.leb_spec p q), (Z.leb_spec va vb); cbn [of_bool]; lia.
      + refine (simp_upper _ _ _ OK _ _ _ _ (or_introl eq_refl) (or_intror eq_refl) _ He).
        destruct Mo as [-> | ->]; destruct (M (i_min a)) as [p| | |], (M (i_max b)) as [q| | |]; cbn [lower upper] in La, Ub; try tauto; cbn [xbin xcmp upper zop of_bool];
          try (destruct (va <? vb); lia); try (destruct (va <=? vb); lia).
        * destruct (Z.ltb_spec p q), (Z.ltb_spec va vb); cbn [of_bool]; lia.
        * destruct (Z.leb_spec p q), (Z.leb_spec va vb); cbn [of_bool]; lia.
  Qed.

  (** xcmp of a lower and an upper end is a boolean *)
  Lemma le_value x y e : consts_all below30 x -> consts_all below30 y -> simplify_less_equal x y = Val e -> 
    forall v w, lower (M x) v -> upper (M y) w -> consts_all in64 e /\ exists b, M e = Fin (of_bool b) /\ (v <= w -> b = true).
  Proof.
    intros A B H v w L U. pose proof (simplify_less_equal_ok W r x y e A B H) as (R & C). split; [exact C|].
    change (meaning W r) with M in R. destruct (M x) as [p| | |], (M y) as [q| | |]; cbn [lower upper] in L, U; try tauto; cbn [xbin xcmp] in R; destruct R as [R|R]; try discriminate;
      rewrite <- R; eexists; (split; [reflexivity|]); auto. intros. apply Z.leb_le. lia.
  Qed.
  Lemma lt_value x y e : consts_all below30 x -> consts_all below30 y -> simplify_less x y = Val e ->
    forall v w, upper (M x) v -> lower (M y) w -> consts_all in64 e /\ exists b, M e = Fin (of_bool b) /\ (b = true -> v < w).
  Proof.
    intros A B H v w U L. pose proof (simplify_less_ok W r x y e A B H) as (R & C). split; [exact C|].
    change (meaning W r) with M in R. destruct (M x) as [p| | |], (M y) as [q| | |]; cbn [lower upper] in L, U; try tauto; cbn [xbin xcmp] in R; destruct R as [R|R]; try discriminate;
      rewrite <- R; eexists; (split; [reflexivity|]); try discriminate. intros K. apply Z.ltb_lt in K. lia.
  Qed.

  Lemma equal_ok a b va vb i : interval_ok a -> interval_ok b -> enc a va -> enc b vb ->
    (forall x y, end_of a x -> end_of b y -> operands_ok Equal x y) ->
    bounds_of_equal reuse a b = Val i -> enc i (zop Equal va vb).
  Proof.
    intros Ka Kb Ea Eb OK H. unfold bounds_of_equal in H. destruct (both_points a b) eqn:P.
    - eapply simp_point; eauto.
    - destruct Ea as (La & Ua), Eb as (Lb & Ub).
      assert (C : forall x, end_of a x \/ end_of b x -> consts_all below30 x).
      { intros x [Hx|Hx]; [destruct (OK x (i_min b) Hx (or_introl eq_refl)) as (_ & _ & K & _)|destruct (OK (i_min a) x (or_introl eq_refl) Hx) as (_ & _ & K & _)]; apply K; reflexivity. }
      assert (Ca1 := C _ (or_introl (or_introl eq_refl))). assert (Ca2 := C _ (or_introl (or_intror eq_refl))).
      assert (Cb1 := C _ (or_intror (or_introl eq_refl))). assert (Cb2 := C _ (or_intror (or_intror eq_refl))).
      eapply interval_enc; [| |exact H]; intros e He.
      + injection He as <-. cbn [meaning lower zop]. destruct (va =? vb); lia.
      + apply bind_inv in He as (x & Hx & He). apply bind_inv in He as (y & Hy & He).
        destruct (le_value _ _ _ Ca1 Cb2 Hx va vb La Ub) as (Cx & bx & Ex & Kx).
        destruct (le_value _ _ _ Cb1 Ca2 Hy vb va Lb Ua) as (Cy & by_ & Ey & Ky).
        pose proof (proj1 (simplify_and_ok W r x y e Cx Cy He)) as R. rewrite Ex, Ey in R. cbn [xbin xbool2] in R.
        destruct R as [R|R]; [discriminate|]. rewrite <- R. cbn [upper zop].
        destruct (Z.eqb_spec va vb); [rewrite Kx, Ky by lia; cbn; lia|].
        match goal with |- context [of_bool ?t] => destruct t end; cbn; lia.
  Qed.
  Lemma not_equal_ok a b va vb i : interval_ok a -> interval_ok b -> enc a va -> enc b vb ->
    (forall x y, end_of a x -> end_of b y -> operands_ok NotEqual x y) ->
    bounds_of_not_equal reuse a b = Val i -> enc i (zop NotEqual va vb).
  Proof.
    intros Ka Kb Ea Eb OK H. unfold bounds_of_not_equal in H. destruct (both_points a b) eqn:P.
    - eapply simp_point; eauto.
    - destruct Ea as (La & Ua), Eb as (Lb & Ub).
      assert (C : forall x, end_of a x \/ end_of b x -> consts_all below30 x).
      { intros x [Hx|Hx]; [destruct (OK x (i_min b) Hx (or_introl eq_refl)) as (_ & _ & K & _)|destruct (OK (i_min a) x (or_introl eq_refl) Hx) as (_ & _ & K & _)]; apply K; reflexivity. }
      assert (Ca1 := C _ (or_introl (or_introl eq_refl))). assert (Ca2 := C _ (or_introl (or_intror eq_refl))).
      assert (Cb1 := C _ (or_intror (or_introl eq_refl))). assert (Cb2 := C _ (or_intror (or_intror eq_refl))).
      eapply interval_enc; [| |exact H]; intros e He.
      + apply bind_inv in He as (x & Hx & He). apply bind_inv in He as (y & Hy & He).
        destruct (lt_value _ _ _ Ca2 Cb1 Hx va vb Ua Lb) as (Cx & bx & Ex & Kx).
        destruct (lt_value _ _ _ Cb2 Ca1 Hy vb va Ub La) as (Cy & by_ & Ey & Ky).
        pose proof (proj1 (simplify_or_ok W r x y e Cx Cy He)) as R. rewrite Ex, Ey in R. cbn [xbin xbool2] in R.
        destruct R as [R|R]; [discriminate|]. rewrite <- R. cbn [lower zop].
        destruct bx; [specialize (Kx eq_refl); destruct (Z.eqb_spec va vb); cbn; lia|].
        destruct by_; [specialize (Ky eq_refl); destruct (Z.eqb_spec va vb); cbn; lia|].
        cbn. destruct (va =? vb); lia.
      + injection He as <-. cbn [meaning upper zop]. destruct (va =? vb); lia.
  Qed.

  (** *** logical operators: the ends are finite and the lower ends are not negative *)
  Definition logical_ends (a : interval) : Prop :=
    exists p q, M (i_min a) = Fin p /\ M (i_max a) = Fin q /\ 0 <= p.
  Lemma truthy_mono p q : 0 <= p -> p <= q -> truthy p = true -> truthy q = true.
  Proof. unfold truthy. intros. destruct (Z.eqb_spec p 0), (Z.eqb_spec q 0); cbn in *; try discriminate; lia. Qed.
  Lemma zop_logic o x y : o = And \/ o = Or -> zop o x y = of_bool (match o with And => andb | _ => orb end (truthy x) (truthy y)).
  Proof. intros [-> | ->]; cbn [zop]; unfold truthy; destruct (x =? 0), (y =? 0); reflexivity. Qed.
  Lemma logic_ok o a b va vb i : o = And \/ o = Or -> interval_ok a -> interval_ok b -> enc a va -> enc b vb ->
    logical_ends a -> logical_ends b ->
    (forall x y, end_of a x -> end_of b y -> consts_all in64 x /\ consts_all in64 y) ->
    bounds_of_linear reuse o a b = Val i -> enc i (zop o va vb).
  Proof.
    intros Mo Ka Kb Ea Eb (pa & qa & Pa & Qa & Na) (pb & qb & Pb & Qb & Nb) C H.
    assert (OK : forall x y, end_of a x -> end_of b y -> operands_ok o x y).
    { intros x y Hx Hy. destruct (C x y Hx Hy). apply ok_plain; auto. destruct Mo as [-> | ->]; reflexivity. }
    unfold bounds_of_linear in H. destruct (both_points a b) eqn:P.
    - eapply simp_point; eauto.
    - destruct Ea as (La & Ua), Eb as (Lb & Ub). rewrite Pa in La. rewrite Pb in Lb. rewrite Qa in Ua. rewrite Qb in Ub. cbn [lower upper] in *.
      pose proof (truthy_mono pa va Na La) as T1. pose proof (truthy_mono va qa ltac:(lia) Ua) as T2.
      pose proof (truthy_mono pb vb Nb Lb) as T3. pose proof (truthy_mono vb qb ltac:(lia) Ub) as T4.
      rewrite (zop_logic o va vb Mo).
      eapply interval_enc; [| |exact H]; intros e He.
      + refine (simp_lower _ _ _ OK _ _ _ _ (or_introl eq_refl) (or_introl eq_refl) _ He). rewrite Pa, Pb, zop_fin, (zop_logic o _ _ Mo). cbn [lower].
        destruct (truthy pa), (truthy va), (truthy pb), (truthy vb); try discriminate (T1 eq_refl); try discriminate (T3 eq_refl); destruct Mo as [-> | ->]; cbn; lia.
      + refine (simp_upper _ _ _ OK _ _ _ _ (or_intror eq_refl) (or_intror eq_refl) _ He). rewrite Qa, Qb, zop_fin, (zop_logic o _ _ Mo). cbn [upper].
        destruct (truthy qa), (truthy va), (truthy qb), (truthy vb); try discriminate (T2 eq_refl); try discriminate (T4 eq_refl); destruct Mo as [-> | ->]; cbn; lia.
  Qed.
  Lemma not_value x e v : consts_all in64 x -> M x = Fin v -> simplify_not x = Val e -> M e = Fin (znot v).
  Proof.
    intros C E H. pose proof (C12_not W r x e C H) as R. rewrite E in R. cbn [xnot] in R. destruct R as [R|R]; [discriminate|].
    rewrite <- R. unfold znot. destruct (v =? 0); reflexivity.
  Qed.
  Lemma not_ok op is_op a va i : interval_ok a -> enc a va -> logical_ends a ->
    (is_op = true -> forall x, op = Some x -> M x = Fin va /\ i_min a = ENot x /\ i_max a = ENot x) ->
    (forall x, end_of a x -> consts_all in64 x) ->
    bounds_of_not op is_op a = Val i -> enc i (znot va).
  Proof.
    intros Ka Ea (p & q & Pa & Qa & Na) Op C H. unfold bounds_of_not in H.
    assert (K : (if i_point a then point_of (simplify_not (i_min a)) else interval_of (simplify_not (i_max a)) (simplify_not (i_min a))) = Val i -> enc i (znot va)).
    { clear H. intros H. destruct (i_point a) eqn:P.
      - destruct (enc_point _ _ Ka Ea P) as (E1 & _). eapply point_enc; [|exact H]. intros e He. right. symmetry. eapply not_value; eauto. apply C. left; reflexivity.
      - destruct Ea as (La & Ua). rewrite Pa in La. rewrite Qa in Ua. cbn [lower upper] in *. eapply interval_enc; [| |exact H]; intros e He.
        + rewrite (not_value _ _ _ (C _ (or_intror eq_refl)) Qa He). cbn [lower]. unfold znot. destruct (Z.eqb_spec q 0), (Z.eqb_spec va 0); lia.
        + rewrite (not_value _ _ _ (C _ (or_introl eq_refl)) Pa He). cbn [upper]. unfold znot. destruct (Z.eqb_spec p 0), (Z.eqb_spec va 0); lia. }
    destruct op as [x|]; [|auto]. destruct is_op; [|auto].
    destruct (Op eq_refl x eq_refl) as (E & E1 & E2). destruct Ea as (La & Ua). rewrite E1 in La. rewrite E2 in Ua. cbn [meaning] in La, Ua. rewrite E in La, Ua. cbn [xnot lower upper] in La, Ua.
    exfalso. destruct (Z.eqb_spec va 0); cbn [of_bool] in *; lia.
  Qed.

  (** *** select *)
  Lemma min_value x y e v : consts_all below30 x -> consts_all below30 y -> simplify_min x y = Val e -> lower (xmin (M x) (M y)) v -> lower (M e) v.
  Proof. intros A B H L. exact (lower_refines _ _ _ L (proj1 (simplify_min_ok W r x y e A B H))). Qed.
  Lemma max_value x y e v : consts_all below30 x -> consts_all below30 y -> simplify_max x y = Val e -> upper (xmax (M x) (M y)) v -> upper (M e) v.
  Proof. intros A B H L. exact (upper_refines _ _ _ L (proj1 (simplify_max_ok W r x y e A B H))). Qed.

  Lemma exact_value x y : refines x y -> x <> Bad -> y = x.
  Proof. intros [->| ->]; [contradiction|reflexivity]. Qed.
  Lemma lower_nb x v : lower x v -> x <> Bad. Proof. intros H ->. exact H. Qed.
  Lemma upper_nb x v : upper x v -> x <> Bad. Proof. intros H ->. exact H. Qed.
  Definition ends30 (a : interval) : Prop := forall x, end_of a x -> consts_all below30 x.
  Definition ends64 (a : interval) : Prop := forall x, end_of a x -> consts_all in64 x.
  Lemma ends30_64 a : ends30 a -> ends64 a. Proof. intros H x Hx. apply c30_c64, H, Hx. Qed.

  Lemma select_ok reuse_select c t f vc vt vf i : interval_ok c -> interval_ok t -> interval_ok f ->
    enc c vc -> enc t vt -> enc f vf -> (exists p, M (i_min c) = Fin p /\ 0 <= p) ->
    (i_point c && i_point t && i_point f = true -> reuse_select = false ->
       ends64 c /\ ends64 t /\ ends64 f /\ all_finite W r (ESelect (i_min c) (i_min t) (i_min f))) ->
    (i_point c = false -> ends30 t /\ ends30 f) ->
    bounds_of_select reuse_select c t f = Val i -> enc i (zselect vc vt vf).
  Proof.
    intros Kc Kt Kf Ec Et Ef (p & Pc & Nc) P1 P2 H. unfold bounds_of_select in H.
    assert (V : forall x y z, M x = Fin vc -> xselect (M x) y z = if vc =? 0 then z else y).
    { intros x y z ->. cbn [xselect]. unfold truthy. destruct (vc =? 0); reflexivity. }
    destruct (i_point c && i_point t && i_point f) eqn:P.
    { specialize (P1 eq_refl). apply andb_true_iff in P as (P & Pf). apply andb_true_iff in P as (Pp & Pt).
      destruct (enc_point _ _ Kc Ec Pp) as (E1 & _). destruct (enc_point _ _ Kt Et Pt) as (E2 & _). destruct (enc_point _ _ Kf Ef Pf) as (E3 & _).
      assert (E : xselect (M (i_min c)) (M (i_min t)) (M (i_min f)) = Fin (zselect vc vt vf)).
      { rewrite (V _ _ _ E1), E2, E3. unfold zselect. destruct (vc =? 0); reflexivity. }
      destruct reuse_select.
      - injection H as <-. unfold point. split; cbn [i_min i_max meaning]; rewrite E; cbn [lower upper]; lia.
      - destruct (P1 eq_refl) as (C1 & C2 & C3 & F). eapply point_enc; [|exact H]. intros e He. rewrite <- E.
        exact (C12_select W r _ _ _ e (C1 _ (or_introl eq_refl)) (C2 _ (or_introl eq_refl)) (C3 _ (or_introl eq_refl)) F He). }
    destruct Ec as (Lc & Uc).
    destruct (is_true (i_min c)) eqn:T.
    { injection H as <-. apply is_true_inv in T as (z & Hz & E). rewrite E in Pc, Lc. cbn [meaning lower] in Pc, Lc. injection Pc as Pc.
      unfold zselect. destruct (Z.eqb_spec vc 0); [lia|exact Et]. }
    destruct (is_false (i_max c)) eqn:F.
    { injection H as <-. apply is_zero_inv in F. rewrite F in Uc. rewrite Pc in Lc. cbn [meaning lower upper] in Uc, Lc.
      unfold zselect. destruct (Z.eqb_spec vc 0); [exact Ef|lia]. }
    destruct (i_point c) eqn:Pp.
    { injection H as <-. destruct (enc_point _ _ Kc (conj Lc Uc) Pp) as (E1 & _).
      pose proof (V _ (M (i_min t)) (M (i_min f)) E1) as V1. pose proof (V _ (M (i_max t)) (M (i_max f)) E1) as V2.
      destruct Et as (Lt & Ut), Ef as (Lf & Uf).
      unfold i_select. destruct (i_point t && i_point f) eqn:Q.
      - apply andb_true_iff in Q as (Q1 & Q2). destruct (Kt Q1) as (Y1 & _). destruct (Kf Q2) as (Y2 & _). rewrite Y1 in *. rewrite Y2 in *.
        unfold point. split; cbn [i_min i_max meaning]; rewrite V1; unfold zselect; destruct (vc =? 0); assumption.
      - unfold i_bounds. split; cbn [i_min i_max meaning]; rewrite ?V1, ?V2; unfold zselect; destruct (vc =? 0); assumption. }
    destruct (P2 eq_refl) as (C2 & C3). destruct Et as (Lt & Ut), Ef as (Lf & Uf).
    eapply interval_enc; [| |exact H]; intros e He.
    - refine (min_value _ _ _ _ (C2 _ (or_introl eq_refl)) (C3 _ (or_introl eq_refl)) He _). unfold zselect.
      destruct (M (i_min t)), (M (i_min f)); cbn [lower xmin] in *; try tauto; destruct (vc =? 0); lia.
    - refine (max_value _ _ _ _ (C2 _ (or_intror eq_refl)) (C3 _ (or_intror eq_refl)) He _). unfold zselect.
      destruct (M (i_max t)), (M (i_max f)); cbn [upper xmax] in *; try tauto; destruct (vc =? 0); lia.
  Qed.

  (** *** negation and absolute value *)
  Lemma negate_value x e : consts_all in64 x -> s_negate x = Val e -> refines (xneg (M x)) (M e) /\ consts_all in64 e.
  Proof.
    intros C H. pose proof (simplify_sub_ok W r (EConst 0) x e (proj2 (c64_const 0) c64_0) C H) as (R & K). split; [|exact K].
    cbn [meaning xbin] in R. destruct (M x); exact R.
  Qed.
  Lemma xneg_lower x v : upper x v -> lower (xneg x) (- v).
  Proof. destruct x; cbn [xneg lower upper]; try tauto; lia. Qed.
  Lemma xneg_upper x v : lower x v -> upper (xneg x) (- v).
  Proof. destruct x; cbn [xneg lower upper]; try tauto; lia. Qed.
  Lemma i_negate_ok a va i : interval_ok a -> enc a va -> ends64 a -> i_negate a = Val i -> enc i (- va).
  Proof.
    intros K E C H. unfold i_negate in H. destruct (i_point a) eqn:P.
    - destruct (enc_point _ _ K E P) as (E1 & _). eapply point_enc; [|exact H]. intros e He.
      destruct (negate_value _ _ (C _ (or_introl eq_refl)) He) as (R & _). rewrite E1 in R. exact R.
    - destruct E as (L & U). eapply interval_enc; [| |exact H]; intros e He.
      + destruct (negate_value _ _ (C _ (or_intror eq_refl)) He) as (R & _). exact (lower_refines _ _ _ (xneg_lower _ _ U) R).
      + destruct (negate_value _ _ (C _ (or_introl eq_refl)) He) as (R & _). exact (upper_refines _ _ _ (xneg_upper _ _ L) R).
  Qed.

  Hypothesis HW : world_ok W.
  Lemma is_np_ok s c : is_non_positive s = true -> M s = Fin c -> c <= 0.
  Proof.
    intros H E. unfold is_non_positive in H. destruct (is_negative_infinity s) eqn:P.
    { destruct s; try discriminate P. destruct fn; try discriminate P. discriminate E. }
    destruct (as_constant s) eqn:C; [|discriminate]. destruct s; try discriminate C. cbn in *. apply Z.leb_le in H. congruence.
  Qed.
  Lemma nn_not_ninf s : is_non_negative s = true -> M s <> NInf.
  Proof.
    intros N E. unfold is_non_negative in N. destruct s; try discriminate; cbn [meaning] in E.
    destruct fn; try discriminate; cbn [map] in E; cbn in N; try discriminate N; try discriminate E.
    destruct args as [|? [|]]; cbn [map] in E; try discriminate E. cbn [xcall] in E. destruct (M e); discriminate E.
  Qed.
  Lemma np_not_pinf s : is_non_positive s = true -> M s <> PInf.
  Proof.
    intros N E. unfold is_non_positive in N. destruct s; try discriminate; cbn [meaning] in E.
    destruct fn; try discriminate; cbn in N; try discriminate N; discriminate E.
  Qed.
  Lemma abs_value x e : consts_all in64 x -> s_abs W x = Val e -> refines (xabs (M x)) (M e) /\ consts_all in64 e.
  Proof.
    intros C H. unfold s_abs, simplify_call in H. cbn [is_semaphore_fn] in H.
    destruct (is_non_negative x) eqn:N.
    { injection H as <-. split; [|exact C]. destruct (M x) as [z| | |] eqn:E; cbn [xabs]; try (right; reflexivity).
      - pose proof (is_nn_ok W r x z N E). right. f_equal. lia.
      - exfalso. exact (nn_not_ninf x N E). }
    destruct (is_non_positive x) eqn:Np.
    { destruct (negate_value x e C H) as (R & K). split; [|exact K]. destruct (M x) as [z| | |] eqn:E; cbn [xabs xneg] in *; auto.
      - pose proof (is_np_ok x z Np E). replace (Z.abs z) with (- z) by lia. exact R.
      - exfalso. exact (np_not_pinf x Np E). }
    eapply (finish_call_ok W r HW) in H; [|constructor; [exact C|constructor]|intros K; exact K].
    destruct H as (R & K). split; [|exact K]. exact R.
  Qed.

  Definition abs_small (a : interval) : Prop := forall x e, end_of a x -> s_abs W x = Val e -> consts_all below30 e.
  Lemma abs_of_ends x y v p q : lower x v -> upper y v -> refines (xabs x) p -> refines (xabs y) q -> upper (xmax p q) (Z.abs v).
  Proof.
    intros L U A B. destruct x, y; cbn [lower upper xabs] in *; try tauto; destruct A as [A|<-]; try discriminate; destruct B as [B|<-]; try discriminate;
      cbn [xmax upper]; try exact I. lia.
  Qed.
  Lemma abs_ok a va i : interval_ok a -> enc a va -> ends64 a -> (i_point a = false -> abs_small a) ->
    bounds_of_abs W a = Val i -> enc i (Z.abs va).
  Proof.
    intros K E C S H. unfold bounds_of_abs in H. pose proof E as (L & U).
    destruct (is_non_negative (i_min a)) eqn:N.
    { injection H as <-. assert (0 <= va).
      { destruct (M (i_min a)) as [z| | |] eqn:Em; cbn [lower] in L; try contradiction.
        - pose proof (is_nn_ok W r _ _ N Em). lia.
        - exfalso. exact (nn_not_ninf _ N Em). }
      rewrite Z.abs_eq by lia. exact E. }
    destruct (is_non_positive (i_max a)) eqn:Np.
    { assert (va <= 0).
      { destruct (M (i_max a)) as [z| | |] eqn:Em; cbn [upper] in U; try contradiction.
        - pose proof (is_np_ok _ _ Np Em). lia.
        - exfalso. exact (np_not_pinf _ Np Em). }
      rewrite Z.abs_neq by lia. eapply i_negate_ok; eauto. }
    destruct (i_point a) eqn:P.
    - destruct (enc_point _ _ K E P) as (E1 & _). eapply interval_enc; [| |exact H]; intros e He.
      + injection He as <-. cbn [meaning lower]. lia.
      + destruct (abs_value _ _ (C _ (or_introl eq_refl)) He) as (R & _). rewrite E1 in R. destruct R as [R|R]; [discriminate|]. rewrite <- R. cbn [xabs upper]. lia.
    - specialize (S eq_refl). eapply interval_enc; [| |exact H]; intros e He.
      + injection He as <-. cbn [meaning lower]. lia.
      + apply bind_inv in He as (x & Hx & He). apply bind_inv in He as (y & Hy & He).
        destruct (abs_value _ _ (C _ (or_introl eq_refl)) Hx) as (R1 & _). destruct (abs_value _ _ (C _ (or_intror eq_refl)) Hy) as (R2 & _).
        refine (max_value _ _ _ _ (S _ _ (or_introl eq_refl) Hx) (S _ _ (or_intror eq_refl) Hy) He _).
        eapply abs_of_ends; eauto.
  Qed.

  (** *** constant bounds of the ends *)
  Definition ends_bounds_ok (a : interval) : Prop := forall x, end_of a x -> bounds_ok x.
  Lemma ebo_64 a : ends_bounds_ok a -> ends64 a. Proof. intros H x Hx. exact (proj1 (H x Hx)). Qed.
  Lemma cint_lower a va c m : ends_bounds_ok a -> enc a va -> constant_interval a = Val c -> fst c = Some m ->
    exists p, M (i_min a) = Fin p /\ m <= p <= va.
  Proof.
    intros B (L & _) H Em. apply bind_inv in H as (l & Hl & H). apply bind_inv in H as (h & _ & H). injection H as <-. cbn [fst] in Em. subst l.
    apply bind_inv in Hl as (q & Hq & H). injection H as H. apply constant_inv in H. subst q.
    destruct (B _ (or_introl eq_refl)) as (C & Lo). destruct (cev_ok W r true _ C Lo (-1) _ Hq) as (_ & V). destruct (V m eq_refl) as (_ & V').
    apply bound_inv in V'; [|eapply lower_nb; exact L]. cbn [Z.eqb Z.ltb Z.compare] in V'.
    destruct (M (i_min a)) as [p| | |]; cbn [lower xle] in *; try contradiction. exists p. split; [reflexivity|lia].
  Qed.
  Lemma cint_upper a va c m : ends_bounds_ok a -> enc a va -> constant_interval a = Val c -> snd c = Some m ->
    exists p, M (i_max a) = Fin p /\ va <= p <= m.
  Proof.
    intros B (_ & U) H Em. apply bind_inv in H as (l & _ & H). apply bind_inv in H as (h & Hh & H). injection H as <-. cbn [snd] in Em. subst h.
    apply bind_inv in Hh as (q & Hq & H). injection H as H. apply constant_inv in H. subst q.
    destruct (B _ (or_intror eq_refl)) as (C & Lo). destruct (cev_ok W r true _ C Lo 1 _ Hq) as (_ & V). destruct (V m eq_refl) as (_ & V').
    apply bound_inv in V'; [|eapply upper_nb; exact U]. cbn [Z.eqb Z.ltb Z.compare] in V'.
    destruct (M (i_max a)) as [p| | |]; cbn [upper xle] in *; try contradiction. exists p. split; [reflexivity|lia].
  Qed.
  Section Signs.
    Variables (a : interval) (va : Z) (c : option Z * option Z).
    Hypothesis B : ends_bounds_ok a.
    Hypothesis E : enc a va.
    Hypothesis H : constant_interval a = Val c.
    Lemma nn_sign : c_non_negative c = true -> exists p, M (i_min a) = Fin p /\ 0 <= p <= va.
    Proof. unfold c_non_negative. destruct (fst c) eqn:F; [|discriminate]. intros K. apply Z.leb_le in K. destruct (cint_lower _ _ _ _ B E H F) as (p & ? & ?). exists p. split; [assumption|lia]. Qed.
    Lemma pos_sign : c_positive c = true -> exists p, M (i_min a) = Fin p /\ 0 < p <= va.
    Proof. unfold c_positive. destruct (fst c) eqn:F; [|discriminate]. intros K. apply Z.ltb_lt in K. destruct (cint_lower _ _ _ _ B E H F) as (p & ? & ?). exists p. split; [assumption|lia]. Qed.
    Lemma np_sign : c_non_positive c = true -> exists p, M (i_max a) = Fin p /\ va <= p <= 0.
    Proof. unfold c_non_positive. destruct (snd c) eqn:F; [|discriminate]. intros K. apply Z.leb_le in K. destruct (cint_upper _ _ _ _ B E H F) as (p & ? & ?). exists p. split; [assumption|lia]. Qed.
    Lemma neg_sign : c_negative c = true -> exists p, M (i_max a) = Fin p /\ va <= p < 0.
    Proof. unfold c_negative. destruct (snd c) eqn:F; [|discriminate]. intros K. apply Z.ltb_lt in K. destruct (cint_upper _ _ _ _ B E H F) as (p & ? & ?). exists p. split; [assumption|lia]. Qed.
  End Signs.

  (** *** products.  An end is finite, or an infinity; zero times an infinity is zero,
      which is what simplification makes of literals. *)
  Definition infinity_lit (e : expr) : Prop := e = positive_infinity \/ e = negative_infinity.
  Definition infinite (x : xval) : Prop := x = PInf \/ x = NInf.
  Definition mul_ok (x y : expr) : Prop :=
    (M x = Fin 0 /\ infinite (M y)) \/ (infinite (M x) /\ M y = Fin 0) ->
    reuse x y = false /\ ((x = EConst 0 /\ infinity_lit y) \/ (infinity_lit x /\ y = EConst 0)).
  Definition xmul0 (x y : xval) : xval :=
    match x, y with
    | Fin p, PInf => if p =? 0 then Fin 0 else xinf p
    | Fin p, NInf => if p =? 0 then Fin 0 else xinf (- p)
    | PInf, Fin q => if q =? 0 then Fin 0 else xinf q
    | NInf, Fin q => if q =? 0 then Fin 0 else xinf (- q)
    | _, _ => xmul x y
    end.
  Lemma xmul0_eq x y : xmul x y <> Bad -> xmul0 x y = xmul x y.
  Proof.
    destruct x, y; try reflexivity; cbn [xmul xmul0]; unfold xinf; intros H.
    all: try (destruct (Z.eqb_spec z 0); [subst z; exfalso; apply H; reflexivity|reflexivity]).
  Qed.
  Lemma mul_value x y e : mul_ok x y -> consts_all in64 x -> consts_all in64 y -> M x <> Bad -> M y <> Bad ->
    sim Mul x y = Val e -> M e = xmul0 (M x) (M y) /\ consts_all in64 e.
  Proof.
    intros K Cx Cy Nx Ny H.
    assert (D : xmul (M x) (M y) <> Bad \/ ((M x = Fin 0 /\ infinite (M y)) \/ (infinite (M x) /\ M y = Fin 0))).
    { unfold infinite. destruct (M x), (M y); try contradiction; cbn [xmul]; unfold xinf;
        try (left; discriminate); destruct (Z.eqb_spec z 0); try (subst z; right; tauto); left; intros X; rewrite ?(proj2 (Z.eqb_neq (- z) 0)) in X by lia;
        destruct (_ <? _); discriminate X. }
    destruct D as [D|D].
    - rewrite xmul0_eq by exact D. split.
      + apply exact_value; [|exact D]. exact (simp_good Mul x y e (ok_plain Mul x y eq_refl Cx Cy) H).
      + unfold simp in H. destruct (reuse x y); [injection H as <-; apply c64_bin; auto|]. exact (proj2 (simplify_mul_ok W r x y e Cx Cy H)).
    - destruct (K D) as (Ru & L). unfold simp in H. rewrite Ru in H.
      assert (e = EConst 0) as ->.
      { destruct L as [(-> & [-> | ->])|([-> | ->] & ->)]; rewrite ?mul_0_p, ?mul_0_n, ?mul_p_0, ?mul_n_0 in H; injection H as <-; reflexivity. }
      split; [|apply c64_const, c64_0]. cbn [meaning].
      destruct L as [(-> & [-> | ->])|([-> | ->] & ->)]; reflexivity.
  Qed.

  Ltac cases := repeat match goal with
    | |- context [?a =? ?b] => destruct (Z.eqb_spec a b)
    | |- context [?a <? ?b] => destruct (Z.ltb_spec a b)
    end.
  Lemma xmul0_nn_lower p q va vb : 0 <= p <= va -> 0 <= q <= vb -> lower (xmul0 (Fin p) (Fin q)) (va * vb).
  Proof. intros. cbn [xmul0 xmul lower]. nia. Qed.
  Lemma xmul0_nn_upper x y va vb : 0 <= va -> 0 <= vb -> upper x va -> upper y vb -> upper (xmul0 x y) (va * vb).
  Proof.
    intros A B U V. destruct x, y; cbn [upper] in U, V; try contradiction; cbn [xmul0 xmul]; unfold xinf; cases; cbn [upper]; try exact I; try nia.
  Qed.
  Lemma xmul0_np_lower p q va vb : va <= p <= 0 -> vb <= q <= 0 -> lower (xmul0 (Fin p) (Fin q)) (va * vb).
  Proof. intros. cbn [xmul0 xmul lower]. nia. Qed.
  Lemma xmul0_np_upper x y va vb : va <= 0 -> vb <= 0 -> lower x va -> lower y vb -> upper (xmul0 x y) (va * vb).
  Proof.
    intros A B U V. destruct x, y; cbn [lower] in U, V; try contradiction; cbn [xmul0 xmul]; unfold xinf; cases; cbn [upper]; try exact I; try nia.
  Qed.
  Lemma xmul0_comm x y : xmul0 x y = xmul0 y x.
  Proof. destruct x, y; cbn [xmul0 xmul]; try reflexivity. f_equal; lia. Qed.
  (** one exact operand *)
  Lemma xmul0_scale_lo x va k : 0 <= k -> lower x va -> lower (xmul0 x (Fin k)) (va * k).
  Proof. intros A U. destruct x; cbn [lower] in U; try contradiction; cbn [xmul0 xmul]; unfold xinf; cases; cbn [lower]; try exact I; try nia. Qed.
  Lemma xmul0_scale_hi x va k : 0 <= k -> upper x va -> upper (xmul0 x (Fin k)) (va * k).
  Proof. intros A U. destruct x; cbn [upper] in U; try contradiction; cbn [xmul0 xmul]; unfold xinf; cases; cbn [upper]; try exact I; try nia. Qed.
  Lemma xmul0_flip_lo x va k : k <= 0 -> upper x va -> lower (xmul0 x (Fin k)) (va * k).
  Proof. intros A U. destruct x; cbn [upper] in U; try contradiction; cbn [xmul0 xmul]; unfold xinf; cases; cbn [lower]; try exact I; try nia. Qed.
  Lemma xmul0_flip_hi x va k : k <= 0 -> lower x va -> upper (xmul0 x (Fin k)) (va * k).
  Proof. intros A U. destruct x; cbn [lower] in U; try contradiction; cbn [xmul0 xmul]; unfold xinf; cases; cbn [upper]; try exact I; try nia. Qed.

  Lemma xmin_lower x y v : x <> Bad -> y <> Bad -> lower x v \/ lower y v -> lower (xmin x y) v.
  Proof. destruct x, y; cbn [xmin lower]; intros; try tauto; lia. Qed.
  Lemma xmax_upper x y v : x <> Bad -> y <> Bad -> upper x v \/ upper y v -> upper (xmax x y) v.
  Proof. destruct x, y; cbn [xmax upper]; intros; try tauto; lia. Qed.
  Lemma xmin_nb x y : x <> Bad -> y <> Bad -> xmin x y <> Bad.
  Proof. destruct x, y; cbn [xmin]; congruence. Qed.
  Lemma xmax_nb x y : x <> Bad -> y <> Bad -> xmax x y <> Bad.
  Proof. destruct x, y; cbn [xmax]; congruence. Qed.
  Lemma xmul0_nb x y : x <> Bad -> y <> Bad -> xmul0 x y <> Bad.
  Proof. destruct x, y; cbn [xmul0 xmul]; unfold xinf; try congruence; intros _ _; cases; try congruence; exfalso; lia. Qed.

  (** some corner is below and some corner is above *)
  Lemma two_lower x1 x2 va k : lower x1 va -> upper x2 va -> lower (xmul0 x1 (Fin k)) (va * k) \/ lower (xmul0 x2 (Fin k)) (va * k).
  Proof. intros L U. destruct (Z.le_ge_cases 0 k); [left; apply xmul0_scale_lo | right; apply xmul0_flip_lo]; assumption. Qed.
  Lemma two_upper x1 x2 va k : lower x1 va -> upper x2 va -> upper (xmul0 x1 (Fin k)) (va * k) \/ upper (xmul0 x2 (Fin k)) (va * k).
  Proof. intros L U. destruct (Z.le_ge_cases 0 k); [right; apply xmul0_scale_hi | left; apply xmul0_flip_hi]; assumption. Qed.
  Lemma lower_le x v w : lower x v -> v <= w -> lower x w.
  Proof. destruct x; cbn [lower]; try tauto; lia. Qed.
  Lemma upper_le x v w : upper x v -> w <= v -> upper x w.
  Proof. destruct x; cbn [upper]; try tauto; lia. Qed.
  (** lower bounds of p * vb for all p, from the corners *)
  Lemma side_lower x y1 y2 va vb : x <> Bad -> lower y1 vb -> upper y2 vb ->
    (lower x va /\ 0 <= vb) \/ (upper x va /\ vb <= 0) ->
    lower (xmul0 x y1) (va * vb) \/ lower (xmul0 x y2) (va * vb).
  Proof.
    intros N L U H.
    destruct x as [p| | |]; [| | |contradiction].
    - destruct (two_lower y1 y2 vb p L U) as [K|K]; rewrite xmul0_comm in K;
        [left|right]; (eapply lower_le; [exact K|]); destruct H as [(H & ?)|(H & ?)]; cbn [lower upper] in H; nia.
    - destruct H as [(H & _)|(_ & H)]; [contradiction|]. 
      destruct y1; cbn [lower] in L; try contradiction.
      + left. cbn [xmul0 xmul]. unfold xinf. cases; cbn [lower]; try exact I; try lia. subst. assert (vb = 0) by lia. subst. lia.
      + left. exact I.
    - destruct H as [(_ & H)|(H & _)]; [|contradiction].
      destruct y2; cbn [upper] in U; try contradiction.
      + right. cbn [xmul0 xmul]. unfold xinf. cases; cbn [lower]; try exact I; try lia. subst. assert (vb = 0) by lia. subst. lia.
      + right. exact I.
  Qed.
  Lemma side_upper x y1 y2 va vb : x <> Bad -> lower y1 vb -> upper y2 vb ->
    (upper x va /\ 0 <= vb) \/ (lower x va /\ vb <= 0) ->
    upper (xmul0 x y1) (va * vb) \/ upper (xmul0 x y2) (va * vb).
  Proof.
    intros N L U H.
    destruct x as [p| | |]; [| | |contradiction].
    - destruct (two_upper y1 y2 vb p L U) as [K|K]; rewrite xmul0_comm in K;
        [left|right]; (eapply upper_le; [exact K|]); destruct H as [(H & ?)|(H & ?)]; cbn [lower upper] in H; nia.
    - destruct H as [(_ & H)|(H & _)]; [|contradiction].
      destruct y2; cbn [upper] in U; try contradiction.
      + right. cbn [xmul0 xmul]. unfold xinf. cases; cbn [upper]; try exact I; try lia. subst. assert (vb = 0) by lia. subst. lia.
      + right. exact I.
    - destruct H as [(H & _)|(_ & H)]; [contradiction|].
      destruct y1; cbn [lower] in L; try contradiction.
      + left. cbn [xmul0 xmul]. unfold xinf. cases; cbn [upper]; try exact I; try lia. subst. assert (vb = 0) by lia. subst. lia.
      + left. exact I.
  Qed.

  Lemma simple_ok x y i v : (forall e, x = Val e -> lower (M e) v) -> (forall e, y = Val e -> upper (M e) v) ->
    simple_or_unbounded x y = Val i -> enc i v.
  Proof.
    intros A B H. apply bind_inv in H as (l & Hl & H). apply bind_inv in H as (h & Hh & H). injection H as <-.
    apply bounds_enc; [destruct (is_simple l); [auto|exact I] | destruct (is_simple h); [auto|exact I]].
  Qed.
  Lemma min_exact x y e : consts_all below30 x -> consts_all below30 y -> M x <> Bad -> M y <> Bad -> simplify_min x y = Val e -> M e = xmin (M x) (M y).
  Proof. intros A B N K H. apply exact_value; [exact (proj1 (simplify_min_ok W r x y e A B H))|apply xmin_nb; auto]. Qed.
  Lemma max_exact x y e : consts_all below30 x -> consts_all below30 y -> M x <> Bad -> M y <> Bad -> simplify_max x y = Val e -> M e = xmax (M x) (M y).
  Proof. intros A B N K H. apply exact_value; [exact (proj1 (simplify_max_ok W r x y e A B H))|apply xmax_nb; auto]. Qed.

  Lemma corners2_ok x y i v : (forall e, x = Val e \/ y = Val e -> consts_all below30 e /\ M e <> Bad) ->
    (forall c0 c1, x = Val c0 -> y = Val c1 -> (lower (M c0) v \/ lower (M c1) v) /\ (upper (M c0) v \/ upper (M c1) v)) ->
    corners2 x y = Val i -> enc i v.
  Proof.
    intros C K H. apply bind_inv in H as (c0 & H0 & H). apply bind_inv in H as (c1 & H1 & H).
    destruct (C c0 (or_introl H0)) as (C0 & N0). destruct (C c1 (or_intror H1)) as (C1 & N1). destruct (K c0 c1 H0 H1) as (KL & KU).
    eapply simple_ok; [| |exact H]; intros e He.
    - rewrite (min_exact _ _ _ C0 C1 N0 N1 He). apply xmin_lower; auto.
    - rewrite (max_exact _ _ _ C0 C1 N0 N1 He). apply xmax_upper; auto.
  Qed.

  (** the expressions that are compared when the signs are not known *)
  Definition product (a b : interval) (e : expr) : Prop := exists x y, end_of a x /\ end_of b y /\ sim Mul x y = Val e.
  Definition extreme (a b : interval) (e : expr) : Prop :=
    exists p q, product a b p /\ product a b q /\ (simplify_min p q = Val e \/ simplify_max p q = Val e).
  Definition mul_small (a b : interval) : Prop :=
    (forall e, product a b e -> consts_all below30 e) /\ (forall e, extreme a b e -> consts_all below30 e).

  Lemma bounds_of_mul_ok a b va vb i : interval_ok a -> interval_ok b -> enc a va -> enc b vb ->
    ends_bounds_ok a -> ends_bounds_ok b -> (forall x y, end_of a x -> end_of b y -> mul_ok x y) -> mul_small a b ->
    bounds_of_mul reuse a b = Val i -> enc i (va * vb).
  Proof.
    intros Ka Kb Ea Eb Ba Bb Mk (S1 & S2) H. unfold bounds_of_mul in H.
    pose proof (ebo_64 _ Ba) as Ca. pose proof (ebo_64 _ Bb) as Cb.
    pose proof Ea as (La & Ua). pose proof Eb as (Lb & Ub).
    pose proof (lower_nb _ _ La) as NaL. pose proof (upper_nb _ _ Ua) as NaU. pose proof (lower_nb _ _ Lb) as NbL. pose proof (upper_nb _ _ Ub) as NbU.
    assert (A1 : end_of a (i_min a)) by (left; reflexivity). assert (A2 : end_of a (i_max a)) by (right; reflexivity).
    assert (B1 : end_of b (i_min b)) by (left; reflexivity). assert (B2 : end_of b (i_max b)) by (right; reflexivity).
    assert (NA : forall x, end_of a x -> M x <> Bad) by (intros x [-> | ->]; assumption).
    assert (NB : forall x, end_of b x -> M x <> Bad) by (intros x [-> | ->]; assumption).
    assert (V : forall x y e, end_of a x -> end_of b y -> sim Mul x y = Val e -> M e = xmul0 (M x) (M y)).
    { intros x y e Hx Hy He. exact (proj1 (mul_value x y e (Mk x y Hx Hy) (Ca x Hx) (Cb y Hy) (NA x Hx) (NB y Hy) He)). }
    destruct (both_points a b) eqn:P.
    { apply andb_true_iff in P as (Pa & Pb). destruct (enc_point _ _ Ka Ea Pa) as (E1 & _). destruct (enc_point _ _ Kb Eb Pb) as (E2 & _).
      eapply point_enc; [|exact H]. intros e He. rewrite (V _ _ _ A1 B1 He), E1, E2. right. reflexivity. }
    apply bind_inv in H as (ca & Hca & H). apply bind_inv in H as (cb & Hcb & H).
    destruct (c_non_negative ca && c_non_negative cb) eqn:S.
    { apply andb_true_iff in S as (Sa & Sb). destruct (nn_sign _ _ _ Ba Ea Hca Sa) as (p & Ep & Hp). destruct (nn_sign _ _ _ Bb Eb Hcb Sb) as (q & Eq & Hq).
      eapply interval_enc; [| |exact H]; intros e He.
      - rewrite (V _ _ _ A1 B1 He), Ep, Eq. apply xmul0_nn_lower; lia.
      - rewrite (V _ _ _ A2 B2 He). apply xmul0_nn_upper; auto; lia. }
    destruct (c_non_positive ca && c_non_positive cb) eqn:S'.
    { apply andb_true_iff in S' as (Sa & Sb). destruct (np_sign _ _ _ Ba Ea Hca Sa) as (p & Ep & Hp). destruct (np_sign _ _ _ Bb Eb Hcb Sb) as (q & Eq & Hq).
      eapply interval_enc; [| |exact H]; intros e He.
      - rewrite (V _ _ _ A2 B2 He), Ep, Eq. apply xmul0_np_lower; lia.
      - rewrite (V _ _ _ A1 B1 He). apply xmul0_np_upper; auto; lia. }
    assert (Pr : forall x y e, end_of a x -> end_of b y -> sim Mul x y = Val e -> consts_all below30 e /\ M e <> Bad).
    { intros x y e Hx Hy He. split; [apply S1; exists x, y; auto|]. rewrite (V x y e Hx Hy He). apply xmul0_nb; auto. }
    destruct (i_point b) eqn:Pb.
    { destruct (enc_point _ _ Kb Eb Pb) as (E2 & _).
      destruct (c_non_negative cb) eqn:Sb.
      { destruct (nn_sign _ _ _ Bb Eb Hcb Sb) as (q & Eq & Hq). eapply interval_enc; [| |exact H]; intros e He.
        - rewrite (V _ _ _ A1 B1 He), E2. apply xmul0_scale_lo; auto; lia.
        - rewrite (V _ _ _ A2 B1 He), E2. apply xmul0_scale_hi; auto; lia. }
      destruct (c_non_positive cb) eqn:Sb'.
      { destruct (np_sign _ _ _ Bb Eb Hcb Sb') as (q & Eq & Hq). eapply interval_enc; [| |exact H]; intros e He.
        - rewrite (V _ _ _ A2 B1 He), E2. apply xmul0_flip_lo; auto; lia.
        - rewrite (V _ _ _ A1 B1 He), E2. apply xmul0_flip_hi; auto; lia. }
      eapply corners2_ok; [| |exact H].
      - intros e [He|He]; [exact (Pr _ _ _ A1 B1 He)|exact (Pr _ _ _ A2 B1 He)].
      - intros c0 c1 H0 H1. rewrite (V _ _ _ A1 B1 H0), (V _ _ _ A2 B1 H1), E2. split; [apply two_lower|apply two_upper]; auto. }
    destruct (i_point a) eqn:Pa.
    { destruct (enc_point _ _ Ka Ea Pa) as (E1 & _). rewrite Z.mul_comm.
      destruct (c_non_negative ca) eqn:Sa.
      { destruct (nn_sign _ _ _ Ba Ea Hca Sa) as (q & Eq & Hq). eapply interval_enc; [| |exact H]; intros e He.
        - rewrite (V _ _ _ A1 B1 He), E1, xmul0_comm. apply xmul0_scale_lo; auto; lia.
        - rewrite (V _ _ _ A1 B2 He), E1, xmul0_comm. apply xmul0_scale_hi; auto; lia. }
      destruct (c_non_positive ca) eqn:Sa'.
      { destruct (np_sign _ _ _ Ba Ea Hca Sa') as (q & Eq & Hq). eapply interval_enc; [| |exact H]; intros e He.
        - rewrite (V _ _ _ A1 B2 He), E1, xmul0_comm. apply xmul0_flip_lo; auto; lia.
        - rewrite (V _ _ _ A1 B1 He), E1, xmul0_comm. apply xmul0_flip_hi; auto; lia. }
      eapply corners2_ok; [| |exact H].
      - intros e [He|He]; [exact (Pr _ _ _ A1 B1 He)|exact (Pr _ _ _ A1 B2 He)].
      - intros c0 c1 H0 H1. rewrite (V _ _ _ A1 B1 H0), (V _ _ _ A1 B2 H1), E1, (xmul0_comm (Fin va)), (xmul0_comm (Fin va)). split; [apply two_lower|apply two_upper]; auto. }
    apply bind_inv in H as (c0 & H0 & H). apply bind_inv in H as (c1 & H1 & H). apply bind_inv in H as (c2 & H2 & H). apply bind_inv in H as (c3 & H3 & H).
    destruct (Pr _ _ _ A1 B1 H0) as (C0 & N0). destruct (Pr _ _ _ A1 B2 H1) as (C1 & N1). destruct (Pr _ _ _ A2 B1 H2) as (C2 & N2). destruct (Pr _ _ _ A2 B2 H3) as (C3 & N3).
    assert (Q0 : product a b c0) by (exists (i_min a), (i_min b); auto). assert (Q1 : product a b c1) by (exists (i_min a), (i_max b); auto).
    assert (Q2 : product a b c2) by (exists (i_max a), (i_min b); auto). assert (Q3 : product a b c3) by (exists (i_max a), (i_max b); auto).
    eapply simple_ok; [| |exact H]; intros e He; apply bind_inv in He as (p & Hp & He); apply bind_inv in He as (q & Hq & He).
    - assert (Cp : consts_all below30 p) by (apply S2; exists c0, c1; auto). assert (Cq : consts_all below30 q) by (apply S2; exists c2, c3; auto).
      pose proof (min_exact _ _ _ C0 C1 N0 N1 Hp) as Ep. pose proof (min_exact _ _ _ C2 C3 N2 N3 Hq) as Eq.
      assert (Np : M p <> Bad) by (rewrite Ep; apply xmin_nb; auto). assert (Nq : M q <> Bad) by (rewrite Eq; apply xmin_nb; auto).
      rewrite (min_exact _ _ _ Cp Cq Np Nq He). apply xmin_lower; auto. rewrite Ep, Eq.
      rewrite (V _ _ _ A1 B1 H0), (V _ _ _ A1 B2 H1), (V _ _ _ A2 B1 H2), (V _ _ _ A2 B2 H3) in *.
      destruct (Z.le_ge_cases 0 vb) as [G|G].
      + left. apply xmin_lower; auto. apply side_lower; auto.
      + right. apply xmin_lower; auto. apply side_lower; auto.
    - assert (Cp : consts_all below30 p) by (apply S2; exists c0, c1; auto). assert (Cq : consts_all below30 q) by (apply S2; exists c2, c3; auto).
      pose proof (max_exact _ _ _ C0 C1 N0 N1 Hp) as Ep. pose proof (max_exact _ _ _ C2 C3 N2 N3 Hq) as Eq.
      assert (Np : M p <> Bad) by (rewrite Ep; apply xmax_nb; auto). assert (Nq : M q <> Bad) by (rewrite Eq; apply xmax_nb; auto).
      rewrite (max_exact _ _ _ Cp Cq Np Nq He). apply xmax_upper; auto. rewrite Ep, Eq.
      rewrite (V _ _ _ A1 B1 H0), (V _ _ _ A1 B2 H1), (V _ _ _ A2 B1 H2), (V _ _ _ A2 B2 H3) in *.
      destruct (Z.le_ge_cases 0 vb) as [G|G].
      + right. apply xmax_upper; auto. apply side_upper; auto.
      + left. apply xmax_upper; auto. apply side_upper; auto.
  Qed.

  (** *** quotients.  A constant divided by an infinity is zero. *)
  Definition div_ok (x y : expr) : Prop :=
    (infinite (M y) -> (exists z, M x = Fin z) -> reuse x y = false /\ (exists c, x = EConst c) /\ infinity_lit y) /\
    (infinite (M x) -> M y <> Fin 0).
  Definition xdiv0 (x y : xval) : xval := match x, y with Fin p, PInf | Fin p, NInf => Fin 0 | _, _ => xdiv x y end.
  Lemma div_inf c y : infinity_lit y -> simplify_bin Div (EConst c) y = Val (EConst 0).
  Proof. intros [-> | ->]; vm_compute; reflexivity. Qed.
  Lemma div_value x y e : div_ok x y -> consts_all in64 x -> consts_all in64 y ->
    (exists z, M x = Fin z) /\ M y <> Bad \/ infinite (M x) /\ (exists z, M y = Fin z) ->
    sim Div x y = Val e -> M e = xdiv0 (M x) (M y).
  Proof.
    intros (K1 & K2) Cx Cy N H.
    pose proof (simp_good Div x y e (ok_plain Div x y eq_refl Cx Cy) H) as R. cbn [xbin] in R.
    destruct N as [((z & E) & Ny)|(I & z & E)].
    - destruct (M y) as [w| | |] eqn:Ey; [| | |contradiction].
      + rewrite E in *. cbn [xdiv xdiv0] in *. destruct R as [R|R]; [discriminate|]. symmetry. exact R.
      + destruct (K1 ltac:(left; reflexivity) ltac:(eauto)) as (Ru & (c & ->) & L). unfold simp in H. rewrite Ru, (div_inf c y L) in H.
        injection H as <-. rewrite E. reflexivity.
      + destruct (K1 ltac:(right; reflexivity) ltac:(eauto)) as (Ru & (c & ->) & L). unfold simp in H. rewrite Ru, (div_inf c y L) in H.
        injection H as <-. rewrite E. reflexivity.
    - specialize (K2 I). rewrite E in *. assert (z <> 0) by congruence.
      destruct I as [I|I]; rewrite I in *; cbn [xdiv0 xdiv] in *; unfold xinf in *; rewrite (proj2 (Z.eqb_neq _ 0)) in * by lia;
        (apply exact_value; [exact R|destruct (_ <? _); discriminate]).
  Qed.

  Lemma div_le_pos a b b' : a <= 0 -> 0 < b <= b' -> a / b <= a / b'.
  Proof.
    intros A B. apply Z.div_le_lower_bound; [lia|]. pose proof (Z.mul_div_le a b ltac:(lia)). assert (a / b <= 0) by (apply Z.div_le_upper_bound; lia). nia.
  Qed.
  Lemma div_nonneg a b : 0 <= a -> 0 < b -> 0 <= a / b. Proof. intros. apply Z.div_pos; lia. Qed.
  Lemma div_nonpos a b : a <= 0 -> 0 < b -> a / b <= 0. Proof. intros. apply Z.div_le_upper_bound; lia. Qed.
  Lemma div_antitone a b b' : 0 <= a -> 0 < b <= b' -> a / b' <= a / b.
  Proof. intros. apply Z.div_le_compat_l; lia. Qed.
  Lemma abs_ediv a b : Z.abs (ediv a b) <= Z.abs a.
  Proof.
    destruct (Z.lt_trichotomy b 0) as [B|[->|B]]; [rewrite ediv_neg by lia| rewrite ediv_0; lia|rewrite ediv_pos by lia].
    - rewrite Z.abs_opp. remember (- b) as k. assert (0 < k) by lia. clear Heqk B b.
      pose proof (Z.mul_div_le a k ltac:(lia)). pose proof (Z.mul_succ_div_gt a k ltac:(lia)). destruct (Z.le_ge_cases 0 a); nia.
    - pose proof (Z.mul_div_le a b ltac:(lia)). pose proof (Z.mul_succ_div_gt a b ltac:(lia)). destruct (Z.le_ge_cases 0 a); nia.
  Qed.
  (** the lower end of the quotient, by the sign of the divisor *)
  Lemma xdiv0_scale_lo x va k : 0 <= k -> (infinite x -> k <> 0) -> lower x va -> lower (xdiv0 x (Fin k)) (ediv va k).
  Proof.
    intros K N L. destruct x; cbn [lower] in L; try contradiction; cbn [xdiv0 xdiv].
    - cbn [lower]. destruct (Z.eq_dec k 0) as [->|]; [rewrite !ediv_0; lia|]. apply ediv_mono; lia.
    - unfold xinf. specialize (N ltac:(right; reflexivity)). cases; try lia. exact I.
  Qed.
  Lemma xdiv0_scale_hi x va k : 0 <= k -> (infinite x -> k <> 0) -> upper x va -> upper (xdiv0 x (Fin k)) (ediv va k).
  Proof.
    intros K N L. destruct x; cbn [upper] in L; try contradiction; cbn [xdiv0 xdiv].
    - cbn [upper]. destruct (Z.eq_dec k 0) as [->|]; [rewrite !ediv_0; lia|]. apply ediv_mono; lia.
    - unfold xinf. specialize (N ltac:(left; reflexivity)). cases; try lia. exact I.
  Qed.
  Lemma xdiv0_flip_lo x va k : k <= 0 -> (infinite x -> k <> 0) -> upper x va -> lower (xdiv0 x (Fin k)) (ediv va k).
  Proof.
    intros K N L. destruct x; cbn [upper] in L; try contradiction; cbn [xdiv0 xdiv].
    - cbn [lower]. destruct (Z.eq_dec k 0) as [->|]; [rewrite !ediv_0; lia|]. apply ediv_anti; lia.
    - unfold xinf. specialize (N ltac:(left; reflexivity)). cases; try lia. exact I.
  Qed.
  Lemma xdiv0_flip_hi x va k : k <= 0 -> (infinite x -> k <> 0) -> lower x va -> upper (xdiv0 x (Fin k)) (ediv va k).
  Proof.
    intros K N L. destruct x; cbn [lower] in L; try contradiction; cbn [xdiv0 xdiv].
    - cbn [upper]. destruct (Z.eq_dec k 0) as [->|]; [rewrite !ediv_0; lia|]. apply ediv_anti; lia.
    - unfold xinf. specialize (N ltac:(right; reflexivity)). cases; try lia. exact I.
  Qed.

  (** a union with its negation *)
  Definition neg_small (a : interval) : Prop := forall x e, end_of a x -> s_negate x = Val e -> consts_all below30 e.
  Lemma union_neg_ok a va u : enc a va -> ends30 a -> neg_small a -> union_x_negate_x a = Val u ->
    lower (M (i_min u)) (- Z.abs va) /\ upper (M (i_max u)) (Z.abs va) /\ ends64 u.
  Proof.
    intros (L & U) C S H. unfold union_x_negate_x in H. apply bind_inv in H as (lo & Hl & H). apply bind_inv in H as (hi & Hh & H). injection H as <-.
    apply bind_inv in Hl as (n & Hn & Hl). apply bind_inv in Hh as (m & Hm & Hh).
    pose proof (C _ (or_introl eq_refl)) as C1. pose proof (C _ (or_intror eq_refl)) as C2.
    destruct (negate_value _ _ (c30_c64 _ C2) Hn) as (R1 & _). destruct (negate_value _ _ (c30_c64 _ C1) Hm) as (R2 & _).
    pose proof (S _ _ (or_intror eq_refl) Hn) as C3. pose proof (S _ _ (or_introl eq_refl) Hm) as C4.
    pose proof (simplify_min_ok W r _ _ _ C1 C3 Hl) as (Q1 & D1). pose proof (simplify_max_ok W r _ _ _ C2 C4 Hh) as (Q2 & D2).
    cbn [i_bounds i_min i_max]. split; [|split].
    - apply (lower_refines _ _ _) with (2 := Q1). cbn [xbin].
      pose proof (xneg_lower _ _ U) as NL. pose proof (lower_refines _ _ _ NL R1) as NL'.
      destruct (M (i_min a)), (M n); cbn [lower xmin] in *; try tauto; lia.
    - apply (upper_refines _ _ _) with (2 := Q2). cbn [xbin].
      pose proof (xneg_upper _ _ L) as NL. pose proof (upper_refines _ _ _ NL R2) as NL'.
      destruct (M (i_max a)), (M m); cbn [upper xmax] in *; try tauto; lia.
    - intros x [-> | ->]; assumption.
  Qed.
  Lemma lower_nonpos x v : lower x v -> v <= 0 -> infinite x \/ exists p, x = Fin p /\ p <= v.
  Proof. destruct x; cbn [lower]; unfold infinite; try tauto. intros. right. eexists; split; [reflexivity|assumption]. Qed.

  Lemma bounds_of_div_ok a b va vb i : interval_ok a -> interval_ok b -> enc a va -> enc b vb ->
    ends_bounds_ok a -> ends_bounds_ok b -> (forall x y, end_of a x -> end_of b y -> div_ok x y) -> ends30 a -> neg_small a ->
    bounds_of_div reuse a b = Val i -> enc i (ediv va vb).
  Proof.
    intros Ka Kb Ea Eb Ba Bb Dk Sa Sn H. unfold bounds_of_div in H.
    pose proof (ebo_64 _ Ba) as Ca. pose proof (ebo_64 _ Bb) as Cb.
    pose proof Ea as (La & Ua). pose proof Eb as (Lb & Ub).
    assert (A1 : end_of a (i_min a)) by (left; reflexivity). assert (A2 : end_of a (i_max a)) by (right; reflexivity).
    assert (B1 : end_of b (i_min b)) by (left; reflexivity). assert (B2 : end_of b (i_max b)) by (right; reflexivity).
    assert (NA : forall x, end_of a x -> (exists z, M x = Fin z) \/ infinite (M x)).
    { intros x [-> | ->]; unfold infinite; [destruct (M (i_min a)); cbn [lower] in La|destruct (M (i_max a)); cbn [upper] in Ua]; try contradiction; eauto. }
    assert (NB : forall x, end_of b x -> M x <> Bad) by (intros x [-> | ->]; [eapply lower_nb|eapply upper_nb]; eassumption).
    (* a finite divisor *)
    assert (V : forall x y k e, end_of a x -> end_of b y -> M y = Fin k -> sim Div x y = Val e -> M e = xdiv0 (M x) (Fin k) /\ (infinite (M x) -> k <> 0)).
    { intros x y k e Hx Hy Ey He. split.
      - rewrite <- Ey. apply div_value; auto. destruct (NA x Hx); [left; auto|right; eauto].
      - intros I ->. exact (proj2 (Dk x y Hx Hy) I Ey). }
    (* a finite dividend *)
    assert (V' : forall x y p e, end_of a x -> end_of b y -> M x = Fin p -> sim Div x y = Val e -> M e = xdiv0 (Fin p) (M y)).
    { intros x y p e Hx Hy Ex He. rewrite <- Ex. apply div_value; auto. left. eauto. }
    apply bind_inv in H as (ca & Hca & H). apply bind_inv in H as (cb & Hcb & H).
    assert (Un : forall u, union_x_negate_x a = Val u -> enc u (ediv va vb)).
    { intros u Hu. destruct (union_neg_ok _ _ _ Ea Sa Sn Hu) as (L & U & _). pose proof (abs_ediv va vb).
      split; [eapply lower_le; [exact L|lia] | eapply upper_le; [exact U|lia]]. }
    destruct (i_point b) eqn:Pb.
    { destruct (enc_point _ _ Kb Eb Pb) as (E2 & _).
      destruct (is_zero (i_min b)) eqn:Zb.
      { injection H as <-. apply is_zero_inv in Zb. rewrite Zb in E2. cbn [meaning] in E2. injection E2 as <-. rewrite ediv_0. split; cbn; lia. }
      destruct (i_point a) eqn:Pa.
      { destruct (enc_point _ _ Ka Ea Pa) as (E1 & _). eapply point_enc; [|exact H]. intros e He.
        destruct (V _ _ _ _ A1 B1 E2 He) as (-> & _). rewrite E1. right. reflexivity. }
      destruct (c_non_negative cb) eqn:Sb.
      { destruct (nn_sign _ _ _ Bb Eb Hcb Sb) as (q & Eq & Hq). eapply interval_enc; [| |exact H]; intros e He.
        - destruct (V _ _ _ _ A1 B1 E2 He) as (-> & I). apply xdiv0_scale_lo; auto; lia.
        - destruct (V _ _ _ _ A2 B1 E2 He) as (-> & I). apply xdiv0_scale_hi; auto; lia. }
      destruct (c_non_positive cb) eqn:Sb'; [|auto].
      destruct (np_sign _ _ _ Bb Eb Hcb Sb') as (q & Eq & Hq). eapply interval_enc; [| |exact H]; intros e He.
      - destruct (V _ _ _ _ A2 B1 E2 He) as (-> & I). apply xdiv0_flip_lo; auto; lia.
      - destruct (V _ _ _ _ A1 B1 E2 He) as (-> & I). apply xdiv0_flip_hi; auto; lia. }
    destruct (c_positive cb) eqn:Sb.
    { destruct (pos_sign _ _ _ Bb Eb Hcb Sb) as (q & Eq & Hq).
      destruct (c_non_negative ca) eqn:Sc.
      { destruct (nn_sign _ _ _ Ba Ea Hca Sc) as (p & Ep & Hp). eapply interval_enc; [| |exact H]; intros e He.
        - rewrite (V' _ _ _ _ A1 B2 Ep He). rewrite (ediv_pos va) by lia. destruct (M (i_max b)) as [w| | |]; cbn [upper] in Ub; try contradiction; cbn [xdiv0 xdiv lower].
          + rewrite ediv_pos by lia. transitivity (p / vb); [apply div_antitone; lia|apply Z.div_le_mono; lia].
          + apply div_nonneg; lia.
        - destruct (V _ _ _ _ A2 B1 Eq He) as (-> & _). destruct (M (i_max a)) as [w| | |]; cbn [upper] in Ua; try contradiction; cbn [xdiv0 xdiv upper].
          + rewrite !ediv_pos by lia. transitivity (va / q); [apply div_antitone; lia|apply Z.div_le_mono; lia].
          + unfold xinf. cases; try lia. exact I. }
      destruct (c_non_positive ca) eqn:Sc'.
      { destruct (np_sign _ _ _ Ba Ea Hca Sc') as (p & Ep & Hp). eapply interval_enc; [| |exact H]; intros e He.
        - destruct (V _ _ _ _ A1 B1 Eq He) as (-> & _). destruct (M (i_min a)) as [w| | |]; cbn [lower] in La; try contradiction; cbn [xdiv0 xdiv lower].
          + rewrite !ediv_pos by lia. transitivity (va / q); [apply Z.div_le_mono; lia|apply div_le_pos; lia].
          + unfold xinf. cases; try lia. exact I.
        - rewrite (V' _ _ _ _ A2 B2 Ep He). rewrite (ediv_pos va) by lia. destruct (M (i_max b)) as [w| | |]; cbn [upper] in Ub; try contradiction; cbn [xdiv0 xdiv upper].
          + rewrite ediv_pos by lia. transitivity (p / vb); [apply Z.div_le_mono; lia|apply div_le_pos; lia].
          + apply div_nonpos; lia. }
      apply bind_inv in H as (u & Hu & H). destruct (union_neg_ok _ _ _ Ea Sa Sn Hu) as (L & U & Cu).
      assert (VU : forall x e, end_of u x -> (exists z, M x = Fin z) \/ infinite (M x) -> sim Div x (i_min b) = Val e -> M e = xdiv0 (M x) (Fin q)).
      { intros x e Hx Nx He. rewrite <- Eq. apply div_value; auto.
        - split; [intros [I|I]; congruence|]. rewrite Eq. intros _ K. injection K as K. lia.
        - destruct Nx; [left; split; auto|right; eauto]. }
      rewrite ediv_pos by lia. eapply interval_enc; [| |exact H]; intros e He.
      - rewrite (VU _ _ (or_introl eq_refl)) with (2 := He); [|destruct (M (i_min u)); cbn [lower] in L; unfold infinite; try contradiction; eauto].
        destruct (M (i_min u)) as [w| | |]; cbn [lower] in L; try contradiction; cbn [xdiv0 xdiv lower].
        + rewrite ediv_pos by lia. destruct (Z.le_ge_cases 0 va).
          * transitivity 0; [apply div_nonpos; lia|apply div_nonneg; lia].
          * transitivity (va / q); [apply Z.div_le_mono; lia|apply div_le_pos; lia].
        + unfold xinf. cases; try lia. exact I.
      - rewrite (VU _ _ (or_intror eq_refl)) with (2 := He); [|destruct (M (i_max u)); cbn [upper] in U; unfold infinite; try contradiction; eauto].
        destruct (M (i_max u)) as [w| | |]; cbn [upper] in U; try contradiction; cbn [xdiv0 xdiv upper].
        + rewrite ediv_pos by lia. destruct (Z.le_ge_cases 0 va).
          * transitivity (va / q); [apply div_antitone; lia|apply Z.div_le_mono; lia].
          * transitivity 0; [apply div_nonpos; lia|apply div_nonneg; lia].
        + unfold xinf. cases; try lia. exact I. }
    destruct (c_negative cb) eqn:Sb'; [|auto].
    destruct (neg_sign _ _ _ Bb Eb Hcb Sb') as (q & Eq & Hq).
    destruct (c_non_negative ca) eqn:Sc.
    { destruct (nn_sign _ _ _ Ba Ea Hca Sc) as (p & Ep & Hp). eapply interval_enc; [| |exact H]; intros e He.
      - destruct (V _ _ _ _ A2 B2 Eq He) as (-> & _). destruct (M (i_max a)) as [w| | |]; cbn [upper] in Ua; try contradiction; cbn [xdiv0 xdiv lower].
        + rewrite !ediv_neg by lia. apply -> Z.opp_le_mono. transitivity (va / - q); [apply div_antitone; lia|apply Z.div_le_mono; lia].
        + unfold xinf. cases; try lia. exact I.
      - rewrite (V' _ _ _ _ A1 B1 Ep He). rewrite (ediv_neg va) by lia. destruct (M (i_min b)) as [w| | |]; cbn [lower] in Lb; try contradiction; cbn [xdiv0 xdiv upper].
        + rewrite ediv_neg by lia. apply -> Z.opp_le_mono. transitivity (p / - vb); [apply div_antitone; lia|apply Z.div_le_mono; lia].
        + pose proof (div_nonneg va (- vb) ltac:(lia) ltac:(lia)). lia. }
    destruct (c_non_positive ca) eqn:Sc'.
    { destruct (np_sign _ _ _ Ba Ea Hca Sc') as (p & Ep & Hp). eapply interval_enc; [| |exact H]; intros e He.
      - rewrite (V' _ _ _ _ A2 B1 Ep He). rewrite (ediv_neg va) by lia. destruct (M (i_min b)) as [w| | |]; cbn [lower] in Lb; try contradiction; cbn [xdiv0 xdiv lower].
        + rewrite ediv_neg by lia. apply -> Z.opp_le_mono. transitivity (p / - vb); [apply Z.div_le_mono; lia|apply div_le_pos; lia].
        + pose proof (div_nonpos va (- vb) ltac:(lia) ltac:(lia)). lia.
      - destruct (V _ _ _ _ A1 B2 Eq He) as (-> & _). destruct (M (i_min a)) as [w| | |]; cbn [lower] in La; try contradiction; cbn [xdiv0 xdiv upper].
        + rewrite !ediv_neg by lia. apply -> Z.opp_le_mono. transitivity (va / - q); [apply Z.div_le_mono; lia|apply div_le_pos; lia].
        + unfold xinf. cases; try lia. exact I. }
    apply bind_inv in H as (u & Hu & H). destruct (union_neg_ok _ _ _ Ea Sa Sn Hu) as (L & U & Cu).
    assert (VU : forall x e, end_of u x -> (exists z, M x = Fin z) \/ infinite (M x) -> sim Div x (i_max b) = Val e -> M e = xdiv0 (M x) (Fin q)).
    { intros x e Hx Nx He. rewrite <- Eq. apply div_value; auto.
      - split; [intros [I|I]; congruence|]. rewrite Eq. intros _ K. injection K as K. lia.
      - destruct Nx; [left; split; auto|right; eauto]. }
    rewrite ediv_neg by lia. eapply interval_enc; [| |exact H]; intros e He.
    - rewrite (VU _ _ (or_intror eq_refl)) with (2 := He); [|destruct (M (i_max u)); cbn [upper] in U; unfold infinite; try contradiction; eauto].
      destruct (M (i_max u)) as [w| | |]; cbn [upper] in U; try contradiction; cbn [xdiv0 xdiv lower].
      + rewrite ediv_neg by lia. apply -> Z.opp_le_mono. destruct (Z.le_ge_cases 0 va).
        * transitivity (va / - q); [apply div_antitone; lia|apply Z.div_le_mono; lia].
        * transitivity 0; [apply div_nonpos; lia|apply div_nonneg; lia].
      + unfold xinf. cases; try lia. exact I.
    - rewrite (VU _ _ (or_introl eq_refl)) with (2 := He); [|destruct (M (i_min u)); cbn [lower] in L; unfold infinite; try contradiction; eauto].
      destruct (M (i_min u)) as [w| | |]; cbn [lower] in L; try contradiction; cbn [xdiv0 xdiv upper].
      + rewrite ediv_neg by lia. apply -> Z.opp_le_mono. destruct (Z.le_ge_cases 0 va).
        * transitivity 0; [apply div_nonpos; lia|apply div_nonneg; lia].
        * transitivity (va / - q); [apply Z.div_le_mono; lia|apply div_le_pos; lia].
      + unfold xinf. cases; try lia. exact I.
  Qed.

  (** *** remainders *)
  Definition mod_limit (b : interval) (e : expr) : Prop :=
    e = i_max b \/ (exists x, end_of b x /\ s_abs W x = Val e) \/
    (exists x y, s_abs W (i_min b) = Val x /\ s_abs W (i_max b) = Val y /\ simplify_max x y = Val e).
  Definition mod_small (b : interval) : Prop :=
    abs_small b /\ forall m e, mod_limit b m -> simplify_sub m (EConst 1) = Val e -> consts_all below30 e.
  Lemma emod_bound a b : 0 <= emod a b <= Z.max (Z.abs b - 1) 0.
  Proof.
    destruct (Z.lt_trichotomy b 0) as [B|[->|B]]; [rewrite emod_neg by lia| rewrite emod_0; lia|rewrite emod_pos by lia].
    - pose proof (Z.mod_pos_bound a (- b) ltac:(lia)). lia.
    - pose proof (Z.mod_pos_bound a b ltac:(lia)). lia.
  Qed.
  Lemma bounds_of_mod_ok a b va vb i : interval_ok a -> interval_ok b -> enc a va -> enc b vb ->
    ends64 a -> ends_bounds_ok b -> mod_small b ->
    bounds_of_mod reuse W a b = Val i -> enc i (emod va vb).
  Proof.
    intros Ka Kb Ea Eb Ca Bb (S1 & S2) H. pose proof (ebo_64 _ Bb) as Cb. unfold bounds_of_mod in H.
    destruct (both_points a b) eqn:P.
    { eapply (simp_point Mod a b va vb); eauto. intros x y Hx Hy. apply ok_plain; auto. }
    apply bind_inv in H as (cb & Hcb & H). apply bind_inv in H as (mb & Hmb & H).
    pose proof Eb as (Lb & Ub). assert (B1 : end_of b (i_min b)) by (left; reflexivity). assert (B2 : end_of b (i_max b)) by (right; reflexivity).
    assert (L : mod_limit b mb /\ upper (M mb) (Z.abs vb) /\ consts_all in64 mb).
    { destruct (c_non_negative cb) eqn:Sb.
      { injection Hmb as <-. destruct (nn_sign _ _ _ Bb Eb Hcb Sb) as (q & Eq & Hq). split; [left; reflexivity|split; auto]. rewrite Z.abs_eq by lia. exact Ub. }
      destruct (i_point b) eqn:Pb.
      { destruct (enc_point _ _ Kb Eb Pb) as (_ & E2). destruct (abs_value _ _ (Cb _ B2) Hmb) as (R & C).
        split; [right; left; eauto|split; [|exact C]]. rewrite E2 in R. destruct R as [R|R]; [discriminate|]. rewrite <- R. cbn [xabs upper]. lia. }
      apply bind_inv in Hmb as (x & Hx & Hmb). apply bind_inv in Hmb as (y & Hy & Hmb).
      destruct (abs_value _ _ (Cb _ B1) Hx) as (R1 & _). destruct (abs_value _ _ (Cb _ B2) Hy) as (R2 & _).
      split; [right; right; eauto 10|]. split.
      - refine (max_value _ _ _ _ (S1 _ _ B1 Hx) (S1 _ _ B2 Hy) Hmb _). eapply abs_of_ends; eauto.
      - exact (proj2 (simplify_max_ok W r x y mb (S1 _ _ B1 Hx) (S1 _ _ B2 Hy) Hmb)). }
    destruct L as (L & U & C). pose proof (emod_bound va vb) as EB.
    eapply interval_enc; [| |exact H]; intros e He.
    - injection He as <-. cbn [meaning lower]. lia.
    - apply bind_inv in He as (m & Hm & He).
      pose proof (simplify_sub_ok W r mb (EConst 1) m C (proj2 (c64_const 1) c64_1) Hm) as (R & _).
      refine (max_value _ _ _ _ (S2 _ _ L Hm) _ He _). { intros z Hz. inversion Hz; subst. unfold below30. lia. }
      cbn [meaning xbin] in *.
      assert (U' : upper (xsub (M mb) (Fin 1)) (Z.abs vb - 1)).
      { apply xsub_upper; [exact U|cbn [lower]; lia]. }
      pose proof (upper_refines _ _ _ U' R) as K. destruct (M m); cbn [upper xmax] in *; try tauto; lia.
  Qed.

  (** *** tightening for correlated operands *)
  Variable simplify_all : expr -> res expr.

  Lemma match_stair_ok e m : consts_all below30 e -> match_stair e = Val (Some m) ->
    M e = xstair (M (bound_var m 0)) (Fin (bound_const m 0)) (Fin (bound_const m 1)) (Fin (bound_const m 2)) /\ (forall n, small (bound_const m n)).
  Proof.
    intros C H. unfold match_stair, match_any_variant in H. apply any_some in H as (variant & bits & Hm).
    pose proof (match_pat_ok W r below30 small below30_small ltac:(unfold below30; lia) ltac:(unfold below30; lia) stair_small variant stair_pattern _ _ _ _ _ eq_refl C Hm)
      as (_ & Cq & _ & _ & Sm).
    specialize (Sm m (bext_refl m)). cbn in Sm. unfold RewriteMatch_Proofs.sim in Sm. cbn [logic_opt stair_pattern psem] in Sm.
    split; [symmetry; exact Sm|].
    intros n. unfold bound_const. destruct (b_const m n) eqn:E; [eapply Cq; eauto; intros ? ?; discriminate|unfold small; lia].
  Qed.
  Lemma xstair_fin x a b c v : xstair x (Fin a) (Fin b) (Fin c) = Fin v -> exists z, x = Fin z /\ v = stairZ z a b c.
  Proof.
    unfold xstair. destruct x as [z| | |]; cbn [xadd xdiv xmul]; try discriminate.
    - intros [= <-]. exists z. split; reflexivity.
    - unfold xinf. cases; cbn [xmul]; unfold xinf; cases; discriminate.
    - unfold xinf. cases; cbn [xmul]; unfold xinf; cases; discriminate.
  Qed.
  Lemma small_wrap z : small z -> wrap 32 z = z.
  Proof. unfold small. intros H. apply wrap_in_range; [lia|]. unfold imin, imax. change (2 ^ (32 - 1)) with (2 ^ 31). lia. Qed.

  (** the constants found by the scan of the staircases *)
  Definition stairs_small (op : option (expr * expr)) (sign : Z) : Prop :=
    forall a b l rr sb m, op = Some (a, b) -> match_stair a = Val (Some l) -> match_stair b = Val (Some rr) ->
      stair_bounds l rr sign = Val sb -> iv_min sb = Some m \/ iv_max sb = Some m -> below30 m.
  Lemma tighten_stairs_ok i a b sign va vb j : sign = 1 \/ sign = -1 ->
    consts_all below30 a -> consts_all below30 b -> M a = Fin va -> M b = Fin vb -> ends30 i -> stairs_small (Some (a, b)) sign ->
    enc i (va + sign * vb) -> tighten_stairs i a b sign = Val j -> enc j (va + sign * vb).
  Proof.
    intros Sg Ca Cb Ea Eb Ci Ss E H. unfold tighten_stairs in H.
    apply bind_inv in H as (l & Hl & H). apply bind_inv in H as (rr & Hr & H).
    destruct l as [l|]; [|injection H as <-; exact E]. destruct rr as [rr|]; [|injection H as <-; exact E].
    destruct (match_expr (bound_var l 0) (bound_var rr 0)) eqn:Me; [|injection H as <-; exact E].
    apply match_eq in Me. destruct (match_stair_ok a l Ca Hl) as (Ma & Sl). destruct (match_stair_ok b rr Cb Hr) as (Mb & Sr).
    rewrite Ea in Ma. rewrite Eb in Mb. symmetry in Ma, Mb. apply xstair_fin in Ma as (x & Ex & Va). apply xstair_fin in Mb as (x' & Ex' & Vb).
    rewrite <- Me, Ex in Ex'. injection Ex' as <-.
    apply bind_inv in H as (sb & Hsb & H).
    assert (Q : (forall m, iv_min sb = Some m -> m <= va + sign * vb) /\ (forall m, iv_max sb = Some m -> va + sign * vb <= m)).
    { pose proof Hsb as Hsb'. unfold stair_bounds in Hsb'. apply bind_inv in Hsb' as (rc & Hrc & Hs). apply chk_inv in Hrc as (-> & _).
      assert (Sc : small (bound_const rr 2 * sign)). { pose proof (Sr 2%nat) as K. unfold small in *. destruct Sg as [-> | ->]; lia. }
      rewrite !small_wrap in Hs by auto.
      assert (R32 : forall z, small z -> imin 32 <= z <= imax 32). { unfold small, imin, imax. change (2 ^ (32 - 1)) with (2 ^ 31). intros; lia. }
      pose proof (staircase_sum_bounds_sound _ _ _ _ _ _ _ (R32 _ (Sl 1%nat)) (R32 _ (Sr 1%nat)) Hs x) as K. cbv zeta in K.
      unfold stair_sumZ in K. rewrite <- Va in K. replace (stairZ x (bound_const rr 0) (bound_const rr 1) (bound_const rr 2 * sign)) with (sign * vb) in K.
      - exact K.
      - rewrite Vb. unfold stairZ. lia. }
    destruct Q as (Q1 & Q2). destruct E as (L & U).
    assert (SM : forall m, iv_min sb = Some m \/ iv_max sb = Some m -> consts_all below30 (EConst m)).
    { intros m Hm z Hz. inversion Hz; subst. eapply Ss; eauto. }
    assert (G : interval_of (match iv_min sb with Some m => simplify_max (i_min i) (EConst m) | None => Val (i_min i) end)
                            (match iv_max sb with Some m => simplify_min (i_max i) (EConst m) | None => Val (i_max i) end) = Val j -> enc j (va + sign * vb)).
    { clear H. intros H. eapply interval_enc; [| |exact H]; intros e He.
      - destruct (iv_min sb) as [m|] eqn:Em; [|injection He as <-; exact L].
        apply (lower_refines (xmax (M (i_min i)) (Fin m))); [|exact (proj1 (simplify_max_ok W r _ _ _ (Ci _ (or_introl eq_refl)) (SM m (or_introl eq_refl)) He))].
        specialize (Q1 m eq_refl). destruct (M (i_min i)); cbn [lower xmax] in *; try tauto; lia.
      - destruct (iv_max sb) as [m|] eqn:Em; [|injection He as <-; exact U].
        apply (upper_refines (xmin (M (i_max i)) (Fin m))); [|exact (proj1 (simplify_min_ok W r _ _ _ (Ci _ (or_intror eq_refl)) (SM m (or_intror eq_refl)) He))].
        specialize (Q2 m eq_refl). destruct (M (i_max i)); cbn [upper xmin] in *; try tauto; lia. }
    destruct (iv_min sb), (iv_max sb); auto. injection H as <-. split; assumption.
  Qed.
  Lemma tighten_min_max_ok i a b sign va vb j : (forall e e', simplify_all e = Val e' -> refines (M e) (M e')) ->
    (forall e e', simplify_all e = Val e' -> consts_all below30 e') ->
    M a = Fin va -> M b = Fin vb -> ends30 i ->
    enc i (va + sign * vb) -> tighten_min_max simplify_all i a b sign = Val j -> enc j (va + sign * vb).
  Proof.
    intros Sm Sc Ea Eb Ci E H. unfold tighten_min_max in H. destruct (Z.eqb_spec sign (-1)) as [->|]; cbn [negb] in H; [|injection H as <-; exact E].
    destruct a; try (injection H as <-; exact E). destruct op; try (injection H as <-; exact E).
    destruct b; try (injection H as <-; exact E). destruct op; try (injection H as <-; exact E).
    apply bind_inv in H as (m & Hm & H). apply bind_inv in H as (h & Hh & H). injection H as <-. destruct E as (L & U).
    apply bounds_enc; [exact L|].
    apply (upper_refines (xmin (M m) (M (i_max i)))); [|exact (proj1 (simplify_min_ok W r _ _ _ (Sc _ _ Hm) (Ci _ (or_intror eq_refl)) Hh))].
    apply Sm in Hm. unfold e_min, e_sub in Hm. rewrite !make_bin_mean in Hm. cbn [xbin meaning] in *.
    assert (Um : upper (M m) (va + -1 * vb)).
    { eapply upper_refines; [|exact Hm].
      destruct (M a1), (M a2); cbn [xmin] in Ea; try discriminate; injection Ea as <-;
      destruct (M b1), (M b2); cbn [xmax] in Eb; try discriminate; injection Eb as <-; cbn [xsub xneg xadd xmin upper]; try exact I; lia. }
    destruct (M m), (M (i_max i)); cbn [upper xmin] in *; try tauto; lia.
  Qed.

  Definition tighten_ok (i : interval) (op : option (expr * expr)) (sign va vb : Z) : Prop :=
    forall a b, op = Some (a, b) ->
      M a = Fin va /\ M b = Fin vb /\ consts_all below30 a /\ consts_all below30 b /\ ends30 i /\ stairs_small op sign /\
      (forall j, tighten_stairs i a b sign = Val j -> ends30 j).
  Lemma tighten_lemma i op sign va vb j : sign = 1 \/ sign = -1 ->
    (forall e e', simplify_all e = Val e' -> refines (M e) (M e')) -> (forall e e', simplify_all e = Val e' -> consts_all below30 e') ->
    tighten_ok i op sign va vb -> enc i (va + sign * vb) -> tighten simplify_all i op sign = Val j -> enc j (va + sign * vb).
  Proof.
    intros Sg Sm Sc Ok E H. unfold tighten in H. destruct op as [(a, b)|]; [|injection H as <-; exact E].
    destruct (Ok a b eq_refl) as (Ea & Eb & Ca & Cb & Ci & Ss & Cj). apply bind_inv in H as (k & Hk & H).
    refine (tighten_min_max_ok k a b sign va vb j Sm Sc Ea Eb (Cj _ Hk) _ H). exact (tighten_stairs_ok i a b sign va vb k Sg Ca Cb Ea Eb Ci Ss E Hk).
  Qed.
End C13.
