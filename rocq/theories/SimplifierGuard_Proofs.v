From Coq Require Import ZArith List Bool Lia.
From Verif Require Import Arith_Model Arith_Spec Arith_Proofs ModRem_Model ModRem_Proofs Buf_Model Expr_Model Expr_Spec Expr_Proofs Expr_Props Match_Model
  Match_Proofs Rewrite_Model Rewrite_Proofs RewriteMatch_Proofs RewriteApply_Proofs RuleTac Rewrite_Props Simplify_Model Simplify_Proofs Simplify_Props
  Const_Model Const_Proofs Const_Props Interval_Model Interval_Spec Interval_Props BoundsOf_Model BoundsOf_Spec BoundsOf_Proofs BoundsOf_Props Deps_Spec
  Subst_Model Subst_Spec SubstBuffer_Props Knowledge_Model Knowledge_Spec Knowledge_Proofs Knowledge_Props
  Simplifier_Model Simplifier_Spec SimplifierRules_Proofs SimplifierMono_Proofs SimplifierGuard_Model SimplifierGuard_Spec.
Import ListNotations.
Open Scope Z_scope.

(** ** A checked run is a run of the code *)
Lemma when_inv {A} b (x : res A) v : when b x = Val v -> b = true /\ x = Val v.
Proof. destruct b; cbn; [auto|discriminate]. Qed.
Lemma le_when {A} b (x : res A) : le (when b x) x.
Proof. intros v H. apply when_inv in H as (_ & H). exact H. Qed.
Lemma believe_inv b x t : believe b x = Val t -> x = Val t /\ (t = true -> b = true).
Proof.
  unfold believe. intros H. apply bind_inv in H as (t' & Ht & H). destruct t'.
  - apply when_inv in H as (Hb & H). injection H as <-. auto.
  - injection H as <-. split; [exact Ht|discriminate].
Qed.
Lemma le_bounds_of_bin W reuse f g o op a b : (forall e, le (f e) (g e)) -> le (bounds_of_bin W reuse f o op a b) (bounds_of_bin W reuse g o op a b).
Proof.
  intros L. assert (T : forall i sign, le (tighten f i op sign) (tighten g i op sign)).
  { intros i sign. unfold tighten. destruct op as [(x, y)|]; [|apply le_refl]. apply le_bind; [apply le_refl|]. intros j. unfold tighten_min_max.
    destruct (negb (sign =? -1)); [apply le_refl|]. destruct x; try apply le_refl. destruct op; try apply le_refl. destruct y; try apply le_refl. destruct op; try apply le_refl.
    apply le_bind; [apply L|]. intros m. apply le_refl. }
  destruct o; cbn [bounds_of_bin]; try apply le_refl; apply le_bind; try apply le_refl; intros i; apply T.
Qed.
Lemma guarded_code G W same reuse reuse_select : prims_le (guarded_prims G W same reuse reuse_select) (code_prims W same reuse reuse_select).
Proof.
  constructor; cbn [guarded_prims p_visit p_same p_bin p_not p_select p_call p_add_constant p_true p_false p_bounds_bin p_bounds_not p_bounds_select p_bounds_call
    p_align p_aligned p_learn p_subst p_at]; intros; try apply le_when; auto.
  - intros v H. apply believe_inv in H. tauto.
  - intros v H. apply believe_inv in H. tauto.
  - intros v K. apply when_inv in K as (_ & K). revert v K. apply le_bounds_of_bin. intros e v K. apply bind_inv in K as (e' & He & K).
    apply when_inv in K as (_ & K). injection K as <-. apply H. exact He.
  - intros k H. apply when_inv in H as (_ & H). exact (C41_guard _ _ _ _ _ H).
Qed.

(** ** Sound checks make sound primitives *)
Section Sound.
  Variable W : world.
  Variable r : env.
  Notation M := (meaning W r).
  Notation enc := (encloses W r).
  Notation truth := (truth_ends W r).

  Lemma exact_fin z x : refines (Fin z) x -> x = Fin z. Proof. intros [H|H]; [discriminate|congruence]. Qed.

  (** an end that is a truth value *)
  Definition bool_end (x : xval) : Prop := exists b, x = Fin (of_bool b).
  Definition bool_ends (i : interval) : Prop := bool_end (M (i_min i)) /\ bool_end (M (i_max i)).
  Lemma bool_truth i v : bool_ends i -> (v = 0 \/ v = 1) -> enc i v -> truth i v.
  Proof.
    intros ((p & P) & (q & Q)) V (L & U). rewrite P in L. rewrite Q in U. cbn [lower upper] in L, U.
    exists (of_bool p), (of_bool q). split; [exact P|]. split; [exact Q|]. destruct p, q; cbn [of_bool] in *; lia.
  Qed.
  Lemma zop_bool o x y : compare_op o = true -> zop o x y = 0 \/ zop o x y = 1.
  Proof. destruct o; try discriminate; intros _; cbn [zop]; [destruct (x =? y)|destruct (x =? y)|destruct (x <? y)|destruct (x <=? y)]; auto. Qed.
  Lemma less_end o x y v w : o = Less \/ o = LessEqual -> (upper x v /\ lower y w) \/ (lower x v /\ upper y w) -> bool_end (xbin o x y).
  Proof.
    intros [-> | ->] K; destruct x, y; cbn [upper lower] in K; try tauto; cbn [xbin xcmp]; eexists; reflexivity.
  Qed.
  Lemma cmp_end o p q : compare_op o = true -> bool_end (xbin o (Fin p) (Fin q)).
  Proof. intros Co. destruct o; try discriminate; cbn [xbin xcmp]; eexists; reflexivity. Qed.
  Lemma bool_refines x y : bool_end x -> refines x y -> bool_end y.
  Proof. intros (b & ->) R. apply exact_fin in R. exists b. exact R. Qed.
  Lemma of_point x i : point_of x = Val i -> (forall e, x = Val e -> bool_end (M e)) -> bool_ends i.
  Proof. intros H K. apply bind_inv in H as (e & He & H). injection H as <-. split; apply K; exact He. Qed.
  Lemma of_interval x y i : interval_of x y = Val i -> (forall e, x = Val e -> bool_end (M e)) -> (forall e, y = Val e -> bool_end (M e)) -> bool_ends i.
  Proof.
    intros H K L. apply bind_inv in H as (e & He & H). apply bind_inv in H as (f & Hf & H). injection H as <-. split; [apply K|apply L]; assumption.
  Qed.

  Section Compare.
    Variable reuse : expr -> expr -> bool.
    Variables (o : binop) (a b : interval) (va vb : Z).
    Hypothesis Ka : interval_ok a.
    Hypothesis Kb : interval_ok b.
    Hypothesis Ea : enc a va.
    Hypothesis Eb : enc b vb.
    Hypothesis OK : forall x y, end_of a x -> end_of b y -> operands_ok W r o x y.
    Hypothesis Co : compare_op o = true.

    Lemma points_bool i : both_points a b = true -> point_of (simp reuse o (i_min a) (i_min b)) = Val i -> bool_ends i.
    Proof.
      intros P H. apply andb_true_iff in P as (Pa & Pb). apply (of_point _ _ H). intros e He.
      destruct (enc_point W r _ _ Ka Ea Pa) as (E1 & _). destruct (enc_point W r _ _ Kb Eb Pb) as (E2 & _).
      refine (bool_refines _ _ _ (simp_good W r reuse _ _ _ _ (OK _ _ (or_introl eq_refl) (or_introl eq_refl)) He)). rewrite E1, E2. apply cmp_end. exact Co.
    Qed.
    Lemma small_ends x : end_of a x \/ end_of b x -> consts_all below30 x.
    Proof.
      intros [Hx|Hx]; [destruct (OK x (i_min b) Hx (or_introl eq_refl)) as (_ & _ & K & _)|destruct (OK (i_min a) x (or_introl eq_refl) Hx) as (_ & _ & K & _)];
        apply K; destruct o; try discriminate Co; reflexivity.
    Qed.
    Lemma less_bool i : o = Less \/ o = LessEqual -> bounds_of_less reuse o a b = Val i -> bool_ends i.
    Proof.
      intros Mo H. unfold bounds_of_less in H. destruct (both_points a b) eqn:P; [exact (points_bool _ P H)|].
      destruct Ea as (La & Ua), Eb as (Lb & Ub).
      apply (of_interval _ _ _ H); intros e He.
      - refine (bool_refines _ _ _ (simp_good W r reuse _ _ _ _ (OK _ _ (or_intror eq_refl) (or_introl eq_refl)) He)).
        exact (less_end o _ _ va vb Mo (or_introl (conj Ua Lb))).
      - refine (bool_refines _ _ _ (simp_good W r reuse _ _ _ _ (OK _ _ (or_introl eq_refl) (or_intror eq_refl)) He)).
        exact (less_end o _ _ va vb Mo (or_intror (conj La Ub))).
    Qed.
    Lemma equal_bool i : bounds_of_equal reuse a b = Val i -> o = Equal -> bool_ends i.
    Proof.
      intros H Eo. unfold bounds_of_equal in H. destruct (both_points a b) eqn:P. { rewrite <- Eo in H. exact (points_bool _ P H). }
      destruct Ea as (La & Ua), Eb as (Lb & Ub).
      assert (Ca1 := small_ends _ (or_introl (or_introl eq_refl))). assert (Ca2 := small_ends _ (or_introl (or_intror eq_refl))).
      assert (Cb1 := small_ends _ (or_intror (or_introl eq_refl))). assert (Cb2 := small_ends _ (or_intror (or_intror eq_refl))).
      apply (of_interval _ _ _ H); intros e He.
      - injection He as <-. exists false. reflexivity.
      - apply bind_inv in He as (x & Hx & He). apply bind_inv in He as (y & Hy & He).
        destruct (le_value W r reuse _ _ _ Ca1 Cb2 Hx va vb La Ub) as (Cx & bx & Ex & _).
        destruct (le_value W r reuse _ _ _ Cb1 Ca2 Hy vb va Lb Ua) as (Cy & by_ & Ey & _).
        refine (bool_refines _ _ _ (proj1 (simplify_and_ok W r x y e Cx Cy He))). rewrite Ex, Ey. cbn [xbin xbool2]. eexists; reflexivity.
    Qed.
    Lemma not_equal_bool i : bounds_of_not_equal reuse a b = Val i -> o = NotEqual -> bool_ends i.
    Proof.
      intros H Eo. unfold bounds_of_not_equal in H. destruct (both_points a b) eqn:P. { rewrite <- Eo in H. exact (points_bool _ P H). }
      destruct Ea as (La & Ua), Eb as (Lb & Ub).
      assert (Ca1 := small_ends _ (or_introl (or_introl eq_refl))). assert (Ca2 := small_ends _ (or_introl (or_intror eq_refl))).
      assert (Cb1 := small_ends _ (or_intror (or_introl eq_refl))). assert (Cb2 := small_ends _ (or_intror (or_intror eq_refl))).
      apply (of_interval _ _ _ H); intros e He.
      - apply bind_inv in He as (x & Hx & He). apply bind_inv in He as (y & Hy & He).
        destruct (lt_value W r reuse _ _ _ Ca2 Cb1 Hx va vb Ua Lb) as (Cx & bx & Ex & _).
        destruct (lt_value W r reuse _ _ _ Cb2 Ca1 Hy vb va Ub La) as (Cy & by_ & Ey & _).
        refine (bool_refines _ _ _ (proj1 (simplify_or_ok W r x y e Cx Cy He))). rewrite Ex, Ey. cbn [xbin xbool2]. eexists; reflexivity.
      - injection He as <-. exists true. reflexivity.
    Qed.
  End Compare.

  (** and, or *)
  Lemma truth_logic o p q x y : o = And \/ o = Or -> (p <> 0 -> x <> 0) -> (q <> 0 -> y <> 0) -> zop o p q <= zop o x y.
  Proof.
    intros [-> | ->] A B; cbn [zop]; destruct (Z.eqb_spec p 0), (Z.eqb_spec q 0), (Z.eqb_spec x 0), (Z.eqb_spec y 0); cbn; try lia; exfalso; auto.
  Qed.
  Lemma logic_01 o x y : o = And \/ o = Or -> zop o x y = 0 \/ zop o x y = 1.
  Proof. intros [-> | ->]; cbn [zop]; [destruct ((x =? 0) || (y =? 0))|destruct ((x =? 0) && (y =? 0))]; auto. Qed.
  Lemma logic_truth reuse o a b va vb i : o = And \/ o = Or -> interval_ok a -> interval_ok b -> ends64 a -> ends64 b -> truth a va -> truth b vb ->
    bounds_of_linear reuse o a b = Val i -> enc i (zop o va vb) /\ truth i (zop o va vb).
  Proof.
    intros Mo Ka Kb Ca Cb (pa & qa & Pa & Qa & Ta & Ta') (pb & qb & Pb & Qb & Tb & Tb') H.
    assert (OK : forall x y, end_of a x -> end_of b y -> operands_ok W r o x y).
    { intros x y Hx Hy. apply ok_plain; [destruct Mo as [-> | ->]; reflexivity|apply Ca, Hx|apply Cb, Hy]. }
    assert (V : forall x y p q e, end_of a x -> end_of b y -> M x = Fin p -> M y = Fin q -> simp reuse o x y = Val e -> M e = Fin (zop o p q)).
    { intros x y p q e Hx Hy Ex Ey He. pose proof (simp_good W r reuse _ _ _ _ (OK _ _ Hx Hy) He) as R. rewrite Ex, Ey, zop_fin in R. exact (exact_fin _ _ R). }
    assert (G : exists lo hi, M (i_min i) = Fin lo /\ M (i_max i) = Fin hi /\ lo <= zop o va vb <= hi /\ (lo = 0 \/ lo = 1) /\ (hi = 0 \/ hi = 1)).
    { unfold bounds_of_linear in H. destruct (both_points a b) eqn:P.
      - apply andb_true_iff in P as (A & B). destruct (Ka A) as (A1 & _). destruct (Kb B) as (B1 & _). rewrite A1, Pa in Qa. rewrite B1, Pb in Qb. injection Qa as <-. injection Qb as <-.
        apply bind_inv in H as (e & He & H). injection H as <-. pose proof (V _ _ _ _ _ (or_introl eq_refl) (or_introl eq_refl) Pa Pb He) as E.
        exists (zop o pa pb), (zop o pa pb). cbn [point i_min i_max]. split; [exact E|]. split; [exact E|]. split; [|split; apply logic_01; exact Mo].
        split; [apply truth_logic|apply truth_logic]; auto.
      - apply bind_inv in H as (e & He & H). apply bind_inv in H as (f & Hf & H). injection H as <-.
        exists (zop o pa pb), (zop o qa qb). cbn [i_bounds i_min i_max]. split; [exact (V _ _ _ _ _ (or_introl eq_refl) (or_introl eq_refl) Pa Pb He)|].
        split; [exact (V _ _ _ _ _ (or_intror eq_refl) (or_intror eq_refl) Qa Qb Hf)|]. split; [|split; apply logic_01; exact Mo].
        split; apply truth_logic; auto. }
    destruct G as (lo & hi & El & Eh & B & L01 & H01). pose proof (logic_01 o va vb Mo) as V01. split.
    - split; [rewrite El|rewrite Eh]; cbn [lower upper]; lia.
    - exists lo, hi. split; [exact El|]. split; [exact Eh|]. lia.
  Qed.

  (** not *)
  Lemma znot_01 x : znot x = 0 \/ znot x = 1. Proof. unfold znot. destruct (x =? 0); auto. Qed.
  Lemma znot_le p v : (p <> 0 -> v <> 0) -> znot v <= znot p.
  Proof. intros A. unfold znot. destruct (Z.eqb_spec v 0), (Z.eqb_spec p 0); lia. Qed.
  Lemma not_truth x is_op a va vx i : interval_ok a -> ends64 a -> M x = Fin vx -> (vx = 0 <-> va = 0) -> truth a va ->
    (is_op = true -> i_min a = ENot x /\ i_max a = ENot x) ->
    bounds_of_not (Some x) is_op a = Val i -> enc i (znot va) /\ truth i (znot va).
  Proof.
    intros Ka Ca Ex Vx (p & q & P & Q & T & T') Op H.
    assert (G : exists lo hi, M (i_min i) = Fin lo /\ M (i_max i) = Fin hi /\ lo <= znot va <= hi /\ (lo = 0 \/ lo = 1) /\ (hi = 0 \/ hi = 1)).
    { cbn [bounds_of_not] in H. destruct is_op.
      - destruct (Op eq_refl) as (E1 & E2). rewrite E1 in P. rewrite E2 in Q. cbn [meaning] in P, Q. rewrite Ex in P, Q. cbn [xnot] in P, Q.
        exfalso. injection P as P. injection Q as Q. destruct (Z.eqb_spec vx 0); cbn [of_bool] in *; lia.
      - destruct (i_point a) eqn:Pt.
        + destruct (Ka Pt) as (A1 & _). rewrite A1, P in Q. injection Q as <-. apply bind_inv in H as (e & He & H). injection H as <-.
          pose proof (not_value W r _ _ _ (Ca _ (or_introl eq_refl)) P He) as E. exists (znot p), (znot p). cbn [point i_min i_max].
          split; [exact E|]. split; [exact E|]. split; [|split; apply znot_01]. split; apply znot_le; auto.
        + apply bind_inv in H as (e & He & H). apply bind_inv in H as (f & Hf & H). injection H as <-. exists (znot q), (znot p). cbn [i_bounds i_min i_max].
          split; [exact (not_value W r _ _ _ (Ca _ (or_intror eq_refl)) Q He)|]. split; [exact (not_value W r _ _ _ (Ca _ (or_introl eq_refl)) P Hf)|].
          split; [|split; apply znot_01]. split; apply znot_le; auto. }
    destruct G as (lo & hi & El & Eh & B & L01 & H01). pose proof (znot_01 va) as V01. split.
    - split; [rewrite El|rewrite Eh]; cbn [lower upper]; lia.
    - exists lo, hi. split; [exact El|]. split; [exact Eh|]. lia.
  Qed.

  (** select *)
  Lemma xmin_l x y v : lower x v -> y <> Bad -> lower (xmin x y) v /\ lower (xmin y x) v.
  Proof. destruct x, y; cbn [lower xmin]; try tauto; intros; lia. Qed.
  Lemma xmax_u x y v : upper x v -> y <> Bad -> upper (xmax x y) v /\ upper (xmax y x) v.
  Proof. destruct x, y; cbn [upper xmax]; try tauto; intros; lia. Qed.
  Lemma select_truth (rs : path -> bool) p c t f i vc v : select_range W r rs p c t f -> truth c vc ->
    (vc <> 0 -> enc t v) -> (vc = 0 -> enc f v) -> bounds_of_select (rs p) c t f = Val i -> enc i v.
  Proof.
    intros (Kc & Kt & Kf & P1 & P2) (p0 & q0 & Pc & Qc & T & T') Et Ef H. unfold bounds_of_select in H.
    assert (V : i_point c = true -> forall x y, xselect (M (i_min c)) x y = if vc =? 0 then y else x).
    { intros Pp x y. destruct (Kc Pp) as (A1 & _). rewrite A1, Pc in Qc. injection Qc as <-. rewrite Pc. cbn [xselect]. unfold truthy.
      destruct (Z.eqb_spec p0 0), (Z.eqb_spec vc 0); cbn [negb]; try reflexivity; exfalso; lia. }
    assert (E : forall x y, (vc <> 0 -> lower (M x) v) -> (vc = 0 -> lower (M y) v) -> lower (if vc =? 0 then M y else M x) v)
      by (intros x y A B; destruct (Z.eqb_spec vc 0); auto).
    assert (E' : forall x y, (vc <> 0 -> upper (M x) v) -> (vc = 0 -> upper (M y) v) -> upper (if vc =? 0 then M y else M x) v)
      by (intros x y A B; destruct (Z.eqb_spec vc 0); auto).
    assert (Lt : vc <> 0 -> lower (M (i_min t)) v) by (intros A; apply (Et A)). assert (Ut : vc <> 0 -> upper (M (i_max t)) v) by (intros A; apply (Et A)).
    assert (Lf : vc = 0 -> lower (M (i_min f)) v) by (intros A; apply (Ef A)). assert (Uf : vc = 0 -> upper (M (i_max f)) v) by (intros A; apply (Ef A)).
    destruct (i_point c && i_point t && i_point f) eqn:P.
    { specialize (P1 eq_refl). apply andb_true_iff in P as (P & Pf). apply andb_true_iff in P as (Pp & Pt). specialize (V Pp).
      destruct (Kt Pt) as (Et1 & _). destruct (Kf Pf) as (Ef1 & _).
      destruct (rs p).
      - injection H as <-. unfold point. split; cbn [i_min i_max meaning]; rewrite V; [apply E; assumption|]. rewrite <- Et1, <- Ef1. apply E'; assumption.
      - destruct (P1 eq_refl) as (C1 & C2 & C3 & F). apply bind_inv in H as (e & He & H). injection H as <-.
        pose proof (C12_select W r _ _ _ e (C1 _ (or_introl eq_refl)) (C2 _ (or_introl eq_refl)) (C3 _ (or_introl eq_refl)) F He) as R. rewrite V in R.
        unfold point. split; cbn [i_min i_max]; [eapply lower_refines; [|exact R]; apply E; assumption|]. eapply upper_refines; [|exact R]. rewrite <- Et1, <- Ef1. apply E'; assumption. }
    destruct (is_true (i_min c)) eqn:Tc.
    { injection H as <-. apply is_true_inv in Tc as (z & Hz & Ez). rewrite Ez in Pc. cbn [meaning] in Pc. injection Pc as <-. auto. }
    destruct (is_false (i_max c)) eqn:Fc.
    { injection H as <-. apply is_zero_inv in Fc. rewrite Fc in Qc. cbn [meaning] in Qc. injection Qc as <-.
      destruct (Z.eq_dec vc 0); auto. exfalso. apply (T' n). reflexivity. }
    destruct (i_point c) eqn:Pp.
    { injection H as <-. specialize (V eq_refl). unfold i_select. destruct (i_point t && i_point f) eqn:Qp.
      - apply andb_true_iff in Qp as (Q1 & Q2). destruct (Kt Q1) as (Et1 & _). destruct (Kf Q2) as (Ef1 & _).
        unfold point. split; cbn [i_min i_max meaning]; rewrite V; [apply E; assumption|]. rewrite <- Et1, <- Ef1. apply E'; assumption.
      - unfold i_bounds. split; cbn [i_min i_max meaning]; rewrite V; [apply E|apply E']; assumption. }
    destruct (P2 eq_refl) as (C2 & C3 & NB).
    eapply interval_enc; [| |exact H]; intros e He.
    - refine (min_value W r _ _ _ _ (C2 _ (or_introl eq_refl)) (C3 _ (or_introl eq_refl)) He _).
      destruct (Z.eq_dec vc 0) as [Z0|Z0]; [exact (proj2 (xmin_l _ _ v (Lf Z0) (NB _ (or_introl (or_introl eq_refl)))))|exact (proj1 (xmin_l _ _ v (Lt Z0) (NB _ (or_intror (or_introl eq_refl)))))].
    - refine (max_value W r _ _ _ _ (C2 _ (or_intror eq_refl)) (C3 _ (or_intror eq_refl)) He _).
      destruct (Z.eq_dec vc 0) as [Z0|Z0]; [exact (proj2 (xmax_u _ _ v (Uf Z0) (NB _ (or_introl (or_intror eq_refl)))))|exact (proj1 (xmax_u _ _ v (Ut Z0) (NB _ (or_intror (or_intror eq_refl)))))].
  Qed.

  (** prove_constant_true, prove_constant_false *)
  Lemma constant_of a x : as_constant a = Some x -> a = EConst x.
  Proof. destruct a; try discriminate. cbn. congruence. Qed.
  Lemma prove_true_sound e : bounds_ok e -> M e <> Bad -> prove_constant_true e = Val true -> M e <> Fin 0.
  Proof.
    intros B N H. unfold prove_constant_true in H. destruct (negb (defined e)); [discriminate|]. apply bind_inv in H as (ec & He & H). destruct ec as [c|].
    - injection H as H. rewrite (C43_evaluate_constant e c B He W r N). intros K. injection K as ->. discriminate.
    - apply bind_inv in H as (a & Ha & H). destruct (as_constant a) as [x|] eqn:Ca.
      + apply constant_of in Ca. subst a. pose proof (C43_constant_lower_bound e x B Ha W r N) as X. destruct (0 <? x) eqn:L.
        * apply Z.ltb_lt in L. intros K. rewrite K in X. cbn [xle] in X. lia.
        * apply bind_inv in H as (b & Hb & H). injection H as H. destruct (as_constant b) as [y|] eqn:Cb; [|discriminate]. apply constant_of in Cb. subst b.
          pose proof (C43_constant_upper_bound e y B Hb W r N) as Y. apply Z.ltb_lt in H. intros K. rewrite K in Y. cbn [xle] in Y. lia.
      + apply bind_inv in H as (b & Hb & H). injection H as H. destruct (as_constant b) as [y|] eqn:Cb; [|discriminate]. apply constant_of in Cb. subst b.
        pose proof (C43_constant_upper_bound e y B Hb W r N) as Y. apply Z.ltb_lt in H. intros K. rewrite K in Y. cbn [xle] in Y. lia.
  Qed.
  Lemma prove_false_sound e : bounds_ok e -> M e <> Bad -> prove_constant_false e = Val true -> M e = Fin 0.
  Proof.
    intros B N H. unfold prove_constant_false in H. destruct (negb (defined e)); [discriminate|]. apply bind_inv in H as (ec & He & H). destruct ec as [c|].
    - injection H as H. apply Z.eqb_eq in H. subst c. exact (C43_evaluate_constant e 0 B He W r N).
    - apply bind_inv in H as (a & Ha & H). destruct (as_constant a) as [x|] eqn:Ca; [|discriminate]. apply constant_of in Ca. subst a.
      apply bind_inv in H as (b & Hb & H). injection H as H. destruct (as_constant b) as [y|] eqn:Cb; [|discriminate]. apply constant_of in Cb. subst b.
      apply andb_true_iff in H as (H1 & H2). apply Z.eqb_eq in H1, H2. subst x y.
      pose proof (C43_constant_lower_bound e 0 B Ha W r N) as X. pose proof (C43_constant_upper_bound e 0 B Hb W r N) as Y.
      destruct (M e); cbn [xle] in X, Y; try contradiction. f_equal. lia.
  Qed.
End Sound.
