(** C17: the dependency analysis is sound; C45: closures capture what is used. *)
From Coq Require Import ZArith List Bool Lia Sorted.
From Verif Require Import Arith_Model Arith_Proofs Buf_Model Alloc_Model Expr_Model Expr_Spec Expr_Proofs Stmt_Model Stmt_Spec Stmt_Proofs Stmt_Props
  Deps_Model Deps_Spec Deps_Proofs DepsStmt_Proofs DepsExec_Proofs.
Import ListNotations.
Open Scope Z_scope.

(** ** Only free symbols are reported of an expression *)
Section Exact.
  Variable unknown : bool.
  Notation find := (find_deps unknown).
  Lemma set_flags_inv vd s f T g : In (T, g) (set_flags unknown vd s f) -> find vd s = Some T /\ g = f.
  Proof. unfold set_flags. destruct (find vd s); [|intros []]. intros [E|[]]. injection E as -> ->. auto. Qed.
  Lemma shadow_inv vd s x T : find (shadow unknown vd s) x = Some T -> is_dummy T = false -> s <> x /\ find vd x = Some T.
  Proof.
    intros E D. assert (N : s <> x).
    { intros ->. unfold shadow in E. destruct (decl_needs_shadow unknown vd x) eqn:S.
      - rewrite push_same in E. injection E as <-. discriminate D.
      - unfold decl_needs_shadow in S. unfold find_deps in E. destruct (find_entry vd x) as [d|].
        + injection E as ->. rewrite D in S. discriminate S.
        + rewrite S in E. discriminate E. }
    split; [exact N|]. rewrite shadow_other in E; auto.
  Qed.
  Definition exact (e : expr) : Prop := forall vd T f, In (T, f) (visit_expr unknown vd e) -> is_dummy T = false ->
    exists x ro, occurs x ro e /\ f = role_flags ro /\ find vd x = Some T.
  Lemma all_exact l : Forall exact l -> forall vd T f, In (T, f) (visit_all (visit_expr unknown) vd l) -> is_dummy T = false ->
    exists x ro, any_of (occurs x ro) l /\ f = role_flags ro /\ find vd x = Some T.
  Proof.
    induction 1 as [|e l He Hl IH]; intros vd T f I D; cbn [visit_all any_of] in *; [destruct I|]. apply in_app_iff in I as [I|I].
    - destruct (He vd T f I D) as (x & ro & O & E & F). exists x, ro. auto.
    - destruct (IH vd T f I D) as (x & ro & O & E & F). exists x, ro. auto.
  Qed.
  Lemma lets_exact (l : list (nat * expr)) : Forall (fun p => exact (snd p)) l -> forall b, exact b -> forall vd T f, is_dummy T = false ->
    In (T, f) (let '(w, vd1) := visit_lets unknown (visit_expr unknown) vd l in w ++ visit_expr unknown vd1 b) ->
    exists x ro, in_lets (occurs x ro) x l (occurs x ro b) /\ f = role_flags ro /\ find vd x = Some T.
  Proof.
    induction 1 as [|(s, v) l Hv Hl IH]; intros b Hb vd T f D I; cbn [visit_lets in_lets snd] in *.
    - exact (Hb vd T f I D).
    - specialize (IH b Hb (shadow unknown vd s) T f D). destruct (visit_lets unknown (visit_expr unknown) (shadow unknown vd s) l) as (ws, vd1).
      rewrite <- app_assoc in I. apply in_app_iff in I as [I|I].
      + destruct (Hv vd T f I D) as (x & ro & O & E & F). exists x, ro. auto.
      + destruct (IH I) as (x & ro & O & E & F). apply shadow_inv in F as (N & F); auto. exists x, ro. auto.
  Qed.
  Lemma expr_exact e : exact e.
  Proof.
    induction e as [|s f d|l b IHl IHb|o a b IHa IHb|a IHa|q t f IHq IHt IHf|fn t l IHl|k] using expr_ind';
      intros vd T g I D; cbn [occurs visit_expr] in *; try (destruct I; fail).
    - apply set_flags_inv in I as (E & ->). exists s, (RField f). auto.
    - exact (lets_exact l IHl b IHb vd T g D I).
    - apply in_app_iff in I as [I|I]; [destruct (IHa vd T g I D) as (x & ro & O & E & F)|destruct (IHb vd T g I D) as (x & ro & O & E & F)]; exists x, ro; auto.
    - exact (IHa vd T g I D).
    - rewrite !in_app_iff in I. destruct I as [I|[I|I]];
        [destruct (IHq vd T g I D) as (x & ro & O & E & F)|destruct (IHt vd T g I D) as (x & ro & O & E & F)|destruct (IHf vd T g I D) as (x & ro & O & E & F)]; exists x, ro; auto.
    - destruct fn; try (exact (all_exact l IHl vd T g I D)).
      destruct l as [|e l]; [destruct I|]. inversion IHl; subst. apply in_app_iff in I as [I|I].
      + destruct e; try (destruct I; fail). destruct f; try (destruct I; fail). apply set_flags_inv in I as (E & ->). exists sym, RAddress. auto.
      + destruct (all_exact l H2 vd T g I D) as (x & ro & O & E & F). exists x, ro. split; [|auto].
        destruct e; auto. destruct f; auto.
  Qed.
End Exact.

Lemma target_eqb_eq a b : target_eqb a b = true -> a = b.
Proof. destruct a, b; cbn; try discriminate; try reflexivity; intros E; apply Nat.eqb_eq in E; congruence. Qed.
Lemma result_inv w t (p : flags -> bool) : (forall a b, p (or_flags a b) = p a || p b) -> p no_flags = false ->
  p (result_of w t) = true -> exists f, In (t, f) w /\ p f = true.
Proof.
  intros Po Pn. induction w as [|(u, f) w IH]; cbn [result_of]; [congruence|]. destruct (target_eqb u t) eqn:E.
  - apply target_eqb_eq in E. subst. rewrite Po. intros K. apply orb_true_iff in K as [K|K]; [exists f; cbn; auto|].
    destruct (IH K) as (g & I & G). exists g. cbn. auto.
  - intros K. destruct (IH K) as (g & I & G). exists g. cbn. auto.
Qed.
Lemma result_zero w t (p : flags -> bool) : (forall a b, p (or_flags a b) = p a || p b) ->
  (exists f, In (t, f) w /\ p f = true) -> p (result_of w t) = true.
Proof.
  intros Po (f & I & K). induction w as [|(u, g) w IH]; [destruct I|]. cbn [result_of]. destruct I as [E|I].
  - injection E as -> ->. assert (R : target_eqb t t = true) by (destruct t; cbn; auto using Nat.eqb_refl). rewrite R, Po, K. reflexivity.
  - destruct (target_eqb u t); [rewrite Po, (IH I); apply orb_true_r|auto].
Qed.
Lemma find_tracked xs : forall x, In x xs -> find_deps false (rev (map (fun x => (x, TTracked 0)) xs)) x = Some (TTracked 0).
Proof.
  intros x I. unfold find_deps. assert (G : forall vd : var_deps, (forall y t, In (y, t) vd -> t = TTracked 0) -> (exists t, In (x, t) vd) -> find_entry vd x = Some (TTracked 0)).
  { induction vd as [|(y, t) vd IH]; intros A (u & K); [destruct K|]. cbn [find_entry]. destruct (Nat.eqb_spec y x) as [->|N].
    - f_equal. apply (A x). left. reflexivity.
    - apply IH; [intros; eapply A; right; eauto|]. destruct K as [K|K]; [congruence|eauto]. }
  rewrite G; [reflexivity| |].
  - intros y t K. apply in_rev, in_map_iff in K as (z & E & _). congruence.
  - exists (TTracked 0). rewrite <- in_rev. apply in_map_iff. eauto.
Qed.
Lemma find_tracked_inv xs x T : find_deps false (rev (map (fun x => (x, TTracked 0)) xs)) x = Some T -> In x xs.
Proof.
  unfold find_deps. assert (G : forall vd, find_entry vd x = Some T -> In (x, T) vd).
  { induction vd as [|(y, t) vd IH]; cbn [find_entry]; [discriminate|]. destruct (Nat.eqb_spec y x) as [->|N]; [intros K; injection K as ->; left; reflexivity|right; auto]. }
  destruct (find_entry _ x) eqn:E; [|discriminate]. intros K. injection K as ->. apply G in E. apply in_rev, in_map_iff in E as (z & Ez & I). injection Ez as -> _. exact I.
Qed.
Lemma any_or a b : any_flag (or_flags a b) = any_flag a || any_flag b.
Proof. unfold any_flag, buffer_data, or_flags. cbn. destruct (d_var a), (d_input a), (d_output a), (d_src a), (d_dst a), (d_base a), (d_dims a), (d_bounds a); cbn [orb]; try reflexivity; rewrite ?orb_true_r; try reflexivity;
  destruct (d_var b), (d_input b), (d_output b), (d_src b), (d_dst b), (d_base b), (d_dims b); reflexivity. Qed.

(** ** C17, expressions *)

(** A flag is set exactly for the symbols that occur free. *)
Theorem C17_depends_on_exact : forall e x, any_flag (depends_on e x) = true <-> free x e.
Proof.
  intros e x. unfold depends_on. split.
  - intros K. apply result_inv in K as (f & I & A); [|apply any_or|reflexivity].
    destruct (expr_exact false e _ _ _ I eq_refl) as (y & ro & O & _ & F). unfold find_deps in F. cbn [find_entry] in F.
    destruct (Nat.eqb_spec x y) as [->|]; [exists ro; exact O|discriminate].
  - intros (ro & O). eapply result_any; [|apply (role_any ro)]. apply (expr_reported false e x); [exact O|].
    unfold find_deps. cbn [find_entry]. rewrite Nat.eqb_refl. reflexivity.
Qed.
Theorem C17_depends_on_any_exact : forall e xs, any_flag (depends_on_any e xs) = true <-> exists x, In x xs /\ free x e.
Proof.
  intros e xs. unfold depends_on_any.
  assert (G : any_flag (result_of (visit_expr false (rev (map (fun x => (x, TTracked 0)) xs)) e) (TTracked 0)) = true <-> exists x, In x xs /\ free x e).
  { split.
    - intros K. apply result_inv in K as (f & I & A); [|apply any_or|reflexivity].
      destruct (expr_exact false e _ _ _ I eq_refl) as (y & ro & O & _ & F). exists y. split; [eapply find_tracked_inv; eauto|exists ro; exact O].
    - intros (x & I & ro & O). eapply result_any; [|apply (role_any ro)]. apply (expr_reported false e x); [exact O|]. apply find_tracked, I. }
  destruct xs; [|exact G]. split; [discriminate|intros (? & [] & _)].
Qed.
Lemma agree_rel (D : nat -> Prop) c c' : agree D c c' <-> ctx_rel (fun y a a' => D y -> a = a') c c'.
Proof. unfold agree, ctx_rel. firstorder. Qed.

(** Evaluation looks at free symbols only. *)
Theorem C17_evaluate : forall W e c c' (D : nat -> Prop), (forall y, free y e -> D y) -> agree D c c' ->
  same_outcome D (eval W c e) (eval W c' e).
Proof.
  intros W e c c' D F A. pose proof (eval_rel W e (fun y a a' => D y -> a = a') c c' (fun y a _ => eq_refl)) as E.
  assert (C : covers W (fun y a a' => D y -> a = a') (fun y ro => occurs y ro e)).
  { intros y ro O a a' Ha. rewrite Ha by (apply F; exists ro; exact O). apply same_for_refl. }
  specialize (E C (proj1 (agree_rel _ _ _) A)). destruct (eval W c e) as [(v, d)|], (eval W c' e) as [(v', d')|]; cbn in *; try tauto.
Qed.
(** No dependency: the value does not change with [x]. *)
Theorem C17_depends_on : forall W e x c c', any_flag (depends_on e x) = false -> agree (fun y => y <> x) c c' ->
  same_outcome (fun y => y <> x) (eval W c e) (eval W c' e).
Proof.
  intros W e x c c' N A. apply C17_evaluate; [|exact A]. intros y F ->. apply C17_depends_on_exact in F. congruence.
Qed.
Theorem C17_depends_on_any : forall W e xs c c', any_flag (depends_on_any e xs) = false -> agree (fun y => ~ In y xs) c c' ->
  same_outcome (fun y => ~ In y xs) (eval W c e) (eval W c' e).
Proof.
  intros W e xs c c' N A. apply C17_evaluate; [|exact A]. intros y F I.
  assert (any_flag (depends_on_any e xs) = true) by (apply C17_depends_on_any_exact; eauto). congruence.
Qed.
Theorem C17_depends_on_interval : forall i x, any_flag (depends_on_interval i x) = true <-> free_interval x i.
Proof.
  intros (a, b) x. unfold depends_on_interval, free_interval. cbn [fst snd]. rewrite any_or, orb_true_iff, !C17_depends_on_exact. tauto.
Qed.

(** What the flags that are set allow to change: [a] and [a'] give the same values for all
    that was reported. *)
Definition alike (W : world) (f : flags) (a a' : Z) : Prop :=
  (d_var f = true -> a = a') /\
  (d_base f = true -> w_buf W a = w_buf W a') /\
  match w_buf W a, w_buf W a' with
  | Some b, Some b' =>
      (d_bounds f = true -> forall d, d_min (dim_at b d) = d_min (dim_at b' d) /\ d_max (dim_at b d) = d_max (dim_at b' d)) /\
      (d_dims f = true -> forall d, d_stride (dim_at b d) = d_stride (dim_at b' d) /\ d_fold (dim_at b d) = d_fold (dim_at b' d))
  | None, None => True
  | _, _ => False
  end.
Lemma alike_same_for W e x ro a a' : occurs x ro e -> alike W (depends_on e x) a a' -> same_for W ro a a'.
Proof.
  intros O (V & B & M). pose proof (expr_reported false e x ro [(x, TTracked 0)] (TTracked 0) O) as R.
  unfold find_deps in R. cbn [find_entry] in R. rewrite Nat.eqb_refl in R. specialize (R eq_refl). apply result_of_in in R.
  fold (depends_on e x) in R. destruct R as (R1 & _ & _ & _ & _ & R6 & R7 & R8).
  destruct ro as [f|]; [destruct f|]; cbn [role_flags field_flags at_flags d_var d_base d_dims d_bounds same_for] in *;
    try (rewrite (V (R1 eq_refl)); destruct (w_buf W a'); auto; fail); try exact (V (R1 eq_refl)); try exact (B (R6 eq_refl)).
  all: destruct (w_buf W a) as [b|], (w_buf W a') as [b'|]; cbn [field_value]; try (subst; tauto); auto.
  all: try (destruct M as (M1 & M2)).
  - intros d. unfold dim_int. destruct (d <? 0); [reflexivity|]. apply M1. auto.
  - intros d. unfold dim_int. destruct (d <? 0); [reflexivity|]. apply M1. auto.
  - intros d. unfold dim_int. destruct (d <? 0); [reflexivity|]. apply M2. auto.
  - intros d. unfold dim_int. destruct (d <? 0); [reflexivity|]. apply M2. auto.
Qed.
(** If only [x] changes, and to a value that cannot be told from the old one by what the
    flags report, the outcome is the same. *)
Theorem C17_flags : forall W e x c c', agree (fun y => y <> x) c c' -> alike W (depends_on e x) (c x) (c' x) ->
  same_outcome (fun y => y <> x) (eval W c e) (eval W c' e).
Proof.
  intros W e x c c' A L.
  pose proof (eval_rel W e (fun y a a' => a = a' \/ (y = x /\ alike W (depends_on e x) a a')) c c') as E.
  assert (C : covers W (fun y a a' => a = a' \/ (y = x /\ alike W (depends_on e x) a a')) (fun y ro => occurs y ro e)).
  { intros y ro O a a' [->|(-> & K)]; [apply same_for_refl|]. apply (alike_same_for W e x); auto. }
  specialize (E (fun y a => or_introl eq_refl) C).
  assert (K : ctx_rel (fun y a a' => a = a' \/ (y = x /\ alike W (depends_on e x) a a')) c c').
  { intros y. destruct (Nat.eq_dec y x) as [->|N]; [right; auto|left; apply A, N]. }
  specialize (E K). destruct (eval W c e) as [(v, d)|], (eval W c' e) as [(v', d')|]; cbn in *; try tauto.
  destruct E as (-> & E). split; [reflexivity|]. intros y N. destruct (E y) as [?|(? & _)]; tauto.
Qed.
(** can_substitute_buffer: only the dimensions of the buffer matter. *)
Theorem C17_can_substitute_buffer : forall W e x c c' b b', can_substitute_buffer (depends_on e x) = true ->
  agree (fun y => y <> x) c c' -> w_buf W (c x) = Some b -> w_buf W (c' x) = Some b' -> dims b = dims b' ->
  same_outcome (fun y => y <> x) (eval W c e) (eval W c' e).
Proof.
  intros W e x c c' b b' S A B B' D. apply C17_flags; [exact A|]. unfold can_substitute_buffer, buffer_data in S.
  apply negb_true_iff in S. rewrite !orb_false_iff in S. destruct S as (((((_ & _) & _) & _) & Sb) & Sv).
  unfold alike. rewrite B, B', Sb, Sv. unfold dim_at. rewrite D. repeat split; discriminate || auto.
Qed.

Theorem C17_find_dependencies : forall e x, In x (find_dependencies e) <-> free x e.
Proof.
  intros e x. unfold find_dependencies. rewrite keys_in. split.
  - intros (f & I). destruct (expr_exact true e _ _ _ I eq_refl) as (y & ro & O & _ & F). unfold find_deps in F. cbn in F. injection F as ->. exists ro; exact O.
  - intros (ro & O). exists (role_flags ro). apply (expr_reported true e x); [exact O|reflexivity].
Qed.
Theorem C17_find_dependencies_sorted : forall e, StronglySorted lt (find_dependencies e).
Proof. intros e. apply keys_sorted. Qed.

(** The buffer whose address is taken, if there is exactly one. *)
Lemma sorted_filter {A} (R : A -> A -> Prop) p l : StronglySorted R l -> StronglySorted R (filter p l).
Proof.
  induction 1 as [|a l Hl IH F]; cbn [filter]; [constructor|]. destruct (p a); [|exact IH]. constructor; [exact IH|].
  rewrite Forall_forall in *. intros y Hy. apply filter_In in Hy. apply F. tauto.
Qed.
Theorem C17_find_buffer_data_dependency : forall e x, find_buffer_data_dependency e = Some x <->
  occurs x RAddress e /\ forall y, occurs y RAddress e -> y = x.
Proof.
  intros e x. unfold find_buffer_data_dependency. set (w := visit_expr true [] e).
  assert (G : forall y, In y (filter (fun x => d_base (result_of w (TUnknown x))) (keys w)) <-> occurs y RAddress e).
  { intros y. rewrite filter_In, keys_in. split.
    - intros (_ & K). apply (result_inv w (TUnknown y) d_base) in K as (f & I & A); [|reflexivity|reflexivity].
      destruct (expr_exact true e _ _ _ I eq_refl) as (z & ro & O & -> & F). unfold find_deps in F. cbn in F. injection F as ->.
      destruct ro as [f|]; [destruct f; discriminate A|exact O].
    - intros O. assert (I : In (TUnknown y, at_flags) w) by (apply (expr_reported true e y RAddress); [exact O|reflexivity]).
      split; [eexists; exact I|]. apply result_of_in in I. apply I. reflexivity. }
  pose proof (sorted_filter _ (fun x => d_base (result_of w (TUnknown x))) _ (keys_sorted w)) as ST.
  destruct (filter _ (keys w)) as [|a [|b l]].
  - split; [discriminate|]. intros (O & _). apply G in O. destruct O.
  - split.
    + intros E. injection E as ->. split; [apply G; left; reflexivity|]. intros y O. apply G in O as [->|[]]. reflexivity.
    + intros (O & U). f_equal. apply U, G. left. reflexivity.
  - split; [discriminate|]. intros (O & U). assert (a = x) by (apply U, G; cbn; auto). assert (b = x) by (apply U, G; cbn; auto). subst.
    inversion ST as [|? ? _ F]; subst. inversion F; subst. lia.
Qed.

(** A pure expression does not look at buffers: they may change or vanish. *)
Theorem C17_is_pure : forall W m e c, is_pure e = true -> eval (World m (w_user W) (w_intrinsic W)) c e = eval W c e.
Proof.
  intros W m. set (W' := World m (w_user W) (w_intrinsic W)).
  induction e as [|s f d|l b IHl IHb|o a b IHa IHb|a IHa|q t f IHq IHt IHf|fn t l IHl|k] using expr_ind'; intros c P; cbn [is_pure eval] in *; auto.
  - destruct f; auto; discriminate.
  - apply andb_true_iff in P as (P1 & P2).
    assert (L : forall c, eval_lets (eval W') l c = eval_lets (eval W) l c).
    { induction IHl as [|(s, x) l Hx Hl IH]; intros c0; cbn [eval_lets forallb snd] in *; [reflexivity|].
      apply andb_true_iff in P1 as (P0 & P1). rewrite (Hx c0 P0). destruct (eval W c0 x) as [(v, c1)|]; cbn [bind]; [|reflexivity]. rewrite (IH P1). reflexivity. }
    rewrite L. destruct (eval_lets (eval W) l c) as [(c1, old)|]; cbn [bind]; [|reflexivity]. rewrite (IHb c1 P2). reflexivity.
  - apply andb_true_iff in P as (P1 & P2). rewrite (IHa c P1). destruct (eval W c a) as [(v, c1)|]; cbn [bind]; [|reflexivity]. rewrite (IHb c1 P2). reflexivity.
  - rewrite (IHa c P). reflexivity.
  - apply andb_true_iff in P as (P1 & P3). apply andb_true_iff in P1 as (P1 & P2).
    rewrite (IHq c P1). destruct (eval W c q) as [(v, c1)|]; cbn [bind]; [|reflexivity]. destruct (truthy v); auto.
  - assert (AA : forallb is_pure l = true -> forall c, eval_args (eval W') l c = eval_args (eval W) l c).
    { clear P. intros P. induction IHl as [|x l Hx Hl IH]; intros c0; cbn [eval_args forallb] in *; [reflexivity|].
      apply andb_true_iff in P as (P0 & P1). rewrite (Hx c0 P0). destruct (defined x); [|rewrite (IH P1); reflexivity].
      destruct (eval W c0 x) as [(v, c1)|]; cbn [bind]; [|reflexivity]. rewrite (IH P1). reflexivity. }
    assert (AS : forallb is_pure l = true -> forall st c, eval_short (eval W') st l c = eval_short (eval W) st l c).
    { clear P AA. intros P st. induction IHl as [|x l Hx Hl IH]; intros c0; cbn [eval_short forallb] in *; [reflexivity|].
      apply andb_true_iff in P as (P0 & P1). rewrite (Hx c0 P0).
      destruct (eval W c0 x) as [(v, c1)|]; cbn [bind]; [|reflexivity]. destruct (Bool.eqb _ _); [reflexivity|].
      apply (IH P1). }
    destruct fn; try (rewrite (AA P); reflexivity); try (apply AS, P); try reflexivity; try discriminate P.
    + destruct l as [|x [|? ?]]; try reflexivity. inversion IHl; subst. cbn [forallb] in P. rewrite andb_true_r in P. rewrite (H1 c P). reflexivity.
Qed.
(** has_side_effects: otherwise the functions and intrinsics with effects are not called. *)
Theorem C17_has_side_effects : forall W u i e c, has_side_effects e = false -> (forall l, i i_validate_buffer l = w_intrinsic W i_validate_buffer l) ->
  eval (World (w_buf W) u i) c e = eval W c e.
Proof.
  intros W u i e c N V. revert c N. set (W' := World (w_buf W) u i).
  induction e as [|s f d|l b IHl IHb|o a b IHa IHb|a IHa|q t f IHq IHt IHf|fn t l IHl|k] using expr_ind'; intros c P; cbn [has_side_effects eval] in *; auto.
  - apply orb_false_iff in P as (P1 & P2).
    assert (L : forall c, eval_lets (eval W') l c = eval_lets (eval W) l c).
    { induction IHl as [|(s, x) l Hx Hl IH]; intros c0; cbn [eval_lets existsb snd] in *; [reflexivity|].
      apply orb_false_iff in P1 as (P0 & P1). rewrite (Hx c0 P0). destruct (eval W c0 x) as [(v, c1)|]; cbn [bind]; [|reflexivity]. rewrite (IH P1). reflexivity. }
    rewrite L. destruct (eval_lets (eval W) l c) as [(c1, old)|]; cbn [bind]; [|reflexivity]. rewrite (IHb c1 P2). reflexivity.
  - apply orb_false_iff in P as (P1 & P2). rewrite (IHa c P1). destruct (eval W c a) as [(v, c1)|]; cbn [bind]; [|reflexivity]. rewrite (IHb c1 P2). reflexivity.
  - rewrite (IHa c P). reflexivity.
  - apply orb_false_iff in P as (P1 & P3). apply orb_false_iff in P1 as (P1 & P2).
    rewrite (IHq c P1). destruct (eval W c q) as [(v, c1)|]; cbn [bind]; [|reflexivity]. destruct (truthy v); auto.
  - apply orb_false_iff in P as (PE & P).
    assert (AA : forall c, eval_args (eval W') l c = eval_args (eval W) l c).
    { induction IHl as [|x l Hx Hl IH]; intros c0; cbn [eval_args existsb] in *; [reflexivity|].
      apply orb_false_iff in P as (P0 & P1). rewrite (Hx c0 P0). destruct (defined x); [|rewrite (IH P1); reflexivity].
      destruct (eval W c0 x) as [(v, c1)|]; cbn [bind]; [|reflexivity]. rewrite (IH P1). reflexivity. }
    assert (AT : forall l', existsb has_side_effects l' = false -> Forall (fun e => forall c, has_side_effects e = false -> eval W' c e = eval W c e) l' ->
       forall n c, eval_at (eval W') n l' c = eval_at (eval W) n l' c).
    { clear. intros l' P F. induction F as [|x l Hx Hl IH]; intros n c0; cbn [eval_at existsb] in *; [reflexivity|]. destruct n; [reflexivity|].
      apply orb_false_iff in P as (P0 & P1). rewrite (Hx c0 P0). destruct (defined x); [|rewrite (IH P1); reflexivity].
      destruct (eval W c0 x) as [(v, c1)|]; cbn [bind]; [|reflexivity]. rewrite (IH P1). reflexivity. }
    assert (AS : forall st c, eval_short (eval W') st l c = eval_short (eval W) st l c).
    { intros st. clear AA AT. induction IHl as [|x l Hx Hl IH]; intros c0; cbn [eval_short existsb] in *; [reflexivity|].
      apply orb_false_iff in P as (P0 & P1). rewrite (Hx c0 P0).
      destruct (eval W c0 x) as [(v, c1)|]; cbn [bind]; [|reflexivity]. destruct (Bool.eqb _ _); [reflexivity|]. apply (IH P1). }
    destruct fn; try discriminate PE; try (apply AS); try reflexivity.
    + destruct l as [|x [|? ?]]; try reflexivity. inversion IHl; subst. cbn [existsb] in P. rewrite orb_false_r in P. rewrite (H1 c P). reflexivity.
    + destruct l as [|x l]; [reflexivity|]. destruct x; try reflexivity. destruct f; try reflexivity. cbn [W' w_buf].
      destruct (w_buf W (c sym)); [|reflexivity]. cbn [existsb] in P. apply orb_false_iff in P as (_ & P). inversion IHl; subst. rewrite (AT l P H2). reflexivity.
    + rewrite AA. destruct (eval_args (eval W) l c) as [(vs, c1)|]; cbn [bind]; [|reflexivity]. cbn [W' w_intrinsic]. rewrite V. reflexivity.
Qed.

(** ** C17, statements *)
Lemma depends_stmt_free s x : any_flag (depends_on_stmt s x) = false -> ~ cloned x s -> ~ free_stmt x s.
Proof.
  intros N C F. destruct (stmt_always false s x F) as (f & [A|A] & K); [|tauto].
  assert (any_flag (depends_on_stmt s x) = true); [|congruence]. unfold depends_on_stmt. eapply result_any; [|exact A]. apply K.
  unfold find_deps. cbn [find_entry]. rewrite Nat.eqb_refl. reflexivity.
Qed.
Lemma depends_any_stmt_free s xs : any_flag (depends_on_any_stmt s xs) = false -> forall x, In x xs -> ~ cloned x s -> ~ free_stmt x s.
Proof.
  intros N x I C F. destruct (stmt_always false s x F) as (f & [A|A] & K); [|tauto].
  assert (any_flag (depends_on_any_stmt s xs) = true); [|congruence]. unfold depends_on_any_stmt. destruct xs; [destruct I|].
  eapply result_any; [|exact A]. apply K, find_tracked, I.
Qed.
Section Stmts.
  Context {X : Type} (H : host X).
  (** Running a statement looks at its free symbols only. *)
  Theorem C17_run : forall s st st' (D : nat -> Prop), calls_read_named H s -> plain_closures s ->
    (forall y, free_stmt y s -> D y) -> same_state D st st' -> same_result D (exec X H s st) (exec X H s st').
  Proof. intros s st st' D R P F K. destruct (exec_same X H s R P) as (G & _). exact (G D F st st' K). Qed.
  (** No dependency on [x]: its value changes nothing. *)
  Theorem C17_depends_on_stmt : forall s x st st', calls_read_named H s -> plain_closures s ->
    any_flag (depends_on_stmt s x) = false -> ~ cloned x s -> same_state (fun y => y <> x) st st' ->
    same_result (fun y => y <> x) (exec X H s st) (exec X H s st').
  Proof.
    intros s x st st' R P N C K. apply C17_run; auto. intros y F ->. exact (depends_stmt_free s x N C F).
  Qed.
  Theorem C17_depends_on_any_stmt : forall s xs st st', calls_read_named H s -> plain_closures s ->
    any_flag (depends_on_any_stmt s xs) = false -> (forall x, In x xs -> ~ cloned x s) -> same_state (fun y => ~ In y xs) st st' ->
    same_result (fun y => ~ In y xs) (exec X H s st) (exec X H s st').
  Proof.
    intros s xs st st' R P N C K. apply C17_run; auto. intros y F I. exact (depends_any_stmt_free s xs N y I (C y I) F).
  Qed.
  (** The symbols found are all that a run depends on. *)
  Theorem C17_find_dependencies_run : forall s st st', calls_read_named H s -> plain_closures s ->
    same_state (fun y => In y (find_dependencies_stmt s)) st st' ->
    same_result (fun y => In y (find_dependencies_stmt s)) (exec X H s st) (exec X H s st').
  Proof.
    intros s st st' R P K. apply C17_run; auto. intros y F. destruct (stmt_always true s y F) as (f & _ & I).
    apply keys_in. exists f. apply I. reflexivity.
  Qed.
End Stmts.
Theorem C17_find_dependencies_stmt : forall s x, free_stmt x s -> In x (find_dependencies_stmt s).
Proof. intros s y F. destruct (stmt_always true s y F) as (f & _ & I). apply keys_in. exists f. apply I. reflexivity. Qed.
Theorem C17_find_dependencies_stmt_sorted : forall s, StronglySorted lt (find_dependencies_stmt s).
Proof. intros s. apply keys_sorted. Qed.

(** Every buffer that a call or copy reads or writes is found, also through crops, slices,
    transposes and clones. *)
Theorem C17_find_buffer_dependencies : forall s input src output dst x k,
  match k with a_input => input | a_output => output | a_copy_src => src | a_copy_dst => dst end = true ->
  accesses k x s -> In x (find_buffer_dependencies s input src output dst).
Proof.
  intros s input src output dst x k W A. destruct (access_always true k s x [] (TUnknown x) A eq_refl eq_refl) as (f & F & I).
  unfold find_buffer_dependencies. apply filter_In. split; [apply keys_in; eauto|].
  apply result_of_in in I. unfold wanted. destruct I as (_ & I2 & I3 & I4 & I5 & _). destruct k; cbn [access_flag] in F; rewrite W.
  - rewrite (I2 F). reflexivity.
  - rewrite (I3 F). rewrite !orb_true_iff. auto.
  - rewrite (I4 F). rewrite !orb_true_iff. auto.
  - rewrite (I5 F). rewrite !orb_true_iff. auto.
Qed.
Theorem C17_find_buffer_dependencies_sorted : forall s a b c d, StronglySorted lt (find_buffer_dependencies s a b c d).
Proof. intros. apply sorted_filter, keys_sorted. Qed.
(** depends_on reports the same accesses *)
Theorem C17_depends_on_access : forall s x k, accesses k x s ->
  match k with a_input => d_input | a_output => d_output | a_copy_src => d_src | a_copy_dst => d_dst end (depends_on_stmt s x) = true.
Proof.
  intros s x k A. destruct (access_always false k s x [(x, TTracked 0)] (TTracked 0) A eq_refl) as (f & F & I).
  { unfold find_deps. cbn [find_entry]. rewrite Nat.eqb_refl. reflexivity. }
  apply result_of_in in I. destruct I as (_ & I2 & I3 & I4 & I5 & _). unfold depends_on_stmt. destruct k; cbn [access_flag] in F; auto.
Qed.

(** ** Examples and findings *)
(** let 1 = x0 + 2 in x1 * buffer_min(2, 0) + buffer_at(3, x1) *)
Definition ex_dep : expr := ELet [(1%nat, EBin Add (EVar 0 f_none 0) (EConst 2))]
  (EBin Add (EBin Mul (EVar 1 f_none 0) (EVar 2 f_min 0)) (ECall i_buffer_at None [EVar 3 f_none 0; EVar 1 f_none 0])).
Example C17_ex : any_flag (depends_on ex_dep 1) = false /\ find_dependencies ex_dep = [0; 2; 3]%nat /\
  can_substitute_buffer (depends_on ex_dep 2) = true /\ can_substitute_buffer (depends_on ex_dep 3) = false /\
  d_bounds (depends_on ex_dep 2) = true /\ any_flag (depends_on_any ex_dep [4; 1]%nat) = false /\
  find_buffer_data_dependency ex_dep = Some 3%nat /\ is_pure ex_dep = false /\ has_side_effects ex_dep = false /\
  is_pure (ECall i_abs None [EVar 1 f_none 0]) = true /\ has_side_effects (ECall i_none (Some 0%nat) []) = true.
Proof. repeat split; reflexivity. Qed.
(** crop 0 to 3 with x1; call 5 on 3, writing 4 *)
Definition ex_dep_stmt : stmt := SCropDim 3 0 0 (EVar 1 f_none 0, EUndef) (SCall 5 [3%nat] [4%nat] [EVar 0 f_none 0]).
Example C17_ex_stmt : accesses a_input 0 ex_dep_stmt /\ accesses a_output 4 ex_dep_stmt /\ ~ free_stmt 3 ex_dep_stmt /\
  find_dependencies_stmt ex_dep_stmt = [0; 1; 4]%nat /\ find_buffer_dependencies ex_dep_stmt true true false false = [0%nat] /\
  any_flag (depends_on_stmt ex_dep_stmt 3) = false /\ ~ cloned 3 ex_dep_stmt /\ plain_closures ex_dep_stmt /\ calls_read_named ex_host ex_dep_stmt /\
  exec_result ex_dep_stmt ex_state = Some (5, [1; 7; 7; 7], [EvCall 5 5], []).
Proof.
  split; [right; cbn; auto|]. split; [left; cbn; split; [lia|auto]|]. split.
  { cbn. unfold free_interval, free. cbn. intros [[(ro & E & _)|(ro & [])]|[E|(E & _)]]; try discriminate E; congruence. }
  split; [reflexivity|]. split; [reflexivity|]. split; [reflexivity|]. split; [intros (K & _); congruence|]. split; [exact I|]. split; [|reflexivity].
  intros c c' m x K. reflexivity.
Qed.
(** Finding: a clone of [x] alone is not reported by depends_on, but it needs [x] to be a
    buffer. *)
Theorem C17_clone_refuted : let s := SClone 1 0 (SCheck (EConst 1)) in
  any_flag (depends_on_stmt s 0) = false /\
  exists st st', same_state (fun y => y <> 0%nat) st st' /\
    (exists r, exec Z ex_host s st = Val r) /\ exec Z ex_host s st' = UB.
Proof.
  split; [reflexivity|]. exists ex_state, (set_ctx Z ex_state (ctx_set (s_ctx Z ex_state) 0%nat 50)). split.
  { eexists. split; [reflexivity|]. intros y N. unfold ctx_set. destruct (Nat.eqb_spec y 0); [tauto|reflexivity]. }
  split; [eexists; reflexivity|reflexivity].
Qed.
(** Finding: the values of a closure are taken from the parent context, not one after the
    other as the lets that they are for depends_on.  (No closure with such lets is made.) *)
Theorem C17_closure_refuted : let s := SAsync None (SLet [(0%nat, EVar 1 f_none 0); (2%nat, EVar 0 f_none 0)] (SCheck (EVar 2 f_none 0)) true) (SCheck (EConst 1)) in
  any_flag (depends_on_stmt s 0) = false /\ ~ cloned 0 s /\
  exists st st' t t', same_state (fun y => y <> 0%nat) st st' /\
    exec Z ex_host s st = Val (0, t) /\ exec Z ex_host s st' = Val (1, t').
Proof.
  split; [reflexivity|]. split; [cbn; tauto|]. exists ex_state, (set_ctx Z ex_state (ctx_set (s_ctx Z ex_state) 0%nat 0)). eexists; eexists. split.
  { eexists. split; [reflexivity|]. intros y N. unfold ctx_set. destruct (Nat.eqb_spec y 0); [tauto|reflexivity]. }
  split; reflexivity.
Qed.
(** The symbol that an async declares is reported although it is not free. *)
Example C17_async_not_shadowed : let s := SAsync (Some 0%nat) (SCheck (EConst 1)) (SCheck (EVar 0 f_none 0)) in
  any_flag (depends_on_stmt s 0) = true /\ ~ free_stmt 0 s.
Proof. split; [reflexivity|]. cbn. intros [(ro & [])|(K & _)]. congruence. Qed.

Print Assumptions C17_depends_on_exact.
Print Assumptions C17_depends_on.
Print Assumptions C17_flags.
Print Assumptions C17_can_substitute_buffer.
Print Assumptions C17_find_dependencies.
Print Assumptions C17_depends_on_stmt.
Print Assumptions C17_find_dependencies_run.
Print Assumptions C17_find_buffer_dependencies.
Print Assumptions C17_is_pure.
Print Assumptions C17_has_side_effects.
