From Coq Require Import ZArith List Bool Lia.
From Verif Require Import Arith_Model Arith_Proofs Buf_Model Alloc_Model Expr_Model Expr_Spec Expr_Proofs Stmt_Model Stmt_Proofs
  Deps_Model Deps_Spec Deps_Proofs.
Import ListNotations.
Open Scope Z_scope.

(** ** What the visitor reports of a statement *)
Section Visit.
  Variable unknown : bool.
  Notation find := (find_deps unknown).
  Lemma sym_body vd sym src body x T w : sym <> x -> find vd x = Some T -> (forall vd', find vd' x = Some T -> In w (body vd')) ->
    In w (visit_sym_body unknown vd sym src body).
  Proof.
    intros N E K. unfold visit_sym_body.
    destruct (match src with Some d => if is_dummy d then None else Some d | None => None end) as [d|].
    - apply K. rewrite push_other; auto.
    - destruct (decl_needs_shadow unknown vd sym) eqn:S; [|auto].
      destruct (negb unknown && (length vd =? 1)%nat) eqn:L; [|apply K; rewrite push_other; auto]. exfalso.
      apply andb_true_iff in L as (U & L). apply negb_true_iff in U. destruct vd as [|(a, d) [|? ?]]; try discriminate L.
      unfold decl_needs_shadow in S. unfold find_deps in E. rewrite U in *. cbn [find_entry] in S, E.
      destruct (Nat.eqb_spec a sym) as [->|]; [|discriminate]. destruct (Nat.eqb_spec sym x); [tauto|discriminate].
  Qed.
  Lemma src_body vd sym src body x T w : sym <> x -> find vd x = Some T -> (forall vd', find vd' x = Some T -> In w (body vd')) ->
    In w (visit_src_body unknown vd sym src body).
  Proof. intros N E K. unfold visit_src_body. destruct (sym =? src)%nat; [auto|]. eapply sym_body; eauto. Qed.
  Lemma alias_body vd sym src body T w : is_dummy T = false -> find vd src = Some T -> (forall vd', find vd' sym = Some T -> In w (body vd')) ->
    In w (visit_src_body unknown vd sym src body).
  Proof.
    intros D E K. unfold visit_src_body. destruct (Nat.eqb_spec sym src) as [->|N]; [auto|].
    unfold visit_sym_body. rewrite E, D. apply K. apply push_same.
  Qed.

  Lemma shadow_all_other l : forall vd x, ~ In x l -> find (shadow_all unknown vd l) x = find vd x.
  Proof. induction l as [|s l IH]; intros vd x N; [reflexivity|]. cbn [shadow_all]. rewrite IH, shadow_other; auto; intros ?; apply N; cbn; auto. Qed.
End Visit.

Section Visit2.
  Variable unknown : bool.
  Notation find := (find_deps unknown).
  (** the flags with which a free symbol is reported do not depend on the other symbols *)
  Definition always (s : stmt) : Prop := forall x, free_stmt x s ->
    exists f, (any_flag f = true \/ (cloned x s)) /\ forall vd T, find vd x = Some T -> In (T, f) (visit_stmt unknown vd s).
  Ltac use e H := let K := fresh in destruct H as (ro & H); exists (role_flags ro); split; [left; apply role_any|]; intros vd T E.

  Lemma any_always l x : any_of (free x) l -> exists ro, any_of (occurs x ro) l.
  Proof. induction l as [|e l IH]; cbn [any_of]; [tauto|]. intros [(ro & O)|O]; [exists ro; auto|]. destruct (IH O) as (ro & ?). exists ro. auto. Qed.
  Lemma all_in l x ro vd T : any_of (occurs x ro) l -> find vd x = Some T -> In (T, role_flags ro) (visit_all (visit_expr unknown) vd l).
  Proof. intros O E. apply all_reported with (x := x); auto. apply Forall_forall. intros. apply expr_reported. Qed.
  Lemma expr_in e x ro vd T : occurs x ro e -> find vd x = Some T -> In (T, role_flags ro) (visit_expr unknown vd e).
  Proof. intros O E. exact (expr_reported unknown e x ro vd T O E). Qed.
  Definition occurs_interval x ro (i : interval) := occurs x ro (fst i) \/ occurs x ro (snd i).
  Definition occurs_dim x ro (d : dim_expr) := occurs_interval x ro (de_bounds d) \/ occurs x ro (de_stride d) \/ occurs x ro (de_fold d).
  Lemma interval_in i x ro vd T : occurs_interval x ro i -> find vd x = Some T -> In (T, role_flags ro) (visit_interval unknown vd i).
  Proof. intros [O|O] E; apply in_or_app; [left|right]; apply expr_in with (x := x); auto. Qed.
  Lemma dim_in d x ro vd T : occurs_dim x ro d -> find vd x = Some T -> In (T, role_flags ro) (visit_dim unknown vd d).
  Proof.
    intros O E. unfold visit_dim. rewrite !in_app_iff. destruct O as [O|[O|O]]; [left; apply interval_in with (x := x)|right; left; apply expr_in with (x := x)|right; right; apply expr_in with (x := x)]; auto.
  Qed.
  Lemma intervals_in l x ro vd T : Exists (occurs_interval x ro) l -> find vd x = Some T -> In (T, role_flags ro) (flat_map (visit_interval unknown vd) l).
  Proof. intros O E. apply Exists_exists in O as (i & I & O). apply in_flat_map. exists i. split; auto. apply interval_in with (x := x); auto. Qed.
  Lemma dims_in l x ro vd T : Exists (occurs_dim x ro) l -> find vd x = Some T -> In (T, role_flags ro) (flat_map (visit_dim unknown vd) l).
  Proof. intros O E. apply Exists_exists in O as (i & I & O). apply in_flat_map. exists i. split; auto. apply dim_in with (x := x); auto. Qed.
  Lemma free_interval_inv x i : free_interval x i -> exists ro, occurs_interval x ro i.
  Proof. intros [(ro & O)|(ro & O)]; exists ro; [left|right]; auto. Qed.
  Lemma free_dim_inv x i : free_dim x i -> exists ro, occurs_dim x ro i.
  Proof. intros [O|[(ro & O)|(ro & O)]]; [destruct (free_interval_inv _ _ O) as (ro & ?)|..]; exists ro; unfold occurs_dim; auto. Qed.
  Lemma exists_inv {A} (P : A -> Prop) (Q : role -> A -> Prop) l : (forall a, P a -> exists ro, Q ro a) -> Exists P l -> exists ro, Exists (Q ro) l.
  Proof. intros K E. apply Exists_exists in E as (a & I & Ha). destruct (K a Ha) as (ro & ?). exists ro. apply Exists_exists. eauto. Qed.
  Lemma set_all_in l x vd f T : In x l -> find vd x = Some T -> In (T, f) (set_all unknown vd l f).
  Proof. induction l as [|s l IH]; intros I E; [destruct I|]. cbn [set_all]. apply in_or_app. destruct I as [->|I]; [left; apply set_flags_in, E|right; auto]. Qed.

  Lemma lets_split (l : list (nat * expr)) x B : in_lets (free x) x l B ->
    (exists ro, in_lets (occurs x ro) x l False) \/ (B /\ ~ In x (map fst l)).
  Proof.
    induction l as [|(s, v) l IH]; cbn [in_lets map fst]; [auto|]. intros [(ro & O)|(N & O)].
    - left. exists ro. auto.
    - destruct (IH O) as [(ro & I)|(HB & I)]; [left; exists ro; auto|right; split; auto; intros [?|?]; auto].
  Qed.
  Lemma lets_in l x ro vd T : in_lets (occurs x ro) x l False -> find vd x = Some T ->
    In (T, role_flags ro) (fst (visit_lets unknown (visit_expr unknown) vd l)).
  Proof.
    intros I E. destruct (lets_reported unknown l x _ _ vd T I E) as [(e & vd1 & A1 & A2 & A3 & A4)|([] & _)].
    apply A4. exact (expr_reported unknown e x ro vd1 T A2 A3).
  Qed.
  Lemma lets_vd l : forall x vd, ~ In x (map fst l) -> find (snd (visit_lets unknown (visit_expr unknown) vd l)) x = find vd x.
  Proof.
    induction l as [|(s, v) l IH]; intros x vd N; cbn [visit_lets map fst snd] in *; [reflexivity|].
    specialize (IH x (shadow unknown vd s) ltac:(intros Q; apply N; right; exact Q)). destruct (visit_lets _ _ (shadow unknown vd s) l) as (w, vd1). cbn [snd] in *.
    rewrite IH. apply shadow_other. intros ->. apply N. left. reflexivity.
  Qed.
  Ltac here := repeat first [rewrite in_app_iff | progress (cbn [In])].

  Lemma stmt_always s : always s.
  Proof.
    induction s using stmt_ind'; intros x0 F; cbn [free_stmt cloned visit_stmt] in *; try (destruct F; fail).
    - destruct F as [I|[I|O]].
      + exists input_flags. split; [auto|]. intros vd T E. rewrite !in_app_iff. left. apply set_all_in with (x := x0); auto.
      + exists output_flags. split; [auto|]. intros vd T E. rewrite !in_app_iff. right; left. apply set_all_in with (x := x0); auto.
      + apply any_always in O as (ro & O). exists (role_flags ro). split; [left; apply role_any|]. intros vd T E. rewrite !in_app_iff. right; right. apply all_in with (x := x0); auto.
    - destruct F as [->|[->|[->|(N & O)]]].
      + eexists. split; [|intros vd T E; rewrite !in_app_iff; left; apply set_flags_in, E]. left. destruct e; reflexivity.
      + eexists. split; [|intros vd T E; rewrite !in_app_iff; right; right; left; apply set_flags_in, E]. left. reflexivity.
      + eexists. split; [|intros vd T E; rewrite !in_app_iff; right; left; apply set_flags_in, E]. left. reflexivity.
      + apply any_always in O as (ro & O). exists (role_flags ro). split; [left; apply role_any|]. intros vd T E. rewrite !in_app_iff. right; right; right.
        apply all_in with (x := x0); auto. rewrite shadow_all_other; auto.
    - apply lets_split in F as [(ro & O)|(F & N)].
      + exists (role_flags ro). split; [left; apply role_any|]. intros vd T E. pose proof (lets_in l x0 ro vd T O E) as K.
        destruct (visit_lets _ _ vd l). apply in_or_app. auto.
      + destruct (IHs x0 F) as (f & A & K). exists f. split; [tauto|]. intros vd T E. rewrite <- (lets_vd l x0 vd N) in E.
        destruct (visit_lets _ _ vd l) as (w, vd1). apply in_or_app. right. apply K. exact E.
    - induction H as [|y l Hy Hl IH]; [destruct F|]. destruct F as [F|F].
      + destruct (Hy x0 F) as (f & A & K). exists f. split; [tauto|]. intros vd T E. apply in_or_app. left. auto.
      + destruct (IH F) as (f & A & K). exists f. split; [tauto|]. intros vd T E. apply in_or_app. right. auto.
    - destruct F as [O|[(ro & O)|[(ro & O)|(N & F)]]].
      + apply free_interval_inv in O as (ro & O). exists (role_flags ro). split; [left; apply role_any|]. intros vd T E. rewrite !in_app_iff. left. apply interval_in with (x := x0); auto.
      + exists (role_flags ro). split; [left; apply role_any|]. intros vd T E. rewrite !in_app_iff. right; left. apply expr_in with (x := x0); auto.
      + exists (role_flags ro). split; [left; apply role_any|]. intros vd T E. rewrite !in_app_iff. right; right; left. apply expr_in with (x := x0); auto.
      + destruct (IHs x0 F) as (f & A & K). exists f. split; [tauto|]. intros vd T E. rewrite !in_app_iff. do 3 right. eapply sym_body; eauto.
    - destruct F as [(ro & O)|[O|(N & F)]].
      + exists (role_flags ro). split; [left; apply role_any|]. intros vd T E. rewrite !in_app_iff. left. apply expr_in with (x := x0); auto.
      + apply (exists_inv _ (fun ro => occurs_dim x0 ro)) in O as (ro & O); [|intros; apply free_dim_inv; auto]. exists (role_flags ro). split; [left; apply role_any|]. intros vd T E. rewrite !in_app_iff. right; left. apply dims_in with (x := x0); auto.
      + destruct (IHs x0 F) as (f & A & K). exists f. split; [tauto|]. intros vd T E. rewrite !in_app_iff. do 2 right. eapply sym_body; eauto.
    - destruct F as [(ro & O)|[(ro & O)|[O|(N & F)]]].
      + exists (role_flags ro). split; [left; apply role_any|]. intros vd T E. rewrite !in_app_iff. left. apply expr_in with (x := x0); auto.
      + exists (role_flags ro). split; [left; apply role_any|]. intros vd T E. rewrite !in_app_iff. right; left. apply expr_in with (x := x0); auto.
      + apply (exists_inv _ (fun ro => occurs_dim x0 ro)) in O as (ro & O); [|intros; apply free_dim_inv; auto]. exists (role_flags ro). split; [left; apply role_any|]. intros vd T E. rewrite !in_app_iff. right; right; left. apply dims_in with (x := x0); auto.
      + destruct (IHs x0 F) as (f & A & K). exists f. split; [tauto|]. intros vd T E. rewrite !in_app_iff. do 3 right. eapply sym_body; eauto.
    - destruct F as (N & F). destruct (IHs x0 F) as (f & A & K). exists f. split; [tauto|]. intros vd T E. eapply sym_body; eauto.
    - destruct F as [->|(N & F)].
      + exists no_flags. split; [tauto|]. intros vd T E. apply in_or_app. left. apply set_flags_in, E.
      + destruct (IHs x0 F) as (f & A & K). exists f. split; [tauto|]. intros vd T E. apply in_or_app. right. eapply src_body; eauto.
    - destruct F as [O|[->|(N & F)]].
      + apply (exists_inv _ (fun ro => occurs_interval x0 ro)) in O as (ro & O); [|intros; apply free_interval_inv; auto]. exists (role_flags ro). split; [left; apply role_any|]. intros vd T E. rewrite !in_app_iff. left. apply intervals_in with (x := x0); auto.
      + exists meta_flags. split; [auto|]. intros vd T E. rewrite !in_app_iff. right; left. apply set_flags_in, E.
      + destruct (IHs x0 F) as (f & A & K). exists f. split; [tauto|]. intros vd T E. rewrite !in_app_iff. do 2 right. eapply src_body; eauto.
    - destruct F as [O|[->|(N & F)]].
      + apply free_interval_inv in O as (ro & O). exists (role_flags ro). split; [left; apply role_any|]. intros vd T E. rewrite !in_app_iff. left. apply interval_in with (x := x0); auto.
      + exists meta_flags. split; [auto|]. intros vd T E. rewrite !in_app_iff. right; left. apply set_flags_in, E.
      + destruct (IHs x0 F) as (f & A & K). exists f. split; [tauto|]. intros vd T E. rewrite !in_app_iff. do 2 right. eapply src_body; eauto.
    - destruct F as [O|[->|(N & F)]].
      + apply any_always in O as (ro & O). exists (role_flags ro). split; [left; apply role_any|]. intros vd T E. rewrite !in_app_iff. left. apply all_in with (x := x0); auto.
      + exists meta_flags. split; [auto|]. intros vd T E. rewrite !in_app_iff. right; left. apply set_flags_in, E.
      + destruct (IHs x0 F) as (f & A & K). exists f. split; [tauto|]. intros vd T E. rewrite !in_app_iff. do 2 right. eapply src_body; eauto.
    - destruct F as [(ro & O)|[->|(N & F)]].
      + exists (role_flags ro). split; [left; apply role_any|]. intros vd T E. rewrite !in_app_iff. left. apply expr_in with (x := x0); auto.
      + exists meta_flags. split; [auto|]. intros vd T E. rewrite !in_app_iff. right; left. apply set_flags_in, E.
      + destruct (IHs x0 F) as (f & A & K). exists f. split; [tauto|]. intros vd T E. rewrite !in_app_iff. do 2 right. eapply src_body; eauto.
    - destruct F as [->|(N & F)].
      + exists meta_flags. split; [auto|]. intros vd T E. rewrite !in_app_iff. left. apply set_flags_in, E.
      + destruct (IHs x0 F) as (f & A & K). exists f. split; [tauto|]. intros vd T E. rewrite !in_app_iff. right. eapply src_body; eauto.
    - destruct F as [F|(N & F)].
      + destruct (IHs1 x0 F) as (f & A & K). exists f. split; [tauto|]. intros vd T E. apply in_or_app. left. auto.
      + destruct (IHs2 x0 F) as (f & A & K). exists f. split; [tauto|]. intros vd T E. apply in_or_app. right. auto.
    - destruct F as (ro & O). exists (role_flags ro). split; [left; apply role_any|]. intros vd T E. apply expr_in with (x := x0); auto.
  Qed.

  (** buffers used by calls and copies, through crops and slices too *)
  Definition access_flag (k : access) (f : flags) : bool :=
    match k with a_input => d_input f | a_output => d_output f | a_copy_src => d_src f | a_copy_dst => d_dst f end.
  Lemma access_always k s : forall x vd T, accesses k x s -> is_dummy T = false -> find vd x = Some T ->
    exists f, access_flag k f = true /\ In (T, f) (visit_stmt unknown vd s).
  Proof.
    assert (SB : forall vd sym src x T b, is_dummy T = false -> find vd x = Some T ->
      (forall x vd, accesses k x b -> find vd x = Some T -> exists f, access_flag k f = true /\ In (T, f) (visit_stmt unknown vd b)) ->
      (sym <> x /\ accesses k x b) \/ (src = x /\ accesses k sym b) ->
      exists f, access_flag k f = true /\ In (T, f) (visit_src_body unknown vd sym src (fun vd => visit_stmt unknown vd b))).
    { intros vd sym src x T b D E IH [(N & H)|(-> & H)].
      - unfold visit_src_body. destruct (sym =? src)%nat; [apply (IH x); auto|].
        unfold visit_sym_body. destruct (match find vd src with Some d => if is_dummy d then None else Some d | None => None end) as [d|].
        + apply (IH x); auto. rewrite push_other; auto.
        + destruct (decl_needs_shadow unknown vd sym) eqn:S; [|apply (IH x); auto].
          destruct (negb unknown && (length vd =? 1)%nat) eqn:L; [|apply (IH x); auto; rewrite push_other; auto]. exfalso.
          pose proof (sym_body unknown vd sym None (fun _ => [(T, no_flags)]) x T (T, no_flags) N E ltac:(intros; left; reflexivity)) as Q.
          unfold visit_sym_body in Q. rewrite S, L in Q. destruct Q.
      - unfold visit_src_body. destruct (Nat.eqb_spec sym x) as [->|N]; [apply (IH x); auto|].
        unfold visit_sym_body. rewrite E, D. apply (IH sym); auto. apply push_same. }
    assert (LB : forall vd sym x T b, is_dummy T = false -> find vd x = Some T ->
      (forall x vd, accesses k x b -> find vd x = Some T -> exists f, access_flag k f = true /\ In (T, f) (visit_stmt unknown vd b)) ->
      sym <> x /\ accesses k x b ->
      exists f, access_flag k f = true /\ In (T, f) (visit_sym_body unknown vd sym None (fun vd => visit_stmt unknown vd b))).
    { intros vd sym x T b D E IH (N & H). unfold visit_sym_body.
      destruct (decl_needs_shadow unknown vd sym) eqn:S; [|apply (IH x); auto].
      destruct (negb unknown && (length vd =? 1)%nat) eqn:L; [|apply (IH x); auto; rewrite push_other; auto]. exfalso.
      pose proof (sym_body unknown vd sym None (fun _ => [(T, no_flags)]) x T (T, no_flags) N E ltac:(intros; left; reflexivity)) as Q.
      unfold visit_sym_body in Q. rewrite S, L in Q. destruct Q. }
    assert (AR : forall T (a b : writes), (exists f, access_flag k f = true /\ In (T, f) b) -> exists f, access_flag k f = true /\ In (T, f) (a ++ b)).
    { intros T a b (f & A & I). exists f. split; auto. apply in_or_app. auto. }
    induction s using stmt_ind'; intros x' vd T Hx D E; cbn [accesses visit_stmt] in *; try (destruct Hx; fail).
    - destruct k; try (destruct Hx; fail).
      + exists input_flags. split; [reflexivity|]. rewrite !in_app_iff. left. apply set_all_in with (x := x'); auto.
      + exists output_flags. split; [reflexivity|]. rewrite !in_app_iff. right; left. apply set_all_in with (x := x'); auto.
    - destruct k; try (destruct Hx; fail).
      + destruct Hx as [->| ->]; eexists; (split; [|rewrite !in_app_iff]).
        2: left; apply set_flags_in, E. reflexivity. 2: right; left; apply set_flags_in, E. reflexivity.
      + subst. eexists. split; [|rewrite !in_app_iff; right; right; left; apply set_flags_in, E]. reflexivity.
    - destruct Hx as (N & Hx). rewrite <- (lets_vd l x' vd N) in E. destruct (visit_lets _ _ vd l) as (w, vd1). apply AR. eapply IHs; eauto.
    - induction H as [|y l Hy Hl IH]; [destruct Hx|]. destruct Hx as [Hx|Hx].
      + destruct (Hy x' vd T Hx D E) as (f & A & I). exists f. split; auto. apply in_or_app. auto.
      + apply AR. auto.
    - do 3 apply AR. eapply LB; eauto.
    - do 2 apply AR. eapply LB; eauto.
    - do 3 apply AR. eapply LB; eauto.
    - eapply LB; eauto.
    - apply AR. eapply SB; eauto.
    - do 2 apply AR. eapply SB; eauto.
    - do 2 apply AR. eapply SB; eauto.
    - do 2 apply AR. eapply SB; eauto.
    - do 2 apply AR. eapply SB; eauto.
    - apply AR. eapply SB; eauto.
    - destruct Hx as [Hx|(_ & Hx)].
      + destruct (IHs1 x' vd T Hx D E) as (f & A & I). exists f. split; auto. apply in_or_app. auto.
      + apply AR. eauto.
  Qed.
End Visit2.
