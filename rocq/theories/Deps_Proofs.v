From Coq Require Import ZArith List Bool Lia.
From Verif Require Import Arith_Model Arith_Proofs Buf_Model Alloc_Model Expr_Model Expr_Spec Expr_Proofs Stmt_Model Stmt_Proofs Deps_Model Deps_Spec.
Import ListNotations.
Open Scope Z_scope.

(** ** Evaluation in two contexts *)
Definition rel := nat -> Z -> Z -> Prop.
Definition reflexive (R : rel) : Prop := forall y a, R y a a.
Definition ctx_rel (R : rel) (c c' : context) : Prop := forall y, R y (c y) (c' y).
Definition with_eq (R : rel) (s : nat) : rel := fun y a a' => if (y =? s)%nat then a = a' else R y a a'.
Definition out_rel {A} (R : rel) (a b : res (A * context)) : Prop :=
  match a, b with
  | UB, UB => True
  | Val (v, c), Val (v', c') => v = v' /\ ctx_rel R c c'
  | _, _ => False
  end.
Lemma out_bind {A B} R (a b : res (A * context)) (f g : A * context -> res (B * context)) :
  out_rel R a b -> (forall v c c', ctx_rel R c c' -> out_rel R (f (v, c)) (g (v, c'))) -> out_rel R (bind a f) (bind b g).
Proof. destruct a as [(v, c)|], b as [(v', c')|]; cbn; try tauto. intros (-> & K) F. apply F, K. Qed.
Lemma with_eq_refl R s : reflexive R -> reflexive (with_eq R s).
Proof. intros K y a. unfold with_eq. destruct (y =? s)%nat; auto. Qed.
Lemma ctx_rel_set R s v c c' : ctx_rel R c c' -> ctx_rel (with_eq R s) (ctx_set c s v) (ctx_set c' s v).
Proof. intros K y. unfold with_eq, ctx_set. destruct (y =? s)%nat; auto. Qed.
Definition old_rel (R : rel) (old old' : list (nat * Z)) : Prop :=
  Forall2 (fun p q => fst p = fst q /\ R (fst p) (snd p) (snd q)) old old'.
Lemma restore_rel R old old' : old_rel R old old' -> forall c c', (forall y, ~ In y (map fst old) -> R y (c y) (c' y)) ->
  ctx_rel R (restore_all c old) (restore_all c' old').
Proof.
  induction 1 as [|(s, v) (s', v') old old' (E & V) F IH]; intros c c' K; cbn [restore_all fst snd] in *.
  - intros y. apply K. auto.
  - subst s'. apply IH. intros y Hy. unfold ctx_set. destruct (Nat.eqb_spec y s) as [->|N]; [exact V|].
    apply K. cbn. intros [E|I]; auto.
Qed.

Section Eval.
  Variable W : world.
  Definition covers (R : rel) (P : nat -> role -> Prop) : Prop := forall y ro, P y ro -> forall a a', R y a a' -> same_for W ro a a'.
  Lemma same_for_refl ro a : same_for W ro a a.
  Proof. destruct ro as [f|]; cbn; auto. destruct f; auto; destruct (w_buf W a); auto. Qed.

  Definition ok (e : expr) : Prop := forall R c c', reflexive R -> covers R (fun y ro => occurs y ro e) -> ctx_rel R c c' ->
    out_rel R (eval W c e) (eval W c' e).
  Lemma args_rel l : Forall ok l -> forall R c c', reflexive R -> covers R (fun y ro => any_of (occurs y ro) l) -> ctx_rel R c c' ->
    out_rel R (eval_args (eval W) l c) (eval_args (eval W) l c').
  Proof.
    induction 1 as [|x l Hx Hl IH]; intros R c c' K O C; cbn [eval_args any_of] in *; [split; auto|].
    assert (O1 : covers R (fun y ro => occurs y ro x)) by (intros y ro I; apply O; auto).
    assert (O2 : covers R (fun y ro => any_of (occurs y ro) l)) by (intros y ro I; apply O; auto).
    destruct (defined x).
    - apply out_bind; [apply Hx; auto|]. intros v d d' Hd. apply out_bind; [apply IH; auto|]. intros vs e e' He. split; auto.
    - apply out_bind; [apply IH; auto|]. intros vs e e' He. split; auto.
  Qed.
  Lemma at_rel l : Forall ok l -> forall n R c c', reflexive R -> covers R (fun y ro => any_of (occurs y ro) l) -> ctx_rel R c c' ->
    out_rel R (eval_at (eval W) n l c) (eval_at (eval W) n l c').
  Proof.
    induction 1 as [|x l Hx Hl IH]; intros n R c c' K O C; cbn [eval_at any_of] in *; [split; auto|].
    assert (O1 : covers R (fun y ro => occurs y ro x)) by (intros y ro I; apply O; auto).
    assert (O2 : covers R (fun y ro => any_of (occurs y ro) l)) by (intros y ro I; apply O; auto).
    destruct n; [split; auto|]. destruct (defined x).
    - apply out_bind; [apply Hx; auto|]. intros v d d' Hd. apply out_bind; [apply IH; auto|]. intros vs e e' He. split; auto.
    - apply out_bind; [apply IH; auto|]. intros vs e e' He. split; auto.
  Qed.
  Lemma short_rel l stop : Forall ok l -> forall R c c', reflexive R -> covers R (fun y ro => any_of (occurs y ro) l) -> ctx_rel R c c' ->
    out_rel R (eval_short (eval W) stop l c) (eval_short (eval W) stop l c').
  Proof.
    induction 1 as [|x l Hx Hl IH]; intros R c c' K O C; cbn [eval_short any_of] in *; [split; auto|].
    assert (O1 : covers R (fun y ro => occurs y ro x)) by (intros y ro I; apply O; auto).
    assert (O2 : covers R (fun y ro => any_of (occurs y ro) l)) by (intros y ro I; apply O; auto).
    apply out_bind; [apply Hx; auto|]. intros v d d' Hd. destruct (Bool.eqb _ _); [split; auto|]. apply IH; auto.
  Qed.
  (** the lets leave related contexts [R'] in which the body can be evaluated *)
  Lemma lets_rel (l : list (nat * expr)) : Forall (fun p => ok (snd p)) l -> forall (B : nat -> role -> Prop) R c c', reflexive R ->
    covers R (fun y ro => in_lets (occurs y ro) y l (B y ro)) -> ctx_rel R c c' ->
    match eval_lets (eval W) l c, eval_lets (eval W) l c' with
    | UB, UB => True
    | Val (d, old), Val (d', old') => exists R', reflexive R' /\ covers R' B /\ ctx_rel R' d d' /\
        (forall y a a', ~ In y (map fst old) -> R' y a a' -> R y a a') /\ old_rel R old old'
    | _, _ => False
    end.
  Proof.
    induction 1 as [|(s, x) l Hx Hl IH]; intros B R c c' K O C; cbn [eval_lets in_lets snd] in *.
    { exists R. split; [exact K|split; [exact O|split; [exact C|split; [auto|constructor]]]]. }
    pose proof (Hx R c c' K ltac:(intros y ro I; apply O; auto) C) as E.
    destruct (eval W c x) as [(v, d)|], (eval W c' x) as [(v', d')|]; cbn [out_rel bind] in *; try tauto.
    destruct E as (-> & Cd).
    specialize (IH B (with_eq R s) (ctx_set d s v') (ctx_set d' s v') (with_eq_refl _ _ K)).
    assert (O' : covers (with_eq R s) (fun y ro => in_lets (occurs y ro) y l (B y ro))).
    { intros y ro I a a' Ha. unfold with_eq in Ha. destruct (Nat.eqb_spec y s) as [->|N]; [subst; apply same_for_refl|].
      apply (O y ro); auto. }
    specialize (IH O' (ctx_rel_set _ _ _ _ _ Cd)).
    destruct (eval_lets _ l (ctx_set d s v')) as [(e, old)|], (eval_lets _ l (ctx_set d' s v')) as [(e', old')|]; cbn [bind]; try tauto.
    destruct IH as (R' & K' & OB & Ce & Sub & Old). exists R'. split; [exact K'|split; [exact OB|split; [exact Ce|split]]].
    - intros y a a' N Ha. cbn in N. specialize (Sub y a a' ltac:(tauto) Ha). unfold with_eq in Sub.
      destruct (Nat.eqb_spec y s); [subst; tauto|exact Sub].
    - constructor; [split; [reflexivity|apply Cd]|].
      clear -Old K. induction Old as [|p q o o' (E & V) F IHF]; constructor; auto. split; auto.
      unfold with_eq in V. destruct (fst p =? s)%nat; [rewrite V; apply K|exact V].
  Qed.

  Lemma eval_rel e : ok e.
  Proof.
    induction e as [|s f d|l b IHl IHb|o a b IHa IHb|a IHa|q t f IHq IHt IHf|fn t l IHl|k] using expr_ind';
      intros R c c' K O C; cbn [eval].
    - exact I.
    - pose proof (O s (RField f) (conj eq_refl eq_refl) _ _ (C s)) as S. cbn [same_for] in S.
      destruct f; [split; auto|..]; (destruct (w_buf W (c s)), (w_buf W (c' s)); try tauto; split; auto).
    - pose proof (lets_rel l IHl (fun y ro => occurs y ro b) R c c' K O C) as L.
      destruct (eval_lets _ l c) as [(d, old)|], (eval_lets _ l c') as [(d', old')|]; cbn [bind out_rel]; try tauto.
      destruct L as (R' & K' & OB & Cd & Sub & Old). specialize (IHb R' d d' K' OB Cd).
      destruct (eval W d b) as [(v, e)|], (eval W d' b) as [(v', e')|]; cbn [bind out_rel] in *; try tauto.
      destruct IHb as (-> & Ce). split; [reflexivity|]. apply restore_rel; auto.
    - apply out_bind; [apply IHa; auto; intros y ro I; apply O; cbn; auto|]. intros va d d' Hd.
      apply out_bind; [apply IHb; auto; intros y ro I; apply O; cbn; auto|]. intros vb e e' He.
      destruct (eval_bin o va vb); cbn; auto.
    - apply out_bind; [apply IHa; auto|]. intros va d d' Hd. split; auto.
    - apply out_bind; [apply IHq; auto; intros y ro I; apply O; cbn; auto|]. intros va d d' Hd.
      destruct (truthy va); [apply IHt|apply IHf]; auto; intros y ro I; apply O; cbn; auto.
    - destruct fn; cbn [occurs] in O; try exact I;
        try (apply out_bind; [apply args_rel; auto|intros vs d d' Hd; split; auto]).
      + destruct t; [|exact I]. apply out_bind; [apply args_rel; auto|intros vs d d' Hd; split; auto].
      + destruct l as [|x [|? ?]]; try exact I. inversion IHl; subst. apply out_bind; [apply H1; auto; intros y ro I; apply O; cbn; auto|].
        intros v d d' Hd. destruct (cabs 64 v); cbn; auto.
      + apply short_rel; auto.
      + apply short_rel; auto.
      + destruct l as [|x l]; [exact I|]. destruct x; try exact I. destruct f; try exact I.
        pose proof (O sym RAddress (or_introl (conj eq_refl eq_refl)) _ _ (C sym)) as S. cbn [same_for] in S. rewrite <- S.
        destruct (w_buf W (c sym)) as [b|]; [|exact I]. inversion IHl; subst.
        apply out_bind; [apply at_rel; auto; intros y ro I; apply O; auto|]. intros vs d d' Hd. split; auto.
    - split; auto.
  Qed.
End Eval.

(** ** What the visitor reports *)
Definition role_flags (ro : role) : flags := match ro with RField f => field_flags f | RAddress => at_flags end.
Section Visit.
  Variable unknown : bool.
  Notation find := (find_deps unknown).
  Lemma set_flags_in vd s f T : find vd s = Some T -> In (T, f) (set_flags unknown vd s f).
  Proof. intros E. unfold set_flags. rewrite E. left. reflexivity. Qed.
  Lemma shadow_other vd s x : s <> x -> find (shadow unknown vd s) x = find vd x.
  Proof.
    intros N. unfold shadow. destruct (decl_needs_shadow unknown vd s); [|reflexivity].
    unfold find_deps. cbn [find_entry]. destruct (Nat.eqb_spec s x); [tauto|reflexivity].
  Qed.
  Lemma push_other vd s d x : s <> x -> find ((s, d) :: vd) x = find vd x.
  Proof. intros N. unfold find_deps. cbn [find_entry]. destruct (Nat.eqb_spec s x); [tauto|reflexivity]. Qed.
  Lemma push_same vd s d : find ((s, d) :: vd) s = Some d.
  Proof. unfold find_deps. cbn [find_entry]. rewrite Nat.eqb_refl. reflexivity. Qed.

  Definition reported (e : expr) : Prop := forall x ro vd T, occurs x ro e -> find vd x = Some T ->
    In (T, role_flags ro) (visit_expr unknown vd e).
  Lemma all_reported l x ro vd T : Forall reported l -> any_of (occurs x ro) l -> find vd x = Some T ->
    In (T, role_flags ro) (visit_all (visit_expr unknown) vd l).
  Proof.
    induction 1 as [|e l He Hl IH]; cbn [any_of visit_all]; [tauto|]. intros [O|O] E; apply in_or_app; [left; exact (He x ro vd T O E)|right; auto].
  Qed.
  Lemma lets_reported (l : list (nat * expr)) : forall x (P : expr -> Prop) B vd T,
    in_lets P x l B -> find vd x = Some T ->
    (exists e vd1, In e (map snd l) /\ P e /\ find vd1 x = Some T /\
       (forall w, In w (visit_expr unknown vd1 e) -> In w (fst (visit_lets unknown (visit_expr unknown) vd l)))) \/
    (B /\ find (snd (visit_lets unknown (visit_expr unknown) vd l)) x = Some T /\ ~ In x (map fst l)).
  Proof.
    induction l as [|(s, v) l IH]; intros x P B vd T I E; cbn [in_lets visit_lets map fst snd] in *.
    - right. auto.
    - destruct (visit_lets unknown (visit_expr unknown) (shadow unknown vd s) l) as (ws, vd1) eqn:V. cbn [fst snd].
      destruct I as [I|(N & I)].
      + left. exists v, vd. split; [left; reflexivity|]. split; [exact I|split; [exact E|]]. intros w Hw. apply in_or_app. auto.
      + rewrite <- (shadow_other vd s x N) in E. destruct (IH x P B _ T I E) as [(e & vd2 & A1 & A2 & A3 & A4)|(A1 & A2 & A3)]; rewrite V in *; cbn [fst snd] in *.
        * left. exists e, vd2. split; [right; exact A1|]. split; [exact A2|split; [exact A3|]]. intros w Hw. apply in_or_app. auto.
        * right. split; [exact A1|split; [exact A2|]]. intros [?|?]; auto.
  Qed.
  Lemma expr_reported e : reported e.
  Proof.
    induction e as [|s f d|l b IHl IHb|o a b IHa IHb|a IHa|q t f IHq IHt IHf|fn t l IHl|k] using expr_ind';
      intros x ro vd T O E; cbn [occurs visit_expr] in *; try tauto.
    - destruct O as (-> & ->). apply set_flags_in, E.
    - destruct (lets_reported l x _ _ vd T O E) as [(e & vd1 & A1 & A2 & A3 & A4)|(A1 & A2 & _)];
        destruct (visit_lets _ _ vd l) as (w, vd2) eqn:V; cbn [fst snd] in *; apply in_or_app.
      + left. apply A4. apply in_map_iff in A1 as (p & <- & Hp). rewrite Forall_forall in IHl. exact (IHl p Hp x ro vd1 T A2 A3).
      + right. exact (IHb x ro vd2 T A1 A2).
    - apply in_or_app. destruct O as [O|O]; [left; exact (IHa x ro vd T O E)|right; exact (IHb x ro vd T O E)].
    - exact (IHa x ro vd T O E).
    - rewrite !in_app_iff. destruct O as [O|[O|O]]; [left; exact (IHq x ro vd T O E)|right; left; exact (IHt x ro vd T O E)|right; right; exact (IHf x ro vd T O E)].
    - destruct fn; try (apply all_reported with (x := x); assumption).
      destruct l as [|e l]; [destruct O|]. inversion IHl; subst. apply in_or_app.
      destruct e; try (right; apply all_reported with (x := x); assumption).
      destruct f; try (right; apply all_reported with (x := x); assumption).
      destruct O as [(-> & ->)|O]; [left; apply set_flags_in, E|right; apply all_reported with (x := x); assumption].
  Qed.
End Visit.

Lemma result_of_in w t f : In (t, f) w ->
  (d_var f = true -> d_var (result_of w t) = true) /\ (d_input f = true -> d_input (result_of w t) = true) /\
  (d_output f = true -> d_output (result_of w t) = true) /\ (d_src f = true -> d_src (result_of w t) = true) /\
  (d_dst f = true -> d_dst (result_of w t) = true) /\ (d_base f = true -> d_base (result_of w t) = true) /\
  (d_dims f = true -> d_dims (result_of w t) = true) /\ (d_bounds f = true -> d_bounds (result_of w t) = true).
Proof.
  assert (R : forall t, target_eqb t t = true) by (intros []; cbn; auto using Nat.eqb_refl).
  induction w as [|(u, g) w IH]; [intros []|]. intros [E|I]; cbn [result_of].
  - injection E as -> ->. rewrite R. cbn [or_flags d_var d_input d_output d_src d_dst d_base d_dims d_bounds].
    repeat split; intros ->; reflexivity.
  - destruct (target_eqb u t); [|auto]. cbn [or_flags d_var d_input d_output d_src d_dst d_base d_dims d_bounds].
    specialize (IH I). rewrite !orb_true_iff. tauto.
Qed.
Lemma result_any w t f : In (t, f) w -> any_flag f = true -> any_flag (result_of w t) = true.
Proof.
  intros I A. apply result_of_in in I. unfold any_flag, buffer_data in *. rewrite !orb_true_iff in *. tauto.
Qed.
Lemma role_any ro : any_flag (role_flags ro) = true.
Proof. destruct ro as [f|]; [destruct f|]; reflexivity. Qed.

(** ** The keys of a map *)
From Coq Require Import Sorted.
Lemma insert_key_in s l x : In x (insert_key s l) <-> x = s \/ In x l.
Proof.
  induction l as [|t l IH]; cbn [insert_key]; [cbn; intuition|].
  destruct (Nat.ltb_spec s t); [cbn; intuition|]. destruct (Nat.eqb_spec s t); [subst; cbn; intuition|]. cbn. rewrite IH. intuition.
Qed.
Lemma insert_key_sorted s l : StronglySorted lt l -> StronglySorted lt (insert_key s l).
Proof.
  induction 1 as [|t l Hl IH F]; cbn [insert_key]; [constructor; constructor|].
  destruct (Nat.ltb_spec s t) as [L|L]; [|destruct (Nat.eqb_spec s t) as [E|N]].
  - constructor; [constructor; auto|]. constructor; [exact L|]. eapply Forall_impl; [|exact F]. cbn; intros; lia.
  - constructor; auto.
  - constructor; [exact IH|]. rewrite Forall_forall in *. intros y Hy. apply insert_key_in in Hy as [->|Hy]; [lia|auto].
Qed.
Lemma keys_in w x : In x (keys w) <-> exists f, In (TUnknown x, f) w.
Proof.
  induction w as [|(t, f) w IH]; cbn [keys]; [split; [intros []|intros (? & [])]|].
  destruct t; [| |rewrite insert_key_in]; rewrite IH; (split; [intros H|intros (g & [E|I])]); try discriminate; eauto.
  all: try (destruct H as (g & Hg); exists g; right; exact Hg).
  - destruct H as [->|(g & Hg)]; [exists f; left; reflexivity|exists g; right; exact Hg].
  - injection E as -> ->. left; reflexivity.
Qed.
Lemma keys_sorted w : StronglySorted lt (keys w).
Proof. induction w as [|(t, f) w IH]; cbn [keys]; [constructor|]. destruct t; auto using insert_key_sorted. Qed.
