(** C16: substituting a variable. *)
From Coq Require Import ZArith List Bool Lia.
From Verif Require Import Arith_Model Arith_Proofs Buf_Model Alloc_Model Expr_Model Expr_Spec Expr_Proofs Expr_Props Stmt_Model Stmt_Proofs Rewrite_Proofs
  Simplify_Model Simplify_Proofs Match_Model Deps_Model Deps_Spec Deps_Proofs Deps_Props Subst_Model Subst_Spec SubstMean_Proofs SubstEval_Proofs.
Import ListNotations.
Open Scope Z_scope.

(** ** C16 *)
Lemma free_metadata_var s f d y : free y (EVar s f d) <-> y = s.
Proof. unfold free. cbn [occurs]. split; [intros (ro & -> & _); reflexivity|intros ->; exists (RField f); auto]. Qed.
Lemma var_sub_mean W x rep e r r' e' vx : (forall y, y <> x -> r y = r' y) -> r' x = vx -> meaning W r rep = vx ->
  (no_capture x (fun s => free s rep) e \/ r x = vx) ->
  (takes_address e -> forall p b, w_buf W p = Some b -> based_at_min b) -> var_mutate x rep e = Val e' -> refines (meaning W r' e) (meaning W r e').
Proof.
  intros R Rx G C Ba E.
  refine (sub_mean W (enter_var x rep) (visit_var x rep) (fun _ _ => EUndef) (fun _ => O) x (fun s => free s rep) vx (fun r => meaning W r rep = vx) (fun _ => True)
    _ _ _ _ _ _ _ _ e r r' e' (conj R Rx) (fun _ => G) _ (fun _ _ => I) Ba E).
  - intros s En. apply (enter_true x rep s En).
  - intros s En. apply (enter_false x rep s En).
  - intros r0 s v H Nf. rewrite <- H. apply meaning_free. intros y F. unfold env_set. destruct (Nat.eqb_spec y s); [congruence|reflexivity].
  - intros s f d N. unfold visit_var. destruct (Nat.eqb_spec s x); [congruence|reflexivity].
  - intros r0 r0' f d e0 H Hx _ K. unfold visit_var in K. rewrite Nat.eqb_refl in K. right. cbn [meaning]. rewrite Hx.
    destruct f; [injection K as <-; symmetry; exact H|..];
      (apply bind_inv in K as (y & Ky & K); injection K as <-; destruct rep as [|y' f' k'| | | | | |]; try discriminate; destruct f'; try discriminate;
       injection Ky as ->; cbn [meaning] in *; rewrite H; reflexivity).
  - intros r0 d e0 H _ K. unfold visit_var in K. rewrite Nat.eqb_refl in K. injection K as <-. split.
    + intros Er. rewrite <- H, Er. reflexivity.
    + intros s k Er. rewrite Er in H. cbn [meaning] in H. auto.
  - reflexivity.
  - reflexivity.
  - destruct C as [C|C]; [left; exact C|right]. split; [|exact C]. intros s En. apply (enter_true x rep s En).
Qed.
Lemma is_var_inv rep x : is_var rep x = true -> exists d, rep = EVar x f_none d.
Proof. destruct rep; try discriminate. destruct f; try discriminate. cbn. intros E. apply Nat.eqb_eq in E. subst. eauto. Qed.

(** The value of the result is the value of [e] with the target bound to the value of the
    replacement, unless a let of [e] captures.  Infinities included; buffer_at as in C12. *)
Theorem C16_meaning : forall W r e x rep e',
  no_capture x (fun s => free s rep) e ->
  (takes_address e -> forall p b, w_buf W p = Some b -> based_at_min b) ->
  substitute e x rep = Val e' ->
  refines (meaning W (env_set r x (meaning W r rep)) e) (meaning W r e').
Proof.
  intros W r e x rep e' C Ba E. unfold substitute in E. destruct (is_var rep x) eqn:Iv.
  - injection E as <-. apply is_var_inv in Iv as (d & ->). right. apply meaning_free. intros y _. cbn [meaning]. unfold env_set.
    destruct (Nat.eqb_spec y x); congruence.
  - eapply var_sub_mean; [| |reflexivity|left; exact C|exact Ba|exact E].
    + intros y N. unfold env_set. destruct (Nat.eqb_spec y x); congruence.
    + unfold env_set. rewrite Nat.eqb_refl. reflexivity.
Qed.
(** No symbol of the replacement is ever captured: where the target already has the value of
    the replacement, the value does not change, whatever the lets of [e] bind. *)
Theorem C16_never_captures : forall W r e x rep e',
  r x = meaning W r rep ->
  (takes_address e -> forall p b, w_buf W p = Some b -> based_at_min b) ->
  substitute e x rep = Val e' ->
  refines (meaning W r e) (meaning W r e').
Proof.
  intros W r e x rep e' C Ba E. unfold substitute in E. destruct (is_var rep x) eqn:Iv.
  - injection E as <-. right. reflexivity.
  - eapply var_sub_mean; [reflexivity|exact C|reflexivity|right; exact C|exact Ba|exact E].
Qed.

(** On the machine: evaluating the result gives exactly what evaluating [e] gives in the
    context that binds the target; one is undefined behaviour iff the other is. *)
Theorem C16_evaluate : forall W c e x rep v e',
  lets_distinct rep -> lets_distinct e ->
  value W c rep = Val v ->
  no_capture x (fun s => free s rep) e ->
  (takes_address e -> forall p b, w_buf W p = Some b -> based_at_min b) ->
  substitute e x rep = Val e' ->
  value W c e' = value W (ctx_set c x v) e.
Proof.
  intros W c e x rep v e' Dr D G C Ba E. unfold substitute in E. destruct (is_var rep x) eqn:Iv.
  - injection E as <-. apply is_var_inv in Iv as (d & ->). unfold value in G. cbn [eval bind fst] in G. injection G as <-.
    apply value_free. intros y _. unfold ctx_set. destruct (Nat.eqb_spec y x); congruence.
  - eapply (sub_value W x rep v Dr e); [|intros _; exact G|left; exact C|exact D|exact Ba|exact E].
    split; [|unfold ctx_set; rewrite Nat.eqb_refl; reflexivity]. intros y N. unfold ctx_set. destruct (Nat.eqb_spec y x); congruence.
Qed.
Theorem C16_evaluate_never_captures : forall W c e x rep e',
  lets_distinct rep -> lets_distinct e ->
  value W c rep = Val (c x) ->
  (takes_address e -> forall p b, w_buf W p = Some b -> based_at_min b) ->
  substitute e x rep = Val e' ->
  value W c e' = value W c e.
Proof.
  intros W c e x rep e' Dr D G Ba E. unfold substitute in E. destruct (is_var rep x) eqn:Iv; [injection E as <-; reflexivity|].
  eapply (sub_value W x rep (c x) Dr e); [|intros _; exact G|right; reflexivity|exact D|exact Ba|exact E]. split; reflexivity.
Qed.

(** Intervals and dimensions are substituted part by part. *)
Theorem C16_interval : forall i x rep i', substitute_interval i x rep = Val i' ->
  substitute (fst i) x rep = Val (fst i') /\ substitute (snd i) x rep = Val (snd i').
Proof.
  intros (a, b) x rep i' E. unfold substitute_interval, substitute in *. destruct (is_var rep x); [injection E as <-; auto|].
  apply bind_inv in E as (a' & Ea & E). apply bind_inv in E as (b' & Eb & E). injection E as <-. auto.
Qed.
Theorem C16_dim : forall d x rep d', substitute_dim d x rep = Val d' ->
  substitute (fst (de_bounds d)) x rep = Val (fst (de_bounds d')) /\ substitute (snd (de_bounds d)) x rep = Val (snd (de_bounds d')) /\
  substitute (de_stride d) x rep = Val (de_stride d') /\ substitute (de_fold d) x rep = Val (de_fold d').
Proof.
  intros d x rep d' E. unfold substitute_dim, substitute in *. destruct (is_var rep x); [injection E as <-; auto|].
  apply bind_inv in E as (a' & Ea & E). apply bind_inv in E as (b' & Eb & E). apply bind_inv in E as (s' & Es & E). apply bind_inv in E as (f' & Ef & E). injection E as <-. auto.
Qed.

(** Only symbols of [e] and of the replacement occur in the result, and the target is gone. *)
Lemma free_bin_parts y o a b : free y (EBin o a b) <-> free y a \/ free y b.
Proof. unfold free. cbn [occurs]. split; [intros (ro & [H|H]); eauto|intros [(ro & H)|(ro & H)]; eauto]. Qed.
Lemma free_make_bin y o a b : free y (make_bin o a b) <-> free y a \/ free y b.
Proof.
  unfold make_bin. destruct (commutative o && should_commute a b); rewrite free_bin_parts; tauto.
Qed.
Lemma free_clear y s l : forall d a, In a (clear_mins s d l) -> free y a -> exists a', In a' l /\ free y a'.
Proof.
  induction l as [|b l IH]; intros d a I F; [destruct I|]. cbn [clear_mins] in I. destruct I as [<-|I].
  - destruct (is_min_of b s d); [destruct F as (? & [])|]. exists b. cbn. auto.
  - destruct (IH _ _ I F) as (a' & I' & F'). exists a'. cbn. auto.
Qed.
Lemma in_pop a l : In a (pop_undefined l) -> In a l.
Proof. destruct (pop_app l) as (n & E). intros I. rewrite E. apply in_or_app. auto. Qed.
Lemma free_args y fn t l : fn <> i_buffer_at -> free y (ECall fn t l) <-> exists a, In a l /\ free y a.
Proof.
  intros N. split.
  - intros (ro & O). assert (any_of (occurs y ro) l) as K by (destruct fn; try exact O; congruence). apply any_occurs in K as (a & I & K). exists a. split; [exact I|exists ro; exact K].
  - intros (a & I & F). eapply free_arg; eauto. intros ->; congruence.
Qed.
Lemma free_at_inv y t l : free y (ECall i_buffer_at t l) -> exists a, In a l /\ free y a.
Proof.
  intros (ro & O). cbn [occurs] in O. destruct l as [|h l]; [destruct O|].
  assert (K : any_of (occurs y ro) l \/ exists d, h = EVar y f_none d).
  { destruct h; auto. destruct f; auto. destruct O as [(-> & _)|O]; eauto. }
  destruct K as [K|(d & ->)].
  - apply any_occurs in K as (a & I & K). exists a. split; [right; exact I|exists ro; exact K].
  - exists (EVar y f_none d). split; [left; reflexivity|apply free_metadata_var; reflexivity].
Qed.
Section Eliminated.
  Variable x : nat.
  Variable rep : expr.
  Notation mut := (var_mutate x rep).
  Notation nc := (no_capture x (fun s => free s rep)).
  Definition gone (e : expr) : Prop := forall e' y, mut e = Val e' -> free y e' -> free y rep \/ (free y e /\ (nc e -> y <> x)).
  Lemma gone_lets b : gone b -> forall l, Forall (fun p => gone (snd p)) l -> gone (ELet l b).
  Proof.
    intros Hb l Hl e' y E. unfold var_mutate in E. cbn [mutate] in E. apply bind_inv in E as ((l', all) & El & E). apply bind_inv in E as (b' & Eb & E). injection E as <-.
    revert l' all El Eb. induction Hl as [|(s, v) l Hv Hl IH]; intros l' all El Eb Fy.
    - cbn [mutate_lets] in El. injection El as <- <-. apply free_lets in Fy. cbn [in_lets] in Fy. destruct (Hb _ _ Eb Fy) as [K|(K1 & K2)]; [auto|right].
      split; [apply free_lets; exact K1|exact K2].
    - cbn [mutate_lets] in El. apply bind_inv in El as (v' & Ev & El). cbn [snd] in Hv. cbn [no_capture no_capture_lets] in *.
      destruct (enter_var x rep s) eqn:En.
      + destruct (enter_true x rep s En) as (Ns & Nf). apply bind_inv in El as ((l1, al) & El & K). injection K as <- <-.
        apply free_cons in Fy as [Fy|(N & Fy)].
        * destruct (Hv _ _ Ev Fy) as [K|(K1 & K2)]; [auto|right]. split; [apply free_cons; auto|tauto].
        * destruct (IH _ _ El Eb Fy) as [K|(K1 & K2)]; [auto|right]. split; [apply free_cons; auto|]. intros (_ & [->|(_ & K)]); [congruence|auto].
      + injection El as <- <-. injection Eb as <-. apply free_cons in Fy as [Fy|(N & Fy)].
        * destruct (Hv _ _ Ev Fy) as [K|(K1 & K2)]; [auto|right]. split; [apply free_cons; auto|tauto].
        * right. split; [apply free_cons; auto|]. intros (_ & C) ->. destruct (enter_false x rep s En) as [->|Fs]; [congruence|].
          destruct C as [->|(C & _)]; [congruence|]. apply C; [apply free_lets; exact Fy|exact Fs].
  Qed.
  Lemma gone_args l : Forall gone l -> forall l' a y, mutate_args mut l = Val l' -> In a l' -> free y a ->
    free y rep \/ ((exists a0, In a0 l /\ free y a0) /\ (no_capture_all nc l -> y <> x)).
  Proof.
    intros Hl l' a y E. apply mutate_args_inv in E. revert Hl. induction E as [|b b' l l' Eb E IH]; intros Hl I F; [destruct I|].
    inversion Hl; subst. cbn [no_capture_all]. destruct I as [->|I].
    - destruct (H1 _ _ Eb F) as [K|(K1 & K2)]; [auto|right]. split; [exists b; cbn; auto|tauto].
    - destruct (IH H2 I F) as [K|((a0 & I0 & K1) & K2)]; [auto|right]. split; [exists a0; cbn; auto|tauto].
  Qed.
  Lemma gone_all e : gone e.
  Proof.
    induction e as [|s f d|l b IHl IHb|o a b IHa IHb|a IHa|q t f IHq IHt IHf|fn t l IHl|k] using expr_ind'.
    - intros e' y E F. injection E as <-. destruct F as (? & []).
    - intros e' y E F. unfold var_mutate in E. cbn [mutate] in E. unfold visit_var in E. destruct (Nat.eqb_spec s x) as [->|N].
      + left. destruct f; [injection E as <-; exact F|..]; (apply bind_inv in E as (z & Ez & E); injection E as <-; apply free_metadata_var in F as ->;
          destruct rep as [|y' f' k'| | | | | |]; try discriminate; destruct f'; try discriminate; injection Ez as ->; apply free_metadata_var; reflexivity).
      + injection E as <-. right. split; [exact F|]. intros _. apply free_metadata_var in F as ->. exact N.
    - apply gone_lets; assumption.
    - intros e' y E F. unfold var_mutate in E. cbn [mutate] in E. apply bind_inv in E as (a' & Ea & E). apply bind_inv in E as (b' & Eb & E). injection E as <-.
      rewrite free_bin_parts. cbn [no_capture]. apply free_make_bin in F as [F|F]; [destruct (IHa _ _ Ea F)|destruct (IHb _ _ Eb F)]; tauto.
    - intros e' y E F. unfold var_mutate in E. cbn [mutate] in E. apply bind_inv in E as (a' & Ea & E). injection E as <-. exact (IHa _ _ Ea F).
    - intros e' y E F. unfold var_mutate in E. cbn [mutate] in E. apply bind_inv in E as (q' & Eq & E). apply bind_inv in E as (t' & Et & E).
      apply bind_inv in E as (f' & Ef & E). injection E as <-. cbn [no_capture].
      assert (P : forall a b c, free y (ESelect a b c) <-> free y a \/ free y b \/ free y c).
      { intros. unfold free. cbn [occurs]. split; [intros (ro & [H|[H|H]]); eauto|intros [(ro & H)|[(ro & H)|(ro & H)]]; eauto]. }
      rewrite P in *. destruct F as [F|[F|F]]; [destruct (IHq _ _ Eq F)|destruct (IHt _ _ Et F)|destruct (IHf _ _ Ef F)]; tauto.
    - intros e' y E F. unfold var_mutate in E. cbn [mutate] in E. apply bind_inv in E as (l' & El & E). apply bind_inv in E as (l'' & El' & E). injection E as <-.
      cbn [no_capture]. assert (D : fn = i_buffer_at \/ fn <> i_buffer_at) by (destruct fn; auto; right; discriminate). destruct D as [->|D].
      + destruct l as [|h l]; [injection El as <-; injection El' as <-; destruct F as (? & [])|].
        inversion IHl as [|? ? Ih IHl']; subst. cbn [mutate_args] in El. apply bind_inv in El as (h' & Eh & El). apply bind_inv in El as (m & Em & El). injection El as <-.
        pose proof (gone_args l IHl' m) as GA.
        assert (T : forall a, In a m -> free y a -> free y rep \/ (free y (ECall i_buffer_at t (h :: l)) /\ (nc h /\ no_capture_all nc l -> y <> x))).
        { intros a I Fa. destruct (GA a y Em I Fa) as [K|((a0 & I0 & K1) & K2)]; [auto|right]. split; [eapply free_at_tail; eauto|tauto]. }
        destruct h' as [|s' f' k'| | | | | |]; try discriminate El'.
        * injection El' as <-. destruct F as (ro & F). cbn [occurs] in F. apply any_occurs in F as (a & I & K). apply (T a I). exists ro. exact K.
        * destruct f'; try discriminate El'. cbn [finish_at] in El'. unfold pad in El'. cbn [Nat.sub repeat] in El'. rewrite app_nil_r in El'.
          rewrite (fill_mins_clear (fun _ _ => EUndef) s' m (fun _ => eq_refl) 0) in El'. cbn [bind] in El'. injection El' as <-.
          destruct F as (ro & F). cbn [occurs] in F. destruct F as [(-> & _)|F].
          -- assert (Fh : free y (EVar y f_none k')) by (apply free_metadata_var; reflexivity).
             destruct (Ih _ _ Eh Fh) as [K|(K1 & K2)]; [auto|]. destruct h as [|s f d| | | | | |].
             ++ destruct K1 as (? & []).
             ++ unfold mutate, visit_var in Eh. destruct (Nat.eqb_spec s x) as [->|N].
                ** destruct f; [injection Eh as ->; left; exact Fh|..]; apply bind_inv in Eh as (z & Ez & Eh); discriminate Eh.
                ** injection Eh as -> -> ->. right. split; [exists RAddress; cbn; auto|tauto].
             ++ cbn [mutate] in Eh. apply bind_inv in Eh as ((l0, al) & _ & Eh). apply bind_inv in Eh as (b0 & _ & Eh). discriminate Eh.
             ++ cbn [mutate] in Eh. apply bind_inv in Eh as (z & _ & Eh). apply bind_inv in Eh as (z1 & _ & Eh). unfold make_bin in Eh. destruct (_ && _) in Eh; discriminate Eh.
             ++ cbn [mutate] in Eh. apply bind_inv in Eh as (z & _ & Eh). discriminate Eh.
             ++ cbn [mutate] in Eh. apply bind_inv in Eh as (z & _ & Eh). apply bind_inv in Eh as (z1 & _ & Eh). apply bind_inv in Eh as (z2 & _ & Eh). discriminate Eh.
             ++ cbn [mutate] in Eh. apply bind_inv in Eh as (z & _ & Eh). apply bind_inv in Eh as (z1 & _ & Eh). discriminate Eh.
             ++ discriminate Eh.
          -- apply any_occurs in F as (a & I & K). apply in_pop in I. destruct (free_clear y s' m 0 a I (ex_intro _ ro K)) as (a' & I' & F'). exact (T a' I' F').
      + assert (E2 : l'' = l') by (destruct fn; try (injection El' as ->; reflexivity); congruence). subst l''.
        rewrite free_args in * by exact D. destruct F as (a & I & F). exact (gone_args l IHl l' a y El I F).
    - intros e' y E F. injection E as <-. destruct F as (? & []).
  Qed.
End Eliminated.
Theorem C16_symbols : forall e x rep e' y, substitute e x rep = Val e' -> free y e' -> free y e \/ free y rep.
Proof.
  intros e x rep e' y E F. unfold substitute in E. destruct (is_var rep x); [injection E as <-; auto|]. destruct (gone_all x rep e e' y E F); tauto.
Qed.
Theorem C16_eliminated : forall e x rep e', ~ free x rep -> no_capture x (fun s => free s rep) e -> substitute e x rep = Val e' -> ~ free x e'.
Proof.
  intros e x rep e' N C E F. unfold substitute in E. destruct (is_var rep x) eqn:Iv.
  - apply is_var_inv in Iv as (d & ->). apply N, free_metadata_var. reflexivity.
  - destruct (gone_all x rep e e' x E F) as [K|(_ & K)]; [exact (N K)|exact (K C eq_refl)].
Qed.

(** Substitution is defined when the target is only used as a value, or is replaced by another
    variable. *)
Section Defined.
  Variable x : nat.
  Variable rep : expr.
  Notation mut := (var_mutate x rep).
  Definition replaceable (e : expr) : Prop := (exists y d, rep = EVar y f_none d) \/ forall ro, occurs x ro e -> ro = RField f_none.
  Definition def_ok (e : expr) : Prop := plain_heads e -> replaceable e -> exists e', mut e = Val e'.
  Lemma replaceable_sub e a : replaceable e -> (forall ro, occurs x ro a -> occurs x ro e) -> replaceable a.
  Proof. intros [K|K] I; [left; exact K|right; auto]. Qed.
  Lemma def_lets b : def_ok b -> forall l, Forall (fun p => def_ok (snd p)) l -> def_ok (ELet l b).
  Proof.
    intros Hb l Hl P R. unfold var_mutate. cbn [mutate]. fold (var_mutate x rep).
    assert (K : exists l' (al : bool), mutate_lets (enter_var x rep) mut l = Val (l', al) /\ (al = true -> exists b', mut b = Val b')).
    { revert P R. induction Hl as [|(s, v) l Hv Hl IH]; intros P R.
      - exists [], true. split; [reflexivity|]. intros _. apply Hb; [exact P|]. eapply replaceable_sub; [exact R|]. cbn [occurs in_lets]. auto.
      - cbn [plain_heads] in P. destruct P as (Pv & P). cbn [snd] in Hv. destruct (Hv Pv) as (v' & Ev).
        { eapply replaceable_sub; [exact R|]. cbn [occurs in_lets]. auto. }
        cbn [mutate_lets]. rewrite Ev. cbn [bind]. destruct (enter_var x rep s) eqn:En; [|eexists; eexists; split; [reflexivity|discriminate]].
        destruct (enter_true x rep s En) as (Ns & _).
        destruct IH as (l' & al & El & Q); [exact P|eapply replaceable_sub; [exact R|]; cbn [occurs in_lets]; auto|]. rewrite El. cbn [bind]. eauto. }
    destruct K as (l' & al & -> & K). cbn [bind]. destruct al; [|cbn [bind]; eauto]. destruct (K eq_refl) as (b' & Eb). fold (var_mutate x rep). rewrite Eb. cbn [bind]. eauto.
  Qed.
  Lemma def_args l : Forall def_ok l -> Forall plain_heads l -> Forall replaceable l -> exists l', mutate_args mut l = Val l'.
  Proof.
    induction 1 as [|a l Ha Hl IH]; intros P R; [eexists; reflexivity|]. inversion P; subst. inversion R; subst. cbn [mutate_args].
    destruct (Ha H1 H3) as (a' & ->). destruct (IH H2 H4) as (l' & ->). cbn [bind]. eauto.
  Qed.
  Lemma plain_all l : (fix go (l : list expr) := match l with [] => True | a :: l' => plain_heads a /\ go l' end) l -> Forall plain_heads l.
  Proof. induction l; intros P; constructor; tauto. Qed.
  Lemma def_all e : def_ok e.
  Proof.
    induction e as [|s f d|l b IHl IHb|o a b IHa IHb|a IHa|q t f IHq IHt IHf|fn t l IHl|k] using expr_ind'.
    - intros _ _. eexists. reflexivity.
    - intros _ R. unfold var_mutate. cbn [mutate]. unfold visit_var. destruct (Nat.eqb_spec s x) as [->|]; [|eauto].
      destruct R as [(y & d' & ->)|R]; [destruct f; cbn; eauto|]. specialize (R (RField f)). cbn in R. specialize (R (conj eq_refl eq_refl)). injection R as ->. eauto.
    - apply def_lets; assumption.
    - intros (Pa & Pb) R. unfold var_mutate. cbn [mutate]. destruct (IHa Pa) as (a' & Ea); [eapply replaceable_sub; [exact R|]; cbn; auto|].
      destruct (IHb Pb) as (b' & Eb); [eapply replaceable_sub; [exact R|]; cbn; auto|]. fold (var_mutate x rep). rewrite Ea, Eb. cbn [bind]. eauto.
    - intros Pa R. unfold var_mutate. cbn [mutate]. destruct (IHa Pa R) as (a' & Ea). fold (var_mutate x rep). rewrite Ea. cbn [bind]. eauto.
    - intros (Pq & Pt & Pf) R. unfold var_mutate. cbn [mutate]. destruct (IHq Pq) as (q' & Eq); [eapply replaceable_sub; [exact R|]; cbn; auto|].
      destruct (IHt Pt) as (t' & Et); [eapply replaceable_sub; [exact R|]; cbn; auto|]. destruct (IHf Pf) as (f' & Ef); [eapply replaceable_sub; [exact R|]; cbn; auto|].
      fold (var_mutate x rep). rewrite Eq, Et, Ef. cbn [bind]. eauto.
    - intros (Ph & Pl) R. apply plain_all in Pl. unfold var_mutate. cbn [mutate]. fold (var_mutate x rep).
      assert (D : fn = i_buffer_at \/ fn <> i_buffer_at) by (destruct fn; auto; right; discriminate). destruct D as [->|D].
      + specialize (Ph eq_refl). destruct l as [|h l]; [destruct Ph|]. destruct h as [|s f d| | | | | |]; try destruct Ph. destruct f; try destruct Ph.
        inversion IHl as [|? ? _ IHl']; subst. inversion Pl; subst.
        destruct (def_args l IHl' H2) as (m & Em). { rewrite Forall_forall. intros a I. eapply replaceable_sub; [exact R|]. intros ro. apply occurs_at_tail. exact I. }
        cbn [mutate_args]. rewrite Em.
        assert (H : exists s' d', mut (EVar s f_none d) = Val (EVar s' f_none d')).
        { unfold var_mutate. cbn [mutate]. unfold visit_var. destruct (Nat.eqb_spec s x) as [->|]; [|eauto]. destruct R as [(y & d' & ->)|R]; [eauto|].
          specialize (R RAddress). cbn in R. specialize (R (or_introl (conj eq_refl eq_refl))). discriminate R. }
        destruct H as (s' & d' & ->). cbn [bind finish_at]. unfold pad. cbn [Nat.sub repeat]. rewrite app_nil_r.
        rewrite (fill_mins_clear (fun _ _ => EUndef) s' m (fun _ => eq_refl) 0). cbn [bind]. eauto.
      + destruct (def_args l IHl Pl) as (m & ->). { rewrite Forall_forall. intros a I. eapply replaceable_sub; [exact R|]. intros ro O. destruct fn; try (apply any_occurs; eauto; fail). congruence. }
        cbn [bind]. destruct fn; try (eexists; reflexivity). congruence.
    - intros _ _. eexists. reflexivity.
  Qed.
End Defined.
Theorem C16_defined : forall e x rep, plain_heads e ->
  (exists y d, rep = EVar y f_none d) \/ (forall ro, occurs x ro e -> ro = RField f_none) ->
  exists e', substitute e x rep = Val e'.
Proof. intros e x rep P R. unfold substitute. destruct (is_var rep x); [eauto|]. exact (def_all x rep e P R). Qed.

(** Capture is avoided by leaving the target alone: substitute(let y = 1 in x + y, x, y) is
    let y = 1 in x + y, whose value is not that of let y = 1 in x + y with x bound to y. *)
Theorem C16_value_refuted : let e := ELet [(1%nat, EConst 1)] (EBin Add (EVar 0 f_none 0) (EVar 1 f_none 0)) in
  let rep := EVar 1 f_none 0 in
  substitute e 0 rep = Val e /\
  forall W c, c 0%nat <> c 1%nat -> in64 (c 0%nat + 1) -> in64 (c 1%nat + 1) -> exists v, value W c rep = Val v /\ value W c e <> value W (ctx_set c 0 v) e.
Proof.
  cbv zeta. split; [reflexivity|]. intros W c N I0 I1. exists (c 1%nat). split; [reflexivity|].
  unfold value. cbn [eval eval_lets bind eval_bin fst]. unfold ctx_set. cbn [Nat.eqb].
  assert (Q : forall z, in64 z -> chk 64 z = Val z) by (intros z (A & B); unfold chk, in_range; destruct (Z.leb_spec (imin 64) z), (Z.leb_spec z (imax 64)); try lia; reflexivity).
  unfold cadd. rewrite !Q by assumption. cbn [bind fst]. intros K. injection K as K. apply N. lia.
Qed.
(** A field of a non-variable cannot be substituted: the assert of replacement_symbol fails. *)
Theorem C16_field_refuted : forall x f d k, f <> f_none -> substitute (EVar x f d) x (EConst k) = UB.
Proof. intros x f d k N. unfold substitute, var_mutate. cbn [is_var mutate]. unfold visit_var. rewrite Nat.eqb_refl. destruct f; [congruence|..]; reflexivity. Qed.

(** Example: max(let y = x + 1 in y * z, x) with x replaced by z - y.  The let binds a symbol
    of the replacement, but the target does not occur in its scope. *)
Definition C16_ex_expr : expr := EBin Max (ELet [(1%nat, EBin Add (EVar 0 f_none 0) (EConst 1))] (EBin Mul (EVar 1 f_none 0) (EVar 2 f_none 0))) (EVar 0 f_none 0).
Definition C16_ex_rep : expr := EBin Sub (EVar 2 f_none 0) (EVar 1 f_none 0).
Theorem C16_ex :
  no_capture 0 (fun s => free s C16_ex_rep) C16_ex_expr /\ ~ takes_address C16_ex_expr /\ lets_distinct C16_ex_expr /\ lets_distinct C16_ex_rep /\
  substitute C16_ex_expr 0 C16_ex_rep =
    Val (EBin Max (ELet [(1%nat, EBin Add C16_ex_rep (EConst 1))] (EBin Mul (EVar 1 f_none 0) (EVar 2 f_none 0))) C16_ex_rep).
Proof.
  split; [|split; [|split; [|split]]].
  - cbn. split; [|exact I]. split; [tauto|]. right. split; [|tauto]. intros (ro & [(K & _)|(K & _)]); discriminate.
  - cbn. tauto.
  - cbn. repeat constructor; cbn; intuition discriminate.
  - cbn. tauto.
  - reflexivity.
Qed.
