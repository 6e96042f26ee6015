(** The evaluator does what the value semantics says. *)
From Coq Require Import ZArith List Bool Lia.
From Verif Require Import Arith_Model Arith_Proofs Buf_Model Alloc_Model Expr_Model Expr_Proofs Stmt_Model Stmt_Spec Stmt_Proofs Deps_Spec VSem_Spec VMono_Proofs.
Import ListNotations.
Open Scope Z_scope.

Lemma sees_ctx_eq E m c c' : sees E m c -> ctx_eq c c' -> sees E m c'.
Proof. intros S Q x. specialize (S x). destruct (E x); auto; rewrite (Q x); exact S. Qed.
Lemma sees_num E m c s v : sees E m c -> sees (vset E s (Num v)) m (ctx_set c s v).
Proof. intros S x. unfold vset, ctx_set. destruct (Nat.eqb_spec x s); [reflexivity|apply S]. Qed.

(** ** Expressions *)
Section Expr.
  Variable W : world.
  Variable X : Type.
  Variable H : host X.
  Hypothesis Hu : h_user X H = w_user W.
  Hypothesis Hi : h_intrinsic X H = w_intrinsic W.
  Notation veval := (veval X H).
  Notation sees E c := (sees E (w_buf W) c).

  Definition evals (e : expr) : Prop := lets_distinct e -> forall E c z, sees E c -> veval E e = Val z -> exists c', eval W c e = Val (z, c') /\ ctx_eq c c'.
  Lemma evals_lets l : Forall evals (map snd l) -> Forall lets_distinct (map snd l) -> forall E c E1, sees E c -> veval_lets veval l E = Val E1 ->
    exists c1 old, eval_lets (eval W) l c = Val (c1, old) /\ sees E1 c1.
  Proof.
    induction l as [|(s, x) l IH]; intros F D E c E1 S Ev; cbn [veval_lets eval_lets] in *.
    - injection Ev as <-. eauto.
    - inversion F as [|? ? F1 F2]; inversion D as [|? ? D1 D2]; subst. apply bind_inv in Ev as (v & V & Ev).
      destruct (F1 D1 E c v S V) as (c1 & -> & Q). cbn [bind].
      destruct (IH F2 D2 (vset E s (Num v)) (ctx_set c1 s v) E1) as (c2 & old & -> & S2); [|exact Ev|].
      + apply sees_num. exact (sees_ctx_eq _ _ _ _ S Q).
      + cbn [bind]. eauto.
  Qed.
  Lemma evals_args l : Forall evals l -> Forall lets_distinct l -> forall E c vs, sees E c -> veval_args veval E l = Val vs ->
    exists c', eval_args (eval W) l c = Val (vs, c') /\ ctx_eq c c'.
  Proof.
    induction 1 as [|x l F1 F IH]; intros D E c vs S Ev; cbn [veval_args eval_args] in *.
    - injection Ev as <-. exists c. split; [reflexivity|apply ctx_eq_refl].
    - inversion D as [|? ? D1 D2]; subst. destruct (defined x).
      + apply bind_inv in Ev as (v & V & Ev). apply bind_inv in Ev as (vs' & Vs & Ev). injection Ev as <-.
        destruct (F1 D1 E c v S V) as (c1 & -> & Q). cbn [bind]. destruct (IH D2 E c1 vs' (sees_ctx_eq _ _ _ _ S Q) Vs) as (c2 & -> & Q2). cbn [bind].
        exists c2. split; [reflexivity|exact (ctx_eq_trans _ _ _ Q Q2)].
      + apply bind_inv in Ev as (vs' & Vs & Ev). injection Ev as <-. destruct (IH D2 E c vs' S Vs) as (c2 & -> & Q2). cbn [bind]. eauto.
  Qed.
  Lemma evals_at l : Forall evals l -> Forall lets_distinct l -> forall n E c vs, sees E c -> veval_at veval E n l = Val vs ->
    exists c', eval_at (eval W) n l c = Val (vs, c') /\ ctx_eq c c'.
  Proof.
    induction 1 as [|x l F1 F IH]; intros D n E c vs S Ev; cbn [veval_at eval_at] in *.
    - injection Ev as <-. exists c. split; [reflexivity|apply ctx_eq_refl].
    - inversion D as [|? ? D1 D2]; subst. destruct n as [|n]; [injection Ev as <-; exists c; split; [reflexivity|apply ctx_eq_refl]|]. destruct (defined x).
      + apply bind_inv in Ev as (v & V & Ev). apply bind_inv in Ev as (vs' & Vs & Ev). injection Ev as <-.
        destruct (F1 D1 E c v S V) as (c1 & -> & Q). cbn [bind]. destruct (IH D2 n E c1 vs' (sees_ctx_eq _ _ _ _ S Q) Vs) as (c2 & -> & Q2). cbn [bind].
        exists c2. split; [reflexivity|exact (ctx_eq_trans _ _ _ Q Q2)].
      + apply bind_inv in Ev as (vs' & Vs & Ev). injection Ev as <-. destruct (IH D2 n E c vs' S Vs) as (c2 & -> & Q2). cbn [bind]. eauto.
  Qed.
  Lemma evals_short stop l : Forall evals l -> Forall lets_distinct l -> forall E c z, sees E c -> veval_short veval E stop l = Val z ->
    exists c', eval_short (eval W) stop l c = Val (z, c') /\ ctx_eq c c'.
  Proof.
    induction 1 as [|x l F1 F IH]; intros D E c z S Ev; cbn [veval_short eval_short] in *.
    - injection Ev as <-. exists c. split; [reflexivity|apply ctx_eq_refl].
    - inversion D as [|? ? D1 D2]; subst. apply bind_inv in Ev as (v & V & Ev). destruct (F1 D1 E c v S V) as (c1 & -> & Q). cbn [bind].
      destruct (Bool.eqb (truthy v) stop); [injection Ev as <-; eauto|].
      destruct (IH D2 E c1 z (sees_ctx_eq _ _ _ _ S Q) Ev) as (c2 & -> & Q2). exists c2. split; [reflexivity|exact (ctx_eq_trans _ _ _ Q Q2)].
  Qed.
  Lemma field_any b f d a a' : f <> f_none -> field_value b f d a = field_value b f d a'.
  Proof. destruct f; cbn; congruence. Qed.
  Lemma eval_veval e : evals e.
  Proof.
    assert (K : forall e0, lets_distinct e0 -> forall c z, (exists c', eval W c e0 = Val (z, c')) -> exists c', eval W c e0 = Val (z, c') /\ ctx_eq c c').
    { intros e0 D c z (c' & Ev). exists c'. split; [exact Ev|exact (eval_ctx W e0 D c z c' Ev)]. }
    induction e as [|s f d|l b IHl IHb|o a b IHa IHb|a IHa|q t f IHq IHt IHf|fn t args IHargs|c0] using expr_ind'; intros D E c z S Ev; apply (K _ D); clear K; cbn [VSem_Spec.veval eval] in *; try discriminate.
    - specialize (S s). destruct f; destruct (E s) as [|y|k b]; try discriminate; injection Ev as <-; rewrite S; eauto.
    - destruct D as (D1 & D2 & D3). apply go_Forall_snd in D2. apply Forall_snd in IHl. apply bind_inv in Ev as (E1 & El & Eb).
      destruct (evals_lets l IHl D2 E c E1 S El) as (c1 & old & -> & S1). cbn [bind]. destruct (IHb D3 E1 c1 z S1 Eb) as (c2 & -> & _). cbn [bind]. eauto.
    - destruct D as (D1 & D2). apply bind_inv in Ev as (va & Va & Ev). apply bind_inv in Ev as (vb & Vb & Ev).
      destruct (IHa D1 E c va S Va) as (c1 & -> & Q). cbn [bind]. destruct (IHb D2 E c1 vb (sees_ctx_eq _ _ _ _ S Q) Vb) as (c2 & -> & _). cbn [bind].
      rewrite Ev. cbn [bind]. eauto.
    - apply bind_inv in Ev as (va & Va & Ev). destruct (IHa D E c va S Va) as (c1 & -> & Q). cbn [bind]. injection Ev as <-. eauto.
    - destruct D as (D1 & D2 & D3). apply bind_inv in Ev as (vq & Vq & Ev). destruct (IHq D1 E c vq S Vq) as (c1 & -> & Q). cbn [bind].
      destruct (truthy vq); [destruct (IHt D2 E c1 z (sees_ctx_eq _ _ _ _ S Q) Ev) as (c2 & -> & _)|destruct (IHf D3 E c1 z (sees_ctx_eq _ _ _ _ S Q) Ev) as (c2 & -> & _)]; eauto.
    - cbn [lets_distinct] in D. apply go_Forall in D. rewrite <- ?Hu, <- ?Hi.
      destruct fn; try discriminate.
      all: try (apply bind_inv in Ev as (vs & Vs & Ev); destruct (evals_args args IHargs D E c vs S Vs) as (c1 & -> & _); cbn [bind]; injection Ev as <-; eauto; fail).
      + destruct t as [n|]; [|discriminate]. apply bind_inv in Ev as (vs & Vs & Ev). destruct (evals_args args IHargs D E c vs S Vs) as (c1 & -> & _). cbn [bind]. injection Ev as <-. eauto.
      + destruct args as [|x [|? ?]]; try discriminate. apply bind_inv in Ev as (v & V & Ev). inversion IHargs as [|? ? M _]; inversion D as [|? ? D1 _]; subst.
        destruct (M D1 E c v S V) as (c1 & -> & _). cbn [bind]. rewrite Ev. cbn [bind]. eauto.
      + destruct (evals_short false args IHargs D E c z S Ev) as (c1 & -> & _). eauto.
      + destruct (evals_short true args IHargs D E c z S Ev) as (c1 & -> & _). eauto.
      + destruct args as [|[|s [] d| | | | | |] args]; try discriminate. inversion IHargs as [|? ? _ Fa]; inversion D as [|? ? _ Da]; subst.
        pose proof (S s) as Ss. destruct (E s) as [|y|k b]; try discriminate. rewrite Ss. apply bind_inv in Ev as (vs & Vs & Ev).
        destruct (evals_at args Fa Da (rank b) E c vs S Vs) as (c1 & -> & _). cbn [bind]. injection Ev as <-. eauto.
    - injection Ev as <-. eauto.
  Qed.
End Expr.
