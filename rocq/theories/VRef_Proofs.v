(** Statements that do the same although symbols have other names, or are replaced by expressions. *)
From Coq Require Import ZArith List Bool Lia.
From Verif Require Import Arith_Model Arith_Proofs Buf_Model Alloc_Model Expr_Model Expr_Proofs Stmt_Model Stmt_Spec Deps_Spec VSem_Spec VMono_Proofs VExec_Proofs.
Import ListNotations.
Open Scope Z_scope.

Definition sub := nat -> expr.
Definition id_sub : sub := fun x => EVar x f_none 0.
Definition upd (sg : sub) (s s' : nat) : sub := fun x => if (x =? s)%nat then EVar s' f_none 0 else sg x.
Lemma upd_same sg s s' : upd sg s s' s = EVar s' f_none 0. Proof. unfold upd. rewrite Nat.eqb_refl. reflexivity. Qed.
Lemma upd_other sg s s' x : x <> s -> upd sg s s' x = sg x. Proof. intro n. unfold upd. apply Nat.eqb_neq in n. rewrite n. reflexivity. Qed.

Section Ref.
  Variable X : Type.
  Variable H : host X.
  Variable call_v : nat -> list buf -> list buf -> list Z -> X -> Z * X.
  Variable copy_v : buf -> buf -> option buf -> (list Z -> option (list Z)) -> X -> X.
  Variable consts : Z -> option buf.
  Notation veval := (veval X H).
  Notation vexec := (vexec X H call_v copy_v consts).
  Notation vinner := (vinner X H call_v copy_v consts).

  (** in [E'] the expression [e] is the value [a] *)
  Definition stands (a : value) (e : expr) (E' : venv) : Prop :=
    match e with
    | EVar y f_none _ => match a with Undef => True | Num z => E' y = Num z | Buffer _ b => exists k', E' y = Buffer k' b end
    | _ => match a with Num z => veval E' e = Val z | _ => False end
    end.
  (** [K]: what only one symbol sees, is seen only by one.  [O]: only one symbol sees it, whatever was the case before.  A symbol whose block can
      be freed keeps its name. *)
  Definition kinds (K O : Prop) (x y : nat) (k k' : kind) : Prop :=
    (forall id, block k = Some id -> block k' = Some id /\ y = x) /\ (O \/ (K /\ alone k = true) -> alone k' = true).
  Definition vmatch (K O : Prop) (x : nat) (a : value) (e : expr) (E' : venv) : Prop :=
    match e with
    | EVar y f_none _ =>
        match a with Undef => True | Num z => E' y = Num z | Buffer k b => exists k', E' y = Buffer k' b /\ kinds K O x y k k' end
    | _ => match a with Num z => veval E' e = Val z | _ => False end
    end.
  Lemma vmatch_stands K O x a e E' : vmatch K O x a e E' -> stands a e E'.
  Proof. unfold vmatch, stands. destruct e as [|y f d| | | | | |]; auto. destruct f; auto. destruct a; auto. intros (k' & Q & _). eauto. Qed.
  Definition envs (K : nat -> Prop) (own : nat -> Prop) (D : nat -> Prop) (sg : sub) (E E' : venv) : Prop :=
    forall x, D x -> vmatch (K x) (own x) x (E x) (sg x) E'.
  Definition senvs (D : nat -> Prop) (sg : sub) (E E' : venv) : Prop := forall x, D x -> stands (E x) (sg x) E'.
  Lemma envs_senvs K own (D D' : nat -> Prop) sg E E' : envs K own D sg E E' -> (forall x, D' x -> D x) -> senvs D' sg E E'.
  Proof. intros V S x Dx. exact (vmatch_stands _ _ _ _ _ _ (V x (S x Dx))). Qed.
  Lemma envs_weaken (K K' own own' D D' : nat -> Prop) sg sg' E E' : envs K own D sg E E' -> (forall x, D' x -> D x) -> (forall x, D' x -> K' x -> K x) ->
    (forall x, D' x -> own' x -> own x) -> (forall x, D' x -> sg' x = sg x) -> envs K' own' D' sg' E E'.
  Proof.
    intros V S Kk Ho Q x Dx. rewrite (Q x Dx). specialize (V x (S x Dx)). unfold vmatch in *. destruct (sg x) as [|y f d| | | | | |]; auto. destruct f; auto.
    destruct (E x); auto. destruct V as (k' & V1 & V2 & V3). exists k'. split; [exact V1|]. split; [exact V2|]. intros [O|(Kp & Ka)]; apply V3; [left; auto|right; auto].
  Qed.

  (** ** Expressions *)
  Definition eref (sg : sub) (e e' : expr) : Prop := forall E E' z, senvs (fun x => free x e) sg E E' -> veval E e = Val z -> veval E' e' = Val z.
  Definition oref (sg : sub) (e e' : expr) : Prop := defined e' = defined e /\ eref sg e e'.
  Definition iref (sg : sub) (i i' : interval) : Prop := oref sg (fst i) (fst i') /\ oref sg (snd i) (snd i').
  Definition dref (sg : sub) (d d' : dim_expr) : Prop := iref sg (de_bounds d) (de_bounds d') /\ oref sg (de_stride d) (de_stride d') /\ oref sg (de_fold d) (de_fold d').
  Lemma senvs_weaken (D D' : nat -> Prop) sg E E' : senvs D sg E E' -> (forall x, D' x -> D x) -> senvs D' sg E E'.
  Proof. intros V S x Dx. exact (V x (S x Dx)). Qed.
  Lemma eval_def_ref sg e e' def E E' z : oref sg e e' -> senvs (fun x => free x e) sg E E' -> veval_def X H E e def = Val z -> veval_def X H E' e' def = Val z.
  Proof. intros (Q & R) S. unfold veval_def. rewrite Q. destruct (defined e); [apply R; exact S|auto]. Qed.
  Lemma interval_ref sg i i' E E' r : iref sg i i' -> senvs (fun x => free_interval x i) sg E E' -> vinterval X H E i = Val r -> vinterval X H E' i' = Val r.
  Proof.
    intros ((_ & R1) & (_ & R2)) S V. unfold vinterval in *. apply bind_inv in V as (lo & V1 & V). apply bind_inv in V as (hi & V2 & V).
    rewrite (R1 E E' lo), (R2 E E' hi); auto; eapply senvs_weaken; try exact S; unfold free_interval; auto.
  Qed.
  Lemma interval_def_ref sg i i' a b E E' r : iref sg i i' -> senvs (fun x => free_interval x i) sg E E' -> vinterval_def X H E i a b = Val r -> vinterval_def X H E' i' a b = Val r.
  Proof.
    intros (R1 & R2) S V. unfold vinterval_def in *. apply bind_inv in V as (lo & V1 & V). apply bind_inv in V as (hi & V2 & V).
    rewrite (eval_def_ref _ _ _ _ E E' lo R1), (eval_def_ref _ _ _ _ E E' hi R2); auto; eapply senvs_weaken; try exact S; unfold free_interval; auto.
  Qed.
  Lemma dim_ref sg au d d' E E' r : dref sg d d' -> senvs (fun x => free_dim x d) sg E E' -> vdim X H E au d = Val r -> vdim X H E' au d' = Val r.
  Proof.
    intros (R1 & R2 & R3) S V. unfold vdim in *. apply bind_inv in V as (i & V1 & V). apply bind_inv in V as (s & V2 & V). apply bind_inv in V as (f & V3 & V).
    rewrite (interval_ref _ _ _ E E' i R1); [|eapply senvs_weaken; [exact S|unfold free_dim; auto]|exact V1]. cbn [bind].
    assert (S2 : senvs (fun x => free x (de_stride d)) sg E E') by (eapply senvs_weaken; [exact S|unfold free_dim; auto]).
    assert (T : (if au then veval_def X H E' (de_stride d') auto_stride else veval E' (de_stride d')) = Val s).
    { destruct au; [exact (eval_def_ref _ _ _ _ _ _ _ R2 S2 V2)|exact (proj2 R2 _ _ _ S2 V2)]. }
    rewrite T. cbn [bind]. rewrite (eval_def_ref _ _ _ _ E E' f R3); [exact V|eapply senvs_weaken; [exact S|unfold free_dim; auto]|exact V3].
  Qed.
  Lemma dims_ref sg au l l' : Forall2 (dref sg) l l' -> forall E E' r, senvs (fun x => Exists (free_dim x) l) sg E E' -> vdims X H E au l = Val r -> vdims X H E' au l' = Val r.
  Proof.
    induction 1 as [|d d' l l' R F IH]; intros E E' r S V; cbn [vdims] in *; [exact V|]. apply bind_inv in V as (ds & V1 & V). apply bind_inv in V as (x & V2 & V).
    rewrite (IH E E' ds); [|eapply senvs_weaken; [exact S|intros; right; assumption]|exact V1]. cbn [bind].
    rewrite (dim_ref _ _ _ _ E E' x R); [exact V|eapply senvs_weaken; [exact S|intros; left; assumption]|exact V2].
  Qed.
  Lemma list_ref sg l l' : Forall2 (eref sg) l l' -> forall E E' r, senvs (fun x => any_of (free x) l) sg E E' -> vlist X H E l = Val r -> vlist X H E' l' = Val r.
  Proof.
    induction 1 as [|d d' l l' R F IH]; intros E E' r S V; cbn [vlist] in *; [exact V|]. apply bind_inv in V as (y & V1 & V). apply bind_inv in V as (ys & V2 & V).
    rewrite (R E E' y); [|eapply senvs_weaken; [exact S|intros; left; assumption]|exact V1]. cbn [bind].
    rewrite (IH E E' ys); [exact V|eapply senvs_weaken; [exact S|intros; right; assumption]|exact V2].
  Qed.
  Lemma slice_ref sg ds : forall l l' E E' p r, Forall2 (oref sg) l l' -> senvs (fun x => any_of (free x) l) sg E E' -> vslice X H E p ds l = Val r -> vslice X H E' p ds l' = Val r.
  Proof.
    induction ds as [|d ds IH]; intros l l' E E' p r F S V; cbn [vslice] in *; [exact V|]. destruct F as [|x x' l l' (Q & R) F]; [exact V|].
    assert (Sl : senvs (fun x => any_of (free x) l) sg E E') by (eapply senvs_weaken; [exact S|intros; right; assumption]).
    rewrite Q. destruct (defined x).
    - destruct p as [q|]; [|exact (IH _ _ _ _ _ _ F Sl V)]. apply bind_inv in V as (y & V1 & V).
      rewrite (R E E' y); [|eapply senvs_weaken; [exact S|intros; left; assumption]|exact V1]. exact (IH _ _ _ _ _ _ F Sl V).
    - apply bind_inv in V as (r' & V1 & V). rewrite (IH _ _ _ _ _ _ F Sl V1). exact V.
  Qed.

  (** ** Symbols *)
  Definition names (sg : sub) (x y : nat) : Prop := exists d, sg x = EVar y f_none d.
  Lemma buffer_ref (D : nat -> Prop) sg E E' x y b : senvs D sg E E' -> D x -> names sg x y -> vbuffer E x = Val b -> vbuffer E' y = Val b.
  Proof.
    intros S Dx (d & N) V. specialize (S x Dx). rewrite N in S. cbn in S. unfold vbuffer in *. destruct (E x); try discriminate. injection V as ->. destruct S as (k' & ->). reflexivity.
  Qed.
  Lemma buffers_ref (D : nat -> Prop) sg E E' l l' : senvs D sg E E' -> Forall2 (names sg) l l' -> (forall x, In x l -> D x) -> forall bs, vbuffers E l = Val bs -> vbuffers E' l' = Val bs.
  Proof.
    intros S. induction 1 as [|x y l l' N F IH]; intros HD bs V; cbn [vbuffers] in *; [exact V|]. apply bind_inv in V as (b & V1 & V). apply bind_inv in V as (bs' & V2 & V).
    rewrite (buffer_ref D sg E E' x y b S (HD x (or_introl eq_refl)) N V1). cbn [bind]. rewrite (IH (fun z I => HD z (or_intror I)) _ V2). exact V.
  Qed.
  (** ** Declarations *)
  Definition bindm (K O : Prop) (x y : nat) (a a' : value) : Prop :=
    match a with Undef => True | Num z => a' = Num z | Buffer k b => exists k', a' = Buffer k' b /\ kinds K O x y k k' end.
  Lemma envs_bind (K K' own own' : nat -> Prop) sg (D D' : nat -> Prop) E E' s s' a a' :
    envs K own D sg E E' ->
    (forall x, D' x -> x <> s -> D x /\ ~ free s' (sg x) /\ (K' x -> K x) /\ (own' x -> own x)) ->
    bindm (K' s) (own' s) s s' a a' ->
    envs K' own' D' (upd sg s s') (vset E s a) (vset E' s' a').
  Proof.
    intros V S B x Dx. destruct (Nat.eq_dec x s) as [->|n].
    - rewrite upd_same, vset_same. unfold vmatch. rewrite vset_same. exact B.
    - rewrite (upd_other _ _ _ _ n), (vset_other _ _ _ _ n). destruct (S x Dx n) as (Hd & Hf & Hk & Ho). specialize (V x Hd).
      assert (G : forall e z, sg x = e -> veval E' e = Val z -> veval (vset E' s' a') e = Val z).
      { intros e z <- Ve. apply (veval_mono X H (sg x) E'); [|exact Ve]. intros y Fy. rewrite vset_other; [apply vle_refl|]. intros ->. exact (Hf Fy). }
      unfold vmatch in *. destruct (sg x) as [|y f d| | | | | |] eqn:Q; try (destruct (E x); auto; apply (G _ _ eq_refl); exact V).
      destruct f; try (destruct (E x); auto; apply (G _ _ eq_refl); exact V).
      assert (Ny : y <> s') by (intros ->; apply Hf; exists (RField f_none); cbn; auto). rewrite (vset_other _ _ _ _ Ny). destruct (E x); auto.
      destruct V as (k' & V1 & V2 & V3). exists k'. split; [exact V1|]. split; [exact V2|]. intros [O|(Kp & Ka)]; apply V3; [left; auto|right; auto].
  Qed.
  Lemma bindm_own K O x y b : bindm K O x y (Buffer Own b) (Buffer Own b).
  Proof. exists Own. split; [reflexivity|]. split; [discriminate|reflexivity]. Qed.
  Lemma bindm_num K O x y z : bindm K O x y (Num z) (Num z). Proof. reflexivity. Qed.

  (** ** Statements *)
  Definition ref (K own : nat -> Prop) (sg : sub) (s s' : stmt) : Prop :=
    forall E E' v r, envs K own (fun x => free_stmt x s) sg E E' -> vexec s E v = Val r -> vexec s' E' v = Val r.
  Lemma ref_weaken (K K' own own' : nat -> Prop) sg sg' s s' : ref K own sg s s' -> (forall x, free_stmt x s -> K x -> K' x) -> (forall x, free_stmt x s -> own x -> own' x) ->
    (forall x, free_stmt x s -> sg x = sg' x) -> ref K' own' sg' s s'.
  Proof. intros R Kk Ho Q E E' v r V. apply R. exact (envs_weaken _ _ _ _ _ _ _ _ _ _ V (fun x D => D) Kk Ho Q). Qed.
  (** what the declaration of [s], which becomes [s'], asks of the symbols in its body *)
  Definition scoped (K K' own own' : nat -> Prop) (sg : sub) (s s' : nat) (b : stmt) : Prop :=
    forall x, free_stmt x b -> x <> s -> ~ free s' (sg x) /\ (K' x -> K x) /\ (own' x -> own x).
  Lemma body_ref (K K' own own' : nat -> Prop) sg (D : nat -> Prop) E E' s s' a a' b b' v r : ref K' own' (upd sg s s') b b' -> scoped K K' own own' sg s s' b ->
    envs K own D sg E E' -> (forall x, free_stmt x b -> x <> s -> D x) -> bindm (K' s) (own' s) s s' a a' ->
    vexec b (vset E s a) v = Val r -> vexec b' (vset E' s' a') v = Val r.
  Proof.
    intros R S V HD B G. apply (R (vset E s a) _ v r) with (2 := G). apply (envs_bind K K' own own' sg D _ _ _ _ _ _ _ V); [|exact B].
    intros x Fx n. destruct (S x Fx n) as (S1 & S2 & S3). auto.
  Qed.

  Lemma ref_undef K own sg s' : ref K own sg SUndef s'.
  Proof. intros E E' v r _ G. discriminate. Qed.
  Lemma ref_call K own sg t ins outs sc ins' outs' sc' : Forall2 (names sg) ins ins' -> Forall2 (names sg) outs outs' -> Forall2 (eref sg) sc sc' ->
    ref K own sg (SCall t ins outs sc) (SCall t ins' outs' sc').
  Proof.
    intros Fi Fo Fs E E' v r V G. cbn [VSem_Spec.vexec] in *. pose proof (envs_senvs _ _ _ _ _ _ _ V (fun x D => D)) as S.
    apply bind_inv in G as (bi & V1 & G). apply bind_inv in G as (bo & V2 & G). apply bind_inv in G as (vs & V3 & G).
    rewrite (buffers_ref _ _ _ _ _ _ S Fi (fun x I => or_introl I) _ V1). cbn [bind]. rewrite (buffers_ref _ _ _ _ _ _ S Fo (fun x I => or_intror (or_introl I)) _ V2). cbn [bind].
    rewrite (list_ref _ _ _ Fs E E' vs); [exact G| |exact V3]. eapply senvs_weaken; [exact S|]. intros x I. right. right. exact I.
  Qed.
  Lemma ref_block K own sg l l' : Forall2 (ref K own sg) l l' -> Forall (fun x => async_syms x = []) l -> Forall (fun x => async_syms x = []) l' ->
    ref K own sg (SBlock l) (SBlock l').
  Proof.
    induction 1 as [|x x' l l' R F IH]; intros A A' E E' v r V G.
    - exact G.
    - inversion A as [|? ? A1 A2]; inversion A' as [|? ? A1' A2']; subst. rewrite vexec_cons in *. apply bind_inv in G as ((z1, v1) & G1 & G).
      rewrite (R E E' v (z1, v1)); [|eapply envs_weaken; [exact V|intros y I; left; exact I|auto|auto|auto]|exact G1]. cbn [bind]. destruct (z1 =? 0); [|exact G].
      rewrite A1 in G. rewrite A1'. apply (IH A2 A2' E E' v1 r); [|exact G]. eapply envs_weaken; [exact V|intros y I; right; exact I|auto|auto|auto].
  Qed.
  Lemma vserial_ref f f' lo hi st : (forall y v r, f y v = Val r -> f' y v = Val r) -> forall n i v r, vserial X f lo hi st n i v = Val r -> vserial X f' lo hi st n i v = Val r.
  Proof.
    intros R. induction n as [|n IH]; intros i v r G; cbn [vserial] in *; destruct ((lo <=? i) && (i <=? hi)); try exact G.
    apply bind_inv in G as ((z, v1) & G1 & G). rewrite (R _ _ _ G1). cbn [bind]. apply bind_inv in G as (i' & -> & G). cbn [bind]. destruct (z =? 0); [exact (IH _ _ _ G)|exact G].
  Qed.
  Lemma vpar_ref f f' lo st : (forall y v r, f y v = Val r -> f' y v = Val r) -> forall sched q v r, vpar X f lo st sched q v = Val r -> vpar X f' lo st sched q v = Val r.
  Proof.
    intros R. induction sched as [|(w, i) sched IH]; intros q v r G; cbn [vpar] in *; [exact G|]. apply bind_inv in G as (t & -> & G). cbn [bind]. apply bind_inv in G as (y & -> & G). cbn [bind].
    apply bind_inv in G as ((z, v1) & G1 & G). rewrite (R _ _ _ G1). cbn [bind]. exact (IH _ _ _ G).
  Qed.
  (** ** What workers see *)
  Definition all_syms : nat -> Prop := fun _ => True.
  Definition no_syms : nat -> Prop := fun _ => False.
  Lemma vmatch_share Kx O x a e E' : vmatch Kx O x a e E' -> vmatch True False x (share a) e (vshare E').
  Proof.
    unfold vmatch. intros V.
    assert (G : forall z, veval E' e = Val z -> veval (vshare E') e = Val z) by (intros z; apply veval_sim; intros y _; apply vsim_share).
    destruct e as [|y f d| | | | | |]; try (destruct a; cbn [share] in *; try contradiction; apply G; exact V). destruct f; try (destruct a; cbn [share] in *; try contradiction; apply G; exact V).
    unfold vshare. destruct a as [|z|k b]; cbn [share]; [exact Logic.I|rewrite V; reflexivity|]. destruct V as (k' & -> & V1 & _). exists (Kind false (block k')).
    split; [reflexivity|]. split; [exact V1|]. intros [[]|(_ & Q)]. discriminate.
  Qed.
  Lemma envs_share K own D sg E E' : envs K own D sg E E' -> envs all_syms no_syms D sg (vshare E) (vshare E').
  Proof. intros V x Dx. exact (vmatch_share _ _ _ _ _ _ (V x Dx)). Qed.

  (** ** Lets *)
  Definition bare (e : expr) : bool := match e with EVar _ f_none _ => true | _ => false end.
  Lemma vexec_let_cons s x l b c E v : vexec (SLet ((s, x) :: l) b c) E v = (E1 <- vlet X H E s x ;; vexec (SLet l b c) E1 v).
  Proof. cbn [VSem_Spec.vexec vlets]. destruct (vlet X H E s x); reflexivity. Qed.
  Lemma vlet_num E s x : bare x = false -> vlet X H E s x = (v <- veval E x ;; Val (vset E s (Num v))).
  Proof. destruct x as [|y f d| | | | | |]; try reflexivity. destruct f; [discriminate|reflexivity..]. Qed.
  Lemma ref_let_nil K own sg b b' c c' : ref K own sg b b' -> ref K own sg (SLet [] b c) (SLet [] b' c').
  Proof. intros R E E' v r V G. cbn [VSem_Spec.vexec vlets bind] in *. exact (R E E' v r V G). Qed.
  Lemma ref_let_num K K' own own' sg s x x' l l' b b' c c' : bare x = false -> bare x' = false -> eref sg x x' -> scoped K K' own own' sg s s (SLet l b c) ->
    ref K' own' (upd sg s s) (SLet l b c) (SLet l' b' c') -> ref K own sg (SLet ((s, x) :: l) b c) (SLet ((s, x') :: l') b' c').
  Proof.
    intros N N' R Sc Rb E E' v r V G. rewrite vexec_let_cons in *. rewrite vlet_num in * by assumption. apply bind_inv in G as (E1 & G1 & G). apply bind_inv in G1 as (z & G1 & Q). injection Q as <-.
    rewrite (R E E' z); [|eapply envs_senvs; [exact V|intros y Fy; left; exact Fy]|exact G1]. cbn [bind].
    eapply (body_ref K K' own own' sg); [exact Rb|exact Sc|exact V| |apply bindm_num|exact G]. intros y Fy n. right. split; [congruence|exact Fy].
  Qed.
  Lemma ref_let_bare K K' own own' sg s y d x' l l' b b' c c' : x' = sg y -> scoped K K' own own' sg s s (SLet l b c) -> ~ own' s -> ~ own' y ->
    (forall y' d' z, sg y = EVar y' f_none d' -> free_stmt z (SLet l b c) -> z <> s -> z <> y -> names sg z y' -> ~ K' z /\ ~ own' z) ->
    ref K' own' (upd sg s s) (SLet l b c) (SLet l' b' c') -> ref K own sg (SLet ((s, EVar y f_none d) :: l) b c) (SLet ((s, x') :: l') b' c').
  Proof.
    intros -> Sc Ns Ny Inj Rb E E' v r V G. rewrite vexec_let_cons in *. apply bind_inv in G as (E1 & G1 & G).
    assert (Vy : vmatch (K y) (own y) y (E y) (sg y) E') by (apply V; left; exists (RField f_none); cbn; auto).
    assert (W : exists E1', vlet X H E' s (sg y) = Val E1' /\ envs K' own' (fun z => free_stmt z (SLet l b c)) (upd sg s s) E1 E1').
    2:{ destruct W as (E1' & -> & W). cbn [bind]. exact (Rb _ _ _ _ W G). }
    assert (Vz : forall z, free_stmt z (SLet l b c) -> z <> s -> vmatch (K z) (own z) z (E z) (sg z) E' /\ ~ free s (sg z) /\ (K' z -> K z) /\ (own' z -> own z)).
    { intros z Fz n. destruct (Sc z Fz n) as (S1 & S2 & S3). split; [|auto]. apply V. right. split; [congruence|exact Fz]. }
    (* a value that is not a buffer is bound *)
    assert (Plain : forall a a', (forall k x, a <> Buffer k x) -> bindm (K' s) (own' s) s s a a' ->
      envs K' own' (fun z => free_stmt z (SLet l b c)) (upd sg s s) (vset E s a) (vset E' s a')).
    { intros a a' Na B. eapply envs_bind; [exact V| |exact B]. intros z Fz n. destruct (Vz z Fz n) as (_ & S1 & S2 & S3). split; [right; split; [congruence|exact Fz]|auto]. }
    (* the name of a buffer loses its aloneness *)
    assert (Demote : forall y' d' k k' x, sg y = EVar y' f_none d' -> E' y' = Buffer k' x -> (forall a, E y = Buffer k a -> a = x /\ kinds (K y) (own y) y y' k k') ->
      forall a, (E y = Undef /\ a = Undef) \/ (E y = Buffer k x /\ a = Buffer (Kind false (block k)) x) ->
      envs K' own' (fun z => free_stmt z (SLet l b c)) (upd sg s s) (vset (vset E y a) s a)
        (vset (vset E' y' (Buffer (Kind false (block k')) x)) s (Buffer (Kind false (block k')) x))).
    { intros y' d' k k' x Q Ey' Hk a Ha z Fz. destruct (Nat.eq_dec z s) as [->|n].
      - rewrite upd_same, vset_same. unfold vmatch. rewrite vset_same. destruct Ha as [(_ & ->)|(Ey & ->)]; [exact Logic.I|]. destruct (Hk x Ey) as (_ & Kb & _).
        exists (Kind false (block k')). split; [reflexivity|]. split; [intros id B; split; [apply (Kb id B)|reflexivity]|]. cbn [alone]. intros [O|(_ & A)]; [contradiction|discriminate].
      - rewrite (upd_other _ _ _ _ n), (vset_other _ _ _ _ n). destruct (Vz z Fz n) as (M & S1 & S0 & S2). destruct (Nat.eq_dec z y) as [->|ny].
        + rewrite vset_same, Q. rewrite Q in S1. assert (Ny' : y' <> s) by (intros ->; apply S1; exists (RField f_none); cbn; auto). unfold vmatch. rewrite (vset_other _ _ _ _ Ny'), vset_same.
          destruct Ha as [(_ & ->)|(Ey & ->)]; [exact Logic.I|]. destruct (Hk x Ey) as (_ & Kb & _). exists (Kind false (block k')). split; [reflexivity|]. split; [exact Kb|].
          cbn [alone]. intros [O|(_ & A)]; [contradiction|discriminate].
        + rewrite (vset_other _ _ _ _ ny).
          assert (Sim : forall e w, sg z = e -> veval E' e = Val w -> veval (vset (vset E' y' (Buffer (Kind false (block k')) x)) s (Buffer (Kind false (block k')) x)) e = Val w).
          { intros e w <- Ve. apply (veval_sim X H (sg z) E'); [|exact Ve]. intros u Fu. rewrite vset_other by (intros ->; exact (S1 Fu)).
            destruct (Nat.eq_dec u y') as [->|nu]; [rewrite vset_same, Ey'; reflexivity|rewrite (vset_other _ _ _ _ nu); apply vsim_refl]. }
          unfold vmatch in *. destruct (sg z) as [|u f du| | | | | |] eqn:Qz; try (destruct (E z); auto; apply (Sim _ _ eq_refl); exact M).
          destruct f; try (destruct (E z); auto; apply (Sim _ _ eq_refl); exact M).
          assert (Nu : u <> s) by (intros ->; apply S1; exists (RField f_none); cbn; auto). rewrite (vset_other _ _ _ _ Nu).
          destruct (Nat.eq_dec u y') as [->|nu].
          * rewrite vset_same. destruct (E z) as [|w|kz bz]; [exact Logic.I|congruence|]. destruct M as (k2 & M & M1 & M2). rewrite Ey' in M. injection M as <- <-.
            exists (Kind false (block k')). split; [reflexivity|]. split; [exact M1|]. destruct (Inj y' d' z Q Fz n ny (ex_intro _ du Qz)) as (I1 & I2). tauto.
          * rewrite (vset_other _ _ _ _ nu). destruct (E z) as [|w|kz bz]; [exact Logic.I|exact M|]. destruct M as (k2 & M & M1 & M2). exists k2. split; [exact M|]. split; [exact M1|].
            intros [O|(A1 & A2)]; apply M2; auto. }
    cbn [vlet] in G1. destruct (E y) as [|z|k x] eqn:Ey.
    - (* undefined *) injection G1 as <-. destruct (sg y) as [|y' f' d'| | | | | |] eqn:Q; cbn [vmatch] in Vy; try contradiction. destruct f'; cbn [vmatch] in Vy; try contradiction.
      cbn [vlet]. destruct (E' y') as [|w|k' x'] eqn:Ey'.
      + eexists. split; [reflexivity|]. apply Plain; [discriminate|exact Logic.I].
      + eexists. split; [reflexivity|]. apply Plain; [discriminate|exact Logic.I].
      + eexists. split; [reflexivity|].
        assert (Eq : forall u, vset (vset E y Undef) s Undef u = vset E s Undef u).
        { intros u. unfold vset. destruct (u =? s)%nat; [reflexivity|]. destruct (Nat.eqb_spec u y) as [->|]; [congruence|reflexivity]. }
        pose proof (Demote y' d' Shared k' x' eq_refl Ey' (fun a Qa => ltac:(discriminate Qa)) Undef (or_introl (conj eq_refl eq_refl))) as DD.
        intros u Fu. specialize (DD u Fu). rewrite Eq in DD. exact DD.
    - (* a number *) injection G1 as <-.
      assert (P : exists E1', vlet X H E' s (sg y) = Val E1' /\ E1' = vset E' s (Num z)).
      { unfold vmatch in Vy. destruct (sg y) as [|y' f' d'| | | | | |] eqn:Q; cbn [vlet]; try (rewrite Vy; cbn [bind]; eauto). destruct f'; cbn [vlet]; rewrite Vy; cbn [bind]; eauto. }
      destruct P as (E1' & -> & ->). eexists. split; [reflexivity|]. apply Plain; [discriminate|reflexivity].
    - (* a buffer *) injection G1 as <-. unfold vmatch in Vy. destruct (sg y) as [|y' f' d'| | | | | |] eqn:Q; try contradiction. destruct f'; try contradiction.
      destruct Vy as (k' & Ey' & Kk). cbn [vlet]. rewrite Ey'. eexists. split; [reflexivity|]. apply (Demote y' d' k k' x eq_refl Ey'); [|right; auto].
      intros a Qa. injection Qa as <-. auto.
  Qed.
  Lemma ref_let_index K own sg s y d d' l b c s' : ref K own sg s' (SLet ((s, EVar y f_none d) :: l) b c) -> ref K own sg s' (SLet ((s, EVar y f_none d') :: l) b c).
  Proof. intros R E E' v r V G. specialize (R E E' v r V G). rewrite vexec_let_cons in *. exact R. Qed.

  (** ** Loops *)
  Lemma ref_loop_gen (K own : nat -> Prop) sg sym w i st b w' i' st' b' : eref sg w w' -> eref sg (fst i) (fst i') -> eref sg (snd i) (snd i') -> oref sg st st' ->
    async_syms b = [] -> async_syms b' = [] -> as_closure b = None ->
    (forall E E' y v r, envs K own (fun x => sym <> x /\ free_stmt x b) sg E E' -> vexec b (vset E sym (Num y)) v = Val r -> vexec b' (vset E' sym (Num y)) v = Val r) ->
    (forall E k, veval E w = Val k -> k <= 1) \/
    (forall E E', envs K own (fun x => sym <> x /\ free_stmt x b) sg E E' -> exists E1', vparallel E' (as_closure b') = Val E1' /\
      forall y v r, vexec b (vset (vshare E) sym (Num y)) v = Val r -> vinner b' (vset E1' sym (Num y)) v = Val r) ->
    ref K own sg (SLoop sym w i st b) (SLoop sym w' i' st' b').
  Proof.
    intros Rw Ri1 Ri2 Rs A A' C Hs Hp E E' v r V G. rewrite vexec_loop in *. rewrite A in G. rewrite A'. pose proof (envs_senvs _ _ _ _ _ _ _ V (fun x D => D)) as S.
    assert (Vb : envs K own (fun x => sym <> x /\ free_stmt x b) sg E E') by (eapply envs_weaken; [exact V|intros x Fx; right; right; right; exact Fx|auto..]).
    apply bind_inv in G as (k & Gk & G). apply bind_inv in G as ((lo, hi) & Gi & G). apply bind_inv in G as (stp & Gs & G).
    rewrite (Rw E E' k); [|eapply senvs_weaken; [exact S|intros x Fx; right; right; left; exact Fx]|exact Gk]. cbn [bind].
    assert (Vi : vinterval X H E' i' = Val (lo, hi)).
    { unfold vinterval in *. apply bind_inv in Gi as (a & G1 & Gi). apply bind_inv in Gi as (c & G2 & Gi).
      rewrite (Ri1 E E' a), (Ri2 E E' c); auto; (eapply senvs_weaken; [exact S|intros x Fx; left; unfold free_interval; auto]). }
    rewrite Vi. cbn [bind].
    rewrite (eval_def_ref _ _ _ _ E E' stp Rs); [|eapply senvs_weaken; [exact S|intros x Fx; right; left; exact Fx]|exact Gs]. cbn [bind].
    destruct (stp =? 0); [discriminate|]. destruct (1 <? k) eqn:Q.
    - apply bind_inv in G as (n & -> & G). cbn [bind]. destruct (n =? 0); [exact G|]. destruct Hp as [Hp|Hp]; [specialize (Hp E k Gk); apply Z.ltb_lt in Q; lia|].
      destruct (Hp E E' Vb) as (E1' & P & Hin). rewrite P. cbn [bind]. rewrite C in G. cbn [vparallel bind] in G.
      assert (Vin : vinner b = vexec b) by (destruct b as [| | |? ? []| | | | | | | | | | | | |]; try reflexivity; discriminate C). rewrite Vin in G.
      destruct (n =? 1); [apply Hin; exact G|]. destruct (h_pool X H); [|discriminate].
      refine (vpar_ref _ _ _ _ _ _ _ _ _ G). intros y v1 r1 G1. apply Hin. exact G1.
    - refine (vserial_ref _ _ _ _ _ _ _ _ _ _ G). intros y v1 r1 G1. eapply Hs; [exact Vb|exact G1].
  Qed.
  Lemma ref_loop K K' own own' sg sym w i st b w' i' st' b' : eref sg w w' -> eref sg (fst i) (fst i') -> eref sg (snd i) (snd i') -> oref sg st st' ->
    async_syms b = [] -> async_syms b' = [] -> as_closure b = None -> as_closure b' = None -> scoped K K' own own' sg sym sym b ->
    ref K' own' (upd sg sym sym) b b' -> (forall E k, veval E w = Val k -> k <= 1) \/ ref all_syms no_syms (upd sg sym sym) b b' ->
    ref K own sg (SLoop sym w i st b) (SLoop sym w' i' st' b').
  Proof.
    intros Rw Ri1 Ri2 Rs A A' C C' Sc R Rp. apply ref_loop_gen; auto.
    - intros E E' y v r V G. eapply (body_ref K K' own own' sg); [exact R|exact Sc|exact V| |apply bindm_num|exact G]. intros x Fx n. split; [congruence|exact Fx].
    - destruct Rp as [Rp|Rp]; [left; exact Rp|right]. intros E E' V. rewrite C'. eexists. split; [reflexivity|]. intros y v r G.
      assert (Vin : vinner b' = vexec b') by (destruct b' as [| | |? ? []| | | | | | | | | | | | |]; try reflexivity; discriminate C'). rewrite Vin.
      eapply (body_ref all_syms all_syms no_syms no_syms sg); [exact Rp| |apply (envs_share _ _ _ _ _ _ V)| |apply bindm_num|exact G].
      + intros x Fx n. destruct (Sc x Fx n) as (S1 & _). split; [exact S1|]. unfold all_syms, no_syms. auto.
      + intros x Fx n. split; [congruence|exact Fx].
  Qed.
  (** closures that hand on symbols under their own names *)
  Definition handed (xs : list nat) : list (nat * expr) := map (fun x => (x, EVar x f_none 0)) xs.
  Lemma vlets_handed xs : forall E, exists E1, vlets X H (handed xs) E = Val E1 /\ forall x, E1 x = E x \/ E1 x = share (E x).
  Proof.
    induction xs as [|y xs IH]; intros E; cbn [handed map vlets]; [exists E; split; [reflexivity|auto]|].
    assert (Q : exists E0, vlet X H E y (EVar y f_none 0) = Val E0 /\ forall x, E0 x = E x \/ E0 x = share (E x)).
    { cbn [vlet]. destruct (E y) as [|z|k b] eqn:Ey; eexists; (split; [reflexivity|]); intros x; unfold vset; destruct (Nat.eqb_spec x y) as [->|]; auto. rewrite Ey. auto. }
    destruct Q as (E0 & -> & Q). cbn [bind]. destruct (IH E0) as (E1 & Q1 & Q2). exists E1. split; [exact Q1|]. intros x. destruct (Q x) as [Qx|Qx], (Q2 x) as [Q2x|Q2x]; rewrite Q2x, Qx; auto.
    right. destruct (E x); reflexivity.
  Qed.
  Lemma vclosure_handed xs E : forall acc, exists E1, vclosure E (handed xs) acc = Val E1 /\ forall x, E1 x = acc x /\ ~ In x xs \/ E1 x = share (E x).
  Proof.
    induction xs as [|y xs IH]; intros acc; cbn [handed map vclosure]; [exists acc; split; [reflexivity|]; intros x; left; auto|].
    destruct (IH (vset acc y (share (E y)))) as (E1 & Q1 & Q2). exists E1. split; [exact Q1|]. intros x. destruct (Q2 x) as [(Qx & N)|Qx]; [|auto].
    unfold vset in Qx. destruct (Nat.eqb_spec x y) as [q|n]; [subst y; auto|]. left. split; [exact Qx|]. intros [q|I]; [congruence|contradiction].
  Qed.
  Lemma vmatch_half Kx O x a e E' E1' : vmatch Kx O x a e E' -> (forall y, free y e -> E1' y = E' y \/ E1' y = share (E' y)) -> vmatch True False x (share a) e E1'.
  Proof.
    unfold vmatch. intros V Hh.
    assert (G : forall z, veval E' e = Val z -> veval E1' e = Val z) by (intros z; apply veval_sim; intros y Fy; destruct (Hh y Fy) as [->| ->]; [apply vsim_refl|apply vsim_share]).
    destruct e as [|y f d| | | | | |]; try (destruct a; cbn [share] in *; try contradiction; apply G; exact V). destruct f; try (destruct a; cbn [share] in *; try contradiction; apply G; exact V).
    assert (Hy : E1' y = E' y \/ E1' y = share (E' y)) by (apply Hh; exists (RField f_none); cbn; auto).
    destruct a as [|z|k b]; cbn [share]; [exact Logic.I|destruct Hy as [->| ->]; rewrite V; reflexivity|]. destruct V as (k' & V & V1 & _). rewrite V in Hy. cbn [share] in Hy.
    destruct Hy as [->| ->]; eexists; (split; [reflexivity|]); (split; [exact V1|]); intros [[]|(_ & Q)]; discriminate.
  Qed.
  Lemma vmatch_none Kx O x a e E' E1' : vmatch Kx O x a e E' -> (forall y, free y e -> E1' y = E' y \/ E1' y = share (E' y)) -> vmatch False False x a e E1'.
  Proof.
    unfold vmatch. intros V Hh.
    assert (G : forall z, veval E' e = Val z -> veval E1' e = Val z) by (intros z; apply veval_sim; intros y Fy; destruct (Hh y Fy) as [->| ->]; [apply vsim_refl|apply vsim_share]).
    destruct e as [|y f d| | | | | |]; try (destruct a; try contradiction; apply G; exact V). destruct f; try (destruct a; try contradiction; apply G; exact V).
    assert (Hy : E1' y = E' y \/ E1' y = share (E' y)) by (apply Hh; exists (RField f_none); cbn; auto).
    destruct a as [|z|k b]; [exact Logic.I|destruct Hy as [->| ->]; rewrite V; reflexivity|]. destruct V as (k' & V & V1 & _). rewrite V in Hy. cbn [share] in Hy.
    destruct Hy as [->| ->]; eexists; (split; [reflexivity|]); (split; [exact V1|]); intros [[]|([] & _)].
  Qed.
  (** the body of a loop becomes a closure *)
  Lemma ref_loop_closure K own sym w i st b xs b' : async_syms b = [] -> async_syms b' = [] -> as_closure b = None ->
    (forall x, free_stmt x b -> In x xs) -> ref no_syms no_syms id_sub b b' ->
    (forall e, In e [w; fst i; snd i] -> eref id_sub e e) -> oref id_sub st st ->
    ref K own id_sub (SLoop sym w i st b) (SLoop sym w i st (SLet (handed xs) b' true)).
  Proof.
    intros A A' C HD R Re Rs. apply ref_loop_gen; auto; try (apply Re; cbn; auto; fail).
    - intros E E' y v r V G. cbn [VSem_Spec.vexec]. destruct (vlets_handed xs (vset E' sym (Num y))) as (E1 & Q1 & Q2). rewrite Q1. cbn [bind].
      apply (R (vset E sym (Num y)) E1 v r); [|exact G]. intros x Fx. unfold id_sub.
      destruct (Nat.eq_dec x sym) as [->|n].
      + rewrite vset_same. unfold vmatch. specialize (Q2 sym). rewrite vset_same in Q2. destruct Q2 as [->| ->]; reflexivity.
      + rewrite (vset_other _ _ _ _ n). eapply vmatch_none; [exact (V x (conj (not_eq_sym n) Fx))|]. intros u Fu.
        assert (u = x) by (destruct Fu as (ro & Fu); cbn in Fu; symmetry; tauto). subst u. specialize (Q2 x). rewrite (vset_other _ _ _ _ n) in Q2. exact Q2.
    - right. intros E E' V. cbn [as_closure vparallel]. destruct (vclosure_handed xs E' (fun _ => Undef)) as (E1 & Q1 & Q2). exists E1. split; [exact Q1|]. intros y v r G.
      change (vinner (SLet (handed xs) b' true)) with (vexec b'). apply (R (vset (vshare E) sym (Num y)) _ v r); [|exact G]. intros x Fx. unfold id_sub.
      destruct (Nat.eq_dec x sym) as [->|n]; [rewrite vset_same; unfold vmatch; rewrite vset_same; reflexivity|].
      rewrite (vset_other _ _ _ _ n).
      assert (M : vmatch True False x (share (E x)) (id_sub x) (vset E1 sym (Num y))).
      { eapply vmatch_half; [exact (V x (conj (not_eq_sym n) Fx))|]. intros u Fu.
        assert (u = x) by (destruct Fu as (ro & Fu); cbn in Fu; symmetry; tauto). subst u. rewrite (vset_other _ _ _ _ n). destruct (Q2 x) as [(_ & N)|Qx]; [destruct (N (HD x Fx))|auto]. }
      unfold id_sub in M. eapply vmatch_none; [exact M|auto].
  Qed.

  (** ** Declarations of buffers *)
  Lemma vallocate_ref f f' sym w es dl v r : (forall n b v r, f (Buffer (Owner n) b) v = Val r -> f' (Buffer (Owner n) b) v = Val r) ->
    vallocate X H sym w es dl f v = Val r -> vallocate X H sym w es dl f' v = Val r.
  Proof.
    intros R G. unfold vallocate in *. apply bind_inv in G as (o & G1 & G). rewrite G1. cbn [bind]. destruct o as [((b', p), v3)|]; [|exact G].
    destruct (alloc_fails b'); [exact G|]. apply bind_inv in G as ((z, v4) & G2 & G). rewrite (R _ _ _ _ G2). exact G.
  Qed.
  Lemma bindm_owner K O x n b : bindm K O x x (Buffer (Owner n) b) (Buffer (Owner n) b).
  Proof. exists (Owner n). split; [reflexivity|]. split; [intros id Q; auto|reflexivity]. Qed.
  Lemma ref_allocate K K' own own' sg sym w e ds b e' ds' b' : eref sg e e' -> Forall2 (dref sg) ds ds' -> scoped K K' own own' sg sym sym b -> ref K' own' (upd sg sym sym) b b' ->
    ref K own sg (SAllocate sym w e ds b) (SAllocate sym w e' ds' b').
  Proof.
    intros Re Rd Sc R E E' v r V G. cbn [VSem_Spec.vexec] in *. pose proof (envs_senvs _ _ _ _ _ _ _ V (fun x D => D)) as S.
    apply bind_inv in G as (es & G1 & G). apply bind_inv in G as (dl & G2 & G).
    rewrite (Re E E' es); [|eapply senvs_weaken; [exact S|intros x Fx; left; exact Fx]|exact G1]. cbn [bind].
    rewrite (dims_ref _ _ _ _ Rd E E' dl); [|eapply senvs_weaken; [exact S|intros x Fx; right; left; exact Fx]|exact G2]. cbn [bind].
    refine (vallocate_ref _ _ _ _ _ _ _ _ _ G). intros n b0 v1 r1 G3.
    eapply (body_ref K K' own own' sg); [exact R|exact Sc|exact V| |apply bindm_owner|exact G3]. intros x Fx ne. right. right. split; [congruence|exact Fx].
  Qed.
  Lemma ref_make K K' own own' sg sym p e ds b p' e' ds' b' : oref sg p p' -> oref sg e e' -> Forall2 (dref sg) ds ds' -> scoped K K' own own' sg sym sym b -> ref K' own' (upd sg sym sym) b b' ->
    ref K own sg (SMake sym p e ds b) (SMake sym p' e' ds' b').
  Proof.
    intros Rp Re Rd Sc R E E' v r V G. cbn [VSem_Spec.vexec] in *. pose proof (envs_senvs _ _ _ _ _ _ _ V (fun x D => D)) as S.
    apply bind_inv in G as (es & G1 & G). apply bind_inv in G as (q & G2 & G). apply bind_inv in G as (dl & G3 & G).
    rewrite (eval_def_ref _ _ _ _ E E' es Re); [|eapply senvs_weaken; [exact S|intros x Fx; right; left; exact Fx]|exact G1]. cbn [bind].
    rewrite (eval_def_ref _ _ _ _ E E' q Rp); [|eapply senvs_weaken; [exact S|intros x Fx; left; exact Fx]|exact G2]. cbn [bind].
    rewrite (dims_ref _ _ _ _ Rd E E' dl); [|eapply senvs_weaken; [exact S|intros x Fx; right; right; left; exact Fx]|exact G3]. cbn [bind].
    destruct (validate_buffer _); [|exact G].
    eapply (body_ref K K' own own' sg); [exact R|exact Sc|exact V| |apply bindm_own|exact G]. intros x Fx ne. right. right. right. split; [congruence|exact Fx].
  Qed.
  Lemma ref_const K K' own own' sg sym p b b' : ~ own' sym -> scoped K K' own own' sg sym sym b -> ref K' own' (upd sg sym sym) b b' -> ref K own sg (SConst sym p b) (SConst sym p b').
  Proof.
    intros No Sc R E E' v r V G. cbn [VSem_Spec.vexec] in *. apply bind_inv in G as (q & -> & G). cbn [bind].
    eapply (body_ref K K' own own' sg); [exact R|exact Sc|exact V| | |exact G].
    - intros x Fx ne. split; [congruence|exact Fx].
    - exists Shared. split; [reflexivity|]. split; [discriminate|]. intros [O|(_ & Q)]; [contradiction|discriminate].
  Qed.
  Lemma ref_clone K K' own own' sg sym src b src' b' : names sg src src' -> scoped K K' own own' sg sym sym b -> ref K' own' (upd sg sym sym) b b' -> ref K own sg (SClone sym src b) (SClone sym src' b').
  Proof.
    intros N Sc R E E' v r V G. cbn [VSem_Spec.vexec] in *. pose proof (envs_senvs _ _ _ _ _ _ _ V (fun x D => D)) as S. apply bind_inv in G as (q & G1 & G).
    rewrite (buffer_ref _ _ _ _ _ _ _ S (or_introl eq_refl) N G1). cbn [bind].
    eapply (body_ref K K' own own' sg); [exact R|exact Sc|exact V| |apply bindm_own|exact G]. intros x Fx ne. right. split; [congruence|exact Fx].
  Qed.
  Lemma in_place_ref (K own D : nat -> Prop) sg E E' sym src src' b : envs K own D sg E E' -> D src -> names sg src src' -> vbuffer E src = Val b ->
    (sym = src' -> (sym = src /\ K src) \/ own src) -> in_place E sym src = Val tt -> in_place E' sym src' = Val tt.
  Proof.
    intros V Ds (d & N) B Hc I. unfold in_place in *. destruct (Nat.eqb_spec sym src') as [->|]; [|reflexivity]. specialize (V src Ds). rewrite N in V. cbn [vmatch] in V.
    unfold vbuffer in B. destruct (E src) as [| |k b0]; try discriminate. destruct V as (k' & -> & _ & V2).
    assert (A : alone k' = true).
    { apply V2. destruct (Hc eq_refl) as [(-> & Kx)|O]; [right|left; exact O]. split; [exact Kx|]. rewrite Nat.eqb_refl in I. destruct k as ([] & bl); [reflexivity|discriminate]. }
    destruct k' as ([] & bl); [reflexivity|discriminate].
  Qed.
  Lemma unit_val (a : res unit) (u : unit) : a = Val u -> a = Val tt. Proof. destruct u. auto. Qed.
  Lemma ref_crop_buffer (K K' own own' : nat -> Prop) sg sym src l b src' l' b' : names sg src src' -> (sym = src' -> (sym = src /\ K src) \/ own src) ->
    (forall E E' q r, senvs (fun x => Exists (free_interval x) l) sg E E' -> vbuffer E' src' = Val q -> vcrop X H E q 0 l = Val r -> vcrop X H E' q 0 l' = Val r) ->
    scoped K K' own own' sg sym sym b -> ref K' own' (upd sg sym sym) b b' -> ref K own sg (SCropBuffer sym src l b) (SCropBuffer sym src' l' b').
  Proof.
    intros N Ip Rc Sc R E E' v r V G. cbn [VSem_Spec.vexec] in *. pose proof (envs_senvs _ _ _ _ _ _ _ V (fun x D => D)) as S. apply bind_inv in G as (q & G1 & G).
    apply bind_inv in G as (u & G2 & G). apply bind_inv in G as (q' & G3 & G). apply unit_val in G2.
    pose proof (buffer_ref _ _ _ _ _ _ _ S (or_intror (or_introl eq_refl)) N G1) as B'. rewrite B'. cbn [bind].
    rewrite (in_place_ref _ _ _ _ _ _ _ _ _ _ V (or_intror (or_introl eq_refl)) N G1 Ip G2). cbn [bind].
    rewrite (Rc E E' q q'); [|eapply senvs_weaken; [exact S|intros x Fx; left; exact Fx]|exact B'|exact G3]. cbn [bind].
    eapply (body_ref K K' own own' sg); [exact R|exact Sc|exact V| |apply bindm_own|exact G]. intros x Fx ne. right. right. split; [congruence|exact Fx].
  Qed.
  Lemma ref_crop_dim (K K' own own' : nat -> Prop) sg sym src d i b src' i' b' : names sg src src' -> (sym = src' -> (sym = src /\ K src) \/ own src) ->
    (forall E E' q r, senvs (fun x => free_interval x i) sg E E' -> vbuffer E' src' = Val q -> vinterval_def X H E i (d_min (dim_at q d)) (d_max (dim_at q d)) = Val r ->
       vinterval_def X H E' i' (d_min (dim_at q d)) (d_max (dim_at q d)) = Val r) ->
    scoped K K' own own' sg sym sym b -> ref K' own' (upd sg sym sym) b b' -> ref K own sg (SCropDim sym src d i b) (SCropDim sym src' d i' b').
  Proof.
    intros N Ip Rc Sc R E E' v r V G. cbn [VSem_Spec.vexec] in *. pose proof (envs_senvs _ _ _ _ _ _ _ V (fun x D => D)) as S. apply bind_inv in G as (q & G1 & G).
    apply bind_inv in G as (u & G2 & G). apply bind_inv in G as (q' & G3 & G). apply unit_val in G2.
    pose proof (buffer_ref _ _ _ _ _ _ _ S (or_intror (or_introl eq_refl)) N G1) as B'. rewrite B'. cbn [bind].
    rewrite (in_place_ref _ _ _ _ _ _ _ _ _ _ V (or_intror (or_introl eq_refl)) N G1 Ip G2). cbn [bind].
    rewrite (Rc E E' q q'); [|eapply senvs_weaken; [exact S|intros x Fx; left; exact Fx]|exact B'|exact G3]. cbn [bind].
    eapply (body_ref K K' own own' sg); [exact R|exact Sc|exact V| |apply bindm_own|exact G]. intros x Fx ne. right. right. split; [congruence|exact Fx].
  Qed.
  Lemma ref_slice_buffer K K' own own' sg sym src l b src' l' b' : names sg src src' -> Forall2 (oref sg) l l' -> scoped K K' own own' sg sym sym b -> ref K' own' (upd sg sym sym) b b' ->
    ref K own sg (SSliceBuffer sym src l b) (SSliceBuffer sym src' l' b').
  Proof.
    intros N Rl Sc R E E' v r V G. cbn [VSem_Spec.vexec] in *. pose proof (envs_senvs _ _ _ _ _ _ _ V (fun x D => D)) as S. apply bind_inv in G as (q & G1 & G). apply bind_inv in G as (q' & G2 & G).
    rewrite (buffer_ref _ _ _ _ _ _ _ S (or_intror (or_introl eq_refl)) N G1). cbn [bind].
    rewrite (slice_ref _ _ _ _ _ _ _ _ Rl) with (2 := G2); [|eapply senvs_weaken; [exact S|intros x Fx; left; exact Fx]]. cbn [bind].
    eapply (body_ref K K' own own' sg); [exact R|exact Sc|exact V| |apply bindm_own|exact G]. intros x Fx ne. right. right. split; [congruence|exact Fx].
  Qed.
  Lemma ref_slice_dim K K' own own' sg sym src d e b src' e' b' : names sg src src' -> eref sg e e' -> scoped K K' own own' sg sym sym b -> ref K' own' (upd sg sym sym) b b' ->
    ref K own sg (SSliceDim sym src d e b) (SSliceDim sym src' d e' b').
  Proof.
    intros N Re Sc R E E' v r V G. cbn [VSem_Spec.vexec] in *. pose proof (envs_senvs _ _ _ _ _ _ _ V (fun x D => D)) as S. apply bind_inv in G as (q & G1 & G). apply bind_inv in G as (q' & G2 & G).
    rewrite (buffer_ref _ _ _ _ _ _ _ S (or_intror (or_introl eq_refl)) N G1). cbn [bind].
    assert (Q : vslice_dim X H E' q d e' = Val q').
    { unfold vslice_dim in *. destruct (rank q <=? d)%nat; [exact G2|]. apply bind_inv in G2 as (p & G3 & G2). destruct (base q) as [a|]; [|injection G3 as <-; exact G2].
      apply bind_inv in G3 as (y & G4 & G3). rewrite (Re E E' y); [|eapply senvs_weaken; [exact S|intros x Fx; left; exact Fx]|exact G4]. cbn [bind]. injection G3 as ->. exact G2. }
    rewrite Q. cbn [bind].
    eapply (body_ref K K' own own' sg); [exact R|exact Sc|exact V| |apply bindm_own|exact G]. intros x Fx ne. right. right. split; [congruence|exact Fx].
  Qed.
  Lemma ref_transpose (K K' own own' : nat -> Prop) sg sym src p b src' b' : names sg src src' -> (is_truncate p = true -> (sym = src <-> sym = src') /\ (sym = src' -> (sym = src /\ K src) \/ own src)) ->
    scoped K K' own own' sg sym sym b -> ref K' own' (upd sg sym sym) b b' -> ref K own sg (STranspose sym src p b) (STranspose sym src' p b').
  Proof.
    intros N Hp Sc R E E' v r V G. cbn [VSem_Spec.vexec] in *. pose proof (envs_senvs _ _ _ _ _ _ _ V (fun x D => D)) as S. apply bind_inv in G as (q & G1 & G).
    rewrite (buffer_ref _ _ _ _ _ _ _ S (or_introl eq_refl) N G1). cbn [bind].
    assert (Fr : forall a x, free_stmt x b -> x <> sym -> (fun x => free_stmt x (STranspose sym src a b)) x) by (intros a x Fx ne; right; split; [congruence|exact Fx]).
    destruct (is_truncate p) eqn:T.
    - destruct (Hp eq_refl) as (H1 & H2). destruct (Nat.eqb_spec sym src) as [Q|Q].
      + assert (Q' : sym = src') by tauto. rewrite <- Q', Nat.eqb_refl. cbn [andb] in *. destruct (rank q <? length p)%nat; [discriminate|].
        apply bind_inv in G as (u & G2 & G). apply unit_val in G2.
        pose proof (in_place_ref _ _ _ _ _ _ sym src src' q V (or_introl eq_refl) N G1 H2) as Ip. rewrite <- Q' in Ip. rewrite <- Q in Ip, G2. rewrite (Ip G2). cbn [bind].
        eapply (body_ref K K' own own' sg); [exact R|exact Sc|exact V|apply Fr|apply bindm_own|exact G].
      + assert (Q' : sym <> src') by tauto. apply Nat.eqb_neq in Q'. rewrite Q'. cbn [andb] in *.
        eapply (body_ref K K' own own' sg); [exact R|exact Sc|exact V|apply Fr|apply bindm_own|exact G].
    - rewrite andb_false_r in *. eapply (body_ref K K' own own' sg); [exact R|exact Sc|exact V|apply Fr|apply bindm_own|exact G].
  Qed.

  (** ** Checks *)
  Definition frees (c : expr) : option nat := match c with ECall i_free _ [EVar s f_none _] => Some s | _ => None end.
  Lemma vexec_check c E v : vexec (SCheck c) E v =
    match frees c with
    | Some s => match E s with
                | Buffer (Kind _ (Some id)) b => p <- of_ (nth_error (rev (v_alloc X v)) id) ;; let v1 := v_free X H s b p v in Val (0, v_set_alloc X v1 (rev (set_nth (rev (v_alloc X v1)) id 0)))
                | _ => UB
                end
    | None => y <- veval E c ;; if y =? 0 then Val (1, v_event X v EvCheckFailed) else Val (0, v)
    end.
  Proof. destruct c as [| | | | | |fn t args|]; try reflexivity. destruct fn; try reflexivity. destruct args as [|[|s f d| | | | | |] [|a2 args]]; try reflexivity; destruct f; reflexivity. Qed.
  Lemma ref_check K own sg c c' : eref sg c c' -> frees c' = None -> frees c = None -> ref K own sg (SCheck c) (SCheck c').
  Proof.
    intros R F' F E E' v r V G. rewrite vexec_check, F in G. rewrite vexec_check, F'. apply bind_inv in G as (y & G1 & G).
    rewrite (R E E' y); [exact G|eapply envs_senvs; [exact V|auto]|exact G1].
  Qed.
  Lemma ref_free K own sg c c' s s' : frees c = Some s -> names sg s s' -> frees c' = Some s' -> ref K own sg (SCheck c) (SCheck c').
  Proof.
    intros F (d & N) F' E E' v r V G. rewrite vexec_check, F in G. rewrite vexec_check, F'.
    assert (Fs : free_stmt s (SCheck c)).
    { cbn [free_stmt]. destruct c as [| | | | | |fn t args|]; try discriminate. destruct fn; try discriminate. destruct args as [|[|s0 f d0| | | | | |] [|a2 args]]; try discriminate; destruct f; try discriminate.
      injection F as ->. exists (RField f_none). cbn. auto. }
    specialize (V s Fs). rewrite N in V. cbn [vmatch] in V. destruct (E s) as [| |(al & [id|]) b]; try discriminate. destruct V as ((al' & bl') & -> & V1 & _).
    destruct (V1 id eq_refl) as (Q & ->). cbn [block] in Q. rewrite Q. exact G.
  Qed.
  (** a check of free(x), where [x] is a number, is not defined *)
  Lemma ref_free_not K own sg c c' s : frees c = Some s -> bare (sg s) = false -> ref K own sg (SCheck c) c'.
  Proof.
    intros F N E E' v r V G. rewrite vexec_check, F in G.
    assert (Fs : free_stmt s (SCheck c)).
    { cbn [free_stmt]. destruct c as [| | | | | |fn t args|]; try discriminate. destruct fn; try discriminate. destruct args as [|[|s0 f d0| | | | | |] [|a2 args]]; try discriminate; destruct f; try discriminate.
      injection F as ->. exists (RField f_none). cbn. auto. }
    specialize (V s Fs). unfold vmatch in V. destruct (E s) as [| |k b]; try discriminate. destruct (sg s) as [|y f d| | | | | |]; try contradiction. destruct f; try contradiction. discriminate.
  Qed.
End Ref.
