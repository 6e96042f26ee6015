(** Proofs for C54: statements. *)
From Coq Require Import ZArith List Bool Lia.
From Verif Require Import Arith_Model Arith_Proofs Buf_Model Alloc_Model Expr_Model Expr_Spec Expr_Proofs Stmt_Model Stmt_Spec Stmt_Proofs Simplify_Model Simplify_Proofs Deps_Model Deps_Spec
  Deps_Proofs Deps_Props Subst_Model Subst_Spec SubstMean_Proofs SubstEval_Proofs Subst_Props CopyStmt_Proofs StmtSubst_Model StmtSubst_Spec CopyPad_Proofs CopyPass_Proofs VSem_Spec VMono_Proofs VExec_Proofs VRef_Proofs StmtSubst_Proofs.
Import ListNotations.
Open Scope Z_scope.

Lemma plain_go l : (fix go (l : list stmt) := match l with [] => True | x :: l' => plain_stmt x /\ go l' end) l -> Forall plain_stmt l.
Proof. induction l as [|a l IH]; [constructor|]. intros (A & B). constructor; auto. Qed.
Lemma go_plain l : Forall plain_stmt l -> (fix go (l : list stmt) := match l with [] => True | x :: l' => plain_stmt x /\ go l' end) l.
Proof. induction 1; auto. Qed.
Lemma plain_async s : plain_stmt s -> async_syms s = [].
Proof.
  induction s as [|t ins outs sc|src sx dst dx pad|l s c IHs|l IHl|s w x st b IHs|s w e ds b IHs|s p e ds b IHs|s v b IHs|s v b IHs
      |s v l b IHs|s v d x b IHs|s v l b IHs|s v d x b IHs|s v p b IHs|s s1 s2 IHs1 IHs2|c] using stmt_ind'; cbn [plain_stmt async_syms]; intros P; try reflexivity; try contradiction; auto.
  - apply IHs. tauto.
  - destruct P as (_ & _ & P). apply plain_go in P. clear -IHl P. induction IHl as [|y l Hy F IH]; [reflexivity|]. inversion P as [|? ? P1 P2]; subst. rewrite (Hy P1). exact (IH P2).
Qed.
Lemma plain_closure_none s : plain_stmt s -> as_closure s = None.
Proof. destruct s as [| | |? ? []| | | | | | | | | | | | |]; try reflexivity. cbn. intros ([=] & _). Qed.
Lemma block_make_flat l : (2 <= length l)%nat -> forallb in_block l = true -> block_make l = SBlock l.
Proof.
  intros L B. assert (F : flatten_blocks l = l).
  { clear L. induction l as [|a l IH]; [reflexivity|]. cbn [forallb] in B. apply andb_true_iff in B as (B1 & B2). destruct a; try discriminate; cbn [flatten_blocks]; rewrite (IH B2); reflexivity. }
  assert (U : erase_undefs l = l).
  { clear L F. induction l as [|a l IH]; [reflexivity|]. cbn [forallb] in B. apply andb_true_iff in B as (B1 & B2). unfold erase_undefs in *. destruct a; try discriminate; cbn [filter sdefined]; rewrite (IH B2); reflexivity. }
  unfold block_make. rewrite F, U. destruct l as [|a [|b l]]; cbn in L; [lia..|reflexivity].
Qed.

Section Stmts.
  Variable X : Type.
  Variable H : host X.
  Variable call_v : nat -> list buf -> list buf -> list Z -> X -> Z * X.
  Variable copy_v : buf -> buf -> option buf -> (list Z -> option (list Z)) -> X -> X.
  Variable consts : Z -> option buf.
  Notation veval := (veval X H).
  Notation ref := (ref X H call_v copy_v consts).
  Notation eref := (eref X H).
  Notation oref := (oref X H).

  (** ** Statements that stay as they are *)
  Definition same_on (D : nat -> Prop) (sg : sub) : Prop := forall y, D y -> exists d, sg y = EVar y f_none d.
  Lemma same_sim (D : nat -> Prop) sg E E' : same_on D sg -> senvs X H D sg E E' -> sim_on D E E'.
  Proof.
    intros I V y Dy. destruct (I y Dy) as (d & Q). specialize (V y Dy). rewrite Q in V. cbn [stands] in V. destruct (E y); [exact Logic.I|rewrite V; reflexivity|]. destruct V as (k' & ->). reflexivity.
  Qed.
  Lemma eref_same sg e : same_on (fun y => free y e) sg -> eref sg e e.
  Proof. intros I E E' z V. apply veval_sim. exact (same_sim _ _ _ _ I V). Qed.
  Lemma oref_same sg e : same_on (fun y => free y e) sg -> oref sg e e. Proof. split; [reflexivity|apply eref_same; assumption]. Qed.
  Lemma same_weaken (D D' : nat -> Prop) sg : same_on D sg -> (forall y, D' y -> D y) -> same_on D' sg. Proof. intros I S y Dy. apply I, S, Dy. Qed.
  Lemma iref_same sg i : same_on (fun y => free_interval y i) sg -> iref X H sg i i.
  Proof. intros I. split; apply oref_same; (eapply same_weaken; [exact I|unfold free_interval; auto]). Qed.
  Lemma dref_same sg d : same_on (fun y => free_dim y d) sg -> dref X H sg d d.
  Proof. intros I. split; [apply iref_same|split; apply oref_same]; (eapply same_weaken; [exact I|unfold free_dim; auto]). Qed.
  Lemma drefs_same sg l : same_on (fun y => Exists (free_dim y) l) sg -> Forall2 (dref X H sg) l l.
  Proof.
    induction l as [|d l IH]; intros I; constructor; [apply dref_same|apply IH]; (eapply same_weaken; [exact I|]); intros y Fy; [left|right]; exact Fy.
  Qed.
  Lemma erefs_same sg l : same_on (fun y => any_of (free y) l) sg -> Forall2 (eref sg) l l.
  Proof. induction l as [|d l IH]; intros I; constructor; [apply eref_same|apply IH]; (eapply same_weaken; [exact I|]); intros y Fy; [left|right]; exact Fy. Qed.
  Lemma orefs_same sg l : same_on (fun y => any_of (free y) l) sg -> Forall2 (oref sg) l l.
  Proof. induction l as [|d l IH]; intros I; constructor; [apply oref_same|apply IH]; (eapply same_weaken; [exact I|]); intros y Fy; [left|right]; exact Fy. Qed.
  Lemma names_same (D : nat -> Prop) sg l : same_on D sg -> (forall y, In y l -> D y) -> Forall2 (names sg) l l.
  Proof. intros I. induction l as [|y l IH]; intros S; constructor; [exact (I y (S y (or_introl eq_refl)))|apply IH; intros z Iz; apply S; right; exact Iz]. Qed.
  Lemma upd_same_on (D D' : nat -> Prop) sg s : same_on D sg -> (forall y, D' y -> y <> s -> D y) -> same_on D' (upd sg s s).
  Proof. intros I S y Dy. destruct (Nat.eq_dec y s) as [->|n]; [rewrite upd_same; eauto|]. rewrite (upd_other _ _ _ _ n). exact (I y (S y Dy n)). Qed.
  Lemma same_scoped (D K K' own : nat -> Prop) sg s b : same_on D sg -> (forall y, free_stmt y b -> y <> s -> D y) -> (forall y, free_stmt y b -> y <> s -> K' y -> K y) -> scoped K K' own own sg s s b.
  Proof. intros I S HK y Fy n. split; [|auto]. destruct (I y (S y Fy n)) as (d & ->). intros (ro & O). cbn in O. destruct O as (O & _). congruence. Qed.
  Lemma crop_interval_ref sg i i' E E' a b r : iref X H sg i i' -> senvs X H (fun y => free_interval y i) sg E E' -> vinterval_def X H E i a b = Val r -> vinterval_def X H E' i' a b = Val r.
  Proof. apply interval_def_ref. Qed.
  Lemma vcrop_ref sg l l' : Forall2 (iref X H sg) l l' -> forall E E' q d r, senvs X H (fun y => Exists (free_interval y) l) sg E E' -> vcrop X H E q d l = Val r -> vcrop X H E' q d l' = Val r.
  Proof.
    induction 1 as [|i i' l l' R F IH]; intros E E' q d r V G; cbn [vcrop] in *; [exact G|]. destruct (rank q <=? d)%nat; [exact G|]. apply bind_inv in G as (u & G1 & G).
    rewrite (interval_def_ref X H _ _ _ _ _ E E' u R); [|eapply senvs_weaken; [exact V|intros y Fy; left; exact Fy]|exact G1]. cbn [bind].
    apply (IH E E'); [|exact G]. eapply senvs_weaken; [exact V|intros y Fy; right; exact Fy].
  Qed.
  Lemma irefs_same sg l : same_on (fun y => Exists (free_interval y) l) sg -> Forall2 (iref X H sg) l l.
  Proof. induction l as [|d l IH]; intros I; constructor; [apply iref_same|apply IH]; (eapply same_weaken; [exact I|]); intros y Fy; [left|right]; exact Fy. Qed.

  Lemma ref_same s : plain_stmt s -> forall sg, same_on (fun y => free_stmt y s) sg -> ref all_syms no_syms sg s s.
  Proof.
    induction s as [|t ins outs sc|src sx dst dx pad|l s c IHs|l IHl|s w x st b IHs|s w e ds b IHs|s p e ds b IHs|s v b IHs|s v b IHs
      |s v l b IHs|s v d x b IHs|s v l b IHs|s v d x b IHs|s v p b IHs|s s1 s2 IHs1 IHs2|c] using stmt_ind'; cbn [plain_stmt]; intros P sg I; try contradiction.
    all: try (assert (IB : forall y, free_stmt y b -> y <> s -> free_stmt y ltac:(match type of I with same_on (fun y => free_stmt y ?t) _ => exact t end)) by (intros y Fy n; cbn [free_stmt]; assert (s <> y) by congruence; tauto);
              pose proof (IHs P (upd sg s s) (upd_same_on _ _ _ _ I IB)) as RB; pose proof (same_scoped _ all_syms all_syms no_syms _ _ _ I IB ltac:(auto)) as SB).
    - apply ref_undef.
    - apply ref_call; [eapply names_same; [exact I|intros y Iy; left; exact Iy]|eapply names_same; [exact I|intros y Iy; right; left; exact Iy]|].
      apply erefs_same. eapply same_weaken; [exact I|intros y Fy; right; right; exact Fy].
    - destruct P as (-> & P). revert sg I. induction l as [|(t, e) l IHl]; intros sg I.
      + apply ref_let_nil. apply IHs; [exact P|exact I].
      + assert (IB : forall y, free_stmt y (SLet l s false) -> y <> t -> free_stmt y (SLet ((t, e) :: l) s false)) by (intros y Fy n; right; split; [congruence|exact Fy]).
        pose proof (IHl _ (upd_same_on _ _ _ _ I IB)) as RB. pose proof (same_scoped _ all_syms all_syms no_syms _ _ _ I IB ltac:(auto)) as SB.
        assert (Ie : same_on (fun y => free y e) sg) by (eapply same_weaken; [exact I|intros y Fy; left; exact Fy]).
        destruct (bare e) eqn:Be.
        * destruct e as [|y f d| | | | | |]; try discriminate. destruct f; try discriminate. destruct (Ie y) as (d' & Q); [exists (RField f_none); cbn; auto|].
          apply ref_let_index with (d := d'). rewrite <- Q.
          eapply ref_let_bare with (y := y); [reflexivity|exact SB|unfold no_syms; auto|unfold no_syms; auto| |exact RB].
          intros y' d2 z Q' Fz n ny (d3 & N). rewrite Q in Q'. injection Q' as <- _. destruct (I z (IB z Fz n)) as (d4 & N'). congruence.
        * eapply ref_let_num; eauto. apply eref_same. exact Ie.
    - destruct P as (_ & _ & P). apply plain_go in P. apply ref_block; [|apply Forall_forall; intros y Iy; apply plain_async; rewrite Forall_forall in P; auto..].
      revert I P. induction IHl as [|y l Hy F IH]; intros I P; [constructor|]. inversion P as [|? ? P1 P2]; subst. constructor.
      + apply (Hy P1). eapply same_weaken; [exact I|intros z Fz; left; exact Fz].
      + apply IH; [|exact P2]. eapply same_weaken; [exact I|intros z Fz; right; exact Fz].
    - apply ref_loop with (K' := all_syms) (own' := no_syms); eauto using plain_async, plain_closure_none.
      + apply eref_same. eapply same_weaken; [exact I|intros y Fy; right; right; left; exact Fy].
      + apply eref_same. eapply same_weaken; [exact I|intros y Fy; left; left; exact Fy].
      + apply eref_same. eapply same_weaken; [exact I|intros y Fy; left; right; exact Fy].
      + apply oref_same. eapply same_weaken; [exact I|intros y Fy; right; left; exact Fy].
    - apply ref_allocate with (K' := all_syms) (own' := no_syms); eauto.
      + apply eref_same. eapply same_weaken; [exact I|intros y Fy; left; exact Fy].
      + apply drefs_same. eapply same_weaken; [exact I|intros y Fy; right; left; exact Fy].
    - apply ref_make with (K' := all_syms) (own' := no_syms); eauto.
      + apply oref_same. eapply same_weaken; [exact I|intros y Fy; left; exact Fy].
      + apply oref_same. eapply same_weaken; [exact I|intros y Fy; right; left; exact Fy].
      + apply drefs_same. eapply same_weaken; [exact I|intros y Fy; right; right; left; exact Fy].
    - apply ref_const with (K' := all_syms) (own' := no_syms); unfold no_syms; auto.
    - apply ref_clone with (K' := all_syms) (own' := no_syms); eauto. apply (I v). left. reflexivity.
    - apply ref_crop_buffer with (K' := all_syms) (own' := no_syms); eauto; [apply (I v); right; left; reflexivity|left; split; [assumption|exact Logic.I]|]. intros E E' q r V _. apply (vcrop_ref _ _ _ (irefs_same sg l ltac:(eapply same_weaken; [exact I|intros y Fy; left; exact Fy]))). exact V.
    - apply ref_crop_dim with (K' := all_syms) (own' := no_syms); eauto; [apply (I v); right; left; reflexivity|left; split; [assumption|exact Logic.I]|]. intros E E' q r V _. apply (interval_def_ref X H sg); [|exact V]. apply iref_same. eapply same_weaken; [exact I|intros y Fy; left; exact Fy].
    - apply ref_slice_buffer with (K' := all_syms) (own' := no_syms); eauto; [apply (I v); right; left; reflexivity|]. apply orefs_same. eapply same_weaken; [exact I|intros y Fy; left; exact Fy].
    - apply ref_slice_dim with (K' := all_syms) (own' := no_syms); eauto; [apply (I v); right; left; reflexivity|]. apply eref_same. eapply same_weaken; [exact I|intros y Fy; left; exact Fy].
    - apply ref_transpose with (K' := all_syms) (own' := no_syms); eauto; [apply (I v); left; reflexivity|]. intros _. split; [reflexivity|]. left. split; [assumption|exact Logic.I].
    - destruct (frees c) as [u|] eqn:Fr; [|apply ref_check; auto; apply eref_same; exact I]. eapply ref_free; eauto. apply (I u). cbn [free_stmt].
      destruct c as [| | | | | |fn t args|]; try discriminate. destruct fn; try discriminate. destruct args as [|[|s0 f d0| | | | | |] [|a2 args]]; try discriminate; destruct f; try discriminate.
      injection Fr as ->. exists (RField f_none). cbn. auto.
  Qed.

  (** ** The substituted statement *)
  Variable x : nat.
  Variable rep : expr.
  Hypothesis Dr : defined rep = true.
  Notation sg := (sub_of x rep).
  Notation mut := (var_mutate x rep).
  Notation F := (fun s => free s rep).
  Notation sub_stmt := (sub_stmt x rep).
  Notation good_expr e := (no_capture x F e /\ tidy x rep e).
  Definition others (x : nat) : nat -> Prop := fun y => y <> x.
  Definition inside (x s : nat) : nat -> Prop := fun y => y = s \/ y <> x.

  Lemma rest_ref sym b b' : plain_stmt b -> sym = x \/ (free_stmt x b -> ~ F sym) ->
    (enter_var x rep sym = true -> ref (others x) no_syms sg b b') -> (enter_var x rep sym = false -> b' = b) ->
    scoped (others x) (inside x sym) no_syms no_syms sg sym sym b /\ ref (inside x sym) no_syms (upd sg sym sym) b b'.
  Proof.
    intros P C IH Same. assert (Sc : scoped (others x) (inside x sym) no_syms no_syms sg sym sym b).
    { intros y Fy n. split; [|split; [|auto]].
      - destruct (Nat.eq_dec y x) as [->|nx]; [rewrite sub_same; destruct C as [->|C]; [congruence|exact (C Fy)]|]. rewrite (sub_other _ _ _ nx). intros (ro & O). cbn in O. destruct O as (O & _). congruence.
      - intros [->|K]; [congruence|exact K]. }
    split; [exact Sc|]. destruct (enter_var x rep sym) eqn:En.
    - apply enter_true in En as (n & N). eapply ref_weaken; [exact (IH eq_refl)|intros y _ K; right; exact K|auto|].
      intros y Fy. destruct (Nat.eq_dec y sym) as [->|ny]; [rewrite upd_same, (sub_other _ _ _ n); reflexivity|rewrite (upd_other _ _ _ _ ny); reflexivity].
    - rewrite (Same eq_refl). assert (Nx : forall y, free_stmt y b -> y = sym \/ y <> x).
      { intros y Fy. destruct (Nat.eq_dec y sym) as [->|ny]; [left; reflexivity|]. right. intros ->. apply enter_false in En as [->|Fs]; [congruence|]. destruct C as [->|C]; [congruence|exact (C Fy Fs)]. }
      eapply ref_weaken; [apply (ref_same b P (upd sg sym sym))|..]; auto.
      + intros y Fy. destruct (Nat.eq_dec y sym) as [->|ny]; [rewrite upd_same; eauto|]. rewrite (upd_other _ _ _ _ ny). destruct (Nx y Fy) as [->|nx]; [congruence|]. rewrite (sub_other _ _ _ nx). eauto.
      + intros y Fy _. exact (Nx y Fy).
  Qed.
  Lemma decl_ref sym b b' : plain_stmt b -> sym = x \/ ((free_stmt x b -> ~ F sym) /\ no_capture_stmt x rep b) ->
    (if enter_var x rep sym then sub_stmt b else Val b) = Val b' ->
    (forall b', no_capture_stmt x rep b -> sub_stmt b = Val b' -> ref (others x) no_syms sg b b') ->
    scoped (others x) (inside x sym) no_syms no_syms sg sym sym b /\ ref (inside x sym) no_syms (upd sg sym sym) b b'.
  Proof.
    intros P C M IH. apply rest_ref; [exact P|tauto| |]; intros En; rewrite En in M; [|congruence]. apply IH; [|exact M]. apply enter_true in En as (n & N). destruct C as [C|C]; [congruence|tauto].
  Qed.
  Lemma visit_names y y' : visit_symbol x rep y = Val y' -> names sg y y'.
  Proof.
    clear Dr. unfold visit_symbol, names. destruct (Nat.eqb_spec y x) as [->|n].
    - rewrite sub_same. unfold replacement_symbol. destruct rep as [|z f d| | | | | |]; try discriminate. destruct f; try discriminate. intros [= ->]. eauto.
    - intros [= <-]. rewrite (sub_other _ _ _ n). eauto.
  Qed.
  Lemma visit_all l : forall l', map_res (visit_symbol x rep) l = Val l' -> Forall2 (names sg) l l'.
  Proof.
    induction l as [|y l IH]; intros l' M; cbn [map_res] in M; [injection M as <-; constructor|].
    apply bind_inv in M as (y' & M1 & M). apply bind_inv in M as (r & M2 & M). injection M as <-. constructor; [exact (visit_names _ _ M1)|exact (IH _ M2)].
  Qed.
  Lemma mut_all l : Forall (no_capture x F) l -> Forall (tidy x rep) l -> forall l', map_res mut l = Val l' -> Forall2 (oref sg) l l'.
  Proof.
    induction l as [|e l IH]; intros C T l' M; cbn [map_res] in M; [injection M as <-; constructor|]. inversion C; inversion T; subst.
    apply bind_inv in M as (e' & M1 & M). apply bind_inv in M as (r & M2 & M). injection M as <-. constructor; [apply sub_oref; auto|auto].
  Qed.
  Lemma oref_eref l l' : Forall2 (oref sg) l l' -> Forall2 (eref sg) l l'. Proof. induction 1 as [|? ? ? ? (_ & A)]; constructor; auto. Qed.
  Lemma mut_interval_ref i i' : every_interval (no_capture x F) i -> every_interval (tidy x rep) i -> mut_interval x rep i = Val i' -> iref X H sg i i'.
  Proof.
    intros (C1 & C2) (T1 & T2) M. unfold mut_interval in M. apply bind_inv in M as (a & M1 & M). apply bind_inv in M as (b & M2 & M). injection M as <-.
    split; apply sub_oref; auto.
  Qed.
  Lemma mut_dim_ref d d' : every_dim (no_capture x F) d -> every_dim (tidy x rep) d -> mut_dim x rep d = Val d' -> dref X H sg d d'.
  Proof.
    intros (C1 & C2 & C3) (T1 & T2 & T3) M. unfold mut_dim in M. apply bind_inv in M as (i & M1 & M). apply bind_inv in M as (s & M2 & M). apply bind_inv in M as (f & M3 & M). injection M as <-.
    split; [apply mut_interval_ref; auto|split; apply sub_oref; auto].
  Qed.
  Lemma mut_dims_ref l : Forall (every_dim (no_capture x F)) l -> Forall (every_dim (tidy x rep)) l -> forall l', map_res (mut_dim x rep) l = Val l' -> Forall2 (dref X H sg) l l'.
  Proof.
    induction l as [|e l IH]; intros C T l' M; cbn [map_res] in M; [injection M as <-; constructor|]. inversion C; inversion T; subst.
    apply bind_inv in M as (e' & M1 & M). apply bind_inv in M as (r & M2 & M). injection M as <-. constructor; [apply mut_dim_ref; auto|auto].
  Qed.
  (** a bound that is the bound of the source can be left out *)
  Lemma drop_bounds E' src k q a d i1 r : E' src = Buffer k q -> dim_at a d = dim_at q d ->
    vinterval_def X H E' i1 (d_min (dim_at a d)) (d_max (dim_at a d)) = Val r ->
    vinterval_def X H E' (if is_min_of (fst i1) src (Z.of_nat d) then EUndef else fst i1, if is_max_of (snd i1) src (Z.of_nat d) then EUndef else snd i1) (d_min (dim_at a d)) (d_max (dim_at a d)) = Val r.
  Proof.
    intros Es Q G. unfold vinterval_def in *. apply bind_inv in G as (lo & G1 & G). apply bind_inv in G as (hi & G2 & G). cbn [fst snd].
    replace (veval_def X H E' (if is_min_of (fst i1) src (Z.of_nat d) then EUndef else fst i1) (d_min (dim_at a d))) with (Val lo);
    [replace (veval_def X H E' (if is_max_of (snd i1) src (Z.of_nat d) then EUndef else snd i1) (d_max (dim_at a d))) with (Val hi); [exact G|]|].
    - destruct (is_max_of _ _ _) eqn:B; [|symmetry; exact G2]. unfold is_max_of in B. destruct (snd i1) as [|s f k0| | | | | |]; try discriminate. destruct f; try discriminate.
      apply andb_true_iff in B as (B1 & B2). apply Nat.eqb_eq in B1 as ->. apply Z.eqb_eq in B2 as ->. unfold veval_def in *. cbn [defined VSem_Spec.veval] in *. rewrite Es in G2. unfold field_value in G2. rewrite dim_int_nat in G2. rewrite Q. symmetry. exact G2.
    - destruct (is_min_of _ _ _) eqn:B; [|symmetry; exact G1]. unfold is_min_of in B. destruct (fst i1) as [|s f k0| | | | | |]; try discriminate. destruct f; try discriminate.
      apply andb_true_iff in B as (B1 & B2). apply Nat.eqb_eq in B1 as ->. apply Z.eqb_eq in B2 as ->. unfold veval_def in *. cbn [defined VSem_Spec.veval] in *. rewrite Es in G1. unfold field_value in G1. rewrite dim_int_nat in G1. rewrite Q. symmetry. exact G1.
  Qed.
  Lemma crop_bounds_ref src' d i i' E E' k q a r : every_interval (no_capture x F) i -> every_interval (tidy x rep) i -> crop_bounds x rep src' d i = Val i' ->
    senvs X H (fun y => free_interval y i) sg E E' -> E' src' = Buffer k q -> dim_at a d = dim_at q d ->
    vinterval_def X H E i (d_min (dim_at a d)) (d_max (dim_at a d)) = Val r -> vinterval_def X H E' i' (d_min (dim_at a d)) (d_max (dim_at a d)) = Val r.
  Proof.
    intros C T M V Es Q G. unfold crop_bounds in M. apply bind_inv in M as (i1 & M1 & M). injection M as <-. apply (drop_bounds E' src' k q); auto.
    apply (interval_def_ref X H sg i i1 _ _ E E' r); auto. apply mut_interval_ref; auto.
  Qed.
  Lemma crop_all_ref src' l : Forall (every_interval (no_capture x F)) l -> Forall (every_interval (tidy x rep)) l -> forall d l', crop_all x rep src' d l = Val l' ->
    forall E E' k q a r, senvs X H (fun y => Exists (free_interval y) l) sg E E' -> E' src' = Buffer k q -> (forall d', (d <= d')%nat -> dim_at a d' = dim_at q d') ->
    vcrop X H E a d l = Val r -> vcrop X H E' a d l' = Val r.
  Proof.
    induction l as [|i l IH]; intros C T d l' M E E' k q a r V Es Q G; cbn [crop_all] in M.
    - injection M as <-. exact G.
    - apply bind_inv in M as (i' & M1 & M). apply bind_inv in M as (r' & M2 & M). injection M as <-. inversion C; inversion T; subst. cbn [vcrop] in *.
      destruct (rank a <=? d)%nat eqn:Rd; [exact G|]. apply bind_inv in G as (u & G1 & G).
      rewrite (crop_bounds_ref src' d i i' E E' k q a u); auto; [|eapply senvs_weaken; [exact V|intros y Fy; left; exact Fy]]. cbn [bind].
      eapply (IH ltac:(assumption) ltac:(assumption) (S d) r' M2 E E' k q); [eapply senvs_weaken; [exact V|intros y Fy; right; exact Fy]|exact Es| |exact G].
      intros d' L. apply Nat.leb_gt in Rd. rewrite dim_at_crop by lia. destruct (Nat.eqb_spec d' d); [lia|]. apply Q. lia.
  Qed.

  Lemma every_go (P : expr -> Prop) l : (fix go (l : list stmt) := match l with [] => True | y :: l' => every_expr P y /\ go l' end) l -> Forall (every_expr P) l.
  Proof. induction l as [|a l IH]; [constructor|]. intros (A & B). constructor; auto. Qed.
  Lemma nc_stmt_go l : (fix go (l : list stmt) := match l with [] => True | y :: l' => no_capture_stmt x rep y /\ go l' end) l -> Forall (no_capture_stmt x rep) l.
  Proof. induction l as [|a l IH]; [constructor|]. intros (A & B). constructor; auto. Qed.
  Fixpoint sub_list (l : list stmt) : res (list stmt) := match l with [] => Val [] | y :: l' => y' <- sub_stmt y ;; r <- sub_list l' ;; Val (y' :: r) end.
  Lemma sub_block l : sub_stmt (SBlock l) = (l' <- sub_list l ;; Val (block_make l')).
  Proof. reflexivity. Qed.
  Lemma sub_plain s : plain_stmt s -> forall s', sub_stmt s = Val s' -> plain_stmt s' /\ in_block s' = in_block s.
  Proof.
    induction s as [|t ins outs sc|src sx dst dx pad|l s c IHs|l IHl|s w y st b IHs|s w e ds b IHs|s p e ds b IHs|s v b IHs|s v b IHs
      |s v l b IHs|s v d y b IHs|s v l b IHs|s v d y b IHs|s v p b IHs|s s1 s2 IHs1 IHs2|c] using stmt_ind'; cbn [plain_stmt]; intros P s' M; try contradiction.
    all: try rewrite sub_block in M; cbn [StmtSubst_Model.sub_stmt] in M.
    all: try (repeat (apply bind_inv in M as (? & ? & M)); injection M as <-; split; [|reflexivity]; cbn [plain_stmt]; auto; fail).
    all: try (repeat match type of M with bind _ _ = _ => let v := fresh "v" in let Q := fresh "Q" in apply bind_inv in M as (v & Q & M) end; injection M as <-; split; [|reflexivity]; cbn [plain_stmt];
      match goal with Q : (if enter_var _ _ _ then _ else _) = Val _ |- _ => destruct (enter_var x rep s); [exact (proj1 (IHs P _ Q))|injection Q as <-; exact P] end; fail).
    - apply bind_inv in M as ((l', al) & _ & M). apply bind_inv in M as (b' & Mb & M). injection M as <-. split; [|reflexivity]. cbn [plain_stmt]. split; [reflexivity|]. destruct P as (_ & P).
      destruct al; [exact (proj1 (IHs P _ Mb))|injection Mb as <-; exact P].
    - destruct P as (L & Bl & P). apply plain_go in P. apply bind_inv in M as (l' & Ml & M). injection M as <-.
      assert (G : Forall plain_stmt l' /\ length l' = length l /\ forallb in_block l' = forallb in_block l).
      { clear L Bl. revert l' Ml P. induction IHl as [|y l Hy _ IH]; intros l' Ml P; cbn [sub_list] in Ml; [injection Ml as <-; repeat split; constructor|].
        apply bind_inv in Ml as (y' & My & Ml). apply bind_inv in Ml as (r & Mr & Ml). injection Ml as <-. inversion P as [|? ? P1 P2]; subst.
        destruct (Hy P1 y' My) as (A1 & A2). destruct (IH r Mr P2) as (B1 & B2 & B3). split; [constructor; auto|]. split; [cbn [length]; congruence|cbn [forallb]; congruence]. }
      destruct G as (G1 & G2 & G3). rewrite block_make_flat by congruence. split; [|reflexivity]. cbn [plain_stmt]. split; [lia|]. split; [congruence|]. apply go_plain. exact G1.
  Qed.
  Hypothesis Nf : forall t a, rep <> ECall i_free t a.
  Lemma sub_bare e e' : mut e = Val e' -> bare e = false -> bare e' = false.
  Proof.
    unfold var_mutate. destruct e; cbn [mutate]; intros E B; try (injection E as <-; exact B).
    - unfold visit_var in E. destruct (sym =? x)%nat; [|injection E as <-; exact B]. destruct f; [discriminate B|..]; (apply bind_inv in E as (z & _ & E); injection E as <-; reflexivity).
    - apply bind_inv in E as ((l', al) & _ & E). apply bind_inv in E as (b' & _ & E). injection E as <-. reflexivity.
    - apply bind_inv in E as (a' & _ & E). apply bind_inv in E as (b' & _ & E). injection E as <-. unfold make_bin. destruct (_ && _); reflexivity.
    - apply bind_inv in E as (a' & _ & E). injection E as <-. reflexivity.
    - apply bind_inv in E as (a' & _ & E). apply bind_inv in E as (b' & _ & E). apply bind_inv in E as (c' & _ & E). injection E as <-. reflexivity.
    - apply bind_inv in E as (a' & _ & E). apply bind_inv in E as (b' & _ & E). injection E as <-. reflexivity.
  Qed.
  Lemma frees_some c s : frees c = Some s <-> exists t d, c = ECall i_free t [EVar s f_none d].
  Proof.
    split.
    - intros Fr. destruct c as [| | | | | |fn t args|]; try discriminate. destruct fn; try discriminate. destruct args as [|[|s0 f d0| | | | | |] [|a2 args]]; try discriminate; destruct f; try discriminate.
      injection Fr as ->. eauto.
    - intros (t & d & ->). reflexivity.
  Qed.
  Lemma sub_frees c c' : mut c = Val c' ->
    match frees c with Some s => (exists s', names sg s s' /\ frees c' = Some s') \/ bare (sg s) = false | None => frees c' = None end.
  Proof.
    intros M. destruct (frees c) as [s|] eqn:Fr.
    - apply frees_some in Fr as (t & d & ->). unfold var_mutate in M. cbn [mutate mutate_args] in M. unfold visit_var in M. destruct (Nat.eqb_spec s x) as [->|n].
      + rewrite sub_same. cbn [bind] in M. injection M as <-. destruct (bare rep) eqn:B; [left|right; reflexivity]. destruct rep as [|y f d'| | | | | |]; try discriminate. destruct f; try discriminate.
        exists y. split; [eexists; apply sub_same|reflexivity].
      + cbn [bind] in M. injection M as <-. left. exists s. split; [eexists; apply sub_other; exact n|reflexivity].
    - destruct (frees c') as [s'|] eqn:Fr'; [|reflexivity]. exfalso. apply frees_some in Fr' as (t & d & ->). unfold var_mutate in M. destruct c as [|s f k|l b|o a b|a|q t' f|fn t' args|c0]; cbn [mutate] in M; try discriminate M.
      + unfold visit_var in M. destruct (s =? x)%nat; [|discriminate M]. destruct f; [injection M as M; exact (Nf _ _ M)|..]; (apply bind_inv in M as (z & _ & M); discriminate M).
      + apply bind_inv in M as ((l', al) & _ & M). apply bind_inv in M as (b' & _ & M). discriminate M.
      + apply bind_inv in M as (a' & _ & M). apply bind_inv in M as (b' & _ & M). injection M as M. unfold make_bin in M. destruct (_ && _); discriminate M.
      + apply bind_inv in M as (a' & _ & M). discriminate M.
      + apply bind_inv in M as (a' & _ & M). apply bind_inv in M as (b' & _ & M). apply bind_inv in M as (b2' & _ & M). discriminate M.
      + apply bind_inv in M as (args' & Ma & M). apply bind_inv in M as (args2 & Mf & M). injection M as -> -> ->. injection Mf as ->.
        destruct args as [|a [|a2 args]]; cbn [mutate_args] in Ma.
        * discriminate Ma.
        * apply bind_inv in Ma as (a' & M1 & Ma). cbn [bind] in Ma. injection Ma as ->. assert (B : bare a = false).
          { destruct a as [|s f k| | | | | |]; try reflexivity. destruct f; try reflexivity. discriminate Fr. }
          pose proof (sub_bare _ _ M1 B) as B'. discriminate B'.
        * apply bind_inv in Ma as (a' & M1 & Ma). apply bind_inv in Ma as (r & M2 & Ma). apply bind_inv in M2 as (a2' & _ & M2). apply bind_inv in M2 as (r2 & _ & M2). injection M2 as <-. discriminate Ma.
  Qed.

  Lemma let_index K own s0 s y d d' l b c : ref K own sg s0 (SLet ((s, EVar y f_none d) :: l) b c) -> ref K own sg s0 (SLet ((s, EVar y f_none d') :: l) b c).
  Proof. apply ref_let_index. Qed.
  Lemma lets_ref b l : plain_stmt b -> (forall b', no_capture_stmt x rep b -> sub_stmt b = Val b' -> ref (others x) no_syms sg b b') ->
    Forall (no_capture x F) (map snd l) -> Forall (tidy x rep) (map snd l) -> no_capture_stmt_lets x rep b (no_capture_stmt x rep b) l ->
    forall l' al b', mutate_lets (enter_var x rep) mut l = Val (l', al) -> (if al : bool then sub_stmt b else Val b) = Val b' ->
    ref (others x) no_syms sg (SLet l b false) (SLet l' b' false).
  Proof.
    intros P IHb. induction l as [|(s, v) l IH]; intros C T N l' al b' M Mb; cbn [mutate_lets] in M.
    - injection M as <- <-. apply ref_let_nil. apply IHb; [exact N|exact Mb].
    - apply bind_inv in M as (v' & Mv & M). inversion C as [|? ? Cv Cl]; inversion T as [|? ? Tv Tl]; subst. cbn [snd] in *. cbn [no_capture_stmt_lets] in N. destruct N as (Na & N).
      assert (G : exists l1, l' = (s, v') :: l1 /\ (enter_var x rep s = true -> ref (others x) no_syms sg (SLet l b false) (SLet l1 b' false)) /\ (enter_var x rep s = false -> SLet l1 b' false = SLet l b false)).
      { destruct (enter_var x rep s) eqn:En.
        - apply bind_inv in M as ((l1, al1) & M1 & M). injection M as <- <-. exists l1. split; [reflexivity|]. split; [|discriminate]. intros _. apply (IH Cl Tl) with (al := al1); auto.
          apply enter_true in En as (n & _). destruct N as [N|(_ & N)]; [congruence|exact N].
        - injection M as <- <-. injection Mb as <-. exists l. split; [reflexivity|]. split; [discriminate|reflexivity]. }
      destruct G as (l1 & -> & G1 & G2). destruct (rest_ref s (SLet l b false) (SLet l1 b' false)) as (Sc & R); auto; [cbn [plain_stmt]; auto|destruct N as [N|(N & _)]; [left|right]; exact N|].
      destruct (bare v) eqn:Bv.
      + destruct v as [|y f d| | | | | |]; try discriminate. destruct f; try discriminate.
        assert (Inj : forall y' d' z, sg y = EVar y' f_none d' -> free_stmt z (SLet l b false) -> z <> s -> z <> y -> names sg z y' -> ~ inside x s z /\ ~ no_syms z).
        { intros y' d' z Q Fz nz ny (d2 & Q'). split; [|intros []]. intros [->|nx]; [congruence|]. rewrite (sub_other _ _ _ nx) in Q'. injection Q' as <- _.
          destruct (Nat.eq_dec y x) as [->|nyx]; [|rewrite (sub_other _ _ _ nyx) in Q; injection Q as -> _; congruence].
          rewrite sub_same in Q. rewrite Q in Na. apply (Na eq_refl); [congruence|exact Fz]. }
        unfold var_mutate in Mv. cbn [mutate] in Mv. unfold visit_var in Mv. destruct (Nat.eqb_spec y x) as [Qy|n].
        * injection Mv as <-. eapply ref_let_bare with (y := y) (own' := no_syms); [rewrite Qy, sub_same; reflexivity|exact Sc|intros []|intros []|exact Inj|exact R].
        * injection Mv as <-. apply let_index with (d := 0). rewrite <- (sub_other x rep y n). eapply ref_let_bare with (y := y) (own' := no_syms); [reflexivity|exact Sc|intros []|intros []|exact Inj|exact R].
      + eapply ref_let_num; [exact Bv|exact (sub_bare _ _ Mv Bv)|apply sub_good; assumption|exact Sc|exact R].
  Qed.

  Lemma sub_ref s : plain_stmt s -> every_expr (no_capture x F) s -> every_expr (tidy x rep) s -> forall s', no_capture_stmt x rep s -> sub_stmt s = Val s' -> ref (others x) no_syms sg s s'.
  Proof.
    induction s as [|t ins outs sc|src sx dst dx pad|l s c IHs|l IHl|s w y st b IHs|s w e ds b IHs|s p e ds b IHs|s v b IHs|s v b IHs
      |s v l b IHs|s v d y b IHs|s v l b IHs|s v d y b IHs|s v p b IHs|s s1 s2 IHs1 IHs2|c] using stmt_ind'; cbn [plain_stmt every_expr no_capture_stmt]; intros P C T s' N M; try contradiction.
    all: try rewrite sub_block in M; cbn [StmtSubst_Model.sub_stmt] in M.
    - apply ref_undef.
    - apply bind_inv in M as (i' & M1 & M). apply bind_inv in M as (o' & M2 & M). apply bind_inv in M as (sc' & M3 & M). injection M as <-.
      apply ref_call; [apply visit_all; assumption..|]. apply oref_eref, mut_all; assumption.
    - destruct P as (-> & P). destruct C as (C1 & C), T as (T1 & T). apply bind_inv in M as ((l', al) & M1 & M). apply bind_inv in M as (b' & M2 & M). injection M as <-.
      apply lets_ref with (al := al); auto.
    - destruct P as (L & Bl & P). pose proof P as P0. apply plain_go in P. apply every_go in C, T. apply nc_stmt_go in N. apply bind_inv in M as (l' & Ml & M). injection M as <-.
      assert (Q : exists r, sub_stmt (SBlock l) = Val r) by (rewrite sub_block, Ml; eexists; reflexivity). destruct Q as (r & Q).
      destruct (sub_plain (SBlock l)) with (2 := Q) as (PP & BB); [cbn [plain_stmt]; auto|]. rewrite sub_block, Ml in Q. injection Q as <-.
      assert (G : Forall plain_stmt l' /\ length l' = length l /\ forallb in_block l' = forallb in_block l).
      { clear -Ml P. revert l' Ml. induction P as [|y l Py _ IH]; intros l' Ml; cbn [sub_list] in Ml; [injection Ml as <-; repeat split; constructor|].
        apply bind_inv in Ml as (y' & My & Ml). apply bind_inv in Ml as (r & Mr & Ml). injection Ml as <-.
        destruct (sub_plain y Py y' My) as (A1 & A2). destruct (IH r Mr) as (B1 & B2 & B3). split; [constructor; auto|]. split; [cbn [length]; congruence|cbn [forallb]; congruence]. }
      destruct G as (G1 & G2 & G3). rewrite block_make_flat by congruence.
      apply ref_block; [|eapply Forall_impl; [|exact P]; exact plain_async|eapply Forall_impl; [|exact G1]; exact plain_async].
      clear L Bl P0 PP BB G1 G2 G3. revert l' Ml. induction IHl as [|y l Hy _ IH]; intros l' Ml; cbn [sub_list] in Ml; [injection Ml as <-; constructor|].
      apply bind_inv in Ml as (y' & My & Ml). apply bind_inv in Ml as (r & Mr & Ml). injection Ml as <-. inversion P; inversion C; inversion T; inversion N; subst. constructor; [apply Hy; auto|apply IH; auto].
    - destruct C as (C1 & C2 & C3 & C), T as (T1 & T2 & T3 & T), N as (Nw & N). apply bind_inv in M as (i' & M1 & M). apply bind_inv in M as (st' & M2 & M). apply bind_inv in M as (b' & M3 & M). injection M as <-.
      destruct (decl_ref s b b' P N M3 (IHs P C T)) as (Sc & R). destruct (mut_interval_ref _ _ C2 T2 M1) as ((_ & R1) & (_ & R2)).
      assert (Pb : plain_stmt b') by (destruct (enter_var x rep s); [exact (proj1 (sub_plain b P b' M3))|injection M3 as <-; exact P]).
      apply ref_loop with (K' := inside x s) (own' := no_syms); auto using plain_async, plain_closure_none.
      + apply eref_same. intros z Fz. rewrite sub_other; [eauto|]. intros ->. exact (Nw Fz).
      + apply sub_oref; auto.
      + right. eapply ref_weaken; [exact R|unfold all_syms; auto..].
    - destruct C as (C1 & C2 & C), T as (T1 & T2 & T). apply bind_inv in M as (e' & M1 & M). apply bind_inv in M as (ds' & M2 & M). apply bind_inv in M as (b' & M3 & M). injection M as <-.
      destruct (decl_ref s b b' P N M3 (IHs P C T)) as (Sc & R). apply ref_allocate with (K' := inside x s) (own' := no_syms); auto; [apply sub_good; auto|apply mut_dims_ref; auto].
    - destruct C as (C0 & C1 & C2 & C), T as (T0 & T1 & T2 & T). apply bind_inv in M as (p' & M0 & M). apply bind_inv in M as (e' & M1 & M). apply bind_inv in M as (ds' & M2 & M). apply bind_inv in M as (b' & M3 & M). injection M as <-.
      destruct (decl_ref s b b' P N M3 (IHs P C T)) as (Sc & R). apply ref_make with (K' := inside x s) (own' := no_syms); auto; [apply sub_oref; auto..|apply mut_dims_ref; auto].
    - apply bind_inv in M as (b' & M3 & M). injection M as <-. destruct (decl_ref s b b' P N M3 (IHs P C T)) as (Sc & R). apply ref_const with (K' := inside x s) (own' := no_syms); unfold no_syms; auto.
    - apply bind_inv in M as (v' & M1 & M). apply bind_inv in M as (b' & M3 & M). injection M as <-. destruct (decl_ref s b b' P N M3 (IHs P C T)) as (Sc & R).
      apply ref_clone with (K' := inside x s) (own' := no_syms); auto. exact (visit_names _ _ M1).
    - destruct C as (C1 & C), T as (T1 & T), N as (N1 & _ & N). apply bind_inv in M as (v' & M1 & M). apply bind_inv in M as (l' & M2 & M). apply bind_inv in M as (b' & M3 & M). injection M as <-.
      destruct (decl_ref s b b' P N M3 (IHs P C T)) as (Sc & R). apply ref_crop_buffer with (K' := inside x s) (own' := no_syms); auto; [exact (visit_names _ _ M1)| |].
      + intros ->. left. destruct (visit_names _ _ M1) as (d & Q). destruct (Nat.eq_dec v x) as [->|n].
        * rewrite sub_same in Q. exfalso. apply (N1 eq_refl). rewrite Q. exists (RField f_none). cbn. auto.
        * rewrite (sub_other _ _ _ n) in Q. injection Q as -> _. split; [reflexivity|exact n].
      + intros E E' q r V B G. unfold vbuffer in B. destruct (E' v') as [| |k q0] eqn:Ev; try discriminate. injection B as ->. apply (crop_all_ref v' l C1 T1 0 l' M2 E E' k q); auto.
    - destruct C as (C1 & C), T as (T1 & T), N as (N1 & N). apply bind_inv in M as (v' & M1 & M). apply bind_inv in M as (l' & M2 & M). apply bind_inv in M as (b' & M3 & M). injection M as <-.
      destruct (decl_ref s b b' P N M3 (IHs P C T)) as (Sc & R). apply ref_crop_dim with (K' := inside x s) (own' := no_syms); auto; [exact (visit_names _ _ M1)| |].
      + intros ->. left. destruct (visit_names _ _ M1) as (d' & Q). destruct (Nat.eq_dec v x) as [->|n].
        * rewrite sub_same in Q. exfalso. apply (N1 eq_refl). rewrite Q. exists (RField f_none). cbn. auto.
        * rewrite (sub_other _ _ _ n) in Q. injection Q as -> _. split; [reflexivity|exact n].
      + intros E E' q r V B G. unfold vbuffer in B. destruct (E' v') as [| |k q0] eqn:Ev; try discriminate. injection B as ->. apply (crop_bounds_ref v' d y l' E E' k q q); auto.
    - destruct C as (C1 & C), T as (T1 & T). apply bind_inv in M as (v' & M1 & M). apply bind_inv in M as (l' & M2 & M). apply bind_inv in M as (b' & M3 & M). injection M as <-.
      destruct (decl_ref s b b' P N M3 (IHs P C T)) as (Sc & R). apply ref_slice_buffer with (K' := inside x s) (own' := no_syms); auto; [exact (visit_names _ _ M1)|apply mut_all; auto].
    - destruct C as (C1 & C), T as (T1 & T). apply bind_inv in M as (v' & M1 & M). apply bind_inv in M as (l' & M2 & M). apply bind_inv in M as (b' & M3 & M). injection M as <-.
      destruct (decl_ref s b b' P N M3 (IHs P C T)) as (Sc & R). apply ref_slice_dim with (K' := inside x s) (own' := no_syms); auto; [exact (visit_names _ _ M1)|apply sub_good; auto].
    - destruct N as (N1 & N). apply bind_inv in M as (v' & M1 & M). apply bind_inv in M as (b' & M3 & M). injection M as <-. destruct (decl_ref s b b' P N M3 (IHs P C T)) as (Sc & R).
      apply ref_transpose with (K' := inside x s) (own' := no_syms); auto; [exact (visit_names _ _ M1)|]. intros Tr. destruct (visit_names _ _ M1) as (d' & Q). destruct (Nat.eq_dec v x) as [->|n].
      + rewrite sub_same in Q. destruct (N1 Tr eq_refl) as (N2 & N3). assert (s <> v') by (intros ->; apply N2; rewrite Q; exists (RField f_none); cbn; auto). tauto.
      + rewrite (sub_other _ _ _ n) in Q. injection Q as -> _. split; [tauto|]. intros ->. left. split; [reflexivity|exact n].
    - apply bind_inv in M as (c' & Mc & M). injection M as <-. pose proof (sub_frees c c' Mc) as Fr. destruct (frees c) as [u|] eqn:Fu.
      + destruct Fr as [(s' & Ns & Fs')|Fr]; [eapply ref_free; eauto|eapply ref_free_not; eauto].
      + apply ref_check; auto. apply sub_good; auto.
  Qed.
End Stmts.
