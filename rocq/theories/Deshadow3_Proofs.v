(** Proofs for C56: statements. *)
From Coq Require Import ZArith List Bool Lia.
From Verif Require Import Arith_Model Arith_Proofs Buf_Model Alloc_Model Expr_Model Expr_Spec Expr_Proofs Stmt_Model Stmt_Spec Stmt_Proofs Simplify_Model Simplify_Proofs Deps_Model Deps_Spec
  Subst_Model Subst_Spec CopyStmt_Proofs StmtSubst_Model StmtSubst_Spec CopyPad_Proofs CopyPass_Proofs OptSym_Spec OptSym_Proofs VSem_Spec VMono_Proofs VExec_Proofs VRef_Proofs StmtSubst_Proofs StmtSubst2_Proofs
  Deshadow_Model Deshadow_Spec Deshadow_Proofs Deshadow2_Proofs.
Import ListNotations.
Open Scope Z_scope.

Fixpoint d_list (il : option nat) (l : list stmt) (t : dstate) : res (list stmt * dstate) :=
  match l with
  | [] => Val ([], t)
  | x :: l' => r <- d_stmt il x t ;; let '(x', t1) := r in r <- d_list il l' t1 ;; let '(xs, t2) := r in Val (x' :: xs, t2)
  end.
Lemma d_block il l t : d_stmt il (SBlock l) t = (r <- d_list il l t ;; let '(l', t1) := r in Val (block_make l', t1)).
Proof.
  cbn [d_stmt]. assert (G : forall t, (fix go (l : list stmt) (t : dstate) : res (list stmt * dstate) :=
              match l with
              | [] => Val ([], t)
              | x :: l' => r <- d_stmt il x t ;; let '(x', t1) := r in r <- go l' t1 ;; let '(xs, t2) := r in Val (x' :: xs, t2)
              end) l t = d_list il l t); [|rewrite G; reflexivity].
  clear t. induction l as [|x l IH]; intro t; [reflexivity|]. cbn [d_list]. destruct (d_stmt il x t) as [(x', t1)|]; [|reflexivity]. cbn [bind]. rewrite IH. reflexivity.
Qed.

Section Stmts.
  Variable n0 : nat.
  Variable X : Type.
  Variable H : host X.
  Variable call_v : nat -> list buf -> list buf -> list Z -> X -> Z * X.
  Variable copy_v : buf -> buf -> option buf -> (list Z -> option (list Z)) -> X -> X.
  Variable consts : Z -> option buf.
  Hypothesis copy_ext : forall bs bd bp f g x, (forall i, f i = g i) -> copy_v bs bd bp f x = copy_v bs bd bp g x.
  Notation veval := (veval X H).
  Notation vexec := (vexec X H call_v copy_v consts).
  Notation vinner := (vinner X H call_v copy_v consts).
  Notation xsame := (xsame n0 X H).
  Notation like := (like n0).
  Notation okst := (okst n0).

  (** ** Parts of statements *)
  Definition xint (rho : nat -> nat) (i i' : interval) : Prop := xsame rho (fst i) (fst i') /\ xsame rho (snd i) (snd i').
  Definition xdim (rho : nat -> nat) (d d' : dim_expr) : Prop := xint rho (de_bounds d) (de_bounds d') /\ xsame rho (de_stride d) (de_stride d') /\ xsame rho (de_fold d) (de_fold d').
  Lemma def_same rho e e' E E' def : xsame rho e e' -> like rho E E' -> veval_def X H E' e' def = veval_def X H E e def.
  Proof. intros (D & S) L. unfold veval_def. rewrite D, (S E E' L). reflexivity. Qed.
  Lemma int_same rho i i' E E' : xint rho i i' -> like rho E E' -> vinterval X H E' i' = vinterval X H E i.
  Proof. intros ((_ & S1) & (_ & S2)) L. unfold vinterval. rewrite (S1 E E' L), (S2 E E' L). reflexivity. Qed.
  Lemma int_def_same rho i i' E E' a b : xint rho i i' -> like rho E E' -> vinterval_def X H E' i' a b = vinterval_def X H E i a b.
  Proof. intros (S1 & S2) L. unfold vinterval_def. rewrite (def_same _ _ _ _ _ _ S1 L), (def_same _ _ _ _ _ _ S2 L). reflexivity. Qed.
  Lemma dim_same rho au d d' E E' : xdim rho d d' -> like rho E E' -> vdim X H E' au d' = vdim X H E au d.
  Proof.
    intros (S1 & S2 & S3) L. unfold vdim. rewrite (int_same _ _ _ _ _ S1 L), (def_same _ _ _ _ _ _ S2 L), (def_same _ _ _ _ _ _ S3 L), (proj2 S2 E E' L). reflexivity.
  Qed.
  Lemma dims_same rho au l l' E E' : Forall2 (xdim rho) l l' -> like rho E E' -> vdims X H E' au l' = vdims X H E au l.
  Proof. induction 1 as [|d d' l l' S F IH]; intros L; [reflexivity|]. cbn [vdims]. rewrite (IH L), (dim_same _ _ _ _ _ _ S L). reflexivity. Qed.
  Lemma list_same rho l l' E E' : Forall2 (xsame rho) l l' -> like rho E E' -> vlist X H E' l' = vlist X H E l.
  Proof. induction 1 as [|d d' l l' S F IH]; intros L; [reflexivity|]. cbn [vlist]. rewrite (IH L), (proj2 S E E' L). reflexivity. Qed.
  Lemma slice_same rho E E' ds : like rho E E' -> forall l l' p, Forall2 (xsame rho) l l' -> vslice X H E' p ds l' = vslice X H E p ds l.
  Proof.
    intros L. induction ds as [|d ds IH]; intros l l' p F; [reflexivity|]. cbn [vslice]. destruct F as [|x x' l l' (D & S) F]; [reflexivity|]. rewrite D, (S E E' L).
    destruct (defined x); [|rewrite (IH _ _ _ F); reflexivity]. destruct p; [|exact (IH _ _ _ F)]. destruct (veval E x); [|reflexivity]. cbn [bind]. apply IH. exact F.
  Qed.

  Lemma fine_distinct i : every_interval (fine n0) i -> distinct_interval i. Proof. intros ((_ & A & _) & (_ & B & _)). split; assumption. Qed.
  Lemma interval_good il i t i' t' : every_interval (fine n0) i -> okst t -> d_interval il i t = Val (i', t') -> framed t t' /\ xint (renamed (fst t)) i i'.
  Proof.
    intros (F1 & F2) O M. unfold d_interval in M. apply bind_inv in M as ((a, t1) & M1 & M). apply bind_inv in M as ((b, t2) & M2 & M). injection M as <- <-.
    destruct (expr_good n0 X H il _ F1 t a t1 O M1) as (G1 & S1). destruct (expr_good n0 X H il _ F2 t1 b t2 (okst_framed _ _ _ G1 O) M2) as (G2 & S2).
    split; [eapply framed_trans; eassumption|]. split; [exact S1|exact (xsame_framed _ _ _ _ _ _ _ G1 S2)].
  Qed.
  Lemma xint_framed t t' i i' : framed t t' -> xint (renamed (fst t')) i i' -> xint (renamed (fst t)) i i'.
  Proof. intros F (A & B). split; eapply xsame_framed; eauto. Qed.
  Lemma dim_good il d t d' t' : every_dim (fine n0) d -> okst t -> d_dim il d t = Val (d', t') -> framed t t' /\ xdim (renamed (fst t)) d d'.
  Proof.
    intros (F1 & F2 & F3) O M. unfold d_dim in M. apply bind_inv in M as ((a, t1) & M1 & M). apply bind_inv in M as ((b, t2) & M2 & M). apply bind_inv in M as ((c, t3) & M3 & M). injection M as <- <-.
    destruct (interval_good il _ t a t1 F1 O M1) as (G1 & S1). pose proof (okst_framed _ _ _ G1 O) as O1. destruct (expr_good n0 X H il _ F2 t1 b t2 O1 M2) as (G2 & S2).
    destruct (expr_good n0 X H il _ F3 t2 c t3 (okst_framed _ _ _ G2 O1) M3) as (G3 & S3). pose proof (framed_trans _ _ _ G1 G2) as G12.
    split; [eapply framed_trans; eassumption|]. split; [exact S1|]. split; [exact (xsame_framed _ _ _ _ _ _ _ G1 S2)|exact (xsame_framed _ _ _ _ _ _ _ G12 S3)].
  Qed.
  Lemma xdim_framed t t' i i' : framed t t' -> xdim (renamed (fst t')) i i' -> xdim (renamed (fst t)) i i'.
  Proof. intros F (A & B & C). split; [eapply xint_framed; eauto|split; eapply xsame_framed; eauto]. Qed.
  Lemma dims_good il l : Forall (every_dim (fine n0)) l -> forall t l' t', okst t -> each (d_dim il) l t = Val (l', t') -> framed t t' /\ Forall2 (xdim (renamed (fst t))) l l'.
  Proof.
    induction 1 as [|a l Fa _ IH]; intros t l' t' O M; cbn [each] in M; [injection M as <- <-; split; [apply framed_refl|constructor]|].
    apply bind_inv in M as ((a', t1) & Ma & M). apply bind_inv in M as ((l1, t2) & Ml & M). injection M as <- <-. destruct (dim_good il a t a' t1 Fa O Ma) as (F1 & Sa).
    destruct (IH t1 l1 t2 (okst_framed _ _ _ F1 O) Ml) as (F2 & Sl). split; [eapply framed_trans; eassumption|]. constructor; [exact Sa|].
    clear -F1 Sl. induction Sl as [|u v l l' Suv F IH]; constructor; [exact (xdim_framed _ _ _ _ F1 Suv)|exact IH].
  Qed.
  Lemma exprs_good il l t l' t' : Forall (fine n0) l -> okst t -> each (d_expr il) l t = Val (l', t') -> framed t t' /\ Forall2 (xsame (renamed (fst t))) l l'.
  Proof. intros F. apply good_x_args. rewrite Forall_forall in *. intros e Ie. apply expr_good. auto. Qed.
  Lemma crop_good il src d i t i' t' E E' k q a r : every_interval (fine n0) i -> okst t -> d_crop il src d i t = Val (i', t') -> like (renamed (fst t)) E E' -> E' src = Buffer k q -> dim_at a d = dim_at q d ->
    vinterval_def X H E i (d_min (dim_at a d)) (d_max (dim_at a d)) = Val r -> vinterval_def X H E' i' (d_min (dim_at a d)) (d_max (dim_at a d)) = Val r.
  Proof.
    intros F O M L Es Q G. unfold d_crop in M. apply bind_inv in M as ((i1, t1) & M1 & M). injection M as <- <-. destruct (interval_good il i t i1 t1 F O M1) as (_ & S).
    apply (drop_bounds X H E' src k q); [exact Es|exact Q|]. rewrite (int_def_same _ _ _ _ _ _ _ S L). exact G.
  Qed.
  Lemma crops_good il src l : Forall (every_interval (fine n0)) l -> forall d t l' t' E E' k q a r, okst t -> d_crops il src d l t = Val (l', t') -> like (renamed (fst t)) E E' -> E' src = Buffer k q ->
    (forall d', (d <= d')%nat -> dim_at a d' = dim_at q d') -> vcrop X H E a d l = Val r -> vcrop X H E' a d l' = Val r.
  Proof.
    induction 1 as [|i l Fi _ IH]; intros d t l' t' E E' k q a r O M L Es Q G; cbn [d_crops] in M; [injection M as <- <-; exact G|].
    apply bind_inv in M as ((i', t1) & Mi & M). apply bind_inv in M as ((r', t2) & Ml & M). injection M as <- <-. cbn [vcrop] in *. destruct (rank a <=? d)%nat eqn:Rd; [exact G|].
    apply bind_inv in G as (u & G1 & G). rewrite (crop_good il src d i t i' t1 E E' k q a u Fi O Mi L Es (Q d (le_n d)) G1). cbn [bind].
    pose proof (crop_frame il src d i (fine_distinct i Fi) _ _ _ Mi) as F1.
    eapply (IH (S d) t1 r' t2 E E' k q); [exact (okst_framed _ _ _ F1 O)|exact Ml|exact (like_framed _ _ _ _ _ F1 L)|exact Es| |exact G].
    intros d' Ld. apply Nat.leb_gt in Rd. rewrite dim_at_crop by lia. destruct (Nat.eqb_spec d' d); [lia|]. apply Q. lia.
  Qed.

  (** ** Environments *)
  Definition rok (rho : nat -> nat) (E E' : venv) : Prop := forall x, (x < n0)%nat -> vok (E x) (E' (rho x)).
  Lemma rok_like rho E E' : rok rho E E' -> like rho E E'. Proof. intros R x Lx. exact (vok_like _ _ (R x Lx)). Qed.
  Lemma rok_framed t t' E E' : framed t t' -> rok (renamed (fst t)) E E' -> rok (renamed (fst t')) E E'.
  Proof. intros (F & _) L x Lx. rewrite (renamed_eq (fst t) (fst t') x (F x)). exact (L x Lx). Qed.
  Lemma rok_step x t x' t' E E' a a' : decl_step x t x' t' -> okst t -> (x < n0)%nat -> rok (renamed (fst t)) E E' -> vok a a' -> rok (renamed (fst t')) (vset E x a) (vset E' x' a').
  Proof.
    intros Sp O Lx L A y Ly. destruct (step_renamed _ _ _ _ Sp) as (R1 & R2). destruct (Nat.eq_dec y x) as [->|n]; [rewrite R1, !vset_same; exact A|].
    rewrite (R2 y n), (vset_other _ _ _ _ n), vset_other; [exact (L y Ly)|exact (step_new _ _ _ _ _ _ Sp O Lx Ly n)].
  Qed.
  Lemma rok_share rho E E' : rok rho E E' -> rok rho (vshare E) (vshare E').
  Proof. intros R x Lx. specialize (R x Lx). unfold vshare. destruct (E x), (E' (rho x)); cbn in *; try contradiction; auto. split; [tauto|discriminate]. Qed.
  Lemma buffer_ok rho E E' x b : rok rho E E' -> (x < n0)%nat -> vbuffer E x = Val b -> vbuffer E' (rho x) = Val b /\ exists k, E' (rho x) = Buffer k b.
  Proof. intros R Lx Q. specialize (R x Lx). unfold vbuffer in *. destruct (E x); try discriminate. injection Q as ->. destruct (E' (rho x)); cbn [vok] in R; try contradiction. destruct R as (-> & _). eauto. Qed.
  Lemma buffers_ok rho E E' l : rok rho E E' -> Forall (fun x => (x < n0)%nat) l -> forall bs, vbuffers E l = Val bs -> vbuffers E' (map rho l) = Val bs.
  Proof.
    intros R. induction 1 as [|x l Lx F IH]; intros bs Q; cbn [vbuffers map] in *; [exact Q|]. apply bind_inv in Q as (b & Q1 & Q). apply bind_inv in Q as (bs' & Q2 & Q).
    rewrite (proj1 (buffer_ok _ _ _ _ _ R Lx Q1)). cbn [bind]. rewrite (IH _ Q2). exact Q.
  Qed.
  (** no crop that was not done in place now is *)
  Lemma not_in_place sym t sym' t1 src : decl_step sym t sym' t1 -> okst t -> (sym < n0)%nat -> (src < n0)%nat -> sym' = renamed (fst t) src -> sym = src /\ renamed (fst t) src = src.
  Proof.
    intros Sp O L1 L2 Q. destruct (Nat.eq_dec src sym) as [->|n]; [|destruct (step_new _ _ _ _ _ _ Sp O L1 L2 n); congruence]. split; [reflexivity|].
    destruct Sp as (_ & [(-> & _)|(-> & _)]); [congruence|]. destruct O as (L & S1 & _). destruct (S1 sym L1) as [Q'|Q']; lia.
  Qed.
  Lemma in_place_ok sym t sym' t1 src E E' b : decl_step sym t sym' t1 -> okst t -> (sym < n0)%nat -> (src < n0)%nat -> rok (renamed (fst t)) E E' -> vbuffer E src = Val b ->
    in_place E sym src = Val tt -> in_place E' sym' (renamed (fst t) src) = Val tt.
  Proof.
    intros Sp O L1 L2 R B I. unfold in_place in *. destruct (Nat.eqb_spec sym' (renamed (fst t) src)) as [Q|]; [|reflexivity]. destruct (not_in_place _ _ _ _ _ Sp O L1 L2 Q) as (Qs & _). rewrite Qs, Nat.eqb_refl in I.
    specialize (R src L2). unfold vbuffer in B. destruct (E src) as [| |([] & bl) b0]; try discriminate. destruct (E' (renamed (fst t) src)) as [| |([] & bl') b']; try reflexivity.
    destruct R as (_ & R). specialize (R eq_refl). discriminate R.
  Qed.

  (** ** Statements *)
  Definition sref (rho : nat -> nat) (s s' : stmt) : Prop := forall E E' v r, rok rho E E' -> vexec s E v = Val r -> vexec s' E' v = Val r.
  Definition shaped (s s' : stmt) : Prop := async_syms s' = [] /\ as_closure s' = None /\ in_block s' = in_block s.
  Definition good_s (s : stmt) : Prop := forall il t s' t', okst t -> d_stmt il s t = Val (s', t') -> framed t t' /\ sref (renamed (fst t)) s s' /\ shaped s s'.
  (** the body [b'] of a declaration of [sym], which has become [sym'] *)
  Definition bref (rho : nat -> nat) (sym sym' : nat) (b b' : stmt) : Prop :=
    (forall E E' a a' v r, rok rho E E' -> vok a a' -> vexec b (vset E sym a) v = Val r -> vexec b' (vset E' sym' a') v = Val r) /\ async_syms b' = [] /\ as_closure b' = None.
  Lemma body_good b il sym t sym' t1 b' t2 : good_s b -> decl_step sym t sym' t1 -> okst t -> (sym < n0)%nat -> d_stmt il b t1 = Val (b', t2) ->
    framed t (exit_decls [(sym, fst t sym)] t2) /\ bref (renamed (fst t)) sym sym' b b'.
  Proof.
    intros G Sp O L M. destruct (G il t1 b' t2 (okst_step _ _ _ _ _ Sp O L) M) as (F & S & A & C & _). split; [exact (step_exit _ _ _ _ _ Sp F)|]. split; [|split; assumption].
    intros E E' a a' v r R Va. apply S. exact (rok_step _ _ _ _ _ _ _ _ Sp O L R Va).
  Qed.
  Lemma bref_framed t t' sym sym' b b' : framed t t' -> bref (renamed (fst t')) sym sym' b b' -> bref (renamed (fst t)) sym sym' b b'.
  Proof. intros F (B & C). split; [|exact C]. intros E E' a a' v r R. apply B. exact (rok_framed _ _ _ _ F R). Qed.
  Lemma own_ok b : vok (Buffer Own b) (Buffer Own b). Proof. apply vok_refl. Qed.

  Lemma bare_kept il e t e' t' : d_expr il e t = Val (e', t') -> bare e = false -> bare e' = false.
  Proof.
    intros M B. destruct e; cbn [d_expr] in M; repeat (apply bind_inv in M as (? & _ & M); repeat match type of M with (let '(_, _) := ?p in _) = _ => destruct p end); try (injection M as <- <-); try exact B; try reflexivity.
    unfold make_bin. destruct (_ && _); reflexivity.
  Qed.
  Lemma lets_good il l : Forall (fine n0) (map snd l) -> Forall (fun x => (x < n0)%nat) (map fst l) -> forall t l' e t', okst t -> d_lets il (d_expr il) l t = Val (l', e, t') ->
    okst t' /\ forall E E' E1, rok (renamed (fst t)) E E' -> vlets X H l E = Val E1 -> exists E1', vlets X H l' E' = Val E1' /\ rok (renamed (fst t')) E1 E1'.
  Proof.
    induction l as [|(s, v) l IH]; intros G B t l' e t' O M; cbn [d_lets map fst snd] in *; [injection M as <- <- <-; split; [exact O|]; intros E E' E1 R [= <-]; exists E'; auto|].
    inversion G as [|? ? Gv Gl]; subst. inversion B as [|? ? Bs Bl]; subst. apply bind_inv in M as ((v', t1) & Mv & M). destruct (expr_good n0 X H il v Gv t v' t1 O Mv) as (F1 & Dv & Sv).
    destruct (enter_step il s t1) as (s' & t2 & Qe & Sp & _). rewrite Qe in M. apply bind_inv in M as (((l1, e1), t3) & Ml & M). injection M as <- <- <-.
    pose proof (okst_framed _ _ _ F1 O) as O1. pose proof (okst_step _ _ _ _ _ Sp O1 Bs) as O2. destruct (IH Gl Bl t2 l1 e1 t3 O2 Ml) as (O3 & Sl). split; [exact O3|].
    intros E E' E1 R Q. cbn [vlets] in *. apply bind_inv in Q as (E2 & Q2 & Q).
    assert (W : exists E2', vlet X H E' s' v' = Val E2' /\ rok (renamed (fst t2)) E2 E2'); [|destruct W as (E2' & -> & W); cbn [bind]; exact (Sl _ _ _ W Q)].
    pose proof (rok_framed _ _ _ _ F1 R) as R1. destruct (bare v) eqn:Bv.
    - destruct v as [|y f d| | | | | |]; try discriminate. destruct f; try discriminate. cbn [d_expr] in Mv. injection Mv as <- <-. destruct Gv as (Ly & _ & _). cbn [below] in Ly. cbn [vlet] in *.
      pose proof (R y Ly) as Ry. destruct (E y) as [|z|k b] eqn:Ey, (E' (renamed (fst t) y)) as [|z'|k' b'] eqn:Ey'; cbn [vok] in Ry; try contradiction; injection Q2 as <-; eexists; (split; [reflexivity|]).
      + apply (rok_step s t); auto; exact Logic.I.
      + apply (rok_step s t); auto.
      + destruct Ry as (-> & _). apply (rok_step s t); auto; [|cbn; split; [reflexivity|discriminate]].
        intros u Lu. destruct (Nat.eq_dec u y) as [->|nu]; [rewrite !vset_same; cbn; split; [reflexivity|discriminate]|]. rewrite (vset_other _ _ _ _ nu), vset_other; [exact (R u Lu)|].
        intro Qu. apply nu. apply (proj2 (proj2 O)); auto.
    - rewrite vlet_num in * by (auto; eapply bare_kept; eauto). rewrite (Sv E E' (rok_like _ _ _ R)). apply bind_inv in Q2 as (z & -> & Q2). injection Q2 as <-. cbn [bind]. eexists. split; [reflexivity|].
      apply (rok_step s t1); auto. reflexivity.
  Qed.
  Lemma all_good il l : Forall (fun x => (x < n0)%nat) l -> NoDup l -> forall t l' e t', okst t -> enter_all il l t = (l', e, t') ->
    okst t' /\ (forall x, ~ In x l -> renamed (fst t') x = renamed (fst t) x) /\
    forall (P : nat -> Prop) E E' idx, (forall y, (y < n0)%nat -> P y -> vlike (E y) (E' (renamed (fst t) y))) ->
      forall y, (y < n0)%nat -> P y \/ In y l -> vlike (at_values E l idx y) (at_values E' l' idx (renamed (fst t') y)).
  Proof.
    induction l as [|x l IH]; intros B N t l' e t' O M; cbn [enter_all] in M.
    - injection M as <- <- <-. split; [exact O|]. split; [reflexivity|]. intros P E E' idx V y Ly [Py|[]]. exact (V y Ly Py).
    - inversion B as [|? ? Bx Bl]; subst. inversion N as [|? ? Nx Nl]; subst. destruct (enter_step il x t) as (x' & t1 & Qe & Sp & _). rewrite Qe in M. destruct (enter_all il l t1) as ((l1, e1), t2) eqn:Q. injection M as <- <- <-.
      pose proof (okst_step _ _ _ _ _ Sp O Bx) as O1. destruct (step_renamed _ _ _ _ Sp) as (R1 & R2). destruct (IH Bl Nl t1 l1 e1 t2 O1 Q) as (O2 & Rl & S). split; [exact O2|]. split.
      + intros u Nu. cbn [In] in Nu. rewrite Rl by tauto. apply R2. intros ->. tauto.
      + intros P E E' idx V y Ly Hy. cbn [at_values]. assert (Qx : renamed (fst t2) x = x') by (rewrite (Rl x Nx); exact R1).
        destruct (Nat.eq_dec y x) as [->|n].
        * rewrite Qx, !vset_same. destruct idx; reflexivity.
        * rewrite (vset_other _ _ _ _ n), vset_other by (rewrite <- Qx; intro Qy; apply n; apply (proj2 (proj2 O2)); auto).
          apply (S (fun u => P u /\ u <> x)); [|exact Ly|].
          -- intros u Lu (Pu & nu). rewrite (R2 u nu). exact (V u Lu Pu).
          -- destruct Hy as [Py|[q|Iy]]; [left; auto|congruence|right; exact Iy].
  Qed.

  Lemma ready_go l : (fix go (l : list stmt) := match l with [] => True | x :: l' => ready n0 x /\ go l' end) l -> Forall (ready n0) l.
  Proof. induction l as [|a l IH]; [constructor|]. intros (A & B). constructor; auto. Qed.
  Lemma ready_flat s : ready n0 s -> async_syms s = [] /\ as_closure s = None.
  Proof.
    intros P. split.
    - induction s as [|t ins outs sc|src sx dst dx pad|l s c IHs|l IHl|s w x st b IHs|s w e ds b IHs|s p e ds b IHs|s v b IHs|s v b IHs
      |s v l b IHs|s v d x b IHs|s v l b IHs|s v d x b IHs|s v p b IHs|s s1 s2 IHs1 IHs2|c] using stmt_ind'; cbn [ready async_syms] in *; try reflexivity; try contradiction; try (apply IHs; tauto).
      destruct P as (_ & _ & P). apply ready_go in P. clear -IHl P. induction IHl as [|y l Hy F IH]; [reflexivity|]. inversion P as [|? ? P1 P2]; subst. rewrite (Hy P1). exact (IH P2).
    - destruct s as [| | |? ? []| | | | | | | | | | | | |]; try reflexivity. destruct P as ([=] & _).
  Qed.
  Lemma list_good il l : Forall good_s l -> forall t l' t', okst t -> d_list il l t = Val (l', t') -> framed t t' /\ Forall2 (fun s s' => sref (renamed (fst t)) s s' /\ shaped s s') l l'.
  Proof.
    induction 1 as [|a l G _ IH]; intros t l' t' O M; cbn [d_list] in M; [injection M as <- <-; split; [apply framed_refl|constructor]|].
    apply bind_inv in M as ((a', t1) & Ma & M). apply bind_inv in M as ((l1, t2) & Ml & M). injection M as <- <-. destruct (G il t a' t1 O Ma) as (F1 & Sa).
    destruct (IH t1 l1 t2 (okst_framed _ _ _ F1 O) Ml) as (F2 & Sl). split; [eapply framed_trans; eassumption|]. constructor; [exact Sa|].
    clear -F1 Sl. induction Sl as [|u v l l' (Suv & Sh) F IH]; constructor; [split; [|exact Sh]|exact IH]. intros E E' w r R. apply Suv. exact (rok_framed _ _ _ _ F1 R).
  Qed.
  Lemma block_ref rho l l' : Forall (fun x => async_syms x = []) l -> Forall2 (fun s s' => sref rho s s' /\ shaped s s') l l' -> sref rho (SBlock l) (SBlock l').
  Proof.
    intros A F. induction F as [|x x' l l' (S & A' & _ & _) F IH]; intros E E' v r R G; [exact G|]. inversion A as [|? ? A1 A2]; subst. rewrite vexec_cons in *. apply bind_inv in G as ((z1, v1) & G1 & G).
    rewrite (S E E' v (z1, v1) R G1). cbn [bind]. destruct (z1 =? 0); [|exact G]. rewrite A1 in G. rewrite A'. exact (IH A2 E E' v1 r R G).
  Qed.
  Lemma loop_ref rho sym w i st b sym' w' i' st' b' : xsame rho w w' -> xint rho i i' -> xsame rho st st' -> async_syms b = [] -> as_closure b = None -> bref rho sym sym' b b' ->
    sref rho (SLoop sym w i st b) (SLoop sym' w' i' st' b').
  Proof.
    intros Sw Si Ss A C (B & A' & C') E E' v r R G. rewrite vexec_loop in *. rewrite A in G. rewrite A'. pose proof (rok_like _ _ _ R) as L.
    rewrite (proj2 Sw E E' L), (int_same _ _ _ _ _ Si L), (def_same _ _ _ _ _ _ Ss L). apply bind_inv in G as (k & -> & G). apply bind_inv in G as ((lo, hi) & -> & G). apply bind_inv in G as (stp & -> & G). cbn [bind].
    assert (Vin : forall s, as_closure s = None -> vinner s = vexec s) by (intros [| | |? ? []| | | | | | | | | | | | |]; try reflexivity; discriminate).
    destruct (stp =? 0); [discriminate|]. destruct (1 <? k).
    - apply bind_inv in G as (n & -> & G). cbn [bind]. destruct (n =? 0); [exact G|]. rewrite C in G. rewrite C'. cbn [vparallel bind] in *. rewrite (Vin b C) in G. rewrite (Vin b' C').
      pose proof (rok_share _ _ _ R) as Rs. assert (Hb : forall y v r, vexec b (vset (vshare E) sym (Num y)) v = Val r -> vexec b' (vset (vshare E') sym' (Num y)) v = Val r) by (intros; eapply B; eauto; reflexivity).
      destruct (n =? 1); [apply Hb; exact G|]. destruct (h_pool X H); [|discriminate]. refine (vpar_ref _ _ _ _ _ _ _ _ _ _ G). intros y v1 r1 G1. apply Hb. exact G1.
    - refine (vserial_ref _ _ _ _ _ _ _ _ _ _ _ G). intros y v1 r1 G1. eapply B; [exact R| |exact G1]. reflexivity.
  Qed.
  Lemma declared il b sym t q (k : nat -> stmt -> stmt) s' t' : good_s b -> okst t -> (sym < n0)%nat ->
    decl_step sym t (fst q) (snd q) -> (let '(sym', t1) := q in r <- d_stmt il b t1 ;; let '(b', t2) := r in Val (k sym' b', exit_decls [(sym, fst t sym)] t2)) = Val (s', t') ->
    exists b', s' = k (fst q) b' /\ framed t t' /\ bref (renamed (fst t)) sym (fst q) b b'.
  Proof.
    intros G O L Sp M. destruct q as (sym', t1). cbn [fst snd] in *. apply bind_inv in M as ((b', t2) & Mb & M). injection M as <- <-. exists b'. split; [reflexivity|].
    exact (body_good b il sym t sym' t1 b' t2 G Sp O L Mb).
  Qed.
  Lemma entered_step il x t : decl_step x t (fst (enter_decl il x t)) (snd (enter_decl il x t)).
  Proof. destruct (enter_step il x t) as (x' & t' & -> & Sp & _). exact Sp. Qed.
  Lemma shaped_plain s s' : async_syms s' = [] -> as_closure s' = None -> in_block s' = in_block s -> shaped s s'. Proof. repeat split; assumption. Qed.
  Lemma fine_frame e : fine n0 e -> lets_distinct e. Proof. intros (_ & D & _). exact D. Qed.
  Lemma each_framed il l t l' t' : Forall (fine n0) l -> each (d_expr il) l t = Val (l', t') -> framed t t'.
  Proof. intros F. apply each_frame. rewrite Forall_forall in *. intros e Ie. apply expr_frame. apply fine_frame. auto. Qed.

  Lemma stmt_good s : ready n0 s -> every_expr (fine n0) s -> good_s s.
  Proof.
    induction s as [|tg ins outs sc|src sx dst dx pad|l s c IHs|l IHl|s w x st b IHs|s w e ds b IHs|s p e ds b IHs|s v b IHs|s v b IHs
      |s v l b IHs|s v d x b IHs|s v l b IHs|s v d x b IHs|s v p b IHs|s s1 s2 IHs1 IHs2|c] using stmt_ind'; intros Rd Fi il t s' t' O M; try rewrite d_block in M; cbn [d_stmt ready every_expr] in *.
    - injection M as <- <-. split; [apply framed_refl|]. split; [intros E E' v r _ [=]|repeat split].
    - destruct Rd as (Ri & Ro). apply bind_inv in M as ((sc', t1) & M1 & M). injection M as <- <-. destruct (exprs_good il sc t sc' t1 Fi O M1) as (F & S). split; [exact F|]. split; [|repeat split].
      intros E E' v r R G. cbn [VSem_Spec.vexec] in *. apply bind_inv in G as (bi & G1 & G). apply bind_inv in G as (bo & G2 & G). apply bind_inv in G as (vs & G3 & G).
      rewrite (buffers_ok _ _ _ _ R Ri _ G1), (buffers_ok _ _ _ _ R Ro _ G2). cbn [bind]. rewrite (list_same _ _ _ _ _ S (rok_like _ _ _ R)), G3. exact G.
    - destruct Rd as (Ls & Ld & Lp & Lx & Nx). destruct (enter_all il dx t) as ((dx', e), t1) eqn:Q. apply bind_inv in M as ((sx', t2) & M1 & M). injection M as <- <-.
      destruct (all_good il dx Lx Nx t dx' e t1 O Q) as (O1 & _ & V). destruct (exprs_good il sx t1 sx' t2 Fi O1 M1) as (F & S).
      split; [exact (list_exit _ _ _ _ _ (all_step il dx Nx t dx' e t1 Q) F)|]. split; [|repeat split]. intros E E' v r R G. cbn [VSem_Spec.vexec] in *. apply bind_inv in G as (bs & G1 & G). apply bind_inv in G as (bd & G2 & G).
      apply bind_inv in G as (bp & G3 & G). rewrite (proj1 (buffer_ok _ _ _ _ _ R Ls G1)), (proj1 (buffer_ok _ _ _ _ _ R Ld G2)). cbn [bind].
      assert (Gp : match option_map (renamed (fst t)) pad with Some p => b <- vbuffer E' p ;; Val (Some b) | None => Val None end = Val bp).
      { destruct pad as [p|]; cbn [option_map]; [|exact G3]. apply bind_inv in G3 as (b & G3 & G4). rewrite (proj1 (buffer_ok _ _ _ _ _ R Lp G3)). exact G4. }
      rewrite Gp. cbn [bind]. injection G as <-. f_equal. f_equal. f_equal. apply copy_ext. intro idx. unfold vcoords. erewrite (list_same _ sx sx' (at_values E dx idx)); [reflexivity|exact S|].
      intros y Ly. apply (V (fun _ => True)); [|exact Ly|left; exact Logic.I]. intros u Lu _. exact (rok_like _ _ _ R u Lu).
    - destruct Rd as (-> & Ll & Nl & Rb). destruct Fi as (Fl & Fb). apply bind_inv in M as (((l', e), t1) & M1 & M). apply bind_inv in M as ((b', t2) & M2 & M). injection M as <- <-.
      destruct (lets_good il l Fl Ll t l' e t1 O M1) as (O1 & S). destruct (IHs Rb Fb il t1 b' t2 O1 M2) as (F & Sb & A & C & _).
      assert (St : list_step (map fst l) e t t1). { eapply lets_step; [|exact Nl|exact M1]. rewrite Forall_forall in *. intros u Iu. apply expr_frame. apply fine_frame. auto. }
      split; [exact (list_exit _ _ _ _ _ St F)|]. split; [|repeat split; exact A]. intros E E' v r R G. cbn [VSem_Spec.vexec] in *. apply bind_inv in G as (E1 & G1 & G).
      destruct (S E E' E1 R G1) as (E1' & -> & R1). cbn [bind]. exact (Sb _ _ _ _ R1 G).
    - destruct Rd as (Ln & Lb & Rl). apply ready_go in Rl. apply every_go_iff in Fi. apply bind_inv in M as ((l', t1) & M1 & M). injection M as <- <-.
      assert (Gl : Forall good_s l) by (rewrite Forall_forall in *; intros u Iu; apply IHl; auto). destruct (list_good il l Gl t l' t1 O M1) as (F & S). split; [exact F|].
      assert (B : forallb in_block l' = true /\ length l' = length l /\ Forall (fun x => async_syms x = []) l').
      { clear -S Lb. induction S as [|x x' l l' (_ & A & _ & B) S IH]; [repeat split; constructor|]. cbn [forallb length] in *. apply andb_true_iff in Lb as (B1 & B2). destruct (IH B2) as (I1 & I2 & I3). rewrite B, B1, I1, I2. repeat split. constructor; assumption. }
      destruct B as (B1 & B2 & B3). rewrite block_make_flat by (congruence || lia). split.
      + apply block_ref; [|exact S]. rewrite Forall_forall in *. intros u Iu. apply ready_flat. auto.
      + repeat split. cbn [async_syms]. clear -B3. induction B3 as [|x l A F IH]; [reflexivity|]. rewrite A. exact IH.
    - destruct Rd as (Ls & Rb). destruct Fi as (Fw & Fx & Fs & Fb). apply bind_inv in M as ((x', t1) & M1 & M). apply bind_inv in M as ((st', t2) & M2 & M). apply bind_inv in M as ((w', t3) & M3 & M).
      destruct (interval_good il x t x' t1 Fx O M1) as (F1 & S1). pose proof (okst_framed _ _ _ F1 O) as O1. destruct (expr_good n0 X H il st Fs t1 st' t2 O1 M2) as (F2 & S2). pose proof (okst_framed _ _ _ F2 O1) as O2.
      destruct (expr_good n0 X H il w Fw t2 w' t3 O2 M3) as (F3 & S3). pose proof (okst_framed _ _ _ F3 O2) as O3. pose proof (framed_trans _ _ _ F1 F2) as F12. pose proof (framed_trans _ _ _ F12 F3) as F13.
      apply (declared _ b s t3 _ (fun sym' => SLoop sym' w' x' st') s' t' (IHs Rb Fb) O3 Ls (entered_step il s t3)) in M as (b' & -> & F4 & B). split; [exact (framed_trans _ _ _ F13 F4)|].
      destruct (ready_flat b Rb) as (A & C). split; [|repeat split; apply B]. apply loop_ref; [exact (xsame_framed _ _ _ _ _ _ _ F12 S3)|exact S1|exact (xsame_framed _ _ _ _ _ _ _ F1 S2)|exact A|exact C|exact (bref_framed _ _ _ _ _ _ F13 B)].
    - destruct Rd as (Ls & Rb). destruct Fi as (Fe & Fd & Fb). apply bind_inv in M as ((e', t1) & M1 & M). apply bind_inv in M as ((ds', t2) & M2 & M).
      destruct (expr_good n0 X H il e Fe t e' t1 O M1) as (F1 & S1). pose proof (okst_framed _ _ _ F1 O) as O1. destruct (dims_good il ds Fd t1 ds' t2 O1 M2) as (F2 & S2). pose proof (okst_framed _ _ _ F2 O1) as O2. pose proof (framed_trans _ _ _ F1 F2) as F12.
      apply (declared _ b s t2 (s, declare s s t2) (fun sym' => SAllocate sym' w e' ds') s' t' (IHs Rb Fb) O2 Ls (keep_step s t2)) in M as (b' & -> & F4 & B). split; [exact (framed_trans _ _ _ F12 F4)|].
      split; [|repeat split; apply B]. intros E E' v r R G. cbn [VSem_Spec.vexec fst] in *. pose proof (rok_like _ _ _ R) as L. apply bind_inv in G as (es & G1 & G). apply bind_inv in G as (dl & G2 & G).
      rewrite (proj2 S1 E E' L), G1. cbn [bind]. rewrite (dims_same _ _ _ _ _ _ S2 (like_framed _ _ _ _ _ F1 L)), G2. cbn [bind]. refine (vallocate_ref _ _ _ _ _ _ _ _ _ _ _ G). intros n b0 v1 r1 G3.
      eapply (proj1 B); [exact (rok_framed _ _ _ _ F12 R)|apply vok_refl|exact G3].
    - destruct Rd as (Ls & Rb). destruct Fi as (Fp & Fe & Fd & Fb). apply bind_inv in M as ((p', t1) & M1 & M). apply bind_inv in M as ((e', t2) & M2 & M). apply bind_inv in M as ((ds', t3) & M3 & M).
      destruct (expr_good n0 X H il p Fp t p' t1 O M1) as (F1 & S1). pose proof (okst_framed _ _ _ F1 O) as O1. destruct (expr_good n0 X H il e Fe t1 e' t2 O1 M2) as (F2 & S2). pose proof (okst_framed _ _ _ F2 O1) as O2.
      destruct (dims_good il ds Fd t2 ds' t3 O2 M3) as (F3 & S3). pose proof (okst_framed _ _ _ F3 O2) as O3. pose proof (framed_trans _ _ _ F1 F2) as F12. pose proof (framed_trans _ _ _ F12 F3) as F13.
      destruct (rename_step il s t3) as (y & c & Qr & Sp & _). rewrite Qr in M.
      apply (declared _ b s t3 (y, declare s y (fst t3, c)) (fun sym' => SMake sym' p' e' ds') s' t' (IHs Rb Fb) O3 Ls Sp) in M as (b' & -> & F4 & B). split; [exact (framed_trans _ _ _ F13 F4)|].
      split; [|repeat split; apply B]. intros E E' v r R G. cbn [VSem_Spec.vexec fst] in *. pose proof (rok_like _ _ _ R) as L.
      rewrite (def_same _ _ _ _ _ _ S2 (like_framed _ _ _ _ _ F1 L)), (def_same _ _ _ _ _ _ S1 L), (dims_same _ _ _ _ _ _ S3 (like_framed _ _ _ _ _ F12 L)).
      apply bind_inv in G as (es & -> & G). apply bind_inv in G as (q & -> & G). apply bind_inv in G as (dl & -> & G). cbn [bind]. destruct (validate_buffer _); [|exact G].
      eapply (proj1 B); [exact (rok_framed _ _ _ _ F13 R)|apply vok_refl|exact G].
    - destruct Rd as (Ls & Rb). apply (declared _ b s t _ (fun sym' => SConst sym' v) s' t' (IHs Rb Fi) O Ls (entered_step il s t)) in M as (b' & -> & F4 & B). split; [exact F4|].
      split; [|repeat split; apply B]. intros E E' v0 r R G. cbn [VSem_Spec.vexec] in *. apply bind_inv in G as (q & -> & G). cbn [bind]. eapply (proj1 B); [exact R|apply vok_refl|exact G].
    - destruct Rd as (Ls & Lv & Rb). apply (declared _ b s t _ (fun sym' => SClone sym' (renamed (fst t) v)) s' t' (IHs Rb Fi) O Ls (entered_step il s t)) in M as (b' & -> & F4 & B). split; [exact F4|].
      split; [|repeat split; apply B]. intros E E' v0 r R G. cbn [VSem_Spec.vexec] in *. apply bind_inv in G as (q & G1 & G). rewrite (proj1 (buffer_ok _ _ _ _ _ R Lv G1)). cbn [bind].
      eapply (proj1 B); [exact R|apply vok_refl|exact G].
    - destruct Rd as (Ls & Lv & Rb). destruct Fi as (Fl & Fb). apply bind_inv in M as ((l', t1) & M1 & M).
      assert (F1 : framed t t1). { eapply crops_frame; [|exact M1]. rewrite Forall_forall in *. intros i Ii. apply fine_distinct. auto. } pose proof (okst_framed _ _ _ F1 O) as O1.
      pose proof (entered_step il s t1) as Sp. apply (declared _ b s t1 _ (fun sym' => SCropBuffer sym' (renamed (fst t) v) l') s' t' (IHs Rb Fb) O1 Ls Sp) in M as (b' & -> & F4 & B). split; [exact (framed_trans _ _ _ F1 F4)|].
      split; [|repeat split; apply B]. intros E E' v0 r R G. cbn [VSem_Spec.vexec] in *. apply bind_inv in G as (q & G1 & G). apply bind_inv in G as ([] & G2 & G). apply bind_inv in G as (q' & G3 & G).
      destruct (buffer_ok _ _ _ _ _ R Lv G1) as (-> & k & Ek). cbn [bind]. pose proof (rok_framed _ _ _ _ F1 R) as R1. rewrite (renamed_eq (fst t1) (fst t) v) in * by (symmetry; apply F1).
      rewrite (in_place_ok _ _ _ _ _ _ _ _ Sp O1 Ls Lv R1 G1 G2). cbn [bind].
      rewrite (crops_good il (renamed (fst t1) v) l Fl 0 t l' t1 E E' k q q q' O M1 (rok_like _ _ _ R) Ek (fun _ _ => eq_refl) G3). cbn [bind]. eapply (proj1 B); [exact R1|apply vok_refl|exact G].
    - destruct Rd as (Ls & Lv & Rb). destruct Fi as (Fl & Fb). apply bind_inv in M as ((l', t1) & M1 & M).
      pose proof (crop_frame il _ d x (fine_distinct x Fl) _ _ _ M1) as F1. pose proof (okst_framed _ _ _ F1 O) as O1.
      pose proof (entered_step il s t1) as Sp. apply (declared _ b s t1 _ (fun sym' => SCropDim sym' (renamed (fst t) v) d l') s' t' (IHs Rb Fb) O1 Ls Sp) in M as (b' & -> & F4 & B). split; [exact (framed_trans _ _ _ F1 F4)|].
      split; [|repeat split; apply B]. intros E E' v0 r R G. cbn [VSem_Spec.vexec] in *. apply bind_inv in G as (q & G1 & G). apply bind_inv in G as ([] & G2 & G). apply bind_inv in G as (q' & G3 & G).
      destruct (buffer_ok _ _ _ _ _ R Lv G1) as (-> & k & Ek). cbn [bind]. pose proof (rok_framed _ _ _ _ F1 R) as R1. rewrite (renamed_eq (fst t1) (fst t) v) in * by (symmetry; apply F1).
      rewrite (in_place_ok _ _ _ _ _ _ _ _ Sp O1 Ls Lv R1 G1 G2). cbn [bind].
      rewrite (crop_good il (renamed (fst t1) v) d x t l' t1 E E' k q q q' Fl O M1 (rok_like _ _ _ R) Ek eq_refl G3). cbn [bind]. eapply (proj1 B); [exact R1|apply vok_refl|exact G].
    - destruct Rd as (Ls & Lv & Rb). destruct Fi as (Fl & Fb). apply bind_inv in M as ((l', t1) & M1 & M). destruct (exprs_good il l t l' t1 Fl O M1) as (F1 & S1). pose proof (okst_framed _ _ _ F1 O) as O1.
      apply (declared _ b s t1 _ (fun sym' => SSliceBuffer sym' (renamed (fst t) v) l') s' t' (IHs Rb Fb) O1 Ls (entered_step il s t1)) in M as (b' & -> & F4 & B). split; [exact (framed_trans _ _ _ F1 F4)|].
      split; [|repeat split; apply B]. intros E E' v0 r R G. cbn [VSem_Spec.vexec] in *. apply bind_inv in G as (q & G1 & G). apply bind_inv in G as (q' & G2 & G).
      rewrite (proj1 (buffer_ok _ _ _ _ _ R Lv G1)). cbn [bind]. rewrite (slice_same _ _ _ _ (rok_like _ _ _ R) _ _ _ S1), G2. cbn [bind]. eapply (proj1 B); [exact (rok_framed _ _ _ _ F1 R)|apply vok_refl|exact G].
    - destruct Rd as (Ls & Lv & Rb). destruct Fi as (Fl & Fb). apply bind_inv in M as ((l', t1) & M1 & M). destruct (expr_good n0 X H il x Fl t l' t1 O M1) as (F1 & S1). pose proof (okst_framed _ _ _ F1 O) as O1.
      apply (declared _ b s t1 _ (fun sym' => SSliceDim sym' (renamed (fst t) v) d l') s' t' (IHs Rb Fb) O1 Ls (entered_step il s t1)) in M as (b' & -> & F4 & B). split; [exact (framed_trans _ _ _ F1 F4)|].
      split; [|repeat split; apply B]. intros E E' v0 r R G. cbn [VSem_Spec.vexec] in *. apply bind_inv in G as (q & G1 & G). apply bind_inv in G as (q' & G2 & G).
      rewrite (proj1 (buffer_ok _ _ _ _ _ R Lv G1)). cbn [bind].
      assert (Q : vslice_dim X H E' q d l' = Val q') by (unfold vslice_dim in *; rewrite (proj2 S1 E E' (rok_like _ _ _ R)); exact G2). rewrite Q. cbn [bind].
      eapply (proj1 B); [exact (rok_framed _ _ _ _ F1 R)|apply vok_refl|exact G].
    - destruct Rd as (Ls & Lv & Tr & Rb). pose proof (entered_step il s t) as Sp. apply (declared _ b s t _ (fun sym' => STranspose sym' (renamed (fst t) v) p) s' t' (IHs Rb Fi) O Ls Sp) in M as (b' & -> & F4 & B). split; [exact F4|].
      split; [|repeat split; apply B]. intros E E' v0 r R G. cbn [VSem_Spec.vexec] in *. apply bind_inv in G as (q & G1 & G). rewrite (proj1 (buffer_ok _ _ _ _ _ R Lv G1)). cbn [bind].
      destruct ((s =? v)%nat && is_truncate p) eqn:T1; [apply andb_true_iff in T1 as (T1 & T2); apply Nat.eqb_eq in T1; rewrite (Tr T1) in T2; discriminate|].
      destruct ((fst (enter_decl il s t) =? renamed (fst t) v)%nat && is_truncate p) eqn:T2.
      { apply andb_true_iff in T2 as (T2 & T3). apply Nat.eqb_eq in T2. destruct (not_in_place _ _ _ _ _ Sp O Ls Lv T2) as (Q & _). rewrite (Tr Q) in T3. discriminate. }
      eapply (proj1 B); [exact R|apply vok_refl|exact G].
    - destruct Rd.
    - apply bind_inv in M as ((c', t1) & M1 & M). injection M as <- <-. destruct (expr_good n0 X H il c Fi t c' t1 O M1) as (F & S). split; [exact F|]. split; [|repeat split].
      assert (N : frees c = None /\ frees c' = None).
      { assert (N' : forall a ts, c' <> ECall i_free a ts).
        { intros a ts ->. destruct c; cbn [d_expr] in M1; repeat (apply bind_inv in M1 as (? & ? & M1); repeat match type of M1 with (let '(_, _) := ?p in _) = _ => destruct p end); try discriminate.
          - injection M1 as M1 _. unfold make_bin in M1. destruct (_ && _) in M1; discriminate.
          - injection M1 as -> -> _ _. exact (Rd _ _ eq_refl). }
        assert (Nf : forall c, (forall a ts, c <> ECall i_free a ts) -> frees c = None) by (intros [| | | | | |[] ? ?|] N; try reflexivity; destruct (N _ _ eq_refl)). split; apply Nf; assumption. }
      intros E E' v r R G. rewrite vexec_check in *. rewrite (proj1 N) in G. rewrite (proj2 N), (proj2 S E E' (rok_like _ _ _ R)). exact G.
  Qed.
End Stmts.
