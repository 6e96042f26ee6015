(** Proofs for C55: the statement that comes out runs the same. *)
From Coq Require Import ZArith List Bool Lia Sorted.
From Verif Require Import Arith_Model Arith_Proofs Buf_Model Alloc_Model Expr_Model Expr_Spec Expr_Proofs Stmt_Model Stmt_Spec Stmt_Proofs Simplify_Model Simplify_Proofs Deps_Model Deps_Spec
  Deps_Proofs Deps_Props Subst_Model Subst_Spec SubstMean_Proofs SubstEval_Proofs Subst_Props StmtSubst_Model StmtSubst_Spec VSem_Spec VMono_Proofs VExec_Proofs VRef_Proofs StmtSubst_Proofs StmtSubst2_Proofs StmtSubst3_Proofs
  StmtSubst_Props OptSym_Model OptSym_Spec OptSym_Proofs.
Import ListNotations.
Open Scope Z_scope.

Section Main.
  Variable X : Type.
  Variable H : host X.
  Variable call_v : nat -> list buf -> list buf -> list Z -> X -> Z * X.
  Variable copy_v : buf -> buf -> option buf -> (list Z -> option (list Z)) -> X -> X.
  Variable consts : Z -> option buf.
  Notation veval := (veval X H).
  Notation vexec := (vexec X H call_v copy_v consts).
  Notation ref := (ref X H call_v copy_v consts).
  Variable B : nat -> Prop.

  Record sound (P : nat -> Prop) (s : stmt) : Prop := {
    so_plain : plain_stmt s;
    so_fresh : fresh_decls B P s;
    so_fine : every_expr (fine B) s;
    so_free : forall y, free_stmt y s -> P y;
    so_distinct : distinct s;
    so_value : by_value s }.

  Lemma no_clone y s : B y -> plain_stmt s -> forall P : nat -> Prop, fresh_decls B P s -> ~ cloned y s.
  Proof.
    intros By. induction s as [|t ins outs sc|src sx dst dx pad|l s c IHs|l IHl|s w i st b IHs|s w e ds b IHs|s p e ds b IHs|s v b IHs|s v b IHs
      |s v l b IHs|s v d i b IHs|s v l b IHs|s v d i b IHs|s v p b IHs|s s1 s2 IHs1 IHs2|c] using stmt_ind'; cbn [plain_stmt fresh_decls cloned]; intros Pl P Fr K; try contradiction.
    all: try (assert (Kb : cloned y b) by tauto; refine (IHs Pl _ _ Kb); apply Fr; fail).
    - destruct Pl as (_ & Pl), K as (_ & K). revert P Fr. induction l as [|(t, v) l IH]; intros P Fr; cbn [fresh_lets] in Fr; [exact (IHs Pl P Fr K)|]. exact (IH (also P t) (proj2 (proj2 Fr))).
    - destruct Pl as (_ & _ & Pl). apply plain_go in Pl. apply fresh_go in Fr. induction IHl as [|a l Ha _ IH]; [exact K|]. inversion Pl as [|? ? Pl1 Pl2]; inversion Fr as [|? ? Fr1 Fr2]; subst. destruct K as [K|K]; [exact (Ha Pl1 P Fr1 K)|exact (IH Pl2 Fr2 K)].
    - destruct K as [K|(_ & K)]; [subst v; tauto|]. refine (IHs Pl _ _ K). apply Fr.
  Qed.

  (** ** Renaming *)
  Lemma rename P b sym src : sound (also P sym) b -> P src -> ~ P sym -> B sym -> B src -> ~ free_stmt src b ->
    exists b1, substitute_stmt b sym (EVar src f_none 0) = Val b1 /\ sound (also P sym) b1 /\ stmt_size b1 = stmt_size b /\
      (forall y, y <> sym -> free_stmt y b -> free_stmt y b1) /\ (forall y, free_stmt y b1 -> free_stmt y b \/ y = src) /\
      forall E q v r, vexec b (vset E sym (Buffer Own q)) v = Val r -> vexec b1 (vset (vset E src (Buffer Own q)) sym Undef) v = Val r.
  Proof.
    intros [Pl Fr Fi Fe Di Va] Ps Ns Bs Bz Nf. set (rep := EVar src f_none 0). assert (Nz : src <> sym) by (intros ->; contradiction).
    assert (Ab : every_expr plain_heads b) by (eapply every_impl; [|exact Fi]; intros e (_ & _ & K); exact K).
    destruct (C54_defined b sym rep Ab) as (b1 & M); [left; exists src, 0; reflexivity|]. exists b1. split; [exact M|].
    unfold substitute_stmt in M. assert (Iv : is_var rep sym = false) by (cbn; apply Nat.eqb_neq; exact Nz). rewrite Iv in M.
    destruct (every_substitutable sym src B Bs Bz b (also P sym) Pl (or_introl eq_refl) (or_intror Ps) Fr Fi) as (C1 & C2 & C3).
    destruct (kept_stmt sym src Nz B Bs Bz b Pl (also P sym) (or_introl eq_refl) (or_intror Ps) Fr Fi Nf b1 M) as (K1 & K2 & K3 & K4).
    destruct (sub_plain sym rep b Pl b1 M) as (P1 & P2). destruct (keep_stmt sym rep I b Pl C2 Di Va b1 M) as (D1 & V1).
    pose proof (fun y => from_stmt sym src y b Pl b1 M) as Fb. split; [|split; [exact K3|split; [exact K4|split; [exact Fb|]]]].
    - split; auto. intros y Fy. destruct (Fb y Fy) as [J|J]; [exact (Fe y J)|subst y; right; exact Ps].
    - intros E q v r G. refine (sub_ref X H call_v copy_v consts sym rep eq_refl _ b Pl C1 C3 b1 C2 M _ _ v r _ G); [discriminate|]. intros y Fy. destruct (Nat.eq_dec y sym) as [->|n].
      + rewrite vset_same, sub_same. subst rep. cbn [vmatch]. rewrite (vset_other _ _ _ _ Nz), vset_same. exists Own. split; [reflexivity|]. split; [discriminate|auto].
      + rewrite (vset_other _ _ _ _ n), (sub_other _ _ _ n). cbn [vmatch]. rewrite (vset_other _ _ _ _ n). assert (ns : y <> src) by (intros ->; contradiction). rewrite (vset_other _ _ _ _ ns).
        destruct (E y) as [| |k q0]; auto. exists k. split; [reflexivity|]. split; [auto|]. intros [[]|(_ & A)]. exact A.
  Qed.

  Definition owned (m : mutables) : nat -> Prop := fun x => m x = true.
  Record done (P : nat -> Prop) (m : mutables) (s s' : stmt) (m' : mutables) : Prop := {
    do_ref : ref no_syms (owned m) id_sub s s';
    do_free : forall y, free_stmt y s -> free_stmt y s';
    do_async : async_syms s' = [];
    do_closure : as_closure s' = None;
    do_block : in_block s' = in_block s;
    do_map : forall x, P x -> m' x = m x;
    do_muts : forall x, m' x = true -> B x;
    do_distinct : distinct s';
    do_value : by_value s' }.
  Record place (P : nat -> Prop) (m : mutables) (sym src : nat) (b b2 : stmt) (m' : mutables) : Prop := {
    pl_run : forall (D : nat -> Prop) E E' q v r, envs X H no_syms (owned m) D id_sub E E' -> (forall x, free_stmt x b -> x <> sym -> D x) ->
      vexec b (vset E sym (Buffer Own q)) v = Val r -> vexec b2 (vset E' src (Buffer Own q)) v = Val r;
    pl_free : forall y, y <> sym -> free_stmt y b -> free_stmt y b2;
    pl_async : async_syms b2 = [];
    pl_map : forall x, P x -> m' x = m x;
    pl_muts : forall x, m' x = true -> B x;
    pl_distinct : distinct b2;
    pl_value : by_value b2 }.
  Lemma mset_same m s b : mset m s b s = b. Proof. unfold mset. rewrite Nat.eqb_refl. reflexivity. Qed.
  Lemma mset_other m s b x : x <> s -> mset m s b x = m x. Proof. intros n. unfold mset. apply Nat.eqb_neq in n. rewrite n. reflexivity. Qed.
  Lemma mset_muts (m : mutables) s b : (forall x, m x = true -> B x) -> B s -> forall x, mset m s b x = true -> B x.
  Proof. intros Hm Bs x. destruct (Nat.eq_dec x s) as [->|n]; [intros _; exact Bs|rewrite (mset_other _ _ _ _ n); apply Hm]. Qed.

  Variable proves_serial : expr -> bool.
  Hypothesis serial_sound : forall w, proves_serial w = true -> forall E k, veval E w = Val k -> k <= 1.
  Notation reuse := (reuse proves_serial).

  Section Step.
    Variable n : nat.
    Hypothesis IH : forall P m s, (stmt_size s <= n)%nat -> sound P s -> (forall x, m x = true -> B x) -> exists s' m', reuse n m s = Val (s', m') /\ done P m s s' m'.
    Lemma mutator_ok (P : nat -> Prop) m sym src b (make : nat -> stmt -> stmt) : (stmt_size b <= n)%nat -> sound (also P sym) b -> ~ P sym -> P src -> B sym -> (forall x, m x = true -> B x) ->
      exists sym' b2 m2, (r <- (if m src && negb (any_flag (depends_on_stmt b src)) then b' <- substitute_stmt b sym (EVar src f_none 0) ;; Val (src, b') else Val (sym, b)) ;;
          let '(sym', b') := r in r <- reuse n (mset m sym true) b' ;; let '(b2, m2) := r in Val (make sym' b2, m2)) = Val (make sym' b2, m2) /\
        ((sym' = sym /\ done (also P sym) (mset m sym true) b b2 m2) \/ (sym' = src /\ m src = true /\ ~ free_stmt src b /\ place P m sym src b b2 m2)).
    Proof.
      intros Le So Ns Ps Bs Hm. destruct (m src && negb (any_flag (depends_on_stmt b src))) eqn:Q.
      - apply andb_true_iff in Q as (Q1 & Q2). apply negb_true_iff in Q2. pose proof (Hm _ Q1) as Bz.
        assert (Nf : ~ free_stmt src b) by (apply depends_stmt_free; [exact Q2|]; destruct So; eapply no_clone; eauto).
        destruct (rename P b sym src So Ps Ns Bs Bz Nf) as (b1 & M & So1 & Sz & Fr1 & Fr2 & R). rewrite M. cbn [bind].
        destruct (IH (also P sym) (mset m sym true) b1) as (b2 & m2 & Re & Do); [lia|exact So1|apply mset_muts; assumption|]. rewrite Re. cbn [bind]. exists src, b2, m2. split; [reflexivity|]. right.
        split; [reflexivity|]. split; [exact Q1|]. split; [exact Nf|]. destruct Do as [D1 D2 D3 D4 D5 D6 D7 D8 D9]. split; auto.
        + intros D E E' q v r V Hd G. specialize (R E q v r G). refine (D1 _ _ v r _ R). intros x Fx. unfold id_sub. cbn [vmatch].
          destruct (Nat.eq_dec x sym) as [->|nx]; [rewrite vset_same; exact I|]. rewrite (vset_other _ _ _ _ nx). destruct (Nat.eq_dec x src) as [->|ns].
          * rewrite !vset_same. exists Own. split; [reflexivity|]. split; [discriminate|reflexivity].
          * rewrite !(vset_other _ _ _ _ ns). destruct (Fr2 x Fx) as [Fb|Fb]; [|contradiction]. specialize (V x (Hd x Fb nx)). unfold id_sub in V. cbn [vmatch] in V. destruct (E x); auto.
            destruct V as (k' & V1 & V2 & V3). exists k'. split; [exact V1|]. split; [exact V2|]. unfold owned in *. rewrite (mset_other _ _ _ _ nx). exact V3.
        + intros x Px. rewrite D6 by (right; exact Px). apply mset_other. intros ->. contradiction.
      - cbn [bind]. destruct (IH (also P sym) (mset m sym true) b) as (b2 & m2 & Re & Do); [exact Le|exact So|apply mset_muts; assumption|]. rewrite Re. cbn [bind]. exists sym, b2, m2. split; [reflexivity|]. left. auto.
    Qed.

    Lemma id_on (D : nat -> Prop) : same_on D id_sub. Proof. intros y _. exists 0. reflexivity. Qed.
    Lemma id_upd s x : upd id_sub s s x = id_sub x. Proof. destruct (Nat.eq_dec x s) as [->|k]; [apply upd_same|apply upd_other, k]. Qed.
    Lemma under (own : nat -> Prop) s b b' : ref no_syms own id_sub b b' -> ref no_syms own (upd id_sub s s) b b'.
    Proof. intros R. eapply ref_weaken; [exact R|auto|auto|]. intros x _. symmetry. apply id_upd. Qed.
    Lemma id_scoped (own own' : nat -> Prop) s b : (forall x, free_stmt x b -> x <> s -> own' x -> own x) -> scoped no_syms no_syms own own' id_sub s s b.
    Proof. intros G x Fx k. split; [|split; [auto|auto]]. intros (ro & O). cbn in O. destruct O. congruence. Qed.
    Lemma mset_scoped (m : mutables) s b t : scoped no_syms no_syms (owned m) (owned (mset m s t)) id_sub s s b.
    Proof. apply id_scoped. intros x _ k. unfold owned. rewrite (mset_other _ _ _ _ k). auto. Qed.
    Lemma set_map (P : nat -> Prop) m s t (m' : mutables) : ~ P s -> (forall x, also P s x -> m' x = mset m s t x) -> forall x, P x -> m' x = m x.
    Proof. intros Ns G x Px. rewrite G by (right; exact Px). apply mset_other. intros ->. contradiction. Qed.

    Lemma alone_in_place (D : nat -> Prop) m E E' v q : envs X H no_syms (owned m) D id_sub E E' -> D v -> m v = true -> vbuffer E v = Val q -> in_place E' v v = Val tt.
    Proof.
      intros V Dv Mv G. unfold in_place. rewrite Nat.eqb_refl. specialize (V v Dv). unfold id_sub in V. cbn [vmatch] in V. unfold vbuffer in G. destruct (E v) as [| |k q0]; try discriminate. destruct V as (k' & -> & _ & V).
      specialize (V (or_introl Mv)). destruct k' as ([] & bl); [reflexivity|discriminate].
    Qed.
    Lemma step s : forall (P : nat -> Prop) m, (stmt_size s <= S n)%nat -> sound P s -> (forall x, m x = true -> B x) -> exists s' m', reuse (S n) m s = Val (s', m') /\ done P m s s' m'.
    Proof.
      destruct s as [|t ins outs sc|src sx dst dx pad|l s c|l|s w i st b|s w e ds b|s p e ds b|s v b|s v b|s v l b|s v d i b|s v l b|s v d i b|s v p b|s s1 s2|c];
        intros P m Le [Pl Fr Fi Fe Di Va] Hm; cbn [plain_stmt] in Pl; try contradiction; cbn [OptSym_Model.reuse].
      all: cbn [fresh_decls every_expr free_stmt distinct by_value stmt_size] in *.
      all: try (assert (Sb : sound (also P s) b) by (split; [tauto|tauto|tauto| |tauto|tauto]; intros y Fy; destruct (Nat.eq_dec y s) as [->|k]; [left; reflexivity|right; apply Fe; assert (s <> y) by congruence; tauto]);
                assert (Lb : (stmt_size b <= n)%nat) by lia).
      - exists SUndef, m. split; [reflexivity|]. split; auto; [apply ref_undef].
      - exists (SCall t ins outs sc), m. split; [reflexivity|]. split; auto.
        apply ref_call; [eapply names_same; [apply (id_on (fun _ => True))|auto]..|apply erefs_same, id_on].
      - (* let *)
        destruct Pl as (-> & Pl), Fi as (Fi1 & Fi2), Di as (Di1 & Di2 & Di3), Va as (Va1 & Va2).
        assert (G : forall (l : list (nat * expr)) (P : nat -> Prop) b', fresh_lets B P l (fun P' => fresh_decls B P' s) -> (forall y, in_lets (free y) y l (free_stmt y s) -> P y) ->
          exists P' : nat -> Prop, (forall x, P x -> P' x) /\ fresh_decls B P' s /\ (forall y, free_stmt y s -> P' y) /\
            (ref no_syms (owned m) id_sub s b' -> (forall y, free_stmt y s -> free_stmt y b') -> ref no_syms (owned m) id_sub (SLet l s false) (SLet l b' false) /\
               forall y, in_lets (free y) y l (free_stmt y s) -> in_lets (free y) y l (free_stmt y b'))).
        { clear -Hm. intros l. induction l as [|(t, v) l IHl]; intros P b' Fr Fe; cbn [fresh_lets in_lets] in *.
          - exists P. split; [auto|]. split; [exact Fr|]. split; [exact Fe|]. intros R F. split; [apply ref_let_nil; exact R|exact F].
          - destruct Fr as (Nt & Fv & Fr). destruct (IHl (also P t) b' Fr) as (P' & J1 & J2 & J3 & J4).
            { intros y Fy. destruct (Nat.eq_dec y t) as [->|k]; [left; reflexivity|right; apply Fe; right; split; [congruence|exact Fy]]. }
            exists P'. split; [intros x Px; apply J1; right; exact Px|]. split; [exact J2|]. split; [exact J3|]. intros R F. destruct (J4 R F) as (J5 & J6). split; [|intros y [Fy|(k & Fy)]; [left; exact Fy|right; auto]].
            assert (Sc : scoped no_syms no_syms (owned m) (owned m) id_sub t t (SLet l s false)) by (apply id_scoped; auto).
            destruct (bare v) eqn:Bv.
            + destruct v as [|y f d| | | | | |]; try discriminate. destruct f; try discriminate. apply ref_let_index with (d := 0). change (EVar y f_none 0) with (id_sub y).
              eapply (ref_let_bare X H call_v copy_v consts no_syms no_syms (owned m) (owned m) id_sub t y 0 (id_sub y)); [reflexivity|exact Sc|intros O; apply (proj2 Fv), Hm, O|intros O; apply (proj1 Fv), Hm, O| |apply under; exact J5].
              intros y' d' z Q _ _ nz (d2 & Q2). unfold id_sub in Q, Q2. injection Q as -> _. injection Q2 as -> _. contradiction.
            + eapply ref_let_num; [exact Bv|exact Bv|apply eref_same, id_on|exact Sc|apply under; exact J5]. }
        destruct (G l P s Fr Fe) as (P' & J1 & J2 & J3 & _).
        destruct (IH P' m s) as (b' & m' & Re & [D1 D2 D3 D4 D5 D6 D7 D8 D9]); [lia|split; assumption|exact Hm|]. rewrite Re. cbn [bind]. exists (SLet l b' false), m'. split; [reflexivity|].
        destruct (G l P b' Fr Fe) as (P2 & _ & _ & _ & J4). destruct (J4 D1 D2) as (J5 & J6). split; cbn [free_stmt distinct by_value]; auto.
      - (* block *)
        destruct Pl as (L & Bl & Pl). apply plain_go in Pl. apply fresh_go in Fr. apply every_go_iff in Fi. apply distinct_go in Di. apply by_value_go in Va.
        assert (G : forall m0, (forall x, P x -> m0 x = m x) -> (forall x, m0 x = true -> B x) -> exists l' m', reuse_list (reuse n) m0 l = Val (l', m') /\
           Forall2 (ref no_syms (owned m) id_sub) l l' /\ (forall y, Exists (free_stmt y) l -> Exists (free_stmt y) l') /\ Forall (fun x => async_syms x = []) l' /\ (length l' = length l /\ forallb in_block l' = forallb in_block l) /\
           (forall x, P x -> m' x = m x) /\ (forall x, m' x = true -> B x) /\ Forall distinct l' /\ Forall by_value l').
        { clear L Bl. assert (Fe' : Forall (fun a => forall y, free_stmt y a -> P y) l) by (apply Forall_forall; intros a Ia y Fy; apply Fe, free_go; apply Exists_exists; exists a; auto). clear Fe.
          induction l as [|a l IHl]; intros m0 E0 B0; cbn [reuse_list].
          - exists [], m0. split; [reflexivity|]. split; [constructor|]. split; [auto|]. split; [constructor|]. split; [auto|]. split; [exact E0|]. split; [exact B0|]. split; constructor.
          - inversion Pl as [|? ? Pl1 Pl2]; inversion Fr as [|? ? Fr1 Fr2]; inversion Fi as [|? ? Fi1 Fi2]; inversion Di as [|? ? Di1 Di2]; inversion Va as [|? ? Va1 Va2]; inversion Fe' as [|? ? Fe1 Fe2]; subst.
            destruct (IH P m0 a) as (a' & m1 & Re & [D1 D2 D3 D4 D5 D6 D7 D8 D9]); [lia|split; assumption|exact B0|]. rewrite Re. cbn [bind].
            destruct (IHl ltac:(lia) Pl2 Fr2 Fi2 Di2 Va2 Fe2 m1) as (l' & m2 & Rl & J1 & J2 & J3 & (J4 & J4') & J5 & J6 & J7 & J8); [intros x Px; rewrite D6 by exact Px; apply E0, Px|exact D7|]. rewrite Rl. cbn [bind].
            exists (a' :: l'), m2. split; [reflexivity|]. split; [constructor; [|exact J1]|].
            { eapply ref_weaken; [exact D1|auto| |auto]. intros x Fx. unfold owned. rewrite (E0 x (Fe1 x Fx)). auto. }
            split; [intros y E; inversion E; subst; [left|right]; auto|]. split; [constructor; auto|]. split; [split; cbn [length forallb]; congruence|]. auto. }
        destruct (G m (fun x _ => eq_refl) Hm) as (l' & m' & Re & J1 & J2 & J3 & (J4 & J4') & J5 & J6 & J7 & J8). rewrite Re. cbn [bind]. rewrite block_make_flat by congruence. exists (SBlock l'), m'. split; [reflexivity|].
        split; auto.
        + apply ref_block; [exact J1| |exact J3]. eapply Forall_impl; [|exact Pl]. intros a Pa. apply plain_async, Pa.
        + intros y Fy. apply free_go. apply J2, free_go, Fy.
        + cbn [async_syms]. clear -J3. induction J3 as [|a l' A _ IH]; [reflexivity|]. rewrite A, IH. reflexivity.
        + apply distinct_go, J7.
        + apply by_value_go, J8.
      - (* loop *)
        destruct Fr as (Fr1 & Fr2 & Fr3), Fi as (Fi1 & Fi2 & Fi3 & Fi4), Di as (Di1 & Di2 & Di3 & Di4). destruct (proves_serial w) eqn:Ps.
        + destruct (IH (also P s) m b Lb Sb Hm) as (b' & m' & Re & [D1 D2 D3 D4 D5 D6 D7 D8 D9]). rewrite Re. cbn [bind]. exists (SLoop s w i st b'), m'. split; [reflexivity|]. split; cbn [free_stmt distinct by_value]; auto.
          * apply ref_loop with (K' := no_syms) (own' := owned m); auto using eref_same, id_on, oref_same, plain_async, plain_closure_none; [apply id_scoped; auto|apply under; exact D1|left; exact (serial_sound w Ps)].
          * intros y [F|[F|[F|(k & F)]]]; auto 8.
          * intros x Px. apply D6. right. exact Px.
        + destruct (IH (also P s) (fun _ => false) b Lb Sb ltac:(discriminate)) as (b' & m' & Re & [D1 D2 D3 D4 D5 D6 D7 D8 D9]). rewrite Re. cbn [bind fst]. exists (SLoop s w i st (hand_on b')), m. split; [reflexivity|].
          split; auto; unfold hand_on.
          * apply ref_loop_closure; auto using eref_same, id_on, oref_same, plain_async, plain_closure_none; [intros x Fx; apply C17_find_dependencies_stmt; auto|].
            eapply ref_weaken; [exact D1|auto|discriminate|auto].
          * cbn [free_stmt]. intros y [F|[F|[F|(k & F)]]]; auto 8. right. right. right. split; [exact k|]. specialize (D2 y F). clear -D2. induction (find_dependencies_stmt b') as [|z l IHl]; cbn [map in_lets]; [exact D2|].
            destruct (Nat.eq_dec y z) as [->|nz]; [left; exists (RField f_none); cbn; auto|right; auto].
          * cbn [distinct]. repeat (split; [assumption|]). split; [|split; [|exact D8]].
            { rewrite map_map. cbn [fst]. rewrite map_id. pose proof (C17_find_dependencies_stmt_sorted b') as So. clear -So. induction So as [|a l So IH F]; constructor; auto. intros I. rewrite Forall_forall in F. specialize (F a I). lia. }
            apply Forall_forall. intros e Ie. rewrite map_map in Ie. apply in_map_iff in Ie as (z & <- & _). exact I.
          * cbn [by_value]. split; [|exact D9]. intros _. apply Forall_forall. intros p Ip. apply in_map_iff in Ip as (z & <- & _). exists 0. reflexivity.
      - (* allocate *)
        destruct Fr as (Fr1 & Fr2 & Fr3), Di as (Di1 & Di2 & Di3). destruct (IH (also P s) (mset m s true) b Lb Sb (mset_muts _ _ _ Hm Fr2)) as (b' & m' & Re & [D1 D2 D3 D4 D5 D6 D7 D8 D9]). rewrite Re. cbn [bind].
        exists (SAllocate s w e ds b'), m'. split; [reflexivity|]. split; cbn [free_stmt distinct by_value]; auto; [|intros y [F|[F|(k & F)]]; auto 8|exact (set_map P m s true m' Fr1 D6)].
        eapply ref_allocate; [apply eref_same, id_on|apply drefs_same, id_on|apply mset_scoped|apply under; exact D1].
      - (* make *)
        destruct Fr as (Fr1 & Fr2 & Fr3), Di as (Di1 & Di2 & Di3 & Di4). destruct (IH (also P s) (mset m s true) b Lb Sb (mset_muts _ _ _ Hm Fr2)) as (b' & m' & Re & [D1 D2 D3 D4 D5 D6 D7 D8 D9]). rewrite Re. cbn [bind].
        exists (SMake s p e ds b'), m'. split; [reflexivity|]. split; cbn [free_stmt distinct by_value]; auto; [|intros y [F|[F|[F|(k & F)]]]; auto 8|exact (set_map P m s true m' Fr1 D6)].
        eapply ref_make; [apply oref_same, id_on|apply oref_same, id_on|apply drefs_same, id_on|apply mset_scoped|apply under; exact D1].
      - (* constant *)
        destruct Fr as (Fr1 & Fr2 & Fr3). destruct (IH (also P s) (mset m s false) b Lb Sb (mset_muts _ _ _ Hm Fr2)) as (b' & m' & Re & [D1 D2 D3 D4 D5 D6 D7 D8 D9]). rewrite Re. cbn [bind].
        exists (SConst s v b'), m'. split; [reflexivity|]. split; cbn [free_stmt distinct by_value]; auto; [|intros y (k & F); auto|exact (set_map P m s false m' Fr1 D6)].
        eapply ref_const; [|apply mset_scoped|apply under; exact D1]. unfold owned. rewrite mset_same. discriminate.
      - (* clone *)
        destruct Fr as (Fr1 & Fr2 & Fr3). destruct (IH (also P s) m b Lb Sb Hm) as (b' & m' & Re & [D1 D2 D3 D4 D5 D6 D7 D8 D9]). rewrite Re. cbn [bind].
        exists (SClone s v b'), m'. split; [reflexivity|]. split; cbn [free_stmt distinct by_value]; auto; [|intros y [F|(k & F)]; auto|intros x Px; apply D6; right; exact Px].
        eapply ref_clone; [exists 0; reflexivity| |apply under; exact D1]. apply id_scoped. auto.
      - (* crop_buffer *)
        destruct Fr as (Fr1 & Fr2 & Fr3 & Fr4). destruct Di as (Di1 & Di2), Va as (Va1 & Va2). assert (Pv : P v) by (apply Fe; right; left; reflexivity). assert (Nv : s <> v) by (intros ->; contradiction).
        destruct (mutator_ok P m s v b (fun s' => SCropBuffer s' v l) Lb Sb Fr1 Pv Fr2 Hm) as (sym' & b2 & m2 & Re & Cs). rewrite Re. exists (SCropBuffer sym' v l b2), m2. split; [reflexivity|].
        destruct Cs as [(-> & [D1 D2 D3 D4 D5 D6 D7 D8 D9])|(-> & Mv & Nf & [K1 K2 K3 K4 K5 K6 K7])].
        + split; cbn [free_stmt distinct by_value]; auto; [|intros y [F|[F|(k & F)]]; auto 8|exact (set_map P m s true m2 Fr1 D6)].
          eapply ref_crop_buffer; [exists 0; reflexivity|intros Q; subst v; contradiction| |apply mset_scoped|apply under; exact D1]. intros E E' q r V _. apply (vcrop_ref X H _ _ _ (irefs_same X H id_sub l (id_on _))). exact V.
        + split; cbn [free_stmt distinct by_value]; auto; [|intros y [F|[F|(k & F)]]; auto 8; destruct (Nat.eq_dec y v) as [->|nv]; auto 6].
          intros E E' v0 r0 V G. cbn [VSem_Spec.vexec] in *. pose proof (envs_senvs _ _ _ _ _ _ _ _ _ V (fun x D => D)) as S. apply bind_inv in G as (q & G1 & G).
            apply bind_inv in G as (u & _ & G). apply bind_inv in G as (q' & G3 & G).
            rewrite (buffer_ref X H _ _ _ _ _ _ _ S (or_intror (or_introl eq_refl)) (ex_intro _ 0 eq_refl) G1). cbn [bind]. rewrite (alone_in_place (fun x => free_stmt x (SCropBuffer s v l b)) m E E' v q V (or_intror (or_introl eq_refl)) Mv G1). cbn [bind].
            rewrite (vcrop_ref X H _ _ _ (irefs_same X H id_sub l (id_on _)) E E' q 0 q'); [|eapply senvs_weaken; [exact S|intros x Fx; left; exact Fx]|exact G3]. cbn [bind].
            eapply K1; [exact V| |exact G]. intros x Fx k. right. right. split; [congruence|exact Fx].
      - (* crop_dim *)
        destruct Fr as (Fr1 & Fr2 & Fr3). destruct Di as (Di1 & Di2). assert (Pv : P v) by (apply Fe; right; left; reflexivity). assert (Nv : s <> v) by (intros ->; contradiction).
        destruct (mutator_ok P m s v b (fun s' => SCropDim s' v d i) Lb Sb Fr1 Pv Fr2 Hm) as (sym' & b2 & m2 & Re & Cs). rewrite Re. exists (SCropDim sym' v d i b2), m2. split; [reflexivity|].
        destruct Cs as [(-> & [D1 D2 D3 D4 D5 D6 D7 D8 D9])|(-> & Mv & Nf & [K1 K2 K3 K4 K5 K6 K7])].
        + split; cbn [free_stmt distinct by_value]; auto; [|intros y [F|[F|(k & F)]]; auto 8|exact (set_map P m s true m2 Fr1 D6)].
          eapply ref_crop_dim; [exists 0; reflexivity|intros Q; subst v; contradiction| |apply mset_scoped|apply under; exact D1]. intros E E' q r V _. apply (interval_def_ref X H id_sub); [apply iref_same, id_on|exact V].
        + split; cbn [free_stmt distinct by_value]; auto; [|intros y [F|[F|(k & F)]]; auto 8; destruct (Nat.eq_dec y v) as [->|nv]; auto 6].
          intros E E' v0 r0 V G. cbn [VSem_Spec.vexec] in *. pose proof (envs_senvs _ _ _ _ _ _ _ _ _ V (fun x D => D)) as S. apply bind_inv in G as (q & G1 & G).
            apply bind_inv in G as (u & _ & G). apply bind_inv in G as (q' & G3 & G).
            rewrite (buffer_ref X H _ _ _ _ _ _ _ S (or_intror (or_introl eq_refl)) (ex_intro _ 0 eq_refl) G1). cbn [bind]. rewrite (alone_in_place (fun x => free_stmt x (SCropDim s v d i b)) m E E' v q V (or_intror (or_introl eq_refl)) Mv G1). cbn [bind].
            rewrite (interval_def_ref X H id_sub i i _ _ E E' q' (iref_same X H id_sub i (id_on _))); [|eapply senvs_weaken; [exact S|intros x Fx; left; exact Fx]|exact G3]. cbn [bind].
            eapply K1; [exact V| |exact G]. intros x Fx k. right. right. split; [congruence|exact Fx].
      - (* slice_buffer *)
        destruct Fr as (Fr1 & Fr2 & Fr3). destruct Di as (Di1 & Di2). assert (Pv : P v) by (apply Fe; right; left; reflexivity). assert (Nv : s <> v) by (intros ->; contradiction).
        destruct (mutator_ok P m s v b (fun s' => SSliceBuffer s' v l) Lb Sb Fr1 Pv Fr2 Hm) as (sym' & b2 & m2 & Re & Cs). rewrite Re. exists (SSliceBuffer sym' v l b2), m2. split; [reflexivity|].
        destruct Cs as [(-> & [D1 D2 D3 D4 D5 D6 D7 D8 D9])|(-> & Mv & Nf & [K1 K2 K3 K4 K5 K6 K7])].
        + split; cbn [free_stmt distinct by_value]; auto; [|intros y [F|[F|(k & F)]]; auto 8|exact (set_map P m s true m2 Fr1 D6)].
          eapply ref_slice_buffer; [exists 0; reflexivity|apply orefs_same, id_on|apply mset_scoped|apply under; exact D1].
        + split; cbn [free_stmt distinct by_value]; auto; [|intros y [F|[F|(k & F)]]; auto 8; destruct (Nat.eq_dec y v) as [->|nv]; auto 6].
          intros E E' v0 r0 V G. cbn [VSem_Spec.vexec] in *. pose proof (envs_senvs _ _ _ _ _ _ _ _ _ V (fun x D => D)) as S. apply bind_inv in G as (q & G1 & G).
            apply bind_inv in G as (q' & G2 & G).
            rewrite (buffer_ref X H _ _ _ _ _ _ _ S (or_intror (or_introl eq_refl)) (ex_intro _ 0 eq_refl) G1). cbn [bind].
            rewrite (slice_ref X H _ _ _ _ _ _ _ _ (orefs_same X H id_sub l (id_on _))) with (2 := G2); [|eapply senvs_weaken; [exact S|intros x Fx; left; exact Fx]]. cbn [bind].
            eapply K1; [exact V| |exact G]. intros x Fx k. right. right. split; [congruence|exact Fx].
      - (* slice_dim *)
        destruct Fr as (Fr1 & Fr2 & Fr3). destruct Di as (Di1 & Di2). assert (Pv : P v) by (apply Fe; right; left; reflexivity). assert (Nv : s <> v) by (intros ->; contradiction).
        destruct (mutator_ok P m s v b (fun s' => SSliceDim s' v d i) Lb Sb Fr1 Pv Fr2 Hm) as (sym' & b2 & m2 & Re & Cs). rewrite Re. exists (SSliceDim sym' v d i b2), m2. split; [reflexivity|].
        destruct Cs as [(-> & [D1 D2 D3 D4 D5 D6 D7 D8 D9])|(-> & Mv & Nf & [K1 K2 K3 K4 K5 K6 K7])].
        + split; cbn [free_stmt distinct by_value]; auto; [|intros y [F|[F|(k & F)]]; auto 8|exact (set_map P m s true m2 Fr1 D6)].
          eapply ref_slice_dim; [exists 0; reflexivity|apply eref_same, id_on|apply mset_scoped|apply under; exact D1].
        + split; cbn [free_stmt distinct by_value]; auto; [|intros y [F|[F|(k & F)]]; auto 8; destruct (Nat.eq_dec y v) as [->|nv]; auto 6].
          intros E E' v0 r0 V G. cbn [VSem_Spec.vexec] in *. pose proof (envs_senvs _ _ _ _ _ _ _ _ _ V (fun x D => D)) as S. apply bind_inv in G as (q & G1 & G).
            apply bind_inv in G as (q' & G2 & G).
            rewrite (buffer_ref X H _ _ _ _ _ _ _ S (or_intror (or_introl eq_refl)) (ex_intro _ 0 eq_refl) G1). cbn [bind].
            assert (Q : vslice_dim X H E' q d i = Val q').
            { unfold vslice_dim in *. destruct (rank q <=? d)%nat; [exact G2|]. apply bind_inv in G2 as (p & G3 & G2). destruct (base q) as [a|]; [|injection G3 as <-; exact G2].
              apply bind_inv in G3 as (y & G4 & G3). rewrite (eref_same X H id_sub i (id_on _) E E' y); [|eapply senvs_weaken; [exact S|intros x Fx; left; exact Fx]|exact G4]. cbn [bind]. injection G3 as ->. exact G2. }
            rewrite Q. cbn [bind]. eapply K1; [exact V| |exact G]. intros x Fx k. right. right. split; [congruence|exact Fx].
      - (* transpose *)
        destruct Fr as (Fr1 & Fr2 & Fr3 & Fr4). assert (Pv : P v) by (apply Fe; left; reflexivity). assert (Nv : s <> v) by (intros ->; contradiction).
        destruct (mutator_ok P m s v b (fun s' => STranspose s' v p) Lb Sb Fr1 Pv Fr2 Hm) as (sym' & b2 & m2 & Re & Cs). rewrite Re. exists (STranspose sym' v p b2), m2. split; [reflexivity|].
        destruct Cs as [(-> & [D1 D2 D3 D4 D5 D6 D7 D8 D9])|(-> & Mv & Nf & [K1 K2 K3 K4 K5 K6 K7])].
        + split; cbn [free_stmt distinct by_value]; auto; [|intros y [F|(k & F)]; auto|exact (set_map P m s true m2 Fr1 D6)].
          eapply ref_transpose; [exists 0; reflexivity| |apply mset_scoped|apply under; exact D1]. intros _. split; [reflexivity|]. intros Q. subst v. contradiction.
        + split; cbn [free_stmt distinct by_value]; auto; [|intros y [F|(k & F)]; auto; destruct (Nat.eq_dec y v) as [->|nv]; auto 6].
          intros E E' v0 r0 V G. cbn [VSem_Spec.vexec] in *. pose proof (envs_senvs _ _ _ _ _ _ _ _ _ V (fun x D => D)) as S. apply bind_inv in G as (q & G1 & G).
            rewrite (buffer_ref X H _ _ _ _ _ _ _ S (or_introl eq_refl) (ex_intro _ 0 eq_refl) G1). cbn [bind].
            assert (T : is_truncate p = false) by (destruct (is_truncate p); [destruct (Fr3 eq_refl (Hm _ Mv))|reflexivity]). rewrite T, andb_false_r in *. 
            eapply K1; [exact V| |exact G]. intros x Fx k. right. split; [congruence|exact Fx].
      - exists (SCheck c), m. split; [reflexivity|]. split; auto.
        destruct (frees c) as [u|] eqn:Fc; [|apply ref_check; auto; apply eref_same, id_on]. eapply ref_free; [exact Fc|exists 0; reflexivity|exact Fc].
    Qed.
  End Step.
  Lemma reuse_ok n : forall P m s, (stmt_size s <= n)%nat -> sound P s -> (forall x, m x = true -> B x) -> exists s' m', reuse n m s = Val (s', m') /\ done P m s s' m'.
  Proof.
    induction n as [|n IH]; intros P m s Le; [destruct s; cbn [stmt_size] in Le; lia|]. apply step; [exact IH|exact Le].
  Qed.
  Lemma optimize_ok P s : sound P s -> exists s', optimize_symbols proves_serial s = Val s' /\ distinct s' /\ by_value s' /\ forall E v r, vexec s E v = Val r -> vexec s' E v = Val r.
  Proof.
    intros So. destruct (reuse_ok (stmt_size s) P (fun _ => false) s (Nat.le_refl _) So ltac:(discriminate)) as (s' & m' & Re & [D1 D2 D3 D4 D5 D6 D7 D8 D9]). exists s'.
    unfold optimize_symbols. rewrite Re. split; [reflexivity|]. split; [exact D8|]. split; [exact D9|]. intros E v r G. refine (D1 E E v r _ G). intros x _. unfold id_sub. cbn [vmatch]. destruct (E x) as [| |k q]; auto.
    exists k. split; [reflexivity|]. split; [auto|]. intros [Q|([] & _)]. discriminate Q.
  Qed.
End Main.
