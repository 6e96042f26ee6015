(** The whole pass (C57). *)
From Coq Require Import ZArith List Bool Lia.
From Verif Require Import Arith_Model Arith_Proofs Buf_Model Expr_Model Expr_Proofs Stmt_Model Stmt_Spec Stmt_Proofs Deps_Spec VSem_Spec VExec_Proofs VRef_Proofs Match_Model Match_Proofs
  Subst_Spec StmtSubst_Spec StmtSubst2_Proofs StmtSubst3_Proofs OptSym_Model OptSym_Spec OptSym_Proofs Deshadow_Spec VFrame_Proofs FuseSib_Model FuseSib_Spec FuseSib_Proofs.
Import ListNotations.
Open Scope Z_scope.

Lemma with_head s b : plain_stmt s -> in_block s = true -> in_block (with_body s b) = true. Proof. destruct s; auto. Qed.
Lemma with_with s a b : with_body (with_body s a) b = with_body s b. Proof. destruct s; reflexivity. Qed.
Lemma with_plain s b x A : declares s = Some (x, A) -> plain_stmt b -> plain_stmt (with_body s b). Proof. destruct s; cbn; try discriminate; auto. Qed.
Lemma body_plain s x A : declares s = Some (x, A) -> plain_stmt s -> plain_stmt A. Proof. destruct s; cbn; try discriminate; intro Q; injection Q as <- <-; auto. Qed.
Lemma with_block P s b x A : declares s = Some (x, A) -> every_block P (with_body s b) <-> every_block P b. Proof. destruct s; cbn; try discriminate; tauto. Qed.
Lemma body_block P s x A : declares s = Some (x, A) -> every_block P s <-> every_block P A. Proof. destruct s; cbn; try discriminate; intro Q; injection Q as <- <-; tauto. Qed.
Lemma by_value_block l : by_value (SBlock l) <-> Forall by_value l. Proof. apply by_value_go. Qed.
Lemma distinct_block l : distinct (SBlock l) <-> Forall distinct l. Proof. apply distinct_go. Qed.
Lemma free_block y l : free_stmt y (SBlock l) <-> Exists (free_stmt y) l. Proof. apply free_go. Qed.
Lemma not_free_block y l : ~ free_stmt y (SBlock l) <-> Forall (fun s => ~ free_stmt y s) l. Proof. rewrite free_block. symmetry. apply Forall_Exists_neg. Qed.
Lemma clone_not_decl x y b : not_decl (SClone x y b). Proof. intro t. split; intro Q; inversion Q. Qed.
Lemma with_alloc s b : allocates (with_body s b) = allocates s. Proof. destruct s; reflexivity. Qed.
(** parts of properties of declarations: [Q] is about the declaration itself *)
Definition local (P : stmt -> Prop) : Prop := forall s x A, declares s = Some (x, A) -> exists Q : Prop, (P s <-> Q /\ P A) /\ forall b, P (with_body s b) <-> Q /\ P b.
Lemma local_by_value : local by_value.
Proof.
  intros s x A D. destruct s; cbn [declares] in D; try discriminate; injection D as <- <-; cbn [by_value with_body];
    try (exists True; split; [tauto|intro; tauto]). eexists. split; [reflexivity|]. intro b. reflexivity.
Qed.
Lemma local_distinct : local distinct.
Proof.
  intros s x A D. destruct s; cbn [declares] in D; try discriminate; injection D as <- <-; cbn [distinct with_body].
  - exists (lets_distinct elem /\ Forall distinct_dim ds). split; [tauto|intro; tauto].
  - exists (lets_distinct base_ /\ lets_distinct elem /\ Forall distinct_dim ds). split; [tauto|intro; tauto].
  - eexists. split; [reflexivity|]. intro b. reflexivity.
  - eexists. split; [reflexivity|]. intro b. reflexivity.
  - eexists. split; [reflexivity|]. intro b. reflexivity.
  - eexists. split; [reflexivity|]. intro b. reflexivity.
  - exists True. split; [tauto|intro; tauto].
Qed.
Lemma fused_local (P : stmt -> Prop) a b c : local P -> (forall l, P (SBlock l) <-> Forall P l) -> (forall x y b, P (SClone x y b) <-> P b) -> plain_stmt a -> fuse a b = Some c -> P a -> P b -> P c.
Proof.
  intros L G C Pl F Pa Pb. apply fuse_inv in F as (x & A & y & B & S & Da & Db & ->). destruct (L _ _ _ Da) as (Qa & La & La'). destruct (L _ _ _ Db) as (Qb & Lb & Lb').
  apply La in Pa as (Qa' & PA). apply Lb in Pb as (_ & PB). apply La'. split; [exact Qa'|]. apply two_keeps; [exact G|exact (body_plain _ _ _ Da Pl)|reflexivity|exact PA|]. apply C, PB.
Qed.
Lemma free_with s x A b y : declares s = Some (x, A) -> free_stmt y (with_body s b) -> free_stmt y s \/ (x <> y /\ free_stmt y b).
Proof. destruct s; cbn [declares with_body free_stmt]; intro D; try discriminate; injection D as <- <-; tauto. Qed.
Lemma free_body s x A y : declares s = Some (x, A) -> x <> y -> free_stmt y A -> free_stmt y s.
Proof. destruct s; cbn [declares free_stmt]; intro D; try discriminate; injection D as <- <-; tauto. Qed.
Lemma fused_free a b c y : plain_stmt a -> fuse a b = Some c -> free_stmt y c -> free_stmt y a \/ free_stmt y b.
Proof.
  intros Pl F Fy. apply fuse_inv in F as (x & A & z & B & S & Da & Db & ->). destruct (free_with _ _ _ _ _ Da Fy) as [Q|(n & Q)]; [auto|].
  assert (K : free_stmt y A \/ (z <> y /\ free_stmt y B)).
  { destruct (block_two A (SClone z x B) (body_plain _ _ _ Da Pl) eq_refl) as [(_ & E)|[(l & El & E)|(_ & E)]]; rewrite E in Q.
    - cbn [free_stmt] in Q. tauto.
    - rewrite free_block, Exists_app in Q. destruct Q as [Q|Q]; [left; subst A; apply free_block; exact Q|]. inversion Q as [? ? Q1|? ? Q1]; subst; [cbn [free_stmt] in Q1; tauto|inversion Q1].
    - cbn [free_stmt] in Q. tauto. }
  destruct K as [K|(n2 & K)]; [left; exact (free_body _ _ _ _ Da n K)|right; exact (free_body _ _ _ _ Db n2 K)].
Qed.
Lemma fused_plain a b c : plain_stmt a -> plain_stmt b -> fuse a b = Some c -> plain_stmt c.
Proof.
  intros Pa Pb F. apply fuse_inv in F as (x & A & y & B & S & Da & Db & ->). apply (with_plain _ _ _ _ Da). apply two_plain; [exact (body_plain _ _ _ Da Pa)|exact (body_plain _ _ _ Db Pb)|reflexivity].
Qed.
Lemma fused_fusable a b c : plain_stmt a -> every_block fusable a -> every_block fusable b -> fuse a b = Some c -> every_block fusable c.
Proof.
  intros Pa Ea Eb F. apply fuse_inv in F as (x & A & y & B & S & Da & Db & ->). apply (with_block fusable _ _ _ _ Da).
  apply two_fusable; [exact (body_plain _ _ _ Da Pa)|reflexivity|apply clone_not_decl|exact (proj1 (body_block fusable _ _ _ Da) Ea)|exact (proj1 (body_block fusable _ _ _ Db) Eb)].
Qed.
Lemma apart_with a b t : apart a t -> apart (with_body a b) t.
Proof.
  intros Ap S. apply same_with_l in S. destruct (Ap S) as (A1 & A2). split.
  - intros x a' y b' M M'. assert (K : exists a0, makes a x a0) by (destruct a; cbn [with_body] in M; inversion M; subst; eexists; constructor). destruct K as (a0 & K). exact (A1 x a0 y b' K M').
  - intros x y src p a' b' Q Q'. destruct a; cbn [with_body] in Q; try discriminate. injection Q as -> -> -> ->. exact (A2 x y src p _ b' eq_refl Q').
Qed.

Section Pass.
  Variable X : Type.
  Variable H : host X.
  Variable call_v : nat -> list buf -> list buf -> list Z -> X -> Z * X.
  Variable copy_v : buf -> buf -> option buf -> (list Z -> option (list Z)) -> X -> X.
  Variable consts : Z -> option buf.
  Notation vexec := (vexec X H call_v copy_v consts).

  Definition vref (s s' : stmt) : Prop := forall E v r, vexec s E v = Val r -> vexec s' E v = Val r.
  Record good (s s' : stmt) : Prop := {
    g_plain : plain_stmt s';
    g_head : in_block s = true -> exists b, s' = with_body s b;
    g_done : every_block no_siblings s';
    g_value : by_value s -> by_value s';
    g_distinct : distinct s -> distinct s';
    g_free : forall x, free_stmt x s' -> free_stmt x s;
    g_exec : vref s s' }.
  Lemma block_step x l x' l' : plain_stmt x -> plain_stmt x' -> vref x x' -> vref (SBlock l) (SBlock l') -> vref (SBlock (x :: l)) (SBlock (x' :: l')).
  Proof.
    intros P P' R R' E v r G. rewrite vexec_cons in *. apply bind_inv in G as ((z, v1) & G1 & G). rewrite (R _ _ _ G1). cbn [bind]. destruct (z =? 0); [|exact G].
    rewrite (proj1 (plain_flat x P)) in G. rewrite (proj1 (plain_flat x' P')). exact (R' _ _ _ G).
  Qed.
  Record goods (l l' : list stmt) : Prop := {
    gs_plain : Forall plain_stmt l';
    gs_block : forallb in_block l' = true;
    gs_head : match l, l' with a :: _, a' :: _ => exists b, a' = with_body a b | _, _ => False end;
    gs_done : Forall (every_block no_siblings) l' /\ no_siblings l';
    gs_value : Forall by_value l -> Forall by_value l';
    gs_distinct : Forall distinct l -> Forall distinct l';
    gs_free : forall x, Exists (free_stmt x) l' -> Exists (free_stmt x) l;
    gs_exec : vref (SBlock l) (SBlock l') }.
  Lemma list_fused mut : (forall s s', plain_stmt s -> every_block fusable s -> mut s = Val s' -> good s s') -> forall l back r,
    Forall plain_stmt (back :: l) -> forallb in_block (back :: l) = true -> Forall (every_block fusable) (back :: l) -> fusable (back :: l) -> fuse_list mut back l = Val r -> goods (back :: l) r.
  Proof.
    intro IH. induction l as [|x l IHl]; intros back r P B F (Ap & Ad) M; cbn [fuse_list] in M.
    - apply bind_inv in M as (m & M & Q). injection Q as <-. inversion P as [|? ? P1 _]; inversion F as [|? ? F1 _]; subst. pose proof (IH _ _ P1 F1 M) as [g1 g2 g3 g4 g5 g6 g7].
      cbn [forallb] in B. apply andb_true_iff in B as (B & _). destruct (g2 B) as (b & ->). constructor.
      + constructor; [exact g1|constructor].
      + cbn [forallb]. rewrite (with_head _ _ P1 B). reflexivity.
      + eauto.
      + split; [constructor; [exact g3|constructor]|]. unfold no_siblings. cbn [adjacent]. auto.
      + intro V. inversion V; subst. constructor; auto.
      + intro V. inversion V; subst. constructor; auto.
      + intros y V. inversion V as [? ? V1|? ? V1]; subst; [left; auto|inversion V1].
      + apply block_step; auto. intros E v q G. exact G.
    - inversion P as [|? ? P1 P2]; inversion F as [|? ? F1 F2]; subst. inversion P2 as [|? ? P3 P4]; inversion F2 as [|? ? F3 F4]; subst.
      cbn [forallb] in B. apply andb_true_iff in B as (B1 & B2). pose proof B2 as B2'. apply andb_true_iff in B2 as (B3 & B4). cbn [all_apart] in Ap. destruct Ap as (Ap1 & Ap2 & Ap3). cbn [adjacent] in Ad. destruct Ad as (Ad1 & Ad2 & Ad3).
      inversion Ap1 as [|? ? Ap4 Ap5]; subst.
      destruct (fuse back x) as [c|] eqn:Q.
      + pose proof (fused_plain _ _ _ P1 P3 Q) as Pc. pose proof (fused_fusable _ _ _ P1 F1 F3 Q) as Fc. pose proof Q as Q0. apply fuse_inv in Q0 as (u & A & w & C & S & Da & Db & Ec).
        assert (Al : allocates back = false) by (destruct (allocates back) eqn:Z; [destruct (Ad1 eq_refl S)|reflexivity]).
        destruct (IHl c r) as [g1 g2 g3 g4 g5 g6 g7 g8]; [constructor; assumption| |constructor; assumption| |exact M|].
        { cbn [forallb]. rewrite Ec, (with_head _ _ P1 B1). exact B4. }
        { split.
          - cbn [all_apart]. split; [|exact Ap3]. subst c. eapply Forall_impl; [|exact Ap5]. intros t. apply apart_with.
          - cbn [adjacent]. split; [|exact Ad3]. destruct l as [|t l]; [exact I|]. intro Z. subst c. rewrite with_alloc, Al in Z. discriminate. }
        constructor; auto.
        * destruct r as [|a' r]; [destruct g3|]. destruct g3 as (b & ->). exists b. subst c. apply with_with.
        * intro V. inversion V as [|? ? V1 V2]; subst. inversion V2 as [|? ? V3 V4]; subst. apply g5. constructor; [|exact V4].
          exact (fused_local by_value back x _ local_by_value by_value_block (fun _ _ _ => iff_refl _) P1 Q V1 V3).
        * intro V. inversion V as [|? ? V1 V2]; subst. inversion V2 as [|? ? V3 V4]; subst. apply g6. constructor; [|exact V4].
          exact (fused_local distinct back x _ local_distinct distinct_block (fun _ _ _ => iff_refl _) P1 Q V1 V3).
        * intros y V. specialize (g7 y V). inversion g7 as [? ? V1|? ? V1]; subst; [|right; right; exact V1]. destruct (fused_free _ _ _ _ P1 Q V1); [left|right; left]; assumption.
        * intros E v q G. apply g8. exact (fused_exec X H call_v copy_v consts _ _ _ _ _ _ _ Q Ap4 Al P1 P3 Pc G).
      + apply bind_inv in M as (m & M & M2). apply bind_inv in M2 as (ms & M2 & Qr). injection Qr as <-. pose proof (IH _ _ P1 F1 M) as [h1 h2 h3 h4 h5 h6 h7].
        destruct (IHl x ms) as [g1 g2 g3 g4 g5 g6 g7 g8]; [assumption|exact B2'|assumption| |exact M2|].
        { split; [cbn [all_apart]; auto|]. cbn [adjacent]. auto. }
        destruct (h2 B1) as (b & ->). destruct ms as [|t ms]; [destruct g3|]. destruct g3 as (b' & ->).
        constructor.
        * constructor; assumption.
        * cbn [forallb]. rewrite (with_head _ _ P1 B1). exact g2.
        * eauto.
        * destruct g4 as (g4 & g4'). split; [constructor; assumption|]. unfold no_siblings. cbn [adjacent]. split; [|exact g4']. rewrite same_with_l, same_with_r. apply fuse_none. exact Q.
        * intro V. inversion V; subst. constructor; auto.
        * intro V. inversion V; subst. constructor; auto.
        * intros y V. inversion V as [? ? V1|? ? V1]; subst; [left; auto|right; auto].
        * apply block_step; assumption.
  Qed.
  Lemma goods_block l l' : goods l l' -> good (SBlock l) (block_make l').
  Proof.
    intros [g1 g2 g3 (g4 & g4') g5 g6 g7 g8]. destruct l as [|a l]; [destruct g3|]. destruct l' as [|a' [|b' l']]; [destruct g3| |].
    - assert (E : block_make [a'] = a') by (cbn [forallb] in g2; apply andb_true_iff in g2 as (g2 & _); destruct a'; try discriminate; reflexivity). rewrite E. clear E.
      inversion g1; inversion g4; subst. constructor; auto.
      + discriminate.
      + intro V. apply by_value_block in V. specialize (g5 V). inversion g5; assumption.
      + intro V. apply distinct_block in V. specialize (g6 V). inversion g6; assumption.
      + intros y V. apply free_block. apply g7. left. exact V.
      + intros E v r G. apply vexec_one_inv. exact (g8 _ _ _ G).
    - rewrite block_make_flat; [|cbn [length]; lia|exact g2]. constructor.
      + cbn [plain_stmt]. split; [cbn [length]; lia|]. split; [exact g2|]. apply (proj2 (plain_list (a' :: b' :: l'))). exact g1.
      + discriminate.
      + split; [exact g4'|]. apply (proj2 (every_block_go no_siblings (a' :: b' :: l'))). exact g4.
      + rewrite !by_value_block. exact g5.
      + rewrite !distinct_block. exact g6.
      + intro y. rewrite !free_block. apply g7.
      + exact g8.
  Qed.
  Lemma good_refl s : plain_stmt s -> (in_block s = true -> exists b, s = with_body s b) -> every_block no_siblings s -> good s s.
  Proof. intros. constructor; auto. intros E v r G. exact G. Qed.
  Lemma lets_ref l b b' : vref b b' -> vref (SLet l b false) (SLet l b' false).
  Proof. intros R E v r G. cbn [VSem_Spec.vexec] in *. apply bind_inv in G as (E1 & Q & G). rewrite Q. cbn [bind]. apply R, G. Qed.
  Lemma loop_ref s w i st b b' : plain_stmt b -> plain_stmt b' -> vref b b' -> vref (SLoop s w i st b) (SLoop s w i st b').
  Proof.
    intros P P' R E v r G. destruct (plain_flat b P) as (A1 & A2). destruct (plain_flat b' P') as (A1' & A2').
    assert (Qi : forall b, as_closure b = None -> match b with SLet _ b0 true => vexec b0 | _ => vexec b end = vexec b).
    { intros b0 N. destruct b0; try reflexivity. destruct is_closure; [discriminate|reflexivity]. }
    cbn [VSem_Spec.vexec] in *. rewrite A1, A2, (Qi b A2) in G. rewrite A1', A2', (Qi b' A2').
    apply bind_inv in G as (k & Q1 & G). rewrite Q1. cbn [bind]. apply bind_inv in G as ((lo, hi) & Q2 & G). rewrite Q2. cbn [bind]. apply bind_inv in G as (stp & Q3 & G). rewrite Q3. cbn [bind].
    destruct (stp =? 0); [discriminate|]. destruct (1 <? k).
    - apply bind_inv in G as (n & Q4 & G). rewrite Q4. cbn [bind vparallel] in *. destruct (n =? 0); [exact G|]. destruct (n =? 1); [apply R, G|]. destruct (h_pool X H); [|discriminate].
      eapply vpar_ref; [|exact G]. intros y v0 r0. apply R.
    - eapply vserial_ref; [|exact G]. intros y v0 r0. apply R.
  Qed.
  Lemma declares_with_ref s x A b b' : declares s = Some (x, A) -> vref b b' -> vref (with_body s b) (with_body s b').
  Proof.
    intros D R E v r G. destruct (allocates s) eqn:Al.
    - destruct s; try discriminate. cbn [with_body VSem_Spec.vexec] in *. apply bind_inv in G as (es & Q1 & G). rewrite Q1. cbn [bind]. apply bind_inv in G as (dl & Q2 & G). rewrite Q2. cbn [bind].
      eapply vallocate_ref; [|exact G]. intros n q v0 r0. apply R.
    - pose proof (declares_makes _ _ _ Al D) as M. rewrite (vexec_makes _ _ _ _ _ _ _ _ _ _ (makes_with _ _ _ b M)), built_with in G. rewrite (vexec_makes _ _ _ _ _ _ _ _ _ _ (makes_with _ _ _ b' M)), built_with.
      apply bind_inv in G as (o & Q & G). rewrite Q. cbn [bind]. destruct o; [apply R, G|exact G].
  Qed.
  Lemma good_decl s x A b : declares s = Some (x, A) -> plain_stmt s -> good A b -> good s (with_body s b).
  Proof.
    intros D P [g1 g2 g3 g4 g5 g6 g7]. destruct (local_by_value _ _ _ D) as (Q1 & L1 & L1'). destruct (local_distinct _ _ _ D) as (Q2 & L2 & L2'). constructor.
    - exact (with_plain _ _ _ _ D g1).
    - eauto.
    - exact (proj2 (with_block _ _ _ _ _ D) g3).
    - intro V. apply L1 in V as (V1 & V2). apply L1'. auto.
    - intro V. apply L2 in V as (V1 & V2). apply L2'. auto.
    - intros y F. destruct (free_with _ _ _ _ _ D F) as [F1|(n & F1)]; [exact F1|]. exact (free_body _ _ _ _ D n (g6 y F1)).
    - assert (E : s = with_body s A) by (destruct s; cbn [declares] in D; try discriminate; injection D as <- <-; reflexivity). rewrite E at 1. exact (declares_with_ref _ _ _ _ _ D g7).
  Qed.
  Lemma fuser_good n : forall s s', plain_stmt s -> every_block fusable s -> fuser n s = Val s' -> good s s'.
  Proof.
    induction n as [|n IH]; intros s s' P F M; [discriminate|]. cbn [fuser] in M.
    destruct s as [|t ins outs sc|src sx dst dx pad|l b c|l|s w i st b|s w e ds b|s p e ds b|s c b|s src b|s src l b|s src d i b|s src l b|s src d e b|s src p b|s s1 s2|c]; try (destruct P; fail);
      try (injection M as <-; apply good_refl; [exact P|intros _; exists SUndef; reflexivity|exact I]);
      try (apply bind_inv in M as (b' & M & Q); injection Q as <-; match goal with |- good ?s _ => refine (good_decl s _ _ b' _ P (IH b _ P F M)); reflexivity end).
    - apply bind_inv in M as (b' & M & Q). injection Q as <-. cbn [plain_stmt] in P. destruct P as (-> & P). destruct (IH b _ P F M) as [g1 g2 g3 g4 g5 g6 g7]. cbn [with_body]. constructor; auto.
      + split; auto.
      + intros _. exists b'. reflexivity.
      + cbn [by_value]. intros (V1 & V2). split; auto.
      + cbn [distinct]. intros (V1 & V2 & V3). auto.
      + intros y. cbn [free_stmt]. clear - g6. induction l as [|(u, e) l IH]; cbn [in_lets]; [apply g6|]. tauto.
      + apply lets_ref, g7.
    - destruct l as [|x l]; [destruct P as (L & _); cbn [length] in L; lia|]. apply bind_inv in M as (r & M & Q). injection Q as <-. apply goods_block.
      destruct P as (_ & B & P). destruct F as (F1 & F2). exact (list_fused (fuser n) IH l x r (proj1 (plain_list (x :: l)) P) B (proj1 (every_block_go fusable (x :: l)) F2) F1 M).
    - apply bind_inv in M as (b' & M & Q). injection Q as <-. destruct (IH b _ P F M) as [g1 g2 g3 g4 g5 g6 g7]. cbn [with_body]. constructor; auto.
      + intros _. exists b'. reflexivity.
      + cbn [distinct]. tauto.
      + intros y. cbn [free_stmt]. specialize (g6 y). tauto.
      + apply loop_ref; assumption.
    - apply bind_inv in M as (b' & M & Q). injection Q as <-. destruct (IH b _ P F M) as [g1 g2 g3 g4 g5 g6 g7]. cbn [with_body]. constructor; auto.
      + intros _. exists b'. reflexivity.
      + intros y. cbn [free_stmt]. specialize (g6 y). tauto.
      + intros E v r G. cbn [VSem_Spec.vexec] in *. apply bind_inv in G as (q & Q & G). rewrite Q. cbn [bind]. apply g7, G.
    - apply bind_inv in M as (b' & M & Q). injection Q as <-. destruct (IH b _ P F M) as [g1 g2 g3 g4 g5 g6 g7]. cbn [with_body]. constructor; auto.
      + intros _. exists b'. reflexivity.
      + intros y. cbn [free_stmt]. specialize (g6 y). tauto.
      + intros E v r G. cbn [VSem_Spec.vexec] in *. apply bind_inv in G as (q & Q & G). rewrite Q. cbn [bind]. apply g7, G.
  Qed.
End Pass.

(** ** There is enough fuel *)
Fixpoint weight (s : stmt) : nat :=
  match s with
  | SUndef | SCall _ _ _ _ | SCopy _ _ _ _ _ | SCheck _ => 1
  | SBlock l => S ((fix go (l : list stmt) := match l with [] => O | x :: l' => (weight x + go l')%nat end) l)
  | SLet _ b _ | SLoop _ _ _ _ b | SConst _ _ b | SClone _ _ b => S (weight b)
  | SAllocate _ _ _ _ b | SMake _ _ _ _ b | SCropBuffer _ _ _ b | SCropDim _ _ _ _ b | SSliceBuffer _ _ _ b | SSliceDim _ _ _ _ b | STranspose _ _ _ b => S (S (weight b))
  | SAsync _ t b => S (weight t + weight b)
  end.
Fixpoint weights (l : list stmt) : nat := match l with [] => O | x :: l' => (weight x + weights l')%nat end.
Lemma weight_block l : weight (SBlock l) = S (weights l).
Proof. reflexivity. Qed.
Lemma weights_app a b : weights (a ++ b) = (weights a + weights b)%nat. Proof. induction a as [|x a IH]; cbn [app weights]; lia. Qed.
Lemma weight_flat l : (weights (flatten_blocks l) <= weights l)%nat.
Proof. induction l as [|a l IH]; [reflexivity|]. destruct a; cbn [flatten_blocks weights]; try lia. rewrite weights_app, weight_block. lia. Qed.
Lemma weight_erase l : (weights (erase_undefs l) <= weights l)%nat.
Proof. induction l as [|a l IH]; [reflexivity|]. unfold erase_undefs in *. cbn [filter]. destruct (sdefined a); cbn [weights]; lia. Qed.
Lemma weight_make l : (weight (block_make l) <= S (weights l))%nat.
Proof.
  unfold block_make. pose proof (weight_flat l) as A. pose proof (weight_erase (flatten_blocks l)) as B. destruct (erase_undefs (flatten_blocks l)) as [|a [|b r]]; [cbn; lia| |].
  - cbn [weights] in B. lia.
  - rewrite weight_block. lia.
Qed.
Lemma weight_decl s x A b : declares s = Some (x, A) -> weight s = S (S (weight A)) /\ weight (with_body s b) = S (S (weight b)).
Proof. destruct s; cbn [declares]; intro D; try discriminate; injection D as <- <-; split; reflexivity. Qed.
Lemma weight_fuse a b c : fuse a b = Some c -> (weight c <= weight a + weight b)%nat.
Proof.
  intro F. apply fuse_inv in F as (x & A & y & B & S & Da & Db & ->). destruct (weight_decl _ _ _ (block_make [A; SClone y x B]) Da) as (-> & ->). rewrite (proj1 (weight_decl _ _ _ A Db)).
  pose proof (weight_make [A; SClone y x B]) as W. cbn [weights weight] in W. lia.
Qed.
Lemma weight_pos s : (1 <= weight s)%nat. Proof. destruct s; cbn [weight]; lia. Qed.
Lemma list_able mut n : (forall s, (weight s <= n)%nat -> exists s', mut s = Val s') -> forall l back, (weights (back :: l) <= n)%nat -> exists r, fuse_list mut back l = Val r.
Proof.
  intro IH. induction l as [|x l IHl]; intros back W; cbn [fuse_list].
  - destruct (IH back) as (m & M); [cbn [weights] in W; lia|]. rewrite M. cbn [bind]. eauto.
  - cbn [weights] in W. destruct (fuse back x) as [c|] eqn:Q.
    + apply IHl. pose proof (weight_fuse _ _ _ Q). cbn [weights]. lia.
    + destruct (IH back) as (m & M); [lia|]. rewrite M. cbn [bind]. destruct (IHl x) as (r & R); [cbn [weights]; lia|]. rewrite R. cbn [bind]. eauto.
Qed.
Lemma fuser_able n : forall s, (weight s <= n)%nat -> exists s', fuser n s = Val s'.
Proof.
  induction n as [|n IH]; intros s W; [pose proof (weight_pos s); lia|]. cbn [fuser].
  assert (K : forall b (k : stmt -> stmt), (weight b <= n)%nat -> exists s', (b' <- fuser n b ;; Val (k b')) = Val s') by (intros b k Wb; destruct (IH b Wb) as (b' & ->); cbn [bind]; eauto).
  destruct s as [|t ins outs sc|src sx dst dx pad|l b c|l|s w i st b|s w e ds b|s p e ds b|s c b|s src b|s src l b|s src d i b|s src l b|s src d e b|s src p b|s s1 s2|c];
    try (eexists; reflexivity); try (apply K; cbn [weight] in W; lia).
  - destruct l as [|x l]; [eauto|]. rewrite weight_block in W. destruct (list_able (fuser n) n IH l x) as (r & ->); [lia|]. cbn [bind]. eauto.
  - cbn [weight] in W. destruct (IH s1) as (t' & ->); [lia|]. cbn [bind]. destruct (IH s2) as (b' & ->); [lia|]. cbn [bind]. eauto.
Qed.
Lemma weight_size s : (weight s <= 2 * stmt_size s)%nat.
Proof.
  induction s as [|t ins outs sc|src sx dst dx pad|l s c IHs|l IHl|s w x st b IHs|s w e ds b IHs|s p e ds b IHs|s v b IHs|s v b IHs|s v l b IHs|s v d x b IHs|s v l b IHs|s v d x b IHs|s v p b IHs|s s1 s2 IHs1 IHs2|c] using stmt_ind';
    cbn [weight stmt_size]; try lia.
  induction IHl as [|a l Ha _ IH]; lia.
Qed.

(** ** After deshadow all siblings are apart *)
Lemma makes_shadow D s x b : makes s x b -> unshadowed D s -> ~ D x. Proof. destruct 1; cbn [unshadowed]; tauto. Qed.
Lemma unshadowed_list_go D l : (fix go (l : list stmt) := match l with [] => True | x :: l' => unshadowed D x /\ go l' end) l <-> Forall (unshadowed D) l.
Proof. induction l as [|a l IH]; [split; auto|]. rewrite IH. split; [intros (A & B); constructor; auto|]. intro F. inversion F; auto. Qed.
Lemma makes_free s x b y : makes s x b -> x <> y -> free_stmt y b -> free_stmt y s. Proof. destruct 1; cbn [free_stmt]; tauto. Qed.
Lemma unshadowed_apart (D : nat -> Prop) s t : unshadowed D s -> unshadowed D t -> (forall x, free_stmt x s -> D x) -> (forall x, free_stmt x t -> D x) -> apart s t.
Proof.
  intros U U' F F' S. split.
  - intros x a y b M M'. destruct (Nat.eq_dec y x) as [->|n]; [auto|]. right. intro Fx. exact (makes_shadow _ _ _ _ M U (F' x (makes_free _ _ _ _ M' n Fx))).
  - intros x y src p a b -> -> _. cbn [unshadowed free_stmt] in *. split; intros ->; exfalso; [apply (proj1 U), F|apply (proj1 U'), F']; auto.
Qed.
Lemma unshadowed_blocks s : every_block (adjacent (fun s t => allocates s = true -> ~ same_decl s t)) s -> forall D : nat -> Prop, unshadowed D s -> (forall x, free_stmt x s -> D x) -> every_block fusable s.
Proof.
  assert (K : forall (D : nat -> Prop) sym b, (forall x, sym <> x /\ free_stmt x b -> D x) -> forall x, free_stmt x b -> also D sym x).
  { intros D sym b F x Fx. unfold also. destruct (Nat.eq_dec x sym) as [->|n]; [auto|]. right. apply F. auto. }
  induction s as [|t ins outs sc|src sx dst dx pad|l s c IHs|l IHl|s w x st b IHs|s w e ds b IHs|s p e ds b IHs|s v b IHs|s v b IHs|s v l b IHs|s v d x b IHs|s v l b IHs|s v d x b IHs|s v p b IHs|s s1 s2 IHs1 IHs2|c] using stmt_ind';
    intros A D U F; cbn [every_block] in *; auto; cbn [unshadowed free_stmt] in *;
    try (eapply (IHs A (also D s)); [tauto|]; apply K; intros; apply F; tauto).
  - specialize (IHs A). revert D U F. induction l as [|(u, e) l IH]; intros D U F; cbn [unshadowed_lets in_lets] in *.
    + exact (IHs D U F).
    + destruct U as (_ & _ & U). apply (IH (also D u) U). intros y Fy. unfold also. destruct (Nat.eq_dec y u) as [->|n]; [auto|]. right. apply F. right. split; [congruence|exact Fy].
  - destruct A as (A1 & A2). rewrite every_block_go in A2. rewrite unshadowed_list_go in U. split.
    + split; [|exact A1]. clear A1 A2 IHl. induction l as [|a l IH]; cbn [all_apart]; [exact I|]. inversion U as [|? ? U1 U2]; subst. split.
      * apply Forall_forall. intros t It. rewrite Forall_forall in U2. apply (unshadowed_apart D); auto. intros x Fx. apply F. right. apply free_go. apply Exists_exists. eauto.
      * apply IH; [exact U2|]. intros x Fx. apply F. right. exact Fx.
    + apply every_block_go. clear A1. induction l as [|a l IH]; [constructor|]. inversion IHl as [|? ? H1 H2]; inversion A2 as [|? ? A3 A4]; inversion U as [|? ? U1 U2]; subst. constructor.
      * apply (H1 A3 D U1). intros x Fx. apply F. left. exact Fx.
      * apply IH; auto. 
  - destruct U as (N & U1 & U2). destruct A as (A1 & A2). destruct s as [x|].
    + split; [apply (IHs1 A1 _ U1)|apply (IHs2 A2 _ U2)]; intros y Fy; unfold also; (destruct (Nat.eq_dec y x) as [->|n]; [left; reflexivity|right]); apply F; [left; exact Fy|]. right. split; [congruence|exact Fy].
    + split; [apply (IHs1 A1 _ U1)|apply (IHs2 A2 _ U2)]; intros y Fy; apply F; [left; exact Fy|]. right. split; [discriminate|exact Fy].
Qed.
