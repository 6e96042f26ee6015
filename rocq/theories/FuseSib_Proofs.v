(** Fusing siblings keeps what a statement does (C57). *)
From Coq Require Import ZArith List Bool Lia.
From Verif Require Import Arith_Model Arith_Proofs Buf_Model Expr_Model Expr_Proofs Stmt_Model Stmt_Spec Stmt_Proofs Deps_Spec VSem_Spec VExec_Proofs VRef_Proofs Match_Model Match_Proofs
  Subst_Spec StmtSubst_Spec StmtSubst2_Proofs StmtSubst3_Proofs OptSym_Model OptSym_Proofs VFrame_Proofs FuseSib_Model FuseSib_Spec.
Import ListNotations.
Open Scope Z_scope.

(** ** can_fuse *)
Lemma span_eq {A} (f : A -> A -> bool) (Q : forall a b, f a b = true <-> a = b) l l' : match_span f l l' = true <-> l = l'.
Proof.
  revert l'. induction l as [|a l IH]; intros [|b l']; cbn [match_span]; try (split; congruence).
  rewrite andb_true_iff, Q, IH. split; [intros (-> & ->); reflexivity|]. intro E. injection E. auto.
Qed.
Lemma interval_eq (a b : interval) : match_interval a b = true <-> a = b.
Proof. destruct a as (a1, a2), b as (b1, b2). unfold match_interval. cbn [fst snd]. rewrite andb_true_iff, !match_eq. split; [intros (-> & ->); reflexivity|]. intro E. injection E. auto. Qed.
Lemma dim_eq a b : match_dim a b = true <-> a = b.
Proof.
  destruct a as [a1 a2 a3], b as [b1 b2 b3]. unfold match_dim. cbn [de_bounds de_stride de_fold]. rewrite !andb_true_iff, !match_eq, interval_eq. split; [intros ((-> & ->) & ->); reflexivity|].
  intro E. injection E. auto.
Qed.
Lemma storage_eq a b : same_storage a b = true <-> a = b. Proof. destruct a, b; cbn; split; congruence. Qed.
Lemma can_fuse_same a b : can_fuse a b = true <-> same_decl a b.
Proof.
  split.
  - destruct a, b; cbn [can_fuse]; intro Q; try discriminate; repeat rewrite andb_true_iff in Q;
      repeat rewrite ?storage_eq, ?match_eq, ?interval_eq, ?Nat.eqb_eq, ?(span_eq _ dim_eq), ?(span_eq _ interval_eq), ?(span_eq _ match_eq), ?(span_eq _ Nat.eqb_eq) in Q;
      repeat match goal with E : _ /\ _ |- _ => destruct E end; subst; constructor.
  - destruct 1; cbn [can_fuse]; repeat rewrite andb_true_iff; 
      repeat rewrite ?storage_eq, ?match_eq, ?interval_eq, ?Nat.eqb_eq, ?(span_eq _ dim_eq), ?(span_eq _ interval_eq), ?(span_eq _ match_eq), ?(span_eq _ Nat.eqb_eq); auto.
Qed.
Lemma same_with_l a b t : same_decl (with_body a b) t <-> same_decl a t.
Proof. split; intro S; destruct a; cbn [with_body] in *; inversion S; subst; constructor. Qed.
Lemma same_with_r a b t : same_decl t (with_body a b) <-> same_decl t a.
Proof. split; intro S; destruct a; cbn [with_body] in *; inversion S; subst; constructor. Qed.
Lemma fuse_inv a b c : fuse a b = Some c <-> exists x A y B, same_decl a b /\ declares a = Some (x, A) /\ declares b = Some (y, B) /\ c = with_body a (block_make [A; SClone y x B]).
Proof.
  unfold fuse. split.
  - destruct (can_fuse a b) eqn:Q; [|discriminate]. apply can_fuse_same in Q. destruct Q; cbn [declares]; intro E; injection E as <-; do 4 eexists; (split; [constructor|]; split; [reflexivity|]; split; reflexivity).
  - intros (x & A & y & B & S & Da & Db & ->). rewrite (proj2 (can_fuse_same a b) S), Da, Db. reflexivity.
Qed.
Lemma fuse_none a b : fuse a b = None <-> ~ same_decl a b.
Proof.
  split.
  - intros Q S. assert (E : exists c, fuse a b = Some c); [|destruct E; congruence]. destruct S; eexists; apply fuse_inv; do 4 eexists; (split; [constructor|]; split; [reflexivity|]; split; reflexivity).
  - intro N. destruct (fuse a b) as [c|] eqn:Q; [|reflexivity]. apply fuse_inv in Q as (x & A & y & B & S & _). contradiction.
Qed.

(** ** Blocks *)
Lemma filter_in l : forallb in_block l = true -> erase_undefs l = l.
Proof. induction l as [|a l IH]; [reflexivity|]. cbn [forallb]. intro B. apply andb_true_iff in B as (B1 & B2). unfold erase_undefs in *. cbn [filter]. rewrite (IH B2). destruct a; try discriminate; reflexivity. Qed.
Lemma block_two A S : plain_stmt A -> in_block S = true ->
  (A = SUndef /\ block_make [A; S] = S) \/ (exists l, A = SBlock l /\ block_make [A; S] = SBlock (l ++ [S])) \/ (in_block A = true /\ block_make [A; S] = SBlock [A; S]).
Proof.
  intros P B. destruct (in_block A) eqn:Q.
  - right. right. split; [reflexivity|]. apply block_make_flat; [cbn; lia|]. cbn [forallb]. rewrite Q, B. reflexivity.
  - destruct A as [| | | |l| | | | | | | | | | | |]; try discriminate.
    + left. split; [reflexivity|]. unfold block_make. destruct S; try discriminate; reflexivity.
    + right. left. exists l. split; [reflexivity|]. destruct P as (L & F & _). unfold block_make.
      assert (E : flatten_blocks [SBlock l; S] = l ++ [S]) by (destruct S; try discriminate; reflexivity). rewrite E. rewrite filter_in by (rewrite forallb_app, F; cbn [forallb]; rewrite B; reflexivity).
      destruct l as [|a [|b l]]; cbn [length] in L; try lia. reflexivity.
Qed.
Lemma plain_list l : (fix go (l : list stmt) := match l with [] => True | x :: l' => plain_stmt x /\ go l' end) l <-> Forall plain_stmt l.
Proof. induction l as [|a l IH]; [split; auto|]. rewrite IH. split; [intros (A & B); constructor; auto|]. intro F. inversion F; auto. Qed.
Lemma every_block_go P l : (fix go (l : list stmt) := match l with [] => True | x :: l' => every_block P x /\ go l' end) l <-> Forall (every_block P) l.
Proof. induction l as [|a l IH]; [split; auto|]. rewrite IH. split; [intros (A & B); constructor; auto|]. intro F. inversion F; auto. Qed.
(** a property of statements that for a block says that its members have it *)
Lemma two_keeps (P : stmt -> Prop) (G : forall l, P (SBlock l) <-> Forall P l) A S : plain_stmt A -> in_block S = true -> P A -> P S -> P (block_make [A; S]).
Proof.
  intros Pl B PA PS. destruct (block_two A S Pl B) as [(_ & ->)|[(l & -> & ->)|(_ & ->)]]; [exact PS| |].
  - apply G. apply Forall_app. split; [apply G, PA|]. constructor; auto.
  - apply G. repeat constructor; assumption.
Qed.
Lemma two_plain A S : plain_stmt A -> plain_stmt S -> in_block S = true -> plain_stmt (block_make [A; S]).
Proof.
  intros PA PS B. destruct (block_two A S PA B) as [(_ & ->)|[(l & -> & ->)|(Q & ->)]]; [exact PS| |].
  - cbn [plain_stmt] in *. destruct PA as (L & F & G). rewrite plain_list in *. split; [rewrite app_length; lia|]. split; [rewrite forallb_app, F; cbn [forallb]; rewrite B; reflexivity|].
    apply Forall_app. auto.
  - cbn [plain_stmt length forallb]. rewrite Q, B. split; [lia|]. auto.
Qed.
Definition not_decl (s : stmt) : Prop := forall t, ~ same_decl s t /\ ~ same_decl t s.
Lemma apart_last l S : not_decl S -> all_apart l -> all_apart (l ++ [S]).
Proof.
  intro N. induction l as [|a l IH]; cbn [all_apart app]; [auto|]. intros (A & B). split; [|exact (IH B)]. apply Forall_app. split; [exact A|]. constructor; [|constructor]. intro Q. destruct (proj2 (N a) Q).
Qed.
Lemma adjacent_last (R : stmt -> stmt -> Prop) l S : (forall a, R a S) -> adjacent R l -> adjacent R (l ++ [S]).
Proof.
  intro N. induction l as [|a l IH]; cbn [adjacent app]; [auto|]. intros (A & B). split; [|exact (IH B)]. destruct l as [|b l]; cbn [app]; [apply N|exact A].
Qed.
Lemma two_fusable A S : plain_stmt A -> in_block S = true -> not_decl S -> every_block fusable A -> every_block fusable S -> every_block fusable (block_make [A; S]).
Proof.
  intros PA B N EA ES. destruct (block_two A S PA B) as [(_ & ->)|[(l & -> & ->)|(Q & ->)]]; [exact ES| |].
  - cbn [every_block] in *. rewrite every_block_go in *. destruct EA as ((F1 & F2) & G). split; [|apply Forall_app; auto]. split; [apply apart_last; assumption|]. apply adjacent_last; [|exact F2].
    intros a _ Q. destruct (proj2 (N a) Q).
  - cbn [every_block]. split; [|auto]. split.
    + cbn [all_apart]. split; [constructor; [intro Q'; destruct (proj2 (N A) Q')|constructor]|]. split; [constructor|exact I].
    + cbn [adjacent]. split; [intros _ Q'; destruct (proj2 (N A) Q')|auto].
Qed.

(** ** What the fused statement does *)
Section Exec.
  Variable X : Type.
  Variable H : host X.
  Variable call_v : nat -> list buf -> list buf -> list Z -> X -> Z * X.
  Variable copy_v : buf -> buf -> option buf -> (list Z -> option (list Z)) -> X -> X.
  Variable consts : Z -> option buf.
  Notation veval := (veval X H).
  Notation vexec := (vexec X H call_v copy_v consts).

  Lemma vexec_app l l' : Forall plain_stmt l -> forall E v, vexec (SBlock (l ++ l')) E v = (r <- vexec (SBlock l) E v ;; let '(z, v1) := r in if z =? 0 then vexec (SBlock l') E v1 else Val (z, v1)).
  Proof.
    induction 1 as [|x l P F IH]; intros E v; [reflexivity|]. cbn [app]. rewrite !vexec_cons. destruct (vexec x E v) as [(z, v1)|]; [|reflexivity]. cbn [bind]. destruct (z =? 0) eqn:Q.
    - rewrite (proj1 (plain_flat x P)). exact (IH E v1).
    - cbn [bind]. rewrite Q. reflexivity.
  Qed.
  Lemma vexec_one s E v r : vexec s E v = Val r -> vexec (SBlock [s]) E v = Val r.
  Proof. intro G. rewrite vexec_cons, G. cbn [bind]. destruct r as (z, v1). destruct (z =? 0) eqn:Q; [|reflexivity]. apply Z.eqb_eq in Q. subst. reflexivity. Qed.
  Lemma vexec_one_inv s E v r : vexec (SBlock [s]) E v = Val r -> vexec s E v = Val r.
  Proof. rewrite vexec_cons. destruct (vexec s E v) as [(z, v1)|]; [|discriminate]. cbn [bind]. destruct (z =? 0) eqn:Q; [|auto]. apply Z.eqb_eq in Q. subst. auto. Qed.
  Lemma vexec_two A S : plain_stmt A -> plain_stmt S -> in_block S = true -> forall E v z v1 r, vexec A E v = Val (z, v1) -> (if z =? 0 then vexec S E v1 else Val (z, v1)) = Val r ->
    vexec (block_make [A; S]) E v = Val r.
  Proof.
    intros PA PS B E v z v1 r G1 G2. destruct (block_two A S PA B) as [(-> & ->)|[(l & -> & ->)|(Q & ->)]].
    - discriminate.
    - destruct PA as (_ & _ & PA). rewrite plain_list in PA. rewrite vexec_app by exact PA. rewrite G1. cbn [bind]. destruct (z =? 0); [|exact G2]. apply vexec_one. exact G2.
    - rewrite vexec_cons, G1. cbn [bind]. rewrite (proj1 (plain_flat A PA)). destruct (z =? 0); [|exact G2]. apply vexec_one. exact G2.
  Qed.

  (** the buffer that a declaration makes; none if it fails *)
  Definition built (s : stmt) (E : venv) : res (option buf) :=
    match s with
    | SMake sym b elem ds body => es <- veval_def X H E elem 0 ;; p <- veval_def X H E b 0 ;; dl <- vdims X H E false ds ;; let b := Buf (ptr_of p) es dl in Val (if validate_buffer b then Some b else None)
    | SCropBuffer sym src l body => b <- vbuffer E src ;; _ <- in_place E sym src ;; b' <- vcrop X H E b 0 l ;; Val (Some b')
    | SCropDim sym src d i body => b <- vbuffer E src ;; _ <- in_place E sym src ;; r <- vinterval_def X H E i (d_min (dim_at b d)) (d_max (dim_at b d)) ;; Val (Some (crop b d (fst r) (snd r)))
    | SSliceBuffer sym src at_ body => b <- vbuffer E src ;; r <- vslice X H E (base b) (dims b) at_ ;; Val (Some (Buf (fst r) (elem_size b) (snd r)))
    | SSliceDim sym src d at_ body => b <- vbuffer E src ;; b' <- vslice_dim X H E b d at_ ;; Val (Some b')
    | STranspose sym src p body =>
        b <- vbuffer E src ;;
        if (sym =? src)%nat && is_truncate p then if (rank b <? length p)%nat then UB else _ <- in_place E sym src ;; Val (Some (Buf (base b) (elem_size b) (firstn (length p) (dims b))))
        else Val (Some (transpose b p))
    | _ => UB
    end.
  Lemma bind_assoc {A B C} (a : res A) (f : A -> res B) (g : B -> res C) : bind (bind a f) g = bind a (fun x => bind (f x) g). Proof. destruct a; reflexivity. Qed.
  Lemma vexec_makes s x b E v : makes s x b ->
    vexec s E v = (o <- built s E ;; match o with Some q => vexec b (vset E x (Buffer Own q)) v | None => Val (-1, v_failed X v) end).
  Proof.
    destruct 1; cbn [VSem_Spec.vexec built]; repeat (rewrite !bind_assoc; apply bind_ext; intro); try reflexivity.
    - cbv zeta. cbn [bind]. destruct (validate_buffer _); reflexivity.
    - destruct (_ && _); [|reflexivity]. destruct (rank _ <? _)%nat; [reflexivity|]. rewrite bind_assoc. reflexivity.
  Qed.
  Lemma built_same s t E o o' : same_decl s t -> apart s t -> allocates s = false -> built s E = Val o -> built t E = Val o' -> o = o'.
  Proof.
    intros S Ap Al Gs Gt. destruct (Ap S) as (_ & Tr). destruct S; try discriminate; cbn [built] in *.
    - congruence.
    - repeat (let q := fresh "q" in let Q := fresh "Q" in apply bind_inv in Gs as (q & Q & Gs)). repeat (let q := fresh "q" in let Q := fresh "Q" in apply bind_inv in Gt as (q & Q & Gt)). congruence.
    - repeat (let q := fresh "q" in let Q := fresh "Q" in apply bind_inv in Gs as (q & Q & Gs)). repeat (let q := fresh "q" in let Q := fresh "Q" in apply bind_inv in Gt as (q & Q & Gt)). congruence.
    - congruence.
    - congruence.
    - apply bind_inv in Gs as (q & Q & Gs). apply bind_inv in Gt as (q' & Q' & Gt). assert (q' = q) by congruence. subst q'. specialize (Tr x y src p a b eq_refl eq_refl).
      destruct (is_truncate p) eqn:T; [|rewrite !andb_false_r in *; congruence]. rewrite !andb_true_r in *. specialize (Tr eq_refl).
      destruct (x =? src)%nat eqn:Qx, (y =? src)%nat eqn:Qy; try rewrite Nat.eqb_eq in *; try rewrite Nat.eqb_neq in *; try tauto; try congruence.
      destruct (rank q <? length p)%nat; [discriminate|]. apply bind_inv in Gs as (u & _ & Gs). apply bind_inv in Gt as (u' & _ & Gt). congruence.
  Qed.
  Lemma declares_makes s x b : allocates s = false -> declares s = Some (x, b) -> makes s x b.
  Proof. destruct s; cbn [allocates declares]; intros A D; try discriminate; injection D as <- <-; constructor. Qed.
  Lemma makes_with s x a b : makes s x a -> makes (with_body s b) x b. Proof. destruct 1; constructor. Qed.
  Lemma built_with s b E : built (with_body s b) E = built s E. Proof. destruct s; reflexivity. Qed.
  Lemma same_alloc s t : same_decl s t -> allocates t = allocates s. Proof. destruct 1; reflexivity. Qed.

  Lemma makes_plain s x b : makes s x b -> plain_stmt s -> plain_stmt b. Proof. destruct 1; auto. Qed.
  Lemma fused_exec a b c E v l r : fuse a b = Some c -> apart a b -> allocates a = false -> plain_stmt a -> plain_stmt b -> plain_stmt c ->
    vexec (SBlock (a :: b :: l)) E v = Val r -> vexec (SBlock (c :: l)) E v = Val r.
  Proof.
    intros F Ap Al Pa Pb Pc G. apply fuse_inv in F as (x & A & y & B & S & Da & Db & ->). apply declares_makes in Da; [|exact Al]. apply declares_makes in Db; [|rewrite (same_alloc _ _ S); exact Al].
    pose proof (makes_plain _ _ _ Da Pa) as PA. pose proof (makes_plain _ _ _ Db Pb) as PB.
    rewrite vexec_cons in G. apply bind_inv in G as ((z, v1) & G1 & G). rewrite (vexec_makes _ _ _ _ _ Da) in G1. apply bind_inv in G1 as (o & Bo & G1).
    rewrite vexec_cons. rewrite (vexec_makes _ _ _ _ _ (makes_with _ _ _ _ Da)), built_with, Bo. cbn [bind]. rewrite (proj1 (plain_flat _ Pa)) in G. rewrite (proj1 (plain_flat _ Pc)).
    destruct o as [q|].
    - destruct (z =? 0) eqn:Q.
      + rewrite vexec_cons in G. apply bind_inv in G as ((z2, v2) & G2 & G). rewrite (vexec_makes _ _ _ _ _ Db) in G2. apply bind_inv in G2 as (o2 & Bo2 & G2).
        rewrite <- (built_same _ _ _ _ _ S Ap Al Bo Bo2) in G2. change (vforget [] E) with E in *.
        assert (K : vexec (block_make [A; SClone y x B]) (vset E x (Buffer Own q)) v = Val (z2, v2)).
        { apply (vexec_two A (SClone y x B) PA PB eq_refl _ _ _ _ _ G1). rewrite Q. cbn [VSem_Spec.vexec]. unfold vbuffer. rewrite vset_same. cbn [bind].
          rewrite <- G2. apply (stmt_frame X H call_v copy_v consts B PB). intros u Fu. destruct (Nat.eq_dec u y) as [->|n]; [rewrite !vset_same; reflexivity|]. rewrite !(vset_other _ y) by exact n.
          destruct (proj1 (Ap S) x A y B Da Db) as [->|Nf]; [rewrite vset_other by exact n; reflexivity|]. rewrite vset_other; [reflexivity|]. intros ->. contradiction. }
        rewrite K. cbn [bind]. destruct (z2 =? 0); [|exact G]. rewrite (proj1 (plain_flat _ Pb)) in G. exact G.
      + assert (K : vexec (block_make [A; SClone y x B]) (vset E x (Buffer Own q)) v = Val (z, v1)) by (apply (vexec_two A (SClone y x B) PA PB eq_refl _ _ _ _ _ G1); rewrite Q; reflexivity).
        rewrite K. cbn [bind]. rewrite Q. exact G.
    - injection G1 as <- <-. cbn [bind] in *. exact G.
  Qed.
End Exec.
