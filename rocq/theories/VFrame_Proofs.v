(** What a statement does depends only on the values of its free symbols. *)
From Coq Require Import ZArith List Bool Lia.
From Verif Require Import Arith_Model Arith_Proofs Buf_Model Expr_Model Expr_Proofs Stmt_Model Stmt_Spec Stmt_Proofs Deps_Spec VSem_Spec VExec_Proofs VRef_Proofs Subst_Spec Subst_Props SubstMean_Proofs
  StmtSubst_Spec StmtSubst2_Proofs OptSym_Proofs.
Import ListNotations.
Open Scope Z_scope.

Definition same_on (P : nat -> Prop) (E E' : venv) : Prop := forall x, P x -> E x = E' x.
Lemma same_on_sub (P Q : nat -> Prop) E E' : same_on P E E' -> (forall x, Q x -> P x) -> same_on Q E E'. Proof. intros S I x Qx. apply S, I, Qx. Qed.
Ltac sub S := eapply same_on_sub; [exact S|]; cbv beta; intros; auto.
Lemma same_on_set (P : nat -> Prop) E E' s a : same_on (fun x => s <> x /\ P x) E E' -> same_on P (vset E s a) (vset E' s a).
Proof. intros S x Px. destruct (Nat.eq_dec s x) as [->|n]; [rewrite !vset_same; reflexivity|]. rewrite !vset_other by congruence. apply S. auto. Qed.
Lemma bind_ext {A B} (a : res A) (f g : A -> res B) : (forall x, f x = g x) -> bind a f = bind a g. Proof. intro Q. destruct a; cbn; auto. Qed.

Section Frame.
  Variable X : Type.
  Variable H : host X.
  Variable call_v : nat -> list buf -> list buf -> list Z -> X -> Z * X.
  Variable copy_v : buf -> buf -> option buf -> (list Z -> option (list Z)) -> X -> X.
  Variable consts : Z -> option buf.
  Notation veval := (veval X H).
  Notation vexec := (vexec X H call_v copy_v consts).

  Definition eframe (e : expr) : Prop := forall E E', same_on (fun x => free x e) E E' -> veval E e = veval E' e.
  Lemma args_frame l : Forall eframe l -> forall E E', same_on (fun x => exists a, In a l /\ free x a) E E' -> veval_args veval E l = veval_args veval E' l.
  Proof.
    induction 1 as [|a l Fa _ IH]; intros E E' S; [reflexivity|]. cbn [veval_args]. rewrite (Fa E E'), (IH E E'); [reflexivity| |].
    - eapply same_on_sub; [exact S|]. intros x (b & I & Fb). exists b. split; [right; exact I|exact Fb].
    - eapply same_on_sub; [exact S|]. intros x Fx. exists a. split; [left; reflexivity|exact Fx].
  Qed.
  Lemma at_frame l : Forall eframe l -> forall n E E', same_on (fun x => exists a, In a l /\ free x a) E E' -> veval_at veval E n l = veval_at veval E' n l.
  Proof.
    induction 1 as [|a l Fa _ IH]; intros n E E' S; [reflexivity|]. cbn [veval_at]. destruct n as [|n]; [reflexivity|]. rewrite (Fa E E'), (IH n E E'); [reflexivity| |].
    - eapply same_on_sub; [exact S|]. intros x (b & I & Fb). exists b. split; [right; exact I|exact Fb].
    - eapply same_on_sub; [exact S|]. intros x Fx. exists a. split; [left; reflexivity|exact Fx].
  Qed.
  Lemma short_frame stop l : Forall eframe l -> forall E E', same_on (fun x => exists a, In a l /\ free x a) E E' -> veval_short veval E stop l = veval_short veval E' stop l.
  Proof.
    induction 1 as [|a l Fa _ IH]; intros E E' S; [reflexivity|]. cbn [veval_short]. rewrite (Fa E E'), (IH E E'); [reflexivity| |].
    - eapply same_on_sub; [exact S|]. intros x (b & I & Fb). exists b. split; [right; exact I|exact Fb].
    - eapply same_on_sub; [exact S|]. intros x Fx. exists a. split; [left; reflexivity|exact Fx].
  Qed.
  Lemma free_at_args y t a l b : In b l -> free y b -> free y (ECall i_buffer_at t (a :: l)).
  Proof.
    intros I (ro & F). exists ro. assert (A : any_of (occurs y ro) l) by (apply any_of_in; eauto). destruct a as [|s f d| | | | | |]; cbn [occurs]; auto. destruct f; auto.
  Qed.
  Lemma eval_frame e : eframe e.
  Proof.
    induction e as [|s f d|l b IHl IHb|o a b IHa IHb|a IHa|q t f IHq IHt IHf|fn t args IHargs|c0] using expr_ind'; intros E E' S.
    - reflexivity.
    - cbn [VSem_Spec.veval]. rewrite (S s); [reflexivity|]. exists (RField f). cbn. auto.
    - cbn [VSem_Spec.veval]. revert E E' S. induction l as [|(s, x) l IH]; intros E E' S; cbn [veval_lets].
      + cbn [bind]. apply IHb. eapply same_on_sub; [exact S|]. intros y (ro & F). exists ro. exact F.
      + inversion IHl as [|? ? H1 H2]; subst. cbn [snd] in H1. rewrite (H1 E E').
        2:{ eapply same_on_sub; [exact S|]. intros y F. apply (proj1 (free_lets y _ _)). cbn [in_lets]. left. exact F. }
        destruct (veval E' x) as [v|]; [|reflexivity]. cbn [bind]. apply (IH H2). apply same_on_set. eapply same_on_sub; [exact S|].
        intros y (n & F). apply (proj1 (free_lets y _ _)). cbn [in_lets]. right. split; [exact n|]. apply (proj2 (free_lets y _ _)). exact F.
    - cbn [VSem_Spec.veval]. rewrite (IHa E E'), (IHb E E'); [reflexivity| |]; (eapply same_on_sub; [exact S|]; intros y F; apply free_bin_parts; auto).
    - cbn [VSem_Spec.veval]. rewrite (IHa E E'); [reflexivity|]. eapply same_on_sub; [exact S|]. intros y (ro & F). exists ro. exact F.
    - cbn [VSem_Spec.veval]. rewrite (IHq E E'), (IHt E E'), (IHf E E'); [reflexivity| | |]; (eapply same_on_sub; [exact S|]; intros y (ro & F); exists ro; cbn [occurs]; auto).
    - assert (N : fn <> i_buffer_at -> same_on (fun x => exists a, In a args /\ free x a) E E').
      { intro n. eapply same_on_sub; [exact S|]. intros y F. apply free_args; assumption. }
      destruct fn; cbn [VSem_Spec.veval]; try (rewrite (args_frame args IHargs E E' (N ltac:(discriminate))); reflexivity); try reflexivity.
      + destruct args as [|a [|a2 l]]; try reflexivity. inversion IHargs as [|? ? H1 _]; subst. rewrite (H1 E E'); [reflexivity|]. eapply same_on_sub; [apply N; discriminate|]. intros y F. exists a. split; [left; reflexivity|exact F].
      + exact (short_frame false args IHargs E E' (N ltac:(discriminate))).
      + exact (short_frame true args IHargs E E' (N ltac:(discriminate))).
      + destruct args as [|a at_]; [reflexivity|]. destruct a as [|s f d| | | | | |]; try reflexivity. destruct f; try reflexivity. rewrite (S s); [|exists RAddress; cbn; auto].
        destruct (E' s) as [| |k b]; try reflexivity. inversion IHargs as [|? ? _ H2]; subst. rewrite (at_frame at_ H2 (rank b) E E'); [reflexivity|]. eapply same_on_sub; [exact S|].
        intros y (a & I & F). exact (free_at_args y t _ at_ a I F).
    - reflexivity.
  Qed.

  Lemma def_frame e d E E' : same_on (fun x => free x e) E E' -> veval_def X H E e d = veval_def X H E' e d.
  Proof. intro S. unfold veval_def. rewrite (eval_frame e E E' S). reflexivity. Qed.
  Lemma interval_frame i E E' : same_on (fun x => free_interval x i) E E' -> vinterval X H E i = vinterval X H E' i.
  Proof. intro S. unfold vinterval. rewrite (eval_frame (fst i) E E'), (eval_frame (snd i) E E'); [reflexivity| |]; (eapply same_on_sub; [exact S|]; intros x F; [right + left]; exact F). Qed.
  Lemma interval_def_frame i a b E E' : same_on (fun x => free_interval x i) E E' -> vinterval_def X H E i a b = vinterval_def X H E' i a b.
  Proof. intro S. unfold vinterval_def. rewrite (def_frame (fst i) a E E'), (def_frame (snd i) b E E'); [reflexivity| |]; (eapply same_on_sub; [exact S|]; intros x F; [right + left]; exact F). Qed.
  Lemma dim_frame au d E E' : same_on (fun x => free_dim x d) E E' -> vdim X H E au d = vdim X H E' au d.
  Proof.
    intro S. unfold vdim. rewrite (interval_frame (de_bounds d) E E'), (eval_frame (de_stride d) E E'), (def_frame (de_stride d) _ E E'), (def_frame (de_fold d) _ E E'); [reflexivity| | | |];
      (eapply same_on_sub; [exact S|]; unfold free_dim; auto).
  Qed.
  Lemma dims_frame au l E E' : same_on (fun x => Exists (free_dim x) l) E E' -> vdims X H E au l = vdims X H E' au l.
  Proof.
    induction l as [|d l IH]; intro S; [reflexivity|]. cbn [vdims]. rewrite IH, (dim_frame au d E E'); [reflexivity| |]; (eapply same_on_sub; [exact S|]; intros x F); [apply Exists_cons_hd|apply Exists_cons_tl]; exact F.
  Qed.
  Lemma list_frame l E E' : same_on (fun x => any_of (free x) l) E E' -> vlist X H E l = vlist X H E' l.
  Proof. induction l as [|d l IH]; intro S; [reflexivity|]. cbn [vlist]. rewrite IH, (eval_frame d E E'); [reflexivity| |]; (eapply same_on_sub; [exact S|]; intros x F); [left|right]; exact F. Qed.
  Lemma buffers_frame l E E' : same_on (fun x => In x l) E E' -> vbuffers E l = vbuffers E' l.
  Proof. induction l as [|d l IH]; intro S; [reflexivity|]. cbn [vbuffers]. unfold vbuffer. rewrite IH, (S d); [reflexivity|left; reflexivity|]. eapply same_on_sub; [exact S|]. intros x F. right. exact F. Qed.
  Lemma crop_frame l : forall b d E E', same_on (fun x => Exists (free_interval x) l) E E' -> vcrop X H E b d l = vcrop X H E' b d l.
  Proof.
    induction l as [|i l IH]; intros b d E E' S; [reflexivity|]. cbn [vcrop]. rewrite (interval_def_frame i _ _ E E').
    - destruct (rank b <=? d)%nat; [reflexivity|]. apply bind_ext. intro r. apply IH. eapply same_on_sub; [exact S|]. intros x F. apply Exists_cons_tl, F.
    - eapply same_on_sub; [exact S|]. intros x F. apply Exists_cons_hd, F.
  Qed.
  Lemma slice_frame ds : forall l p E E', same_on (fun x => any_of (free x) l) E E' -> vslice X H E p ds l = vslice X H E' p ds l.
  Proof.
    induction ds as [|d ds IH]; intros l p E E' S; [reflexivity|]. cbn [vslice]. destruct l as [|x l]; [reflexivity|].
    assert (S1 : same_on (fun y => any_of (free y) l) E E') by (eapply same_on_sub; [exact S|]; intros y F; right; exact F).
    destruct (defined x).
    - destruct p; [|apply IH, S1]. rewrite (eval_frame x E E'); [|eapply same_on_sub; [exact S|]; intros y F; left; exact F]. apply bind_ext. intro y. apply IH, S1.
    - rewrite (IH l p E E' S1). reflexivity.
  Qed.
  Lemma slice_dim_frame b d e E E' : same_on (fun x => free x e) E E' -> vslice_dim X H E b d e = vslice_dim X H E' b d e.
  Proof. intro S. unfold vslice_dim. rewrite (eval_frame e E E' S). reflexivity. Qed.
  Lemma serial_frame f g lo hi st : (forall y v, f y v = g y v) -> forall n i v, vserial X f lo hi st n i v = vserial X g lo hi st n i v.
  Proof. intros Q. induction n as [|n IH]; intros i v; cbn [vserial]; [reflexivity|]. destruct (_ && _); [|reflexivity]. rewrite Q. apply bind_ext. intros (z, v1). apply bind_ext. intro i'. destruct (z =? 0); [apply IH|reflexivity]. Qed.
  Lemma par_frame f g lo st : (forall y v, f y v = g y v) -> forall sched q v, vpar X f lo st sched q v = vpar X g lo st sched q v.
  Proof. intros Q. induction sched as [|(k, i) l IH]; intros q v; cbn [vpar]; [reflexivity|]. apply bind_ext. intro t. apply bind_ext. intro y. rewrite Q. apply bind_ext. intros (z, v1). apply IH. Qed.
  Lemma allocate_frame sym w es dl f g v : (forall b v, f b v = g b v) -> vallocate X H sym w es dl f v = vallocate X H sym w es dl g v.
  Proof. intro Q. unfold vallocate. apply bind_ext. intros [((b, p), v3)|]; [|reflexivity]. destruct (alloc_fails b); [reflexivity|]. rewrite Q. reflexivity. Qed.
  Lemma plain_flat s : plain_stmt s -> async_syms s = [] /\ as_closure s = None.
  Proof.
    induction s as [|t ins outs sc|src sx dst dx pad|l s c IHs|l IHl|s w x st b IHs|s w e ds b IHs|s p e ds b IHs|s v b IHs|s v b IHs|s v l b IHs|s v d x b IHs|s v l b IHs|s v d x b IHs|s v p b IHs|s s1 s2 IHs1 IHs2|c] using stmt_ind';
      cbn [plain_stmt]; intro P; try contradiction; try (split; reflexivity); try (split; [apply (IHs P)|reflexivity]).
    - destruct P as (-> & P). split; [apply (IHs P)|reflexivity].
    - split; [|reflexivity]. destruct P as (_ & _ & P). cbn [async_syms]. induction l as [|x l IH]; [reflexivity|]. inversion IHl as [|? ? H1 H2]; subst. destruct P as (P1 & P2).
      rewrite (proj1 (H1 P1)). cbn [app]. exact (IH H2 P2).
  Qed.

  Definition sframe (s : stmt) : Prop := forall E E' v, same_on (fun x => free_stmt x s) E E' -> vexec s E v = vexec s E' v.
  Lemma forget_none l E : l = [] -> same_on (fun _ => True) (vforget l E) E. Proof. intros -> x _. reflexivity. Qed.
  Lemma stmt_frame s : plain_stmt s -> sframe s.
  Proof.
    induction s as [|t ins outs sc|src sx dst dx pad|l s c IHs|l IHl|s w x st b IHs|s w e ds b IHs|s p e ds b IHs|s v b IHs|s v b IHs|s v l b IHs|s v d x b IHs|s v l b IHs|s v d x b IHs|s v p b IHs|s s1 s2 IHs1 IHs2|c] using stmt_ind';
      cbn [plain_stmt]; intros P E E' vs S; try contradiction; cbn [free_stmt] in S.
    - reflexivity.
    - cbn [VSem_Spec.vexec]. rewrite (buffers_frame ins E E'), (buffers_frame outs E E'), (list_frame sc E E'); [reflexivity| | |]; sub S.
    - destruct P as (-> & P). specialize (IHs P). revert E E' S. induction l as [|(y, x) l IH]; intros E E' S.
      + cbn [VSem_Spec.vexec vlets bind]. apply IHs. exact S.
      + rewrite !vexec_let_cons. cbn [in_lets] in S.
        assert (Q : forall a, vexec (SLet l s false) (vset E y a) vs = vexec (SLet l s false) (vset E' y a) vs).
        { intro a. apply IH. apply same_on_set. eapply same_on_sub; [exact S|]. intros z F. right. exact F. }
        assert (Sx : same_on (fun z => free z x) E E') by (eapply same_on_sub; [exact S|]; intros z F; left; exact F).
        unfold vlet. rewrite <- (eval_frame x E E' Sx).
        destruct x as [|z f d| | | | | |]; try (destruct (veval E _) as [u|]; cbn [bind]; [apply Q|reflexivity]). destruct f; try (destruct (veval E _) as [u|]; cbn [bind]; [apply Q|reflexivity]).
        rewrite <- (Sx z) by (exists (RField f_none); cbn; auto). destruct (E z) as [|u|k b]; cbn [bind]; [apply Q|apply Q|].
        apply IH. apply same_on_set. intros u (n & F). unfold vset. destruct (u =? z)%nat; [reflexivity|]. apply S. right. auto.
    - destruct P as (_ & _ & P). revert E E' vs S. induction l as [|x l IH]; intros E E' vs S; [reflexivity|]. inversion IHl as [|? ? H1 H2]; subst. destruct P as (P1 & P2).
      rewrite !vexec_cons. rewrite (H1 P1 E E' vs); [|eapply same_on_sub; [exact S|]; intros y F; left; exact F]. apply bind_ext. intros (z, v1). destruct (z =? 0); [|reflexivity].
      rewrite (proj1 (plain_flat x P1)). apply (IH H2 P2). intros y F. exact (S y (or_intror F)).
    - destruct (plain_flat b P) as (Qa & Qc). specialize (IHs P).
      assert (Q : forall y vs, vexec b (vset E s (Num y)) vs = vexec b (vset E' s (Num y)) vs).
      { intros y v0. apply IHs. apply same_on_set. sub S. }
      assert (Qs : forall y vs, vexec b (vset (vshare E) s (Num y)) vs = vexec b (vset (vshare E') s (Num y)) vs).
      { intros y v0. apply IHs. apply same_on_set. intros z F. unfold vshare. rewrite (S z); auto. }
      cbn [VSem_Spec.vexec]. rewrite (eval_frame w E E'), (interval_frame x E E'), (def_frame st _ E E'); try (sub S).
      apply bind_ext. intro k. apply bind_ext. intros (lo, hi). apply bind_ext. intro stp. destruct (stp =? 0); [reflexivity|]. rewrite Qa, Qc. cbn [vparallel bind].
      assert (Qi : match b with SLet _ b0 true => vexec b0 | _ => vexec b end = vexec b).
      { destruct b; try reflexivity. destruct is_closure; [discriminate|reflexivity]. }
      rewrite Qi. destruct (1 <? k); [|apply serial_frame; exact Q]. apply bind_ext. intro n. destruct (n =? 0); [reflexivity|]. destruct (n =? 1); [apply Qs|]. destruct (h_pool X H); [|reflexivity]. apply par_frame. exact Qs.
    - specialize (IHs P). cbn [VSem_Spec.vexec]. rewrite (eval_frame e E E'), (dims_frame true ds E E'); try (sub S).
      apply bind_ext. intro es. apply bind_ext. intro dl. apply allocate_frame. intros q v0. apply IHs, same_on_set. sub S.
    - specialize (IHs P). cbn [VSem_Spec.vexec]. rewrite (def_frame e _ E E'), (def_frame p _ E E'), (dims_frame false ds E E'); try (sub S).
      apply bind_ext. intro es. apply bind_ext. intro q. apply bind_ext. intro dl. destruct (validate_buffer _); [|reflexivity]. apply IHs, same_on_set. sub S.
    - specialize (IHs P). cbn [VSem_Spec.vexec]. apply bind_ext. intro q. apply IHs, same_on_set. exact S.
    - specialize (IHs P). cbn [VSem_Spec.vexec]. unfold vbuffer. rewrite (S v) by auto. apply bind_ext. intro q. apply IHs, same_on_set. sub S.
    - specialize (IHs P). cbn [VSem_Spec.vexec]. unfold vbuffer, in_place. rewrite (S v) by auto. apply bind_ext. intro q. apply bind_ext. intros _. rewrite (crop_frame l q 0 E E') by sub S.
      apply bind_ext. intro q'. apply IHs, same_on_set. sub S.
    - specialize (IHs P). cbn [VSem_Spec.vexec]. unfold vbuffer, in_place. rewrite (S v) by auto. apply bind_ext. intro q. apply bind_ext. intros _.
      try rewrite (interval_def_frame x _ _ E E') by sub S.
      assert (Q : forall a, vexec b (vset E s a) vs = vexec b (vset E' s a) vs) by (intro a; apply IHs, same_on_set; sub S).
      apply bind_ext. intros r. apply Q.
    - specialize (IHs P). cbn [VSem_Spec.vexec]. unfold vbuffer. rewrite (S v) by auto. apply bind_ext. intro q. rewrite (slice_frame (dims q) l (base q) E E') by sub S.
      apply bind_ext. intro q'. apply IHs, same_on_set. sub S.
    - specialize (IHs P). cbn [VSem_Spec.vexec]. unfold vbuffer. rewrite (S v) by auto. apply bind_ext. intro q. rewrite (slice_dim_frame q d x E E') by sub S.
      apply bind_ext. intro q'. apply IHs, same_on_set. sub S.
    - specialize (IHs P). cbn [VSem_Spec.vexec]. unfold vbuffer, in_place. rewrite (S v) by auto.
      assert (Q : forall a, vexec b (vset E s a) vs = vexec b (vset E' s a) vs) by (intro a; apply IHs, same_on_set; sub S).
      apply bind_ext. intro q. destruct (_ && _); [|apply Q]. destruct (rank q <? length p)%nat; [reflexivity|]. apply bind_ext. intros _. apply Q.
    - rewrite !vexec_check. rewrite (eval_frame c E E' S). destruct (frees c) as [y|] eqn:Q; [|reflexivity]. rewrite (S y); [reflexivity|].
      destruct c as [| | | | | |fn t args|]; try discriminate. destruct fn; try discriminate. destruct args as [|[|s0 f d0| | | | | |] [|a2 args]]; try discriminate; destruct f; try discriminate.
      injection Q as ->. exists (RField f_none). cbn. auto.
  Qed.
End Frame.
