(** substitute_inputs: the inputs of functions are the whole buffers. *)
From Coq Require Import ZArith List Bool Arith Lia.
From Verif Require Import Arith_Model Arith_Proofs Buf_Model Buf_Spec Buf_Proofs ForEach_Spec Expr_Model Expr_Proofs Stmt_Model Stmt_Spec Stmt_Proofs Deps_Spec VSem_Spec VExec_Proofs VRef_Proofs StmtSubst_Spec StmtSubst2_Proofs OptSym_Proofs
  VFrame_Proofs Concat_Model Concat_Spec Concat_Proofs Crops_Model Crops_Spec Crops3_Proofs Crops4_Proofs Uncrop_Model Uncrop_Spec Stmt_Model.
Import ListNotations.
Open Scope Z_scope.

Lemma includes_refl b : includes b b. Proof. intros idx I. auto. Qed.
Lemma includes_trans a b c : includes a b -> includes b c -> includes a c.
Proof. intros P Q idx I. destruct (Q idx I) as (I1 & L1). destruct (P idx I1) as (I2 & L2). split; [exact I2|congruence]. Qed.
Lemma includes_crop b d lo hi : includes b (Buf_Model.crop b d lo hi).
Proof.
  destruct (le_lt_dec (length (dims b)) d) as [L|L].
  - replace (Buf_Model.crop b d lo hi) with b; [apply includes_refl|]. unfold Buf_Model.crop, rank. destruct (Nat.leb_spec (length (dims b)) d); [reflexivity|lia].
  - pose proof (cropd_one b d (Some lo, Some hi) (fun j => if (j =? d)%nat then (Some lo, Some hi) else no) L (fun j => eq_refl)) as C. cbn [fst snd or_else] in C. exact (cropd_includes _ _ _ C).
Qed.

Section Exec.
  Variable X : Type.
  Variable H : host X.
  Variable call1 call2 : nat -> list buf -> list buf -> list Z -> X -> Z * X.
  Variable copy_v : buf -> buf -> option buf -> (list Z -> option (list Z)) -> X -> X.
  Variable consts : Z -> option buf.
  Variable subs : renaming.
  Variable whole : nat -> option buf.
  Variable inputs_of : nat -> list nat.
  Hypothesis whole_old : forall x, subs x = None -> whole x = None.
  Hypothesis calls : forall t bi bo vs x, parts whole (inputs_of t) bi -> call2 t (wholes whole (inputs_of t) bi) bo vs x = call1 t bi bo vs x.
  Notation vexec1 := (vexec X H call1 copy_v consts).
  Notation vexec2 := (vexec X H call2 copy_v consts).
  Notation si := (substitute_inputs subs).
  Notation in_scope := (in_scope subs whole).
  Notation ok s := (only_crops (is_old subs) (is_new subs) inputs_of s).
  Notation is_old := (is_old subs).
  Notation is_new := (is_new subs).

  Lemma inputs_whole E l : in_scope E -> match vbuffers E l with Val bi => vbuffers E (map (renamed subs) l) = Val (wholes whole l bi) /\ parts whole l bi | UB => vbuffers E (map (renamed subs) l) = UB end.
  Proof.
    intro I. induction l as [|x l IH]; cbn [vbuffers map]; [split; [reflexivity|exact Logic.I]|].
    destruct (subs x) as [y|] eqn:Q.
    - destruct (I x y Q) as (w & k & k' & b & W & Ey & Ex & Inc). assert (R : renamed subs x = y) by (unfold renamed; rewrite Q; reflexivity). rewrite R. unfold vbuffer. rewrite Ey, Ex. cbn [bind].
      destruct (vbuffers E l) as [bi|]; cbn [bind]; [|rewrite IH; reflexivity]. destruct IH as (IH1 & IH2). rewrite IH1. cbn [bind wholes]. unfold or_whole. rewrite W. split; [reflexivity|].
      cbn [parts]. split; [|exact IH2]. intros w' W'. rewrite W in W'. injection W' as <-. exact Inc.
    - assert (R : renamed subs x = x) by (unfold renamed; rewrite Q; reflexivity). rewrite R. destruct (vbuffer E x) as [b|]; [|reflexivity]. cbn [bind].
      destruct (vbuffers E l) as [bi|]; cbn [bind]; [|rewrite IH; reflexivity]. destruct IH as (IH1 & IH2). rewrite IH1. cbn [bind wholes]. unfold or_whole. rewrite (whole_old x Q).
      split; [reflexivity|]. cbn [parts]. split; [|exact IH2]. rewrite (whole_old x Q). discriminate.
  Qed.
  Lemma scope_set E s a : apart_from is_old is_new s -> in_scope E -> in_scope (vset E s a).
  Proof.
    intros (N1 & N2) I x y Q. destruct (I x y Q) as (w & k & k' & b & W & Ey & Ex & Inc). exists w, k, k', b. split; [exact W|]. rewrite !vset_other; auto.
    - intros ->. apply N1. unfold Uncrop_Spec.is_old. rewrite Q. discriminate.
    - intros ->. apply N2. exists x. exact Q.
  Qed.
  Lemma scope_crop E s src k b b' : ~ is_new s -> (is_old s -> s = src) -> E src = Buffer k b -> includes b b' -> in_scope E -> in_scope (vset E s (Buffer Own b')).
  Proof.
    intros N O Es Ib I x y Q. destruct (I x y Q) as (w & k1 & k' & b0 & W & Ey & Ex & Inc). rewrite (vset_other E s _ y); [|intros ->; apply N; exists x; exact Q].
    destruct (Nat.eq_dec x s) as [->|n].
    - rewrite vset_same. assert (s = src) as -> by (apply O; unfold is_old; rewrite Q; discriminate). rewrite Es in Ex. injection Ex as <- <-. exists w, k1, Own, b'. split; [exact W|]. split; [exact Ey|]. split; [reflexivity|]. eapply includes_trans; eauto.
    - rewrite vset_other by exact n. exists w, k1, k', b0. auto.
  Qed.
  Lemma scope_share E : in_scope E -> in_scope (vshare E).
  Proof. intros I x y Q. destruct (I x y Q) as (w & k & k' & b & W & Ey & Ex & Inc). unfold vshare. rewrite Ey, Ex. cbn [share]. eexists w, _, _, b. eauto. Qed.
  Lemma vcrop_includes E l : forall b d b', vcrop X H E b d l = Val b' -> includes b b'.
  Proof.
    induction l as [|i l IH]; intros b d b' Q; cbn [vcrop] in Q; [injection Q as <-; apply includes_refl|]. destruct (rank b <=? d)%nat; [injection Q as <-; apply includes_refl|].
    apply bind_inv in Q as (r & _ & Q). eapply includes_trans; [apply includes_crop|]. eapply IH, Q.
  Qed.
  Lemma flat s : ok s -> async_syms (si s) = [] /\ as_closure (si s) = None /\ async_syms s = [] /\ as_closure s = None.
  Proof.
    induction s as [|t ins outs sc|src sx dst dx pad|l s c IHs|l IHl|s w x st b IHs|s w e ds b IHs|s p e ds b IHs|s v b IHs|s v b IHs|s v l b IHs|s v d x b IHs|s v l b IHs|s v d x b IHs|s v p b IHs|s s1 s2 IHs1 IHs2|c] using stmt_ind';
      cbn [only_crops]; intro P; try contradiction; try (repeat split; reflexivity);
      try (assert (G : ok b) by (repeat match goal with A : _ /\ _ |- _ => destruct A end; assumption); destruct (IHs G) as (A1 & A2 & A3 & A4); cbn [substitute_inputs async_syms as_closure]; repeat split; assumption).
    - destruct P as (-> & _ & P). destruct (IHs P) as (A1 & A2 & A3 & A4). cbn [substitute_inputs async_syms as_closure]. repeat split; assumption.
    - cbn [substitute_inputs async_syms as_closure]. assert (G : async_syms (SBlock (map si l)) = [] /\ async_syms (SBlock l) = []).
      { cbn [async_syms]. induction l as [|x l IH]; [split; reflexivity|]. inversion IHl as [|? ? H1 H2]; subst. destruct P as (P1 & P2). destruct (H1 P1) as (A1 & _ & A3 & _). cbn [map]. rewrite A1, A3. cbn [app]. exact (IH H2 P2). }
      destruct G as (G1 & G2). repeat split; assumption.
  Qed.
  Lemma inputs_exec s : ok s -> forall E v, in_scope E -> vexec2 (si s) E v = vexec1 s E v.
  Proof.
    induction s as [|t ins outs sc|src sx dst dx pad|l s c IHs|l IHl|s w x st b IHs|s w e ds b IHs|s p e ds b IHs|s v b IHs|s v b IHs|s v l b IHs|s v d x b IHs|s v l b IHs|s v d x b IHs|s v p b IHs|s s1 s2 IHs1 IHs2|c] using stmt_ind';
      cbn [only_crops]; intros P E vs I; try contradiction.
    - reflexivity.
    - cbn [substitute_inputs VSem_Spec.vexec]. pose proof (inputs_whole E ins I) as W. destruct (vbuffers E ins) as [bi|]; [|rewrite W; reflexivity]. destruct W as (-> & W). cbn [bind].
      apply bind_ext. intro bo. apply bind_ext. intro zs. rewrite P in W |- *. rewrite (calls _ _ _ _ _ W). reflexivity.
    - destruct P as (P1 & P2). cbn [substitute_inputs]. assert (Q : renamed subs src = src) by (unfold renamed; destruct (subs src) eqn:Q; [destruct P1; unfold is_old; rewrite Q; discriminate|reflexivity]). rewrite Q.
      assert (Q' : option_map (renamed subs) pad = pad).
      { destruct pad as [p|]; [|reflexivity]. cbn [option_map]. f_equal. unfold renamed. destruct (subs p) eqn:Q'; [destruct P2; unfold is_old; rewrite Q'; discriminate|reflexivity]. }
      rewrite Q'. reflexivity.
    - destruct P as (-> & Pl & P). specialize (IHs P). cbn [substitute_inputs]. revert E I. induction l as [|(y, x) l IH]; intros E I.
      + cbn [VSem_Spec.vexec vlets bind]. apply IHs, I.
      + destruct Pl as (Py & Pl). rewrite !vexec_let_cons. destruct (vlet X H E y x) as [E1|] eqn:L; [|reflexivity]. cbn [bind]. apply (IH Pl).
        clear - L Py I whole_old. assert (G : forall a, in_scope (vset E y a)) by (intro a; apply scope_set; assumption).
        unfold vlet in L. destruct x as [|z f d| | | | | |]; try (apply bind_inv in L as (u & _ & L); injection L as <-; apply G). destruct f; try (apply bind_inv in L as (u & _ & L); injection L as <-; apply G).
        destruct (E z) as [|u|k b] eqn:Ez; injection L as <-; try apply G. apply scope_set; [exact Py|]. intros x0 y0 Q. destruct (I x0 y0 Q) as (w & k1 & k2 & b0 & W & Ey & Ex & Inc).
        assert (B : forall q kq bq, E q = Buffer kq bq -> exists k3, vset E z (Buffer (Kind false (block k)) b) q = Buffer k3 bq).
        { intros q kq bq Eq. destruct (Nat.eq_dec q z) as [->|n]; [rewrite vset_same; rewrite Ez in Eq; injection Eq as <- <-; eauto|rewrite vset_other by exact n; eauto]. }
        destruct (B _ _ _ Ey) as (k3 & ->). destruct (B _ _ _ Ex) as (k4 & ->). exists w, k3, k4, b0. auto.
    - cbn [substitute_inputs]. revert vs. induction l as [|x l IH]; intros vs; [reflexivity|]. inversion IHl as [|? ? H1 H2]; subst. destruct P as (P1 & P2).
      cbn [map]. rewrite !vexec_cons. rewrite (H1 P1 E vs I). apply bind_ext. intros (z, v1). destruct (z =? 0); [|reflexivity].
      destruct (flat x P1) as (-> & _ & -> & _). apply (IH H2 P2).
    - destruct P as (Ps & P). destruct (flat b P) as (Qa & Qc & Qa' & Qc'). specialize (IHs P).
      assert (Q : forall y vs, vexec2 (si b) (vset E s (Num y)) vs = vexec1 b (vset E s (Num y)) vs) by (intros y v0; apply IHs, scope_set; assumption).
      assert (Qs : forall y vs, vexec2 (si b) (vset (vshare E) s (Num y)) vs = vexec1 b (vset (vshare E) s (Num y)) vs) by (intros y v0; apply IHs, scope_set; [exact Ps|apply scope_share, I]).
      cbn [substitute_inputs VSem_Spec.vexec].
      apply bind_ext. intro k. apply bind_ext. intros (lo, hi). apply bind_ext. intro stp. destruct (stp =? 0); [reflexivity|]. rewrite Qa, Qc, Qa', Qc'. cbn [vparallel bind].
      assert (Qi : match si b with SLet _ b0 true => vexec2 b0 | _ => vexec2 (si b) end = vexec2 (si b)) by (destruct (si b); try reflexivity; destruct is_closure; [discriminate|reflexivity]).
      assert (Qi' : match b with SLet _ b0 true => vexec1 b0 | _ => vexec1 b end = vexec1 b) by (destruct b; try reflexivity; destruct is_closure; [discriminate|reflexivity]).
      rewrite Qi, Qi'. destruct (1 <? k); [|apply serial_frame; exact Q]. apply bind_ext. intro n. destruct (n =? 0); [reflexivity|]. destruct (n =? 1); [apply Qs|]. destruct (h_pool X H); [|reflexivity]. apply par_frame. exact Qs.
    - destruct P as (Ps & P). specialize (IHs P). cbn [substitute_inputs VSem_Spec.vexec]. apply bind_ext. intro es. apply bind_ext. intro dl. apply allocate_frame. intros q v0. apply IHs, scope_set; assumption.
    - destruct P as (Ps & P). specialize (IHs P). cbn [substitute_inputs VSem_Spec.vexec]. apply bind_ext. intro es. apply bind_ext. intro q. apply bind_ext. intro dl. destruct (validate_buffer _); [|reflexivity]. apply IHs, scope_set; assumption.
    - destruct P as (Ps & P). specialize (IHs P). cbn [substitute_inputs VSem_Spec.vexec]. apply bind_ext. intro q. apply IHs, scope_set; assumption.
    - destruct P as (Ps & P). specialize (IHs P). cbn [substitute_inputs VSem_Spec.vexec]. apply bind_ext. intro q. apply IHs, scope_set; assumption.
    - destruct P as (Ps & Po & P). specialize (IHs P). cbn [substitute_inputs VSem_Spec.vexec]. unfold vbuffer. destruct (E v) as [| |k b0] eqn:Ev; try reflexivity. cbn [bind]. apply bind_ext. intros _.
      destruct (vcrop X H E b0 0 l) as [b'|] eqn:C; [|reflexivity]. cbn [bind]. apply IHs. eapply scope_crop; eauto. eapply vcrop_includes, C.
    - destruct P as (Ps & Po & P). specialize (IHs P). cbn [substitute_inputs VSem_Spec.vexec]. unfold vbuffer. destruct (E v) as [| |k b0] eqn:Ev; try reflexivity. cbn [bind]. apply bind_ext. intros _.
      apply bind_ext. intros r. apply IHs. eapply scope_crop; eauto. apply includes_crop.
    - destruct P as (Ps & P). specialize (IHs P). cbn [substitute_inputs VSem_Spec.vexec]. apply bind_ext. intro q. apply bind_ext. intro q'. apply IHs, scope_set; assumption.
    - destruct P as (Ps & P). specialize (IHs P). cbn [substitute_inputs VSem_Spec.vexec]. apply bind_ext. intro q. apply bind_ext. intro q'. apply IHs, scope_set; assumption.
    - destruct P as (Ps & P). specialize (IHs P). cbn [substitute_inputs VSem_Spec.vexec].
      assert (Q : forall a, vexec2 (si b) (vset E s a) vs = vexec1 b (vset E s a) vs) by (intro a; apply IHs, scope_set; assumption).
      apply bind_ext. intro q. destruct (_ && _); [|apply Q]. destruct (rank q <? length p)%nat; [reflexivity|]. apply bind_ext. intros _. apply Q.
    - reflexivity.
  Qed.
End Exec.
