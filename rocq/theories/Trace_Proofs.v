(** inject_traces does not change what a statement does. *)
From Coq Require Import ZArith List Bool Arith String Ascii Lia.
From Verif Require Import Arith_Model Arith_Proofs Buf_Model Expr_Model Expr_Proofs Stmt_Spec Stmt_Proofs Deps_Spec VSem_Spec VExec_Proofs VRef_Proofs StmtSubst_Spec StmtSubst2_Proofs OptSym_Proofs VFrame_Proofs
  Trace_Model Trace_Spec Stmt_Model.
Import ListNotations.
Open Scope Z_scope.

Section Exec.
  Variable X : Type.
  Variable H : host X.
  Variable call_v : nat -> list buf -> list buf -> list Z -> X -> Z * X.
  Variable copy_v : buf -> buf -> option buf -> (list Z -> option (list Z)) -> X -> X.
  Variable consts : Z -> option buf.
  Variable name_of call_name : nat -> string.
  Variable token names_buf : nat.
  Hypothesis ends : forall vs, h_intrinsic X H i_trace_end vs <> 0.
  Hypothesis distinct : token <> names_buf.
  Notation vexec := (vexec X H call_v copy_v consts).
  Notation inj := (inject name_of call_name token names_buf).
  Notation ok := (traceable token names_buf).
  Notation add_trace := (add_trace token).
  Notation other := (other token names_buf).
  Notation arg off := (trace_arg names_buf off).

  Definition has_names (E : venv) : Prop := exists k b, E names_buf = Buffer k b.
  Lemma names_set E s a : s <> names_buf -> has_names E -> has_names (vset E s a).
  Proof. intros n (k & b & Q). exists k, b. rewrite vset_other by congruence. exact Q. Qed.
  Lemma names_share E : has_names E -> has_names (vshare E). Proof. intros (k & b & Q). unfold has_names, vshare. rewrite Q. cbn [share]. eauto. Qed.
  Lemma names_forget E l : ~ In names_buf l -> has_names E -> has_names (vforget l E).
  Proof. intros n (k & b & Q). exists k, b. unfold vforget. destruct (existsb _ l) eqn:A; [|exact Q]. apply existsb_exists in A as (y & I & A). apply Nat.eqb_eq in A. subst. contradiction. Qed.
  Lemma forget_same (P : nat -> Prop) l E1 E2 : same_on P E1 E2 -> same_on P (vforget l E1) (vforget l E2).
  Proof. intros S x Px. unfold vforget. destruct (existsb _ l); [reflexivity|apply S, Px]. Qed.
  Lemma share_same (P : nat -> Prop) E1 E2 : same_on P E1 E2 -> same_on P (vshare E1) (vshare E2).
  Proof. intros S x Px. unfold vshare. rewrite (S x Px). reflexivity. Qed.

  Lemma get_arg n st : exists off, fst (get_trace_arg names_buf n st) = arg off.
  Proof. unfold get_trace_arg. destruct (find _ _); cbn [fst]; eauto. Qed.

  (** a traced statement does what the statement does with some value of the token *)
  Lemma trace_exec s off E v : has_names E -> ~ In token (async_syms s) -> exists n, vexec (add_trace s (arg off)) E v = vexec s (vset E token (Num n)) v.
  Proof.
    intros (k & b & Q) N. unfold Trace_Model.add_trace. rewrite vexec_let_cons.
    assert (B : exists n, vlet X H E token (ECall i_trace_begin None [arg off]) = Val (vset E token (Num n))).
    { cbn. rewrite Q. destruct (rank b); cbn; eauto. }
    destruct B as (n & ->). exists n. cbn [bind].
    change (vexec (SLet [] ?y false) ?e v) with (vexec y e v). rewrite vexec_cons.
    destruct (vexec s (vset E token (Num n)) v) as [(z, v1)|]; [|reflexivity]. cbn [bind]. destruct (z =? 0) eqn:Z0; [|reflexivity]. apply Z.eqb_eq in Z0. subst z.
    rewrite vexec_cons, vexec_check. cbn [frees veval veval_args defined bind].
    assert (T : vforget (async_syms s) (vset E token (Num n)) token = Num n).
    { unfold vforget. destruct (existsb _ (async_syms s)) eqn:A; [|apply vset_same]. apply existsb_exists in A as (y & I & A). apply Nat.eqb_eq in A. subst. contradiction. }
    rewrite T. cbn [bind]. destruct (Z.eqb_spec (h_intrinsic X H i_trace_end [Some n]) 0) as [Q0|_]; [destruct (ends _ Q0)|]. reflexivity.
  Qed.

  Lemma inj_flat s : ok s -> forall st, async_syms (fst (inj s st)) = async_syms s /\ as_closure (fst (inj s st)) = None /\ as_closure s = None /\ ~ In token (async_syms s) /\ ~ In names_buf (async_syms s).
  Proof.
    induction s as [|t ins outs sc|src sx dst dx pad|l s c IHs|l IHl|s w x st0 b IHs|s w e ds b IHs|s p e ds b IHs|s v b IHs|s v b IHs|s v l b IHs|s v d x b IHs|s v l b IHs|s v d x b IHs|s v p b IHs|s s1 s2 IHs1 IHs2|c] using stmt_ind';
      cbn [traceable]; intros P st; try contradiction; cbn [inject];
      try (destruct P as (_ & P); specialize (IHs P st); destruct (inj b st) as (b' & st1); cbn [fst async_syms as_closure] in *; tauto).
    - cbn. tauto.
    - destruct (get_trace_arg _ _ _). cbn. tauto.
    - destruct P as (-> & _ & P). specialize (IHs P st). destruct (inj s st) as (b' & st1). cbn [fst async_syms as_closure] in *. tauto.
    - set (go := fix go (l : list stmt) (st : trace_state) {struct l} : list stmt * trace_state := match l with [] => ([], st) | x :: l0 => let '(x', st1) := inj x st in let '(l', st2) := go l0 st1 in (x' :: l', st2) end).
      assert (G : async_syms (SBlock (fst (go l st))) = async_syms (SBlock l) /\ ~ In token (async_syms (SBlock l)) /\ ~ In names_buf (async_syms (SBlock l))).
      { revert st. induction IHl as [|x l Hx _ IH]; intros st; [cbn; tauto|]. destruct P as (P1 & P2). specialize (Hx P1 st). destruct Hx as (A1 & _ & _ & A2 & A3).
        cbn [go]. destruct (inj x st) as (x' & st1). destruct (IH P2 st1) as (B1 & B2 & B3). fold go. destruct (go l st1) as (l' & st2). cbn [fst async_syms] in *.
        rewrite A1, B1. split; [reflexivity|]. split; intro I; apply in_app_or in I; tauto. }
      destruct (go l st) as (l', st1). cbn [fst as_closure] in *. tauto.
    - destruct P as (_ & P). destruct (get_trace_arg _ _ st) as (a1, st1). destruct (get_trace_arg _ _ st1) as (a2, st2). specialize (IHs P st2). destruct (inj b st2) as (b', st3).
      cbn [fst] in *. unfold Trace_Model.add_trace. cbn [async_syms as_closure]. rewrite !app_nil_r. tauto.
    - destruct P as (P & P1 & P2). destruct (get_trace_arg _ _ st) as (a1, st1). destruct (inj s1 st1) as (t', st2). destruct (inj s2 st2) as (b', st3). cbn [fst async_syms as_closure].
      split; [reflexivity|]. split; [reflexivity|]. split; [reflexivity|]. destruct s as [s|]; [|cbn; tauto]. destruct P as (Q1 & Q2). cbn [In]. split; intros [A|A]; auto.
    - cbn. tauto.
  Qed.
  Lemma not_closure s : as_closure s = None -> match s with SLet _ b0 true => vexec b0 | _ => vexec s end = vexec s.
  Proof. destruct s; try reflexivity. destruct is_closure; [discriminate|reflexivity]. Qed.

  Definition fine (s : stmt) : Prop := forall st E E' v, ~ free_stmt token s -> has_names E -> same_on (fun x => free_stmt x s) E E' -> vexec (fst (inj s st)) E v = vexec s E' v.
  Lemma traced_body s off st : ok s -> fine s -> forall E E' v, ~ free_stmt token s -> has_names E -> same_on (fun x => free_stmt x s) E E' -> vexec (add_trace (fst (inj s st)) (arg off)) E v = vexec s E' v.
  Proof.
    intros P F E E' v N B S. destruct (inj_flat s P st) as (A1 & _ & _ & A2 & _).
    destruct (trace_exec (fst (inj s st)) off E v B) as (n & ->); [rewrite A1; exact A2|]. apply F; [exact N|apply names_set; [exact distinct|exact B]|].
    intros x Fx. rewrite vset_other; [apply S, Fx|]. intros ->. contradiction.
  Qed.

  Lemma inject_exec s : ok s -> fine s.
  Proof.
    induction s as [|t ins outs sc|src sx dst dx pad|l s c IHs|l IHl|s w x st0 b IHs|s w e ds b IHs|s p e ds b IHs|s v b IHs|s v b IHs|s v l b IHs|s v d x b IHs|s v l b IHs|s v d x b IHs|s v p b IHs|s s1 s2 IHs1 IHs2|c] using stmt_ind';
      cbn [traceable]; intros P st E E' vs N B S; try contradiction; cbn [free_stmt] in S, N; cbn [inject].
    - reflexivity.
    - pose proof (get_arg (name_of_call call_name t) st) as (off & Q). destruct (get_trace_arg _ _ _) as (a, st1). cbn [fst] in *. subst a.
      destruct (trace_exec (SCall t ins outs sc) off E vs B) as (n & ->); [cbn; tauto|].
      assert (S' : same_on (fun x => In x ins \/ In x outs \/ any_of (free x) sc) (vset E token (Num n)) E').
      { intros x Fx. rewrite vset_other; [apply S, Fx|]. intros ->. contradiction. }
      cbn [VSem_Spec.vexec]. rewrite (buffers_frame ins _ E'), (buffers_frame outs _ E'), (list_frame X H sc _ E'); [reflexivity| | |]; sub S'.
    - destruct P as (-> & Pl & P). specialize (IHs P st). destruct (inj s st) as (b', st1). cbn [fst] in *. revert E E' N B S. induction l as [|(y, x) l IH]; intros E E' N B S.
      + cbn [VSem_Spec.vexec vlets bind]. apply IHs; assumption.
      + cbn [map fst] in Pl. inversion Pl as [|? ? (Py1 & Py2) Pl']; subst. rewrite !vexec_let_cons. cbn [in_lets] in S, N.
        assert (Q : forall a, vexec (SLet l b' false) (vset E y a) vs = vexec (SLet l s false) (vset E' y a) vs).
        { intro a. apply (IH Pl'); [intro F; apply N; right; auto|apply names_set; assumption|]. apply same_on_set. eapply same_on_sub; [exact S|]. intros z F. right. exact F. }
        assert (Sx : same_on (fun z => free z x) E E') by (eapply same_on_sub; [exact S|]; intros z F; left; exact F).
        unfold vlet. rewrite <- (eval_frame X H x E E' Sx).
        destruct x as [|z f d| | | | | |]; try (destruct (veval X H E _) as [u|]; cbn [bind]; [apply Q|reflexivity]). destruct f; try (destruct (veval X H E _) as [u|]; cbn [bind]; [apply Q|reflexivity]).
        rewrite <- (Sx z) by (exists (RField f_none); cbn; auto). destruct (E z) as [|u|k b] eqn:Ez; cbn [bind]; [apply Q|apply Q|].
        apply (IH Pl'); [intro F; apply N; right; auto| |].
        * apply names_set; [exact Py2|]. destruct (Nat.eq_dec z names_buf) as [->|n]; [unfold has_names; rewrite vset_same; eauto|apply names_set; assumption].
        * apply same_on_set. intros u (n & F). unfold vset. destruct (u =? z)%nat; [reflexivity|]. apply S. right. auto.
    - set (go := fix go (l : list stmt) (st : trace_state) {struct l} : list stmt * trace_state := match l with [] => ([], st) | x :: l0 => let '(x', st1) := inj x st in let '(l', st2) := go l0 st1 in (x' :: l', st2) end).
      assert (G : vexec (SBlock (fst (go l st))) E vs = vexec (SBlock l) E' vs).
      { revert st E E' vs N B S. induction IHl as [|x l Hx _ IH]; intros st E E' vs N B S; [reflexivity|]. destruct P as (P1 & P2). destruct (inj_flat x P1 st) as (A1 & _ & _ & _ & A3). specialize (Hx P1 st).
        cbn [go]. destruct (inj x st) as (x', st1). cbn [fst] in Hx, A1. specialize (IH P2 st1). fold go. destruct (go l st1) as (l', st2). cbn [fst] in *.
        rewrite !vexec_cons. rewrite (Hx E E' vs); [|tauto|exact B|sub S]. apply bind_ext. intros (z, v1). destruct (z =? 0); [|reflexivity].
        rewrite A1. apply IH; [tauto|apply names_forget; assumption|apply forget_same; sub S]. }
      destruct (go l st) as (l', st1). exact G.
    - destruct P as ((P1 & P2) & P). pose proof (get_arg ("loop " ++ name_of s ++ " iteration")%string st) as (off1 & Q1). destruct (get_trace_arg _ _ st) as (a1, st1).
      pose proof (get_arg ("loop " ++ name_of s)%string st1) as (off2 & Q2). destruct (get_trace_arg _ _ st1) as (a2, st2). cbn [fst] in *. subst a1 a2.
      destruct (inj_flat b P st2) as (A1 & A2 & A3 & A4 & A5). pose proof (traced_body b off1 st2 P (IHs P)) as Tb. destruct (inj b st2) as (b', st3). cbn [fst] in *.
      assert (L : async_syms (add_trace b' (arg off1)) = async_syms b) by (unfold Trace_Model.add_trace; cbn [async_syms]; rewrite !app_nil_r; exact A1).
      destruct (trace_exec (SLoop s w x st0 (add_trace b' (arg off1))) off2 E vs B) as (n & ->); [cbn [async_syms]; rewrite L; exact A4|].
      set (E1 := vset E token (Num n)). assert (B1 : has_names E1) by (apply names_set; assumption).
      assert (S' : same_on (fun y => free_interval y x \/ free y st0 \/ free y w \/ (s <> y /\ free_stmt y b)) E1 E').
      { intros y Fy. unfold E1. rewrite vset_other; [apply S, Fy|]. intros ->. contradiction. }
      assert (Nb : ~ free_stmt token b) by (intro F; apply N; do 3 right; auto).
      assert (Q : forall y v0, vexec (add_trace b' (arg off1)) (vset (vforget (async_syms b) E1) s (Num y)) v0 = vexec b (vset (vforget (async_syms b) E') s (Num y)) v0).
      { intros y v0. apply Tb; [exact Nb|apply names_set; [exact P2|apply names_forget; assumption]|]. apply same_on_set, forget_same. sub S'. }
      assert (Qs : forall y v0, vexec (add_trace b' (arg off1)) (vset (vforget (async_syms b) (vshare E1)) s (Num y)) v0 = vexec b (vset (vforget (async_syms b) (vshare E')) s (Num y)) v0).
      { intros y v0. apply Tb; [exact Nb|apply names_set; [exact P2|apply names_forget; [assumption|apply names_share; assumption]]|]. apply same_on_set, forget_same, share_same. sub S'. }
      cbn [VSem_Spec.vexec]. fold E1. rewrite (eval_frame X H w E1 E'), (interval_frame X H x E1 E'), (def_frame X H st0 _ E1 E'); try (sub S').
      apply bind_ext. intro k. apply bind_ext. intros (lo, hi). apply bind_ext. intro stp. destruct (stp =? 0); [reflexivity|]. rewrite L, A3.
      change (as_closure (add_trace b' (arg off1))) with (@None (list (nat * expr))). cbn [vparallel bind]. rewrite (not_closure b A3).
      change (match add_trace b' (arg off1) with SLet _ b0 true => vexec b0 | _ => vexec (add_trace b' (arg off1)) end) with (vexec (add_trace b' (arg off1))).
      destruct (1 <? k); [|apply serial_frame; exact Q]. apply bind_ext. intro m. destruct (m =? 0); [reflexivity|]. destruct (m =? 1); [apply Qs|]. destruct (h_pool X H); [|reflexivity]. apply par_frame. exact Qs.
    - destruct P as ((P1 & P2) & P). specialize (IHs P st). destruct (inj b st) as (b', st1). cbn [fst] in *. cbn [VSem_Spec.vexec]. rewrite (eval_frame X H e E E'), (dims_frame X H true ds E E'); try (sub S).
      apply bind_ext. intro es. apply bind_ext. intro dl. apply allocate_frame. intros q v0. apply IHs; [intro F; apply N; auto|apply names_set; assumption|]. apply same_on_set. sub S.
    - destruct P as ((P1 & P2) & P). specialize (IHs P st). destruct (inj b st) as (b', st1). cbn [fst] in *. cbn [VSem_Spec.vexec].
      rewrite (def_frame X H e _ E E'), (def_frame X H p _ E E'), (dims_frame X H false ds E E'); try (sub S).
      apply bind_ext. intro es. apply bind_ext. intro q. apply bind_ext. intro dl. destruct (validate_buffer _); [|reflexivity]. apply IHs; [intro F; apply N; auto|apply names_set; assumption|]. apply same_on_set. sub S.
    - destruct P as ((P1 & P2) & P). specialize (IHs P st). destruct (inj b st) as (b', st1). cbn [fst] in *. cbn [VSem_Spec.vexec]. apply bind_ext. intro q.
      apply IHs; [intro F; apply N; auto|apply names_set; assumption|]. apply same_on_set. sub S.
    - destruct P as ((P1 & P2) & P). specialize (IHs P st). destruct (inj b st) as (b', st1). cbn [fst] in *. cbn [VSem_Spec.vexec]. unfold vbuffer. rewrite (S v) by auto. apply bind_ext. intro q.
      apply IHs; [intro F; apply N; auto|apply names_set; assumption|]. apply same_on_set. sub S.
    - destruct P as ((P1 & P2) & P). specialize (IHs P st). destruct (inj b st) as (b', st1). cbn [fst] in *. cbn [VSem_Spec.vexec]. unfold vbuffer, in_place. rewrite (S v) by auto. apply bind_ext. intro q. apply bind_ext. intros _.
      rewrite (crop_frame X H l q 0 E E') by sub S. apply bind_ext. intro q'. apply IHs; [intro F; apply N; auto|apply names_set; assumption|]. apply same_on_set. sub S.
    - destruct P as ((P1 & P2) & P). specialize (IHs P st). destruct (inj b st) as (b', st1). cbn [fst] in *. cbn [VSem_Spec.vexec]. unfold vbuffer, in_place. rewrite (S v) by auto. apply bind_ext. intro q. apply bind_ext. intros _.
      rewrite (interval_def_frame X H x _ _ E E') by sub S. apply bind_ext. intros r. apply IHs; [intro F; apply N; auto|apply names_set; assumption|]. apply same_on_set. sub S.
    - destruct P as ((P1 & P2) & P). specialize (IHs P st). destruct (inj b st) as (b', st1). cbn [fst] in *. cbn [VSem_Spec.vexec]. unfold vbuffer. rewrite (S v) by auto. apply bind_ext. intro q.
      rewrite (slice_frame X H (dims q) l (base q) E E') by sub S. apply bind_ext. intro q'. apply IHs; [intro F; apply N; auto|apply names_set; assumption|]. apply same_on_set. sub S.
    - destruct P as ((P1 & P2) & P). specialize (IHs P st). destruct (inj b st) as (b', st1). cbn [fst] in *. cbn [VSem_Spec.vexec]. unfold vbuffer. rewrite (S v) by auto. apply bind_ext. intro q.
      rewrite (slice_dim_frame X H q d x E E') by sub S. apply bind_ext. intro q'. apply IHs; [intro F; apply N; auto|apply names_set; assumption|]. apply same_on_set. sub S.
    - destruct P as ((P1 & P2) & P). specialize (IHs P st). destruct (inj b st) as (b', st1). cbn [fst] in *. cbn [VSem_Spec.vexec]. unfold vbuffer, in_place. rewrite (S v) by auto.
      assert (Q : forall a, vexec b' (vset E s a) vs = vexec b (vset E' s a) vs) by (intro a; apply IHs; [intro F; apply N; auto|apply names_set; assumption|]; apply same_on_set; sub S).
      apply bind_ext. intro q. destruct (_ && _); [|apply Q]. destruct (rank q <? List.length p)%nat; [reflexivity|]. apply bind_ext. intros _. apply Q.
    - destruct P as (P & P1 & P2). pose proof (get_arg ("task " ++ match s with Some x => name_of x | None => "" end)%string st) as (off & Q1). destruct (get_trace_arg _ _ st) as (a1, st1). cbn [fst] in Q1. subst a1.
      destruct (inj_flat s1 P1 st1) as (A1 & A2 & A3 & A4 & A5). pose proof (traced_body s1 off st1 P1 (IHs1 P1)) as Tt. destruct (inj s1 st1) as (t', st2). cbn [fst] in *.
      destruct (inj_flat s2 P2 st2) as (C1 & C2 & C3 & C4 & C5). specialize (IHs2 P2 st2). destruct (inj s2 st2) as (b', st3). cbn [fst] in *.
      cbn [VSem_Spec.vexec]. change (as_closure (add_trace t' (arg off))) with (@None (list (nat * expr))). rewrite A3, C2, C3. cbn [vparallel bind]. rewrite (not_closure s1 A3), (not_closure s2 C3), (not_closure b' C2).
      change (match add_trace t' (arg off) with SLet _ b0 true => vexec b0 | _ => vexec (add_trace t' (arg off)) end) with (vexec (add_trace t' (arg off))).
      set (gone := match s with Some s0 => [s0] | None => [] end).
      assert (Qt : forall v0, vexec (add_trace t' (arg off)) (vshare (vforget gone E)) v0 = vexec s1 (vshare (vforget gone E')) v0).
      { intro v0. apply Tt; [tauto| |apply share_same, forget_same; sub S]. apply names_share, names_forget; [|exact B]. unfold gone. destruct s as [s|]; [|cbn; tauto]. destruct P as (_ & P). cbn. intros [Q|[]]. contradiction. }
      assert (Qb : forall h v0, vexec b' (vshare match s with Some s0 => vset E s0 (Num h) | None => E end) v0 = vexec s2 (vshare match s with Some s0 => vset E' s0 (Num h) | None => E' end) v0).
      { intros h v0. apply IHs2.
        - intro F. apply N. right. split; [|exact F]. destruct s as [s|]; [|discriminate]. destruct P as (P & _). congruence.
        - apply names_share. destruct s as [s|]; [|exact B]. destruct P as (_ & P). apply names_set; assumption.
        - apply share_same. destruct s as [s|]; [apply same_on_set|]; (eapply same_on_sub; [exact S|]); cbv beta; intros y F; right; [destruct F; split; [congruence|assumption]|split; [discriminate|exact F]]. }
      destruct (h_pool X H).
      + destruct (h_task_first X H (v_ext X vs)).
        * rewrite Qt. apply bind_ext. intros (z, v1). rewrite Qb. reflexivity.
        * rewrite Qb. apply bind_ext. intros (z, v1). rewrite Qt. reflexivity.
      + rewrite Qt. apply bind_ext. intros (z, v1). rewrite Qb. reflexivity.
    - cbn [fst]. rewrite !vexec_check. rewrite (eval_frame X H c E E' S). destruct (frees c) as [y|] eqn:Q; [|reflexivity]. rewrite (S y); [reflexivity|].
      destruct c as [| | | | | |fn t args|]; try discriminate. destruct fn; try discriminate. destruct args as [|[|s0 f d0| | | | | |] [|a2 args]]; try discriminate; destruct f; try discriminate.
      injection Q as ->. exists (RField f_none). cbn. auto.
  Qed.
End Exec.

Section Names.
  Variable name_of call_name : nat -> string.
  Variable token names_buf : nat.
  Notation inj := (inject name_of call_name token names_buf).
  Notation get := (get_trace_arg names_buf).
  Notation arg off := (trace_arg names_buf off).

  Definition extends (a b : trace_state) : Prop := exists more, t_names b = t_names a ++ more.
  Definition good (st : trace_state) : Prop := forall n off, In (n, off) (t_offsets st) -> reads (t_names st) n off.
  Lemma extends_refl a : extends a a. Proof. exists []. rewrite app_nil_r. reflexivity. Qed.
  Lemma extends_trans a b c : extends a b -> extends b c -> extends a c.
  Proof. intros (m & P) (m' & Q). exists (m ++ m'). rewrite Q, P, app_assoc. reflexivity. Qed.
  Lemma reads_app l m n off : reads l n off -> reads (l ++ m) n off.
  Proof. intros (b & a & -> & Q). exists b, (a ++ m). split; [|exact Q]. rewrite <- !app_assoc. cbn [app]. reflexivity. Qed.
  Lemma reads_extends a b n off : extends a b -> reads (t_names a) n off -> reads (t_names b) n off.
  Proof. intros (m & ->). apply reads_app. Qed.
  Lemma get_spec n st : good st -> exists off st1, get n st = (arg off, st1) /\ reads (t_names st1) n off /\ extends st st1 /\ good st1.
  Proof.
    intro G. unfold get_trace_arg. destruct (find _ _) as [(n', off)|] eqn:F.
    - apply find_some in F as (I & Q). cbn [fst] in Q. apply String.eqb_eq in Q. subst n'. exists off, st. split; [reflexivity|]. split; [apply G, I|]. split; [apply extends_refl|exact G].
    - eexists _, _. split; [reflexivity|]. cbn [t_names].
      assert (R : reads (t_names st ++ list_ascii_of_string n ++ [zero]) n (Z.of_nat (List.length (t_names st)))) by (exists (t_names st), []; split; reflexivity).
      split; [exact R|]. split; [eexists; reflexivity|]. intros m off [I|I]; cbn [t_names]; [injection I as <- <-; exact R|apply reads_app, G, I].
  Qed.
  Definition tells (s : stmt) : Prop := offsets s = [] -> forall st, good st ->
    extends st (snd (inj s st)) /\ good (snd (inj s st)) /\ Forall2 (reads (t_names (snd (inj s st)))) (traced name_of call_name s) (offsets (fst (inj s st))).
  Lemma reads_list a b l os : extends a b -> Forall2 (reads (t_names a)) l os -> Forall2 (reads (t_names b)) l os.
  Proof. intro E. induction 1; constructor; auto. eapply reads_extends; eauto. Qed.
  Lemma offsets_trace s off : offsets (add_trace token s (arg off)) = off :: offsets s.
  Proof. unfold add_trace, trace_arg. cbn [offsets trace_offset app]. rewrite app_nil_r. reflexivity. Qed.

  Lemma inject_names s : tells s.
  Proof.
    induction s as [|t ins outs sc|src sx dst dx pad|l s c IHs|l IHl|s w x st0 b IHs|s w e ds b IHs|s p e ds b IHs|s v b IHs|s v b IHs|s v l b IHs|s v d x b IHs|s v l b IHs|s v d x b IHs|s v p b IHs|s s1 s2 IHs1 IHs2|c] using stmt_ind';
      unfold tells; intros N st G; cbn [offsets] in N; cbn [inject];
      try (specialize (IHs N st G); destruct (inj b st) as (b', st1); cbn [fst snd offsets traced] in *; exact IHs);
      try (cbn [fst snd offsets traced]; split; [apply extends_refl|]; split; [exact G|constructor]).
    - destruct (get_spec (name_of_call call_name t) st G) as (off & st1 & -> & R & E & G1). cbn [fst snd]. split; [exact E|]. split; [exact G1|]. rewrite offsets_trace. cbn [offsets traced]. constructor; [exact R|constructor].
    - apply app_eq_nil in N as (N1 & N2). specialize (IHs N2 st G). destruct (inj s st) as (b', st1). cbn [fst snd offsets traced] in *. rewrite N1. exact IHs.
    - set (go := fix go (l : list stmt) (st : trace_state) {struct l} : list stmt * trace_state := match l with [] => ([], st) | x :: l0 => let '(x', st1) := inj x st in let '(l', st2) := go l0 st1 in (x' :: l', st2) end).
      assert (Q : extends st (snd (go l st)) /\ good (snd (go l st)) /\ Forall2 (reads (t_names (snd (go l st)))) (traced name_of call_name (SBlock l)) (offsets (SBlock (fst (go l st))))).
      { revert st G. induction IHl as [|x l Hx _ IH]; intros st G; [cbn; split; [apply extends_refl|]; split; [exact G|constructor]|].
        apply app_eq_nil in N as (N1 & N2). destruct (Hx N1 st G) as (E1 & G1 & F1). cbn [go]. destruct (inj x st) as (x', st1). cbn [fst snd] in *. specialize (IH N2 st1 G1). fold go. destruct (go l st1) as (l', st2). cbn [fst snd] in *.
        destruct IH as (E2 & G2 & F2). split; [eapply extends_trans; eauto|]. split; [exact G2|]. cbn [traced offsets]. apply Forall2_app; [eapply reads_list; eauto|exact F2]. }
      destruct (go l st) as (l', st1). exact Q.
    - destruct (get_spec ("loop " ++ name_of s ++ " iteration")%string st G) as (off1 & st1 & -> & R1 & E1 & G1).
      destruct (get_spec ("loop " ++ name_of s)%string st1 G1) as (off2 & st2 & -> & R2 & E2 & G2). destruct (IHs N st2 G2) as (E3 & G3 & F3). destruct (inj b st2) as (b', st3). cbn [fst snd] in *.
      split; [eauto using extends_trans|]. split; [exact G3|]. rewrite offsets_trace. cbn [offsets traced]. rewrite offsets_trace.
      constructor; [exact (reads_extends _ _ _ _ E3 R2)|]. constructor; [exact (reads_extends _ _ _ _ (extends_trans _ _ _ E2 E3) R1)|exact F3].
    - apply app_eq_nil in N as (N1 & N2). destruct (get_spec ("task " ++ match s with Some x => name_of x | None => "" end)%string st G) as (off1 & st1 & -> & R1 & E1 & G1).
      destruct (IHs1 N1 st1 G1) as (E2 & G2 & F2). destruct (inj s1 st1) as (t', st2). cbn [fst snd] in *. destruct (IHs2 N2 st2 G2) as (E3 & G3 & F3). destruct (inj s2 st2) as (b', st3). cbn [fst snd] in *.
      split; [eauto using extends_trans|]. split; [exact G3|]. cbn [offsets traced]. rewrite offsets_trace. cbn [app].
      constructor; [exact (reads_extends _ _ _ _ (extends_trans _ _ _ E2 E3) R1)|]. apply Forall2_app; [eapply reads_list; eauto|exact F3].
  Qed.
End Names.
