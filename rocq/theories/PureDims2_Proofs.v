(** remove_pure_dims keeps what a statement does. *)
From Coq Require Import ZArith List Bool Lia.
From Verif Require Import Arith_Model Arith_Proofs Buf_Model Buf_Proofs Alloc_Model Expr_Model Expr_Proofs Stmt_Model Stmt_Spec Stmt_Proofs Deps_Spec StmtSubst_Spec StmtSubst2_Proofs StmtSubst3_Proofs
  VSem_Spec VExec_Proofs VRef_Proofs VFrame_Proofs OptSym_Model OptSym_Spec OptSym_Proofs FuseSib_Model FuseSib_Spec FuseSib_Proofs FuseSib2_Proofs PureDims_Model PureDims_Spec PureDims_Proofs.
Import ListNotations.
Open Scope Z_scope.

(** ** The slices *)
Lemma undefined_undef e : defined e = false -> e = EUndef. Proof. destruct e; cbn; congruence. Qed.
Lemma nth_undef j : nth j [] EUndef = EUndef. Proof. destruct j; reflexivity. Qed.
Lemma nth_trim l : forall j, nth j (trim l) EUndef = nth j l EUndef.
Proof.
  induction l as [|x l IH]; intro j; [reflexivity|]. cbn [trim]. destruct (trim l) as [|y r] eqn:T.
  - destruct (defined x) eqn:D.
    + destruct j as [|j]; [reflexivity|]. cbn [nth]. rewrite <- IH. reflexivity.
    + apply undefined_undef in D. subst x. destruct j as [|j]; [reflexivity|]. cbn [nth]. rewrite <- IH, nth_undef. reflexivity.
  - destruct j as [|j]; [reflexivity|]. cbn [nth]. apply IH.
Qed.
Lemma in_trim l x : In x (trim l) -> In x l.
Proof.
  induction l as [|y l IH]; [auto|]. cbn [trim]. destruct (trim l) as [|z r].
  - destruct (defined y); [|intros []]. intros [->|[]]. left. reflexivity.
  - intros [->|I]; [left; reflexivity|right; apply IH, I].
Qed.
Definition chosen (o : buf) (n : nat) (sd : dimset) : nat -> option Z := fun d => if (d <? 64)%nat && ((n <=? d)%nat && sd d) then Some (d_min (dim_at o d)) else None.
Lemma nth_slices o n sd d : nth d (slices_for o n sd) EUndef = if (d <? 64)%nat && ((n <=? d)%nat && sd d) then EVar o f_min (Z.of_nat d) else EUndef.
Proof.
  unfold slices_for. rewrite nth_trim. destruct (Nat.ltb_spec d 64) as [L|L]; cbn [andb].
  - rewrite (nth_indep _ EUndef ((fun d => if (n <=? d)%nat && sd d then EVar o f_min (Z.of_nat d) else EUndef) 0%nat)) by (rewrite map_length, seq_length; exact L).
    rewrite (map_nth (fun d => if (n <=? d)%nat && sd d then EVar o f_min (Z.of_nat d) else EUndef)). rewrite seq_nth by exact L. reflexivity.
  - rewrite nth_past; [reflexivity|]. rewrite map_length, seq_length. exact L.
Qed.
Lemma in_slices o n sd e : In e (slices_for o n sd) -> e = EUndef \/ exists d, e = EVar o f_min d.
Proof. unfold slices_for. intro I. apply in_trim, in_map_iff in I as (d & <- & _). destruct (_ && _); [right; eauto|auto]. Qed.
Lemma slice_none ds : forall f d p, (forall j, f (d + j)%nat = None) -> slice_dims f d p ds = (p, ds).
Proof.
  induction ds as [|x ds IH]; intros f d p N; cbn [slice_dims]; [reflexivity|]. pose proof (N 0%nat) as N0. rewrite Nat.add_0_r in N0. rewrite N0, IH; [reflexivity|]. intro j. replace (S d + j)%nat with (d + S j)%nat by lia. apply N.
Qed.

Section Pass.
  Variable X : Type.
  Variable H : host X.
  Variable call_v : nat -> list buf -> list buf -> list Z -> X -> Z * X.
  Variable copy_v : buf -> buf -> option buf -> (list Z -> option (list Z)) -> X -> X.
  Variable consts : Z -> option buf.
  Notation vexec := (vexec X H call_v copy_v consts).
  Notation veval := (veval X H).
  Notation vslice := (vslice X H).

  Lemma slice_eval E ds : forall l f d p, (forall j, match f (d + j)%nat with None => nth j l EUndef = EUndef | Some i => defined (nth j l EUndef) = true /\ veval E (nth j l EUndef) = Val i end) ->
    vslice E p ds l = Val (slice_dims f d p ds).
  Proof.
    induction ds as [|x ds IH]; intros l f d p F; cbn [VSem_Spec.vslice slice_dims]; [reflexivity|]. destruct l as [|e l].
    - pose proof (slice_none (x :: ds) f d p) as Q. cbn [slice_dims] in Q. rewrite Q; [reflexivity|]. intro j. specialize (F j). rewrite nth_undef in F. destruct (f (d + j)%nat); [destruct F; discriminate|reflexivity].
    - assert (F' : forall j, match f (S d + j)%nat with None => nth j l EUndef = EUndef | Some i => defined (nth j l EUndef) = true /\ veval E (nth j l EUndef) = Val i end).
      { intro j. specialize (F (S j)). replace (S d + j)%nat with (d + S j)%nat by lia. exact F. }
      pose proof (F 0%nat) as F0. rewrite Nat.add_0_r in F0. cbn [nth] in F0. destruct (f d) as [i|].
      + destruct F0 as (D & V). rewrite D. destruct p as [q|].
        * rewrite V. cbn [bind]. rewrite (IH _ _ _ _ F'). reflexivity.
        * rewrite (IH _ _ _ _ F'). cbn [offset_bytes]. destruct (d_contains x i); reflexivity.
      + subst e. cbn [defined]. rewrite (IH _ _ _ _ F'). reflexivity.
  Qed.
  Lemma slices_eval E o k b n sd p ds : E o = Buffer k b -> vslice E p ds (slices_for o n sd) = Val (slice_dims (chosen b n sd) 0 p ds).
  Proof.
    intro Q. apply slice_eval. intro j. cbn [Nat.add]. rewrite nth_slices. unfold chosen. destruct (_ && _); [|reflexivity]. split; [reflexivity|]. cbn [VSem_Spec.veval]. rewrite Q. cbn [field_value].
    unfold dim_int. destruct (Z.ltb_spec (Z.of_nat j) 0); [lia|]. rewrite Nat2Z.id. reflexivity.
  Qed.

  (** ** The buffers of a call, sliced *)
  Definition isin (x : nat) (l : list nat) : bool := existsb (Nat.eqb x) l.
  Lemma isin_iff x l : isin x l = true <-> In x l.
  Proof. unfold isin. rewrite existsb_exists. split; [intros (y & I & Q); apply Nat.eqb_eq in Q; subst; exact I|intro I; exists x; rewrite Nat.eqb_refl; auto]. Qed.
  Definition cut (f : nat -> option Z) (a : value) : value := match a with Buffer _ b => Buffer Own (slice_at f b) | _ => a end.
  Definition cuts (f : nat -> option Z) (done l : list nat) (E : venv) : venv := fun x => if isin x l && negb (isin x done) then cut f (E x) else E x.
  Definition is_buffer (E : venv) (x : nat) : Prop := exists k b, E x = Buffer k b.
  Lemma cuts_buffer f done l E x : is_buffer E x -> is_buffer (cuts f done l E) x.
  Proof. intros (k & b & Q). unfold is_buffer, cuts. rewrite Q. destruct (_ && _); cbn [cut]; eauto. Qed.
  Lemma slice_plain at_ l : forall done s, plain_stmt s -> plain_stmt (slice_all at_ done l s).
  Proof. induction l as [|i l IH]; intros done s P; cbn [slice_all]; [exact P|]. destruct (existsb _ _); apply IH; exact P. Qed.
  Lemma one_slice E i o k b n sd s v : plain_stmt s -> E o = Buffer k b -> is_buffer E i ->
    vexec (SSliceBuffer i i (slices_for o n sd) s) E v = vexec s (vset E i (cut (chosen b n sd) (E i))) v.
  Proof.
    intros P Q (ki & bi & Qi). cbn [VSem_Spec.vexec]. unfold vbuffer. rewrite Qi. cbn [bind cut]. rewrite (slices_eval _ _ _ _ _ _ _ _ Q). cbn [bind]. reflexivity.
  Qed.
  Lemma all_slices o n sd b k l : forall done s E v, plain_stmt s -> isin o done = true -> E o = Buffer k b -> Forall (is_buffer E) l ->
    vexec (slice_all (slices_for o n sd) done l s) E v = vexec s (cuts (chosen b n sd) done l E) v.
  Proof.
    induction l as [|i l IH]; intros done s E v P Io Q F; cbn [slice_all].
    - apply (stmt_frame X H call_v copy_v consts s P). intros x _. reflexivity.
    - inversion F as [|? ? Fi F']; subst. destruct (existsb (Nat.eqb i) done) eqn:D.
      + rewrite (IH _ _ _ _ P Io Q F'). apply (stmt_frame X H call_v copy_v consts s P). intros x _. unfold cuts. cbn [isin existsb]. fold (isin x l). destruct (Nat.eqb_spec x i) as [->|]; [|reflexivity].
        unfold isin in *. rewrite D. rewrite !andb_false_r. reflexivity.
      + rewrite (IH (i :: done) (SSliceBuffer i i (slices_for o n sd) s) E v P); [|cbn [isin existsb]; unfold isin in Io; rewrite Io; apply orb_true_r|exact Q|exact F'].
        assert (Qi : cuts (chosen b n sd) (i :: done) l E i = E i) by (unfold cuts; cbn [isin existsb]; rewrite Nat.eqb_refl, andb_false_r; reflexivity).
        assert (Qo : cuts (chosen b n sd) (i :: done) l E o = Buffer k b) by (unfold cuts; cbn [isin existsb]; unfold isin in Io; rewrite Io, orb_true_r, andb_false_r; exact Q).
        rewrite (one_slice _ i o k b n sd s v P Qo) by (unfold is_buffer; rewrite Qi; exact Fi). rewrite Qi.
        apply (stmt_frame X H call_v copy_v consts s P). intros x _. unfold vset, cuts. cbn [isin existsb]. destruct (Nat.eqb_spec x i) as [->|Ne].
        * fold (isin i done). unfold isin. rewrite D. reflexivity.
        * reflexivity.
  Qed.
  Lemma call_slices o n sd b k l s E v : plain_stmt s -> E o = Buffer k b -> Forall (is_buffer E) l ->
    vexec (slice_all (slices_for o n sd) [] (o :: l) s) E v = vexec s (cuts (chosen b n sd) [] (o :: l) E) v.
  Proof.
    intros P Q F. cbn [slice_all existsb]. rewrite (all_slices o n sd b k l [o] (SSliceBuffer o o (slices_for o n sd) s) E v P); [|cbn [isin existsb]; rewrite Nat.eqb_refl; reflexivity|exact Q|exact F].
    assert (Qo : cuts (chosen b n sd) [o] l E o = Buffer k b) by (unfold cuts; cbn [isin existsb]; rewrite Nat.eqb_refl, andb_false_r; exact Q).
    rewrite (one_slice _ o o k b n sd s v P Qo) by (exists k, b; exact Qo). rewrite Qo. apply (stmt_frame X H call_v copy_v consts s P). intros x _. unfold vset, cuts. cbn [isin existsb].
    destruct (Nat.eqb_spec x o) as [->|Ne]; [rewrite Q; reflexivity|]. reflexivity.
  Qed.
  Lemma buffers_cut f E l all : (forall x, In x l -> In x all) -> forall bs, vbuffers E l = Val bs -> vbuffers (cuts f [] all E) l = Val (map (slice_at f) bs).
  Proof.
    induction l as [|x l IH]; intros I bs V; cbn [vbuffers] in *; [injection V as <-; reflexivity|]. apply bind_inv in V as (b & V1 & V). apply bind_inv in V as (bs' & V2 & V). injection V as <-.
    rewrite (IH (fun y Iy => I y (or_intror Iy)) _ V2). unfold vbuffer in *. unfold cuts. rewrite (proj2 (isin_iff x all) (I x (or_introl eq_refl))). cbn [isin existsb negb andb]. destruct (E x); try discriminate. injection V1 as ->. reflexivity.
  Qed.
  Lemma buffers_are E l : forall bs, vbuffers E l = Val bs -> Forall (is_buffer E) l.
  Proof.
    induction l as [|x l IH]; intros bs V; cbn [vbuffers] in V; constructor.
    - apply bind_inv in V as (b & V1 & V). unfold vbuffer in V1. unfold is_buffer. destruct (E x); try discriminate. eauto.
    - apply bind_inv in V as (b & V1 & V). apply bind_inv in V as (bs' & V2 & V). exact (IH _ V2).
  Qed.

  (** ** What is known *)
  Variable min_rank : nat -> option nat.
  Variable legal : nat -> list buf -> list buf -> Prop.
  Hypothesis Hpure : pure_calls X call_v min_rank legal.
  Hypothesis Hstrict : strict_calls X call_v legal.
  Hypothesis Hkeeps : keeps_bounds H.
  Definition tracked (D : nat -> Prop) (m : nat -> dimset) : Prop := forall x, bounded (m x) /\ forall d, m x d = true -> D x.
  Definition known (m : nat -> dimset) (E : venv) : Prop := forall x k b, E x = Buffer k b -> ones (m x) (dims b).
  (** a success, or all calls are legal *)
  Definition fine (z : Z) : Prop := z = 0 \/ forall t bi bo, legal t bi bo.
  Definition keeps (m : nat -> dimset) (s s' : stmt) : Prop := forall E v r, known m E -> fine (fst r) -> vexec s E v = Val r -> vexec s' E v = Val r.
  Lemma tracked_set D m x sd : tracked D m -> bounded sd -> tracked (also D x) (mset m x sd).
  Proof. intros T B y. unfold mset, also. destruct (Nat.eqb_spec y x) as [->|]; [split; [exact B|auto]|]. destruct (T y) as (A & C). split; [exact A|]. intros d Q. right. exact (C d Q). Qed.
  Lemma tracked_also D m x : tracked D m -> tracked (also D x) m.
  Proof. intros T y. destruct (T y) as (A & C). split; [exact A|]. intros d Q. right. exact (C d Q). Qed.
  Lemma known_set m E x sd k b : known m E -> ones sd (dims b) -> known (mset m x sd) (vset E x (Buffer k b)).
  Proof. intros K O y ky by_ Q. unfold mset, vset in *. destruct (y =? x)%nat; [injection Q as <- <-; exact O|exact (K _ _ _ Q)]. Qed.
  Lemma known_num m E x z : known m E -> known m (vset E x (Num z)).
  Proof. intros K y ky by_ Q. unfold vset in Q. destruct (y =? x)%nat; [discriminate|exact (K _ _ _ Q)]. Qed.
  Lemma known_keep m E x k b : known m E -> ones (m x) (dims b) -> known m (vset E x (Buffer k b)).
  Proof. intros K O y ky by_ Q. unfold vset in Q. destruct (Nat.eqb_spec y x) as [->|]; [injection Q as <- <-; exact O|exact (K _ _ _ Q)]. Qed.
  Lemma ones_none m D x ds : tracked D m -> ~ D x -> ones (m x) ds.
  Proof. intros T N k Q. destruct (T x) as (_ & C). destruct (N (C k Q)). Qed.
  Lemma known_ext m E E' : known m E -> (forall x, E' x = E x) -> known m E'. Proof. intros K Q x k b B. rewrite Q in B. exact (K x k b B). Qed.
  Lemma vbuffer_inv E x b : vbuffer E x = Val b -> exists k, E x = Buffer k b. Proof. unfold vbuffer. destruct (E x); try discriminate. intro Q. injection Q as ->. eauto. Qed.
  Lemma lets_known D m l : tracked D m -> Forall (fun x => ~ D x) (map fst l) -> forall E E', known m E -> vlets X H l E = Val E' -> known m E'.
  Proof.
    intros T. induction l as [|(s, x) l IH]; intros F E E' K V; cbn [vlets] in V; [injection V as <-; exact K|]. inversion F as [|? ? F1 F2]; subst. cbn [fst] in F1. apply bind_inv in V as (E1 & V1 & V).
    refine (IH F2 _ _ _ V). unfold vlet in V1.
    assert (G : forall z, known m (vset E s (Num z))) by (intro; apply known_num, K).
    assert (N : (v <- veval E x ;; Val (vset E s (Num v))) = Val E1 -> known m E1) by (intro Q; apply bind_inv in Q as (z & _ & Q); injection Q as <-; apply G).
    destruct x as [|y f d| | | | | |]; try exact (N V1). destruct f; try exact (N V1). destruct (E y) eqn:Qy; injection V1 as <-.
    - intros u k b Q. unfold vset in Q. destruct (u =? s)%nat; [discriminate|exact (K _ _ _ Q)].
    - apply G.
    - apply known_keep; [apply known_keep; [exact K|exact (K _ _ _ Qy)]|exact (ones_none _ _ _ _ T F1)].
  Qed.

  (** ** Loops and allocations *)
  Lemma fine_serial (f g : Z -> vbody X) lo hi st : (forall y v r, fine (fst r) -> f y v = Val r -> g y v = Val r) ->
    forall n i v r, fine (fst r) -> vserial X f lo hi st n i v = Val r -> vserial X g lo hi st n i v = Val r.
  Proof.
    intros R. induction n as [|n IH]; intros i v r Fi G; cbn [vserial] in *; destruct ((lo <=? i) && (i <=? hi)); try exact G.
    apply bind_inv in G as ((z, v1) & G1 & G). apply bind_inv in G as (i' & Gi & G). destruct (Z.eqb_spec z 0) as [->|Nz].
    - rewrite (R _ _ (0, v1) (or_introl eq_refl) G1). cbn [bind]. rewrite Gi. cbn [bind]. rewrite Z.eqb_refl. exact (IH _ _ _ Fi G).
    - injection G as <-. rewrite (R _ _ (z, v1) Fi G1). cbn [bind]. rewrite Gi. cbn [bind]. destruct (Z.eqb_spec z 0); [contradiction|]. reflexivity.
  Qed.
  Lemma par_first (f : Z -> vbody X) lo st : forall sched q v r, vpar X f lo st sched q v = Val r -> q = 0 \/ fst r = q.
  Proof.
    induction sched as [|(w, i) sched IH]; intros q v r G; cbn [vpar] in G; [injection G as <-; auto|]. apply bind_inv in G as (t & _ & G). apply bind_inv in G as (y & _ & G). apply bind_inv in G as ((z, v1) & _ & G).
    destruct (IH _ _ _ G) as [Q|Q]; destruct (Z.eqb_spec q 0); auto.
  Qed.
  Lemma fine_par (f g : Z -> vbody X) lo st : (forall y v r, fine (fst r) -> f y v = Val r -> g y v = Val r) ->
    forall sched q v r, fine (fst r) -> vpar X f lo st sched q v = Val r -> vpar X g lo st sched q v = Val r.
  Proof.
    intros R. induction sched as [|(w, i) sched IH]; intros q v r Fi G; cbn [vpar] in *; [exact G|]. apply bind_inv in G as (t & -> & G). cbn [bind]. apply bind_inv in G as (y & -> & G). cbn [bind].
    apply bind_inv in G as ((z, v1) & G1 & G). assert (Fz : fine z).
    { destruct Fi as [Q|L]; [|right; exact L]. pose proof (par_first _ _ _ _ _ _ _ G) as P. rewrite Q in P. left. destruct (Z.eqb_spec q 0); [destruct P; congruence|]. destruct P as [P|P]; congruence. }
    rewrite (R _ _ (z, v1) Fz G1). cbn [bind]. exact (IH _ _ _ Fi G).
  Qed.
  Lemma fine_allocate f g sym w es dl v r : (forall n b v r, Forall2 same_bounds dl (dims b) -> fine (fst r) -> f (Buffer (Owner n) b) v = Val r -> g (Buffer (Owner n) b) v = Val r) ->
    fine (fst r) -> vallocate X H sym w es dl f v = Val r -> vallocate X H sym w es dl g v = Val r.
  Proof.
    intros R Fi G. unfold vallocate in *. apply bind_inv in G as (o & G1 & G). rewrite G1. cbn [bind]. destruct o as [((b', p), v3)|]; [|exact G].
    assert (B : Forall2 same_bounds dl (dims b')).
    { assert (Hh : forall b, v_heap X H sym b v = (b', p, v3) -> Forall2 same_bounds (dims b) (dims b')).
      { intros b Q. unfold v_heap in Q. destruct (h_allocate X H sym b (v_ext X v)) as ((b1, p1), x1) eqn:A. injection Q as <- <- <-. exact (Hkeeps _ _ _ _ _ _ A). }
      cbv zeta in G1.
      assert (Hn : (r <- init_strides (Buf None es dl) (h_stride_alignment X H) ;; let '(b', size) := r in
             match size with
             | None => Val None
             | Some n =>
                 if match w with stack => true | _ => n <=? h_auto_stack_threshold X H end
                 then Val (Some (Buf (Some (h_alloca X H b' n (v_ext X v))) (elem_size b') (dims b'), 0, v))
                 else Val (Some (v_heap X H sym b' v))
             end) = Val (Some (b', p, v3)) -> Forall2 same_bounds dl (dims b')).
      { intro Q. apply bind_inv in Q as ((b1, size) & Q1 & Q). pose proof (strides_bounds _ _ _ Q1) as S1. cbn [fst dims] in S1. destruct size as [n|]; [|discriminate].
        destruct (match w with stack => true | _ => _ end).
        - injection Q as <- <- <-. exact S1.
        - injection Q as Q. exact (bounds_trans _ _ _ S1 (Hh _ Q)). }
      destruct w; [exact (Hn G1)|exact (Hn G1)|]. injection G1 as G1. exact (Hh _ G1). }
    destruct (alloc_fails b'); [exact G|]. apply bind_inv in G as ((z, v4) & G2 & G).
    assert (Fz : fine z) by (destruct (v_alloc X v4); [discriminate|]; injection G as <-; exact Fi). rewrite (R _ _ _ (z, v4) B Fz G2). exact G.
  Qed.

  (** ** The pass *)
  Record good (m : nat -> dimset) (s s' : stmt) : Prop := {
    g_plain : plain_stmt s';
    g_head : in_block s = true -> in_block s' = true;
    g_value : by_value s -> by_value s';
    g_distinct : distinct s -> distinct s';
    g_free : forall x, free_stmt x s' -> free_stmt x s;
    g_exec : keeps m s s' }.
  Lemma good_refl m s : plain_stmt s -> good m s s.
  Proof. intro P. constructor; auto. intros E v r _ _ G. exact G. Qed.

  Lemma slice_value at_ l : forall done s, by_value s -> by_value (slice_all at_ done l s).
  Proof. induction l as [|i l IH]; intros done s P; cbn [slice_all]; [exact P|]. destruct (existsb _ _); apply IH; exact P. Qed.
  Lemma slices_distinct o n sd : Forall lets_distinct (slices_for o n sd).
  Proof. apply Forall_forall. intros e I. apply in_slices in I as [->|(d & ->)]; exact Logic.I. Qed.
  Lemma slice_distinct o n sd l : forall done s, distinct s -> distinct (slice_all (slices_for o n sd) done l s).
  Proof. induction l as [|i l IH]; intros done s P; cbn [slice_all]; [exact P|]. destruct (existsb _ _); apply IH; [exact P|]. cbn [distinct]. split; [apply slices_distinct|exact P]. Qed.
  Lemma slice_head at_ l : forall done s, in_block s = true -> in_block (slice_all at_ done l s) = true.
  Proof. induction l as [|i l IH]; intros done s P; cbn [slice_all]; [exact P|]. destruct (existsb _ _); apply IH; [exact P|reflexivity]. Qed.
  Lemma slices_free o n sd x : any_of (free x) (slices_for o n sd) -> x = o.
  Proof.
    intro A. apply any_of_in in A as (e & I & F). apply in_slices in I as [->|(d & ->)].
    - destruct F as (ro & F). destruct F.
    - destruct F as (ro & F). cbn in F. destruct F as (F & _). congruence.
  Qed.
  Lemma slice_free o n sd x l : forall done s, free_stmt x (slice_all (slices_for o n sd) done l s) -> x = o \/ In x l \/ free_stmt x s.
  Proof.
    induction l as [|i l IH]; intros done s F; cbn [slice_all] in F; [auto|]. destruct (existsb _ _); apply IH in F as [F|[F|F]]; auto; [right; left; right; exact F|right; left; right; exact F|].
    cbn [free_stmt] in F. destruct F as [F|[F|F]]; [left; exact (slices_free _ _ _ _ F)|right; left; left; exact F|right; right; tauto].
  Qed.

  Lemma call_good D m t ins outs sc s' : tracked D m -> (min_rank t = None \/ Forall (fun e => forall x, In x (outs ++ ins) -> ~ free x e) sc) ->
    remove_call m (min_rank t) ins outs (SCall t ins outs sc) = Val s' -> good m (SCall t ins outs sc) s'.
  Proof.
    intros T Sc M. unfold remove_call in M. destruct (min_rank t) as [n|] eqn:Mr; [|injection M as <-; apply good_refl; exact Logic.I]. destruct Sc as [|Sc]; [discriminate|].
    destruct outs as [|o outs]; [destruct (n <? 64)%nat; [discriminate|injection M as <-; apply good_refl; exact Logic.I]|].
    set (sd := fun d => forallb (fun i => m i d) (o :: outs)) in *.
    assert (K : s' = SCall t ins (o :: outs) sc \/ s' = slice_all (slices_for o n sd) [] ((o :: outs) ++ ins) (SCall t ins (o :: outs) sc)).
    { destruct (slices_for o n sd); injection M as <-; auto. }
    clear M. destruct K as [-> | ->]; [apply good_refl; exact Logic.I|]. set (call := SCall t ins (o :: outs) sc). constructor.
    - apply slice_plain. exact Logic.I.
    - intros _. apply slice_head. reflexivity.
    - apply slice_value.
    - apply slice_distinct.
    - intros x F. apply slice_free in F as [->|[F|F]]; [| |exact F].
      + cbn [call free_stmt]. right. left. left. reflexivity.
      + apply in_app_or in F. cbn [call free_stmt]. tauto.
    - intros E v r Kn Fi G. change ((o :: outs) ++ ins) with (o :: outs ++ ins). cbn [call VSem_Spec.vexec] in G.
      apply bind_inv in G as (bi & Gi & G). apply bind_inv in G as (bo & Go & G). apply bind_inv in G as (vs & Gs & G).
      pose proof (buffers_are _ _ _ Gi) as Bi. pose proof (buffers_are _ _ _ Go) as Bo. inversion Bo as [|? ? (ko & b0 & Qo) Bo']; subst.
      rewrite (call_slices o n sd b0 ko (outs ++ ins) call E v Logic.I Qo (proj2 (Forall_app _ _ _) (conj Bo' Bi))). set (f := chosen b0 n sd).
      cbn [call VSem_Spec.vexec]. rewrite (buffers_cut f E ins (o :: outs ++ ins)) with (bs := bi); [|intros x I; right; apply in_or_app; right; exact I|exact Gi]. cbn [bind].
      rewrite (buffers_cut f E (o :: outs) (o :: outs ++ ins)) with (bs := bo); [|intros x [I|I]; [left; exact I|right; apply in_or_app; left; exact I]|exact Go]. cbn [bind].
      rewrite (list_frame X H sc (cuts f [] (o :: outs ++ ins) E) E).
      2:{ intros x A. apply any_of_in in A as (e & I & F). rewrite Forall_forall in Sc. unfold cuts. destruct (isin x (o :: outs ++ ins)) eqn:Is; [|reflexivity]. apply isin_iff in Is. destruct (Sc e I x Is F). }
      rewrite Gs. cbn [bind]. cbn [vbuffers] in Go. apply bind_inv in Go as (b1 & Go1 & Go). apply bind_inv in Go as (bo1 & Go2 & Go). injection Go as <-.
      assert (b1 = b0) by (unfold vbuffer in Go1; rewrite Qo in Go1; congruence). subst b1.
      destruct (call_v t bi (b0 :: bo1) vs (v_ext X v)) as (z, x') eqn:Cv.
      assert (L : legal t bi (b0 :: bo1)).
      { destruct Fi as [Fi|Fi]; [|apply Fi]. apply (Hstrict t bi (b0 :: bo1) vs (v_ext X v)). rewrite Cv. injection G as <-. exact Fi. }
      rewrite (Hpure t n bi b0 bo1 vs (v_ext X v) f Mr L); [rewrite Cv; exact G|].
      intros d i Q. unfold f, chosen in Q. destruct (Nat.ltb_spec d 64); [|discriminate]. cbn [andb] in Q. destruct (Nat.leb_spec n d); [|discriminate]. cbn [andb] in Q. destruct (sd d) eqn:Sd; [|discriminate]. injection Q as <-.
      split; [assumption|]. split; [reflexivity|]. unfold sd in Sd. rewrite forallb_forall in Sd.
      assert (S1 : forall x b, In x (o :: outs) -> vbuffer E x = Val b -> single b d).
      { intros x b I V. apply vbuffer_inv in V as (k & V). exact (Kn _ _ _ V d (Sd x I)). }
      clear - S1 Go1 Go2. constructor; [exact (S1 o b0 (or_introl eq_refl) Go1)|]. revert bo1 Go2. assert (S2 : forall x b, In x outs -> vbuffer E x = Val b -> single b d) by (intros x b I; apply S1; right; exact I). clear S1.
      induction outs as [|y outs IH]; intros bs V; cbn [vbuffers] in V; [injection V as <-; constructor|]. apply bind_inv in V as (b & V1 & V). apply bind_inv in V as (bs' & V2 & V). injection V as <-.
      constructor; [exact (S2 y b (or_introl eq_refl) V1)|]. apply IH; [|exact V2]. intros x c I. apply S2. right. exact I.
  Qed.

  Lemma good_decl s x b b' m m' : makes s x b -> (forall E q, known m E -> built X H s E = Val (Some q) -> known m' (vset E x (Buffer Own q))) -> good m' b b' -> good m s (with_body s b').
  Proof.
    intros M K [g1 g2 g3 g4 g5 g6]. assert (D : declares s = Some (x, b)) by (destruct M; reflexivity). destruct (local_by_value _ _ _ D) as (Q1 & L1 & L1'). destruct (local_distinct _ _ _ D) as (Q2 & L2 & L2'). constructor.
    - exact (with_plain _ _ _ _ D g1).
    - destruct M; reflexivity.
    - intro V. apply L1 in V as (V1 & V2). apply L1'. auto.
    - intro V. apply L2 in V as (V1 & V2). apply L2'. auto.
    - intros y F. apply (free_with _ _ _ _ _ D) in F as [F|(N & F)]; [exact F|]. exact (free_body _ _ _ _ D N (g5 _ F)).
    - intros E v r Kn Fi G. rewrite (vexec_makes _ _ _ _ _ _ _ _ _ _ M) in G. rewrite (vexec_makes _ _ _ _ _ _ _ _ _ _ (makes_with _ _ _ b' M)), built_with.
      apply bind_inv in G as (q & Bq & G). rewrite Bq. cbn [bind]. destruct q as [q|]; [|exact G]. exact (g6 _ _ _ (K _ _ Kn Bq) Fi G).
  Qed.
  Lemma good_cons m x l x' l' : plain_stmt x -> good m x x' -> keeps m (SBlock l) (SBlock l') -> keeps m (SBlock (x :: l)) (SBlock (x' :: l')).
  Proof.
    intros P [g1 g2 g3 g4 g5 g6] R E v r Kn Fi G. rewrite vexec_cons in *. apply bind_inv in G as ((z, v1) & G1 & G). destruct (Z.eqb_spec z 0) as [->|Nz].
    - rewrite (g6 _ _ (0, v1) Kn (or_introl eq_refl) G1). cbn [bind]. rewrite Z.eqb_refl. rewrite (proj1 (plain_flat x P)) in G. rewrite (proj1 (plain_flat x' g1)). apply R; [|exact Fi|exact G].
      eapply known_ext; [exact Kn|]. intro y. reflexivity.
    - injection G as <-. rewrite (g6 _ _ (z, v1) Kn Fi G1). cbn [bind]. destruct (Z.eqb_spec z 0); [contradiction|]. reflexivity.
  Qed.
  Lemma block_good m l l' : (2 <= length l)%nat -> forallb in_block l = true -> Forall plain_stmt l -> Forall2 (good m) l l' -> good m (SBlock l) (block_make l').
  Proof.
    intros L B P F. assert (L' : length l' = length l) by (clear - F; induction F; cbn [length]; congruence).
    assert (B' : forallb in_block l' = true).
    { clear - B F. induction F as [|x x' l l' g F IH]; [reflexivity|]. cbn [forallb] in *. apply andb_true_iff in B as (B1 & B2). rewrite (g_head _ _ _ g B1). exact (IH B2). }
    rewrite block_make_flat; [|lia|exact B']. constructor.
    - cbn [plain_stmt]. split; [lia|]. split; [exact B'|]. apply (proj2 (plain_list l')). clear - F. induction F as [|x x' l l' g F IH]; constructor; [exact (g_plain _ _ _ g)|exact IH].
    - discriminate.
    - rewrite !by_value_block. clear - F. induction F as [|x x' l l' g F IH]; intro V; inversion V as [|? ? V1 V2]; subst; constructor; [exact (g_value _ _ _ g V1)|exact (IH V2)].
    - rewrite !distinct_block. clear - F. induction F as [|x x' l l' g F IH]; intro V; inversion V as [|? ? V1 V2]; subst; constructor; [exact (g_distinct _ _ _ g V1)|exact (IH V2)].
    - intros y. rewrite !free_block. clear - F. induction F as [|x x' l l' g F IH]; intro V; inversion V as [? ? V1|? ? V2]; subst; [left; exact (g_free _ _ _ g _ V1)|right; exact (IH V2)].
    - clear - P F. induction F as [|x x' l l' g F IH]; [intros E v r _ _ G; exact G|]. inversion P; subst. apply good_cons; auto.
  Qed.
  Lemma loop_good m s w i st b b' : plain_stmt b -> (forall E z, known m E -> known m (vset E s (Num z))) -> good m b b' -> good m (SLoop s w i st b) (SLoop s w i st b').
  Proof.
    intros P Kn [g1 g2 g3 g4 g5 g6]. constructor; auto.
    - cbn [distinct]. tauto.
    - intros y. cbn [free_stmt]. specialize (g5 y). tauto.
    - intros E v r K Fi G. destruct (plain_flat b P) as (A1 & A2). destruct (plain_flat b' g1) as (A1' & A2').
      assert (Qi : forall b, as_closure b = None -> match b with SLet _ b0 true => vexec b0 | _ => vexec b end = vexec b).
      { intros b0 N. destruct b0; try reflexivity. destruct is_closure; [discriminate|reflexivity]. }
      cbn [VSem_Spec.vexec] in *. rewrite A1, A2, (Qi b A2) in G. rewrite A1', A2', (Qi b' A2').
      apply bind_inv in G as (k & Q1 & G). rewrite Q1. cbn [bind]. apply bind_inv in G as ((lo, hi) & Q2 & G). rewrite Q2. cbn [bind]. apply bind_inv in G as (stp & Q3 & G). rewrite Q3. cbn [bind].
      destruct (stp =? 0); [discriminate|].
      assert (Ks : known m (vshare E)).
      { intros x kk q Q. unfold vshare, share in Q. destruct (E x) eqn:Qx; try discriminate. injection Q as <- <-. exact (K _ _ _ Qx). }
      destruct (1 <? k).
      + apply bind_inv in G as (n & Q4 & G). rewrite Q4. cbn [bind vparallel] in *. destruct (n =? 0); [exact G|]. destruct (n =? 1); [apply g6; [apply Kn; exact Ks|exact Fi|exact G]|]. destruct (h_pool X H); [|discriminate].
        eapply fine_par; [|exact Fi|exact G]. intros y v0 r0 F0 G0. apply g6; [apply Kn; exact Ks|exact F0|exact G0].
      + eapply fine_serial; [|exact Fi|exact G]. intros y v0 r0 F0 G0. apply g6; [apply Kn; exact K|exact F0|exact G0].
  Qed.

  Lemma stale_list D l : (fix go (l : list stmt) := match l with [] => True | x :: l' => not_stale D x /\ go l' end) l <-> Forall (not_stale D) l.
  Proof. induction l as [|x l IH]; [split; auto; constructor|]. split; [intros (A & B); constructor; tauto|intro F; inversion F; tauto]. Qed.
  Lemma apart_list l : (fix go (l : list stmt) := match l with [] => True | x :: l' => scalars_apart min_rank x /\ go l' end) l <-> Forall (scalars_apart min_rank) l.
  Proof. induction l as [|x l IH]; [split; auto; constructor|]. split; [intros (A & B); constructor; tauto|intro F; inversion F; tauto]. Qed.

  Lemma remover_good s : forall D m s', plain_stmt s -> not_stale D s -> scalars_apart min_rank s -> tracked D m -> remover min_rank consts m s = Val s' -> good m s s'.
  Proof.
    induction s as [|t ins outs sc|src sx dst dx pad|l s c IHs|l IHl|s w i st b IHs|s w e ds b IHs|s p e ds b IHs|s c b IHs|s src b IHs|s src l b IHs|s src d i b IHs|s src l b IHs|s src d e b IHs|s src p b IHs|s s1 s2 IHs1 IHs2|c] using stmt_ind';
      intros D m s' P S A T M; cbn [remover] in M; try (destruct P; fail); try (injection M as <-; apply good_refl; exact P).
    - exact (call_good D m _ _ _ _ _ T A M).
    - apply bind_inv in M as (b' & M & Q). injection Q as <-. cbn [plain_stmt] in P. destruct P as (-> & P). destruct S as (S1 & S). destruct (IHs D m b' P S A T M) as [g1 g2 g3 g4 g5 g6]. constructor; auto.
      + split; auto.
      + cbn [by_value]. intros (V1 & V2). split; auto.
      + cbn [distinct]. intros (V1 & V2 & V3). auto.
      + intros y. cbn [free_stmt]. clear - g5. induction l as [|(u, e) l IH]; cbn [in_lets]; [apply g5|]. tauto.
      + intros E v r Kn Fi G. cbn [VSem_Spec.vexec] in *. apply bind_inv in G as (E1 & Q & G). rewrite Q. cbn [bind]. apply g6; [|exact Fi|exact G]. exact (lets_known _ _ _ T S1 _ _ Kn Q).
    - apply bind_inv in M as (r & M & Q). injection Q as <-. destruct P as (P1 & P2 & P3). apply plain_list in P3. apply stale_list in S. apply apart_list in A. apply block_good; [exact P1|exact P2|exact P3|].
      clear P1 P2. revert r M. induction IHl as [|x l Hx IHl IH]; intros r M; [injection M as <-; constructor|]. inversion P3; subst. inversion S; subst. inversion A; subst.
      apply bind_inv in M as (x' & M1 & M). apply bind_inv in M as (r' & M2 & M). injection M as <-. constructor; [eapply Hx; eauto|]. apply IH; auto.
    - apply bind_inv in M as (b' & M & Q). injection Q as <-. destruct S as (S1 & S). apply loop_good; [exact P| |exact (IHs D m b' P S A T M)]. intros E z Kn. apply known_num, Kn.
    - apply bind_inv in M as (sd & Qs & M). apply bind_inv in M as (b' & M & Q). injection Q as <-. destruct (IHs _ _ b' P S A (tracked_set _ _ s _ T (find_bounded _ _ _ Qs)) M) as [g1 g2 g3 g4 g5 g6]. constructor; auto.
      + cbn [distinct]. tauto.
      + intros y. cbn [free_stmt]. specialize (g5 y). tauto.
      + intros E v r Kn Fi G. cbn [VSem_Spec.vexec] in *. apply bind_inv in G as (es & Q1 & G). rewrite Q1. cbn [bind]. apply bind_inv in G as (dl & Q2 & G). rewrite Q2. cbn [bind].
        eapply fine_allocate; [|exact Fi|exact G]. intros n q v0 r0 B F0 G0. apply g6; [|exact F0|exact G0]. apply known_set; [exact Kn|]. exact (bounds_ones _ _ _ B (dims_ones X H _ _ _ _ _ Q2 Qs)).
    - apply bind_inv in M as (sd & Qs & M). apply bind_inv in M as (b' & M & Q). injection Q as <-. eapply (good_decl (SMake s p e ds b)); [constructor| |exact (IHs _ _ b' P S A (tracked_set _ _ s _ T (find_bounded _ _ _ Qs)) M)].
      intros E q Kn B. apply known_set; [exact Kn|]. cbn [built] in B. apply bind_inv in B as (es & _ & B). apply bind_inv in B as (pp & _ & B). apply bind_inv in B as (dl & Q2 & B). cbv zeta in B. destruct (validate_buffer _); [|discriminate].
      injection B as <-. cbn [dims]. exact (dims_ones X H _ _ _ _ _ Q2 Qs).
    - apply bind_inv in M as (q & Qq & M). apply bind_inv in M as (sd & Qs & M). apply bind_inv in M as (b' & M & Q). injection Q as <-.
      destruct (IHs _ _ b' P S A (tracked_set _ _ s _ T (constant_bounded _ _ _ Qs)) M) as [g1 g2 g3 g4 g5 g6]. constructor; auto.
      + intros y. cbn [free_stmt]. specialize (g5 y). tauto.
      + intros E v r Kn Fi G. cbn [VSem_Spec.vexec] in *. apply bind_inv in G as (q' & Q & G). rewrite Q. cbn [bind]. apply g6; [|exact Fi|exact G]. apply known_set; [exact Kn|].
        destruct (consts c); [|discriminate]. cbn [of_] in Q. injection Qq as ->. injection Q as ->. intros k Tk. exact (constant_ones _ 0 _ k Qs Tk).
    - apply bind_inv in M as (b' & M & Q). injection Q as <-. destruct (IHs _ _ b' P S A (tracked_set _ _ s _ T (proj1 (T src))) M) as [g1 g2 g3 g4 g5 g6]. constructor; auto.
      + intros y. cbn [free_stmt]. specialize (g5 y). tauto.
      + intros E v r Kn Fi G. cbn [VSem_Spec.vexec] in *. apply bind_inv in G as (q & Q & G). rewrite Q. cbn [bind]. apply g6; [|exact Fi|exact G]. apply vbuffer_inv in Q as (k & Q). apply known_set; [exact Kn|exact (Kn _ _ _ Q)].
    - apply bind_inv in M as (sd & Qs & M). apply bind_inv in M as (b' & M & Q). injection Q as <-.
      assert (Bd : bounded (or_dims (m src) sd)) by (intros k Lk; unfold or_dims; rewrite (proj1 (T src) k Lk), (find_bounded _ _ _ Qs k Lk); reflexivity).
      eapply (good_decl (SCropBuffer s src l b)); [constructor| |exact (IHs _ _ b' P S A (tracked_set _ _ s _ T Bd) M)].
      intros E q Kn B. apply known_set; [exact Kn|]. cbn [built] in B. apply bind_inv in B as (b0 & Q0 & B). apply bind_inv in B as (u & _ & B). apply bind_inv in B as (b1 & Q1 & B). injection B as <-.
      apply vbuffer_inv in Q0 as (k & Q0). exact (crop_buffer_ones X H _ _ _ _ _ _ (Kn _ _ _ Q0) Qs Q1).
    - destruct S as (S1 & S). destruct (is_extent_one i) eqn:O.
      + apply bind_inv in M as (sd & Qs & M). apply bind_inv in M as (b' & M & Q). injection Q as <-.
        eapply (good_decl (SCropDim s src d i b)); [constructor| |exact (IHs _ _ b' P S A (tracked_set _ _ s _ T (set_dim_bounded _ _ _ Qs (proj1 (T src)))) M)].
        intros E q Kn B. apply known_set; [exact Kn|]. cbn [built] in B. apply bind_inv in B as (b0 & Q0 & B). apply bind_inv in B as (u & _ & B). apply bind_inv in B as (r & Q1 & B). injection B as <-.
        apply vbuffer_inv in Q0 as (k & Q0). pose proof (Kn _ _ _ Q0) as K0. apply set_dim_inv in Qs as (_ & ->). intros j Tj. apply orb_true_iff in Tj as [Tj|Tj]; [|exact (crop_thin _ _ _ _ _ (K0 j Tj))].
        apply Nat.eqb_eq in Tj. subst j. rewrite (interval_def_one X H _ _ _ _ _ O Q1). apply crop_one.
      + apply bind_inv in M as (b' & M & Q). injection Q as <-. eapply (good_decl (SCropDim s src d i b)); [constructor| |exact (IHs _ _ b' P S A (tracked_also _ _ s T) M)].
        intros E q Kn B. apply known_keep; [exact Kn|]. destruct S1 as [->|S1]; [|exact (ones_none _ _ _ _ T S1)].
        cbn [built] in B. apply bind_inv in B as (b0 & Q0 & B). apply bind_inv in B as (u & _ & B). apply bind_inv in B as (r & Q1 & B). injection B as <-.
        apply vbuffer_inv in Q0 as (k & Q0). intros j Tj. exact (crop_thin _ _ _ _ _ (Kn _ _ _ Q0 j Tj)).
    - apply bind_inv in M as (sd & Qs & M). apply bind_inv in M as (b' & M & Q). injection Q as <-. destruct (erase_at_inv l 0 _ _ Qs (proj1 (T src))) as (Bd & V).
      eapply (good_decl (SSliceBuffer s src l b)); [constructor| |exact (IHs _ _ b' P S A (tracked_set _ _ s _ T Bd) M)].
      intros E q Kn B. apply known_set; [exact Kn|]. cbn [built] in B. apply bind_inv in B as (b0 & Q0 & B). apply bind_inv in B as ((p1, ds1) & Q1 & B). injection B as <-. cbn [fst snd dims].
      apply vbuffer_inv in Q0 as (k & Q0). pose proof (slice_ones X H _ _ _ _ _ _ _ (Kn _ _ _ Q0) Q1) as O1. intros j Tj. apply O1. rewrite V in Tj. cbn [Nat.ltb Nat.leb] in Tj. rewrite Nat.sub_0_r in Tj. exact Tj.
    - apply bind_inv in M as (sd & Qs & M). apply bind_inv in M as (b' & M & Q). injection Q as <-. destruct (erase_inv _ _ _ Qs (proj1 (T src))) as (Bd & V).
      eapply (good_decl (SSliceDim s src d e b)); [constructor| |exact (IHs _ _ b' P S A (tracked_set _ _ s _ T Bd) M)].
      intros E q Kn B. apply known_set; [exact Kn|]. cbn [built] in B. apply bind_inv in B as (b0 & Q0 & B). apply bind_inv in B as (b1 & Q1 & B). injection B as <-.
      apply vbuffer_inv in Q0 as (k & Q0). exact (slice_dim_ones X H _ _ _ _ _ _ _ (Kn _ _ _ Q0) V Q1).
    - apply bind_inv in M as (sd & Qs & M). apply bind_inv in M as (b' & M & Q). injection Q as <-. destruct (transpose_inv _ _ _ Qs) as (Bd & V).
      eapply (good_decl (STranspose s src p b)); [constructor| |exact (IHs _ _ b' P S A (tracked_set _ _ s _ T Bd) M)].
      intros E q Kn B. apply known_set; [exact Kn|]. cbn [built] in B. apply bind_inv in B as (b0 & Q0 & B). apply vbuffer_inv in Q0 as (k & Q0). pose proof (Kn _ _ _ Q0) as K0.
      destruct ((s =? src)%nat && is_truncate p) eqn:Tr.
      + apply andb_true_iff in Tr as (_ & Tr). destruct (rank b0 <? length p)%nat; [discriminate|]. apply bind_inv in B as (u & _ & B). injection B as <-. cbn [dims]. exact (truncate_ones _ _ _ _ K0 V Tr).
      + injection B as <-. exact (transpose_ones _ _ _ _ K0 V).
  Qed.
End Pass.
