(** Lemmas about the evaluation of statements. *)
From Coq Require Import ZArith List Bool Lia RelationClasses.
From Verif Require Import Arith_Model Arith_Proofs Buf_Model Alloc_Model Expr_Model Expr_Proofs Stmt_Model Stmt_Spec.
Import ListNotations.
Open Scope Z_scope.

Section StmtInd.
  Variable P : stmt -> Prop.
  Hypothesis Hundef : P SUndef.
  Hypothesis Hcall : forall t i o s, P (SCall t i o s).
  Hypothesis Hcopy : forall a b c d e, P (SCopy a b c d e).
  Hypothesis Hlet : forall l b c, P b -> P (SLet l b c).
  Hypothesis Hblock : forall l, Forall P l -> P (SBlock l).
  Hypothesis Hloop : forall s w x st b, P b -> P (SLoop s w x st b).
  Hypothesis Halloc : forall s w e ds b, P b -> P (SAllocate s w e ds b).
  Hypothesis Hmake : forall s p e ds b, P b -> P (SMake s p e ds b).
  Hypothesis Hconst : forall s v b, P b -> P (SConst s v b).
  Hypothesis Hclone : forall s v b, P b -> P (SClone s v b).
  Hypothesis Hcropb : forall s v l b, P b -> P (SCropBuffer s v l b).
  Hypothesis Hcropd : forall s v d x b, P b -> P (SCropDim s v d x b).
  Hypothesis Hsliceb : forall s v l b, P b -> P (SSliceBuffer s v l b).
  Hypothesis Hsliced : forall s v d x b, P b -> P (SSliceDim s v d x b).
  Hypothesis Htrans : forall s v p b, P b -> P (STranspose s v p b).
  Hypothesis Hasync : forall s t b, P t -> P b -> P (SAsync s t b).
  Hypothesis Hcheck : forall c, P (SCheck c).
  Fixpoint stmt_ind' (s : stmt) : P s :=
    match s with
    | SUndef => Hundef
    | SCall t i o s => Hcall t i o s
    | SCopy a b c d e => Hcopy a b c d e
    | SLet l b c => Hlet l b c (stmt_ind' b)
    | SBlock l => Hblock l ((fix go (l : list stmt) : Forall P l :=
         match l with [] => Forall_nil _ | x :: l' => Forall_cons x (stmt_ind' x) (go l') end) l)
    | SLoop s w x st b => Hloop s w x st b (stmt_ind' b)
    | SAllocate s w e ds b => Halloc s w e ds b (stmt_ind' b)
    | SMake s p e ds b => Hmake s p e ds b (stmt_ind' b)
    | SConst s v b => Hconst s v b (stmt_ind' b)
    | SClone s v b => Hclone s v b (stmt_ind' b)
    | SCropBuffer s v l b => Hcropb s v l b (stmt_ind' b)
    | SCropDim s v d x b => Hcropd s v d x b (stmt_ind' b)
    | SSliceBuffer s v l b => Hsliceb s v l b (stmt_ind' b)
    | SSliceDim s v d x b => Hsliced s v d x b (stmt_ind' b)
    | STranspose s v p b => Htrans s v p b (stmt_ind' b)
    | SAsync s t b => Hasync s t b (stmt_ind' t) (stmt_ind' b)
    | SCheck c => Hcheck c
    end.
End StmtInd.

(** ** Expressions leave the context as it was *)
Definition keeps_ctx (W : world) (e : expr) : Prop :=
  lets_distinct e -> forall c v c', eval W c e = Val (v, c') -> ctx_eq c c'.

Section EvalCtx.
  Variable W : world.
  Definition all_keep (l : list expr) := Forall (keeps_ctx W) l /\ Forall lets_distinct l.
  Lemma all_keep_inv x l : all_keep (x :: l) -> keeps_ctx W x /\ lets_distinct x /\ all_keep l.
  Proof. intros (A & B); inversion A; inversion B; subst. exact (conj H1 (conj H5 (conj H2 H6))). Qed.

  Lemma lets_keep : forall (l : list (nat * expr)) c c1 old,
    all_keep (map snd l) -> eval_lets (eval W) l c = Val (c1, old) ->
    map fst old = map fst l /\
    (forall s, ~ In s (map fst l) -> c1 s = c s) /\
    (NoDup (map fst l) -> forall s, In s (map fst l) -> In (s, c s) old).
  Proof.
    induction l as [|[s x] l IH]; intros c c1 old Ha E; cbn [eval_lets] in E.
    - injection E as <- <-. cbn [map]. split; [reflexivity|]. split; [reflexivity|]. intros _ s [].
    - cbn [map snd] in Ha. apply all_keep_inv in Ha. destruct Ha as (H1 & H2 & H4).
      apply bind_inv in E; destruct E as ([v c0] & E0 & E).
      apply bind_inv in E; destruct E as ([c2 old'] & E1 & E). injection E as <- <-.
      pose proof (H1 H2 c v c0 E0) as Q.
      destruct (IH (ctx_set c0 s v) c2 old' H4 E1) as (A4 & A5 & A6).
      split; [cbn [map fst]; rewrite A4; reflexivity|]. split.
      { intros t Ht. cbn [map fst In] in Ht. rewrite A5 by tauto. unfold ctx_set.
        destruct (Nat.eqb_spec t s); [subst; tauto|apply Q]. }
      { intros N t Ht. cbn [map fst] in N. apply NoDup_cons_iff in N; destruct N as [N1 N2].
        cbn [map fst In] in Ht. destruct Ht as [<-|Ht].
        - left. rewrite Q; reflexivity.
        - right. specialize (A6 N2 t Ht). unfold ctx_set in A6. rewrite Q in A6.
          destruct (Nat.eqb_spec t s); [subst; tauto|exact A6]. }
  Qed.

  Lemma args_keep : forall l c vs c1, all_keep l -> eval_args (eval W) l c = Val (vs, c1) -> ctx_eq c c1.
  Proof.
    induction l as [|x l IH]; intros c vs c1 Ha E; cbn [eval_args] in E.
    - injection E as <- <-. apply ctx_eq_refl.
    - apply all_keep_inv in Ha. destruct Ha as (H1 & H2 & H4). destruct (defined x).
      + apply bind_inv in E; destruct E as ([v c0] & E0 & E).
        apply bind_inv in E; destruct E as ([vs' c2] & E1 & E). injection E as <- <-.
        eapply ctx_eq_trans; [exact (H1 H2 _ _ _ E0)|exact (IH _ _ _ H4 E1)].
      + apply bind_inv in E; destruct E as ([vs' c2] & E1 & E). injection E as <- <-. exact (IH _ _ _ H4 E1).
  Qed.
  Lemma at_keep : forall l n c vs c1, all_keep l -> eval_at (eval W) n l c = Val (vs, c1) -> ctx_eq c c1.
  Proof.
    induction l as [|x l IH]; intros n c vs c1 Ha E; cbn [eval_at] in E.
    - injection E as <- <-. apply ctx_eq_refl.
    - destruct n as [|n]; [injection E as <- <-; apply ctx_eq_refl|].
      apply all_keep_inv in Ha. destruct Ha as (H1 & H2 & H4). destruct (defined x).
      + apply bind_inv in E; destruct E as ([v c0] & E0 & E).
        apply bind_inv in E; destruct E as ([vs' c2] & E1 & E). injection E as <- <-.
        eapply ctx_eq_trans; [exact (H1 H2 _ _ _ E0)|exact (IH _ _ _ _ H4 E1)].
      + apply bind_inv in E; destruct E as ([vs' c2] & E1 & E). injection E as <- <-. exact (IH _ _ _ _ H4 E1).
  Qed.
  Lemma short_keep stop : forall l c v c1, all_keep l -> eval_short (eval W) stop l c = Val (v, c1) -> ctx_eq c c1.
  Proof.
    induction l as [|x l IH]; intros c v c1 Ha E; cbn [eval_short] in E.
    - injection E as <- <-. apply ctx_eq_refl.
    - apply all_keep_inv in Ha. destruct Ha as (H1 & H2 & H4).
      apply bind_inv in E; destruct E as ([w c0] & E0 & E). pose proof (H1 H2 _ _ _ E0) as Q.
      destruct (Bool.eqb (truthy w) stop); [injection E as <- <-; exact Q|].
      eapply ctx_eq_trans; [exact Q|exact (IH _ _ _ H4 E)].
  Qed.

  Ltac bi E x := apply bind_inv in E; destruct E as (x & ? & E).
  Lemma eval_ctx e : keeps_ctx W e.
  Proof.
    induction e as [|s f d|l b IHl IHb|o a b IHa IHb|a IHa|q t f IHq IHt IHf|fn t l IHl|k] using expr_ind';
      intros D c v c' E; cbn [eval] in E.
    - discriminate.
    - destruct f; [injection E as <- <-; apply ctx_eq_refl|..];
        (destruct (w_buf W (c s)); [injection E as <- <-; apply ctx_eq_refl|discriminate]).
    - destruct D as (D1 & D2 & D3). apply go_Forall_snd in D2. apply Forall_snd in IHl.
      apply bind_inv in E; destruct E as ([c1 old] & E1 & E).
      apply bind_inv in E; destruct E as ([w c2] & E2 & E). injection E as <- <-.
      destruct (lets_keep l c c1 old (conj IHl D2) E1) as (A1 & A2 & A3).
      pose proof (IHb D3 _ _ _ E2) as Q. intro s.
      destruct (in_dec Nat.eq_dec s (map fst l)) as [I|I].
      + apply restore_all_in; [rewrite A1; exact D1|exact (A3 D1 s I)].
      + rewrite restore_all_notin by (rewrite A1; exact I). rewrite Q. exact (A2 s I).
    - destruct D as [D1 D2].
      apply bind_inv in E; destruct E as ([va c1] & E1 & E).
      apply bind_inv in E; destruct E as ([vb c2] & E2 & E).
      apply bind_inv in E; destruct E as (vv & E3 & E). injection E as <- <-.
      eapply ctx_eq_trans; [exact (IHa D1 _ _ _ E1)|exact (IHb D2 _ _ _ E2)].
    - apply bind_inv in E; destruct E as ([va c1] & E1 & E). injection E as <- <-. exact (IHa D _ _ _ E1).
    - destruct D as (D1 & D2 & D3). apply bind_inv in E; destruct E as ([va c1] & E1 & E).
      pose proof (IHq D1 _ _ _ E1) as Q. eapply ctx_eq_trans; [exact Q|].
      destruct (truthy va); [exact (IHt D2 _ _ _ E)|exact (IHf D3 _ _ _ E)].
    - cbn [lets_distinct] in D. apply go_Forall in D.
      pose proof (conj IHl D : all_keep l) as A.
      assert (G : forall g, (r <- eval_args (eval W) l c ;; (let '(vs, c1) := r in Val (g vs, c1))) = Val (v, c') -> ctx_eq c c').
      { intros g E'. apply bind_inv in E'; destruct E' as ([vs c1] & E1 & E'). injection E' as <- <-. exact (args_keep _ _ _ _ A E1). }
      destruct fn; try discriminate; try exact (G _ E); try exact (short_keep _ _ _ _ _ A E).
      + destruct t; [exact (G _ E)|discriminate].
      + destruct l as [|x [|? ?]]; try discriminate.
        apply all_keep_inv in A. destruct A as (A1 & A2 & _).
        apply bind_inv in E; destruct E as ([va c1] & E1 & E). apply bind_inv in E; destruct E as (w & E2 & E).
        injection E as <- <-. exact (A1 A2 _ _ _ E1).
      + destruct l as [|x l']; [discriminate|]. apply all_keep_inv in A. destruct A as (_ & _ & A).
        destruct x as [|s0 f0 d0| | | | | |]; try discriminate. destruct f0; try discriminate.
        destruct (w_buf W (c s0)); [|discriminate].
        apply bind_inv in E; destruct E as ([vs c1] & E1 & E). injection E as <- <-. exact (at_keep _ _ _ _ _ A E1).
    - injection E as <- <-. apply ctx_eq_refl.
  Qed.
End EvalCtx.

(** ** Events *)
Lemma reports_nil : reports 0 [].
Proof. split; [constructor|intro n; exfalso; apply n; reflexivity]. Qed.
Lemma reports_seq e1 z e2 : reports 0 e1 -> reports z e2 -> reports z (e1 ++ e2).
Proof.
  intros [A _] [B C]; split.
  - intro E. apply Forall_app. split; [exact (A eq_refl)|exact (B E)].
  - intro E. destruct (C E) as (e & I & F). exists e. split; [apply in_or_app; right; exact I|exact F].
Qed.
Lemma reports_both z1 e1 z2 e2 : reports z1 e1 -> reports z2 e2 -> reports (if z1 =? 0 then z2 else z1) (e1 ++ e2).
Proof.
  intros A B. destruct (Z.eqb_spec z1 0) as [->|n]; [exact (reports_seq _ _ _ A B)|].
  destruct A as [_ A]. split; [intro E; exfalso; exact (n E)|]. intros _.
  destruct (A n) as (e & I & F). exists e. split; [apply in_or_app; left; exact I|exact F].
Qed.
Lemma reports_both' z1 e1 z2 e2 : reports z1 e1 -> reports z2 e2 -> reports (if z2 =? 0 then z1 else z2) (e1 ++ e2).
Proof.
  intros A B. destruct (Z.eqb_spec z2 0) as [->|n].
  - destruct A as [A1 A2], B as [B1 _]. split.
    + intro E. apply Forall_app. split; [exact (A1 E)|exact (B1 eq_refl)].
    + intro E. destruct (A2 E) as (e & I & F). exists e. split; [apply in_or_app; left; exact I|exact F].
  - destruct B as [_ B]. split; [intro E; exfalso; exact (n E)|]. intros _.
    destruct (B n) as (e & I & F). exists e. split; [apply in_or_app; right; exact I|exact F].
Qed.
Lemma free_succeeds e : is_free e -> succeeds e.
Proof. destruct e; intros []; reflexivity. Qed.
Lemma stops_nil : stops_at_first_failure 0 [].
Proof. left. split; constructor. Qed.
Lemma stops_seq e1 z e2 : stops_at_first_failure 0 e1 -> stops_at_first_failure z e2 -> stops_at_first_failure z (e1 ++ e2).
Proof.
  intros [[_ A]|[n _]] B; [|exfalso; apply n; reflexivity].
  destruct B as [[-> B]|(n & pre & f & post & -> & P1 & P2 & P3)].
  - left. split; [reflexivity|]. apply Forall_app. exact (conj A B).
  - right. split; [exact n|]. exists (e1 ++ pre), f, post. split; [rewrite app_assoc; reflexivity|].
    split; [apply Forall_app; exact (conj A P1)|exact (conj P2 P3)].
Qed.
Lemma stops_frees z e1 e2 : stops_at_first_failure z e1 -> Forall is_free e2 -> stops_at_first_failure z (e1 ++ e2).
Proof.
  intros [[-> A]|(n & pre & f & post & -> & P1 & P2 & P3)] B.
  - left. split; [reflexivity|]. apply Forall_app. split; [exact A|]. eapply Forall_impl; [exact free_succeeds|exact B].
  - right. split; [exact n|]. exists pre, f, (post ++ e2). split; [rewrite <- app_assoc; reflexivity|].
    split; [exact P1|]. split; [exact P2|]. apply Forall_app. exact (conj P3 B).
Qed.
Lemma reports_frees z e1 e2 : reports z e1 -> Forall is_free e2 -> reports z (e1 ++ e2).
Proof.
  intros [A B] C. split.
  - intro E. apply Forall_app. split; [exact (A E)|]. eapply Forall_impl; [exact free_succeeds|exact C].
  - intro E. destruct (B E) as (e & I & F). exists e. split; [apply in_or_app; left; exact I|exact F].
Qed.

(** [q]: the program is sequential; it allocates on the stack only *)
Definition outcome (q : bool * bool) (z : Z) (evs : list event) : Prop :=
  reports z evs /\ (fst q = true -> stops_at_first_failure z evs) /\ (snd q = true -> Forall not_alloc evs).
Lemma outcome_nil q : outcome q 0 [].
Proof. split; [exact reports_nil|split; [intros _; exact stops_nil|constructor]]. Qed.
Lemma outcome_seq q e1 z e2 : outcome q 0 e1 -> outcome q z e2 -> outcome q z (e1 ++ e2).
Proof.
  intros (A & B & C) (D & E & F). split; [exact (reports_seq _ _ _ A D)|].
  split; [intro Q; exact (stops_seq _ _ _ (B Q) (E Q))|intro Q; apply Forall_app; exact (conj (C Q) (F Q))].
Qed.
Lemma free_not_alloc e : is_free e -> not_alloc e.
Proof. destruct e; intros []; reflexivity. Qed.
Lemma outcome_frees q z e1 e2 : outcome q z e1 -> Forall is_free e2 -> outcome q z (e1 ++ e2).
Proof.
  intros (A & B & C) F. split; [exact (reports_frees _ _ _ A F)|].
  split; [intro E; exact (stops_frees _ _ _ (B E) F)|].
  intro Q. apply Forall_app. split; [exact (C Q)|]. eapply Forall_impl; [exact free_not_alloc|exact F].
Qed.
Lemma outcome_ok q evs : Forall succeeds evs -> (snd q = true -> Forall not_alloc evs) -> outcome q 0 evs.
Proof.
  intros A N. split; [split; [intros _; exact A|intro n; exfalso; apply n; reflexivity]|].
  split; [intros _; left; split; [reflexivity|exact A]|exact N].
Qed.
Lemma outcome_fail q e z : fails e = Some z -> z <> 0 -> outcome q z [e].
Proof.
  intros F n. split; [|split].
  - split; [intro E; exfalso; exact (n E)|]. intros _. exists e. split; [left; reflexivity|exact F].
  - intros _. right. split; [exact n|]. exists [], e, []. split; [reflexivity|]. split; [constructor|]. split; [exact F|constructor].
  - intros _. constructor; [|constructor]. destruct e; try reflexivity. discriminate.
Qed.
Lemma outcome_weaken q q' z evs : (fst q' = true -> fst q = true) -> (snd q' = true -> snd q = true) -> outcome q z evs -> outcome q' z evs.
Proof. intros W W' (A & B & C). split; [exact A|]. split; [intro E; exact (B (W E))|intro E; exact (C (W' E))]. Qed.

(** A buffer keeps its block, or it was freed. *)
Definition table_kept (l l' : list (Z * Z)) : Prop :=
  Forall2 (fun x y => fst y = fst x /\ (snd y = snd x \/ snd y = 0)) l l'.
#[global] Instance table_refl : Reflexive table_kept.
Proof. intro l. induction l; constructor; [split; [reflexivity|left; reflexivity]|assumption]. Qed.
Lemma table_trans a b c : table_kept a b -> table_kept b c -> table_kept a c.
Proof.
  intro F; revert c; induction F as [|x y a b [E1 E2] F IH]; intros c G; inversion G as [|? z ? c' [E3 E4] G']; subst; constructor.
  - split; [congruence|]. destruct E4 as [->|E4]; [exact E2|right; exact E4].
  - exact (IH _ G').
Qed.
Lemma table_keys l l' : table_kept l l' -> map fst l' = map fst l.
Proof. induction 1 as [|x y a b [E1 _] F IH]; cbn [map]; [reflexivity|rewrite E1, IH; reflexivity]. Qed.

Lemma count_app f p a b : count f p (a ++ b) = (count f p a + count f p b)%nat.
Proof. unfold count. rewrite filter_app, app_length. reflexivity. Qed.
Lemma prefix_app {A} (pre post e1 e2 : list A) : e1 ++ e2 = pre ++ post ->
  (exists r, e1 = pre ++ r) \/ (exists r, pre = e1 ++ r /\ e2 = r ++ post).
Proof.
  revert pre; induction e1 as [|x e1 IH]; intros pre E.
  - right. exists pre. split; [reflexivity|exact E].
  - destruct pre as [|y pre]; [left; exists (x :: e1); reflexivity|].
    cbn [app] in E. injection E as -> E. destruct (IH pre E) as [(r & ->)|(r & -> & R)].
    + left. exists r. reflexivity.
    + right. exists r. split; [reflexivity|exact R].
Qed.
Lemma balanced_refl l : balanced l [] l.
Proof.
  intros p _. split; [reflexivity|]. intros pre post E. destruct pre; [|discriminate]. unfold frees, allocs, count. cbn [filter length]. lia.
Qed.
Lemma balanced_trans l e1 l1 e2 l2 : balanced l e1 l1 -> balanced l1 e2 l2 -> balanced l (e1 ++ e2) l2.
Proof.
  intros A B p n. destruct (A p n) as [A1 A2], (B p n) as [B1 B2]. unfold frees, allocs in *. split.
  - rewrite !count_app. lia.
  - intros pre post E. destruct (prefix_app _ _ _ _ E) as [(r & R)|(r & -> & R)].
    + exact (A2 pre r R).
    + rewrite !count_app. specialize (B2 r post R). lia.
Qed.

Section Eval.
  Variable X : Type.
  Variable H : host X.
  Notation state := (state X).
  Notation exec_t := (exec_t X).

  Record step (A : list nat) (q : bool * bool) (st : state) (z : Z) (st' : state) : Prop := Step {
    k_ctx : forall x, ~ In x A -> s_ctx X st' x = s_ctx X st x;
    k_buf : forall a, s_buf X st' a = s_buf X st a;
    k_next : s_next X st <= s_next X st';
    k_table : table_kept (s_alloc X st) (s_alloc X st');
    k_log : exists evs, s_log X st' = s_log X st ++ evs /\ outcome q z evs /\ balanced (s_alloc X st) evs (s_alloc X st') }.
  Definition good (A : list nat) (q : bool * bool) (f : exec_t) : Prop :=
    forall st z st', inv st -> f st = Val (z, st') -> step A q st z st'.

  Lemma Forall_keys (l l' : list (Z * Z)) n : map fst l' = map fst l ->
    Forall (fun k => fst k < n) l -> Forall (fun k => fst k < n) l'.
  Proof.
    intros E F. apply Forall_map with (P := fun k => k < n) in F. rewrite <- E in F. apply Forall_map in F. exact F.
  Qed.
  Lemma step_inv A q st z st' : inv st -> step A q st z st' -> inv st'.
  Proof.
    intros [I1 I2] [K1 K2 K3 K4 _]. split.
    - intros a L. rewrite K2. apply I1. lia.
    - eapply Forall_keys; [exact (table_keys _ _ K4)|]. eapply Forall_impl; [|exact I2]. cbn. intros; lia.
  Qed.
  Lemma step_weaken A A' q q' st z st' : incl A A' -> (fst q' = true -> fst q = true) -> (snd q' = true -> snd q = true) -> step A q st z st' -> step A' q' st z st'.
  Proof.
    intros IA IQ IR [K1 K2 K3 K4 (evs & L & O & B)]. split; [intros x N; apply K1; intro J; exact (N (IA _ J))|exact K2|exact K3|exact K4|].
    exists evs. split; [exact L|]. split; [exact (outcome_weaken _ _ _ _ IQ IR O)|exact B].
  Qed.
  Lemma good_weaken A A' q q' f : incl A A' -> (fst q' = true -> fst q = true) -> (snd q' = true -> snd q = true) -> good A q f -> good A' q' f.
  Proof. intros IA IQ IR G st z st' I E. eapply step_weaken; [exact IA|exact IQ|exact IR|exact (G _ _ _ I E)]. Qed.
  Lemma step_trans A q st st1 z st2 : step A q st 0 st1 -> step A q st1 z st2 -> step A q st z st2.
  Proof.
    intros [K1 K2 K3 K4 (e1 & L1 & O1 & B1)] [M1 M2 M3 M4 (e2 & L2 & O2 & B2)]. split.
    - intros x N. rewrite (M1 x N). exact (K1 x N).
    - intro a. rewrite M2. exact (K2 a).
    - lia.
    - exact (table_trans _ _ _ K4 M4).
    - exists (e1 ++ e2). rewrite L2, L1, app_assoc. split; [reflexivity|].
      split; [exact (outcome_seq _ _ _ _ O1 O2)|exact (balanced_trans _ _ _ _ _ B1 B2)].
  Qed.
  Lemma step_refl A q st : step A q st 0 st.
  Proof.
    split; try reflexivity. exists []. rewrite app_nil_r. split; [reflexivity|].
    split; [apply outcome_nil|apply balanced_refl].
  Qed.

  (** ** Evaluating expressions changes nothing *)
  Definition quiet (st st' : state) : Prop := exists c, st' = set_ctx X st c /\ ctx_eq (s_ctx X st) c.
  Lemma quiet_refl st : quiet st st.
  Proof. exists (s_ctx X st). split; [destruct st; reflexivity|apply ctx_eq_refl]. Qed.
  Lemma quiet_trans a b c : quiet a b -> quiet b c -> quiet a c.
  Proof.
    intros (c1 & -> & E1) (c2 & -> & E2). exists c2. split; [reflexivity|].
    cbn [s_ctx set_ctx] in E2. eapply ctx_eq_trans; [exact E1|exact E2].
  Qed.
  Lemma quiet_step A q st st' : quiet st st' -> step A q st 0 st'.
  Proof.
    intros (c & -> & E). split; try reflexivity.
    - intros x _. exact (E x).
    - exists []. cbn [s_log set_ctx s_alloc]. rewrite app_nil_r. split; [reflexivity|].
      split; [apply outcome_nil|apply balanced_refl].
  Qed.
  Lemma quiet_inv st st' : quiet st st' -> inv st -> inv st'.
  Proof. intros (c & -> & _) I. exact I. Qed.
  Lemma ev_quiet e st v st' : lets_distinct e -> ev X H st e = Val (v, st') -> quiet st st'.
  Proof.
    intros D E. unfold ev in E. apply bind_inv in E; destruct E as ([w c] & E1 & E). injection E as <- <-.
    exists c. split; [reflexivity|exact (eval_ctx _ e D _ _ _ E1)].
  Qed.
  Lemma ev_def_quiet e st d v st' : lets_distinct e -> ev_def X H st e d = Val (v, st') -> quiet st st'.
  Proof.
    intros D E. unfold ev_def in E. destruct (defined e); [exact (ev_quiet _ _ _ _ D E)|].
    injection E as <- <-. apply quiet_refl.
  Qed.
  Lemma ev_interval_quiet x st lo hi st' : distinct_interval x -> ev_interval X H st x = Val (lo, hi, st') -> quiet st st'.
  Proof.
    intros [D1 D2] E. unfold ev_interval in E.
    apply bind_inv in E; destruct E as ([v1 s1] & E1 & E). apply bind_inv in E; destruct E as ([v2 s2] & E2 & E).
    injection E as <- <- <-. eapply quiet_trans; [exact (ev_quiet _ _ _ _ D1 E1)|exact (ev_quiet _ _ _ _ D2 E2)].
  Qed.
  Lemma ev_interval_def_quiet x st a b lo hi st' : distinct_interval x -> ev_interval_def X H st x a b = Val (lo, hi, st') -> quiet st st'.
  Proof.
    intros [D1 D2] E. unfold ev_interval_def in E.
    apply bind_inv in E; destruct E as ([v1 s1] & E1 & E). apply bind_inv in E; destruct E as ([v2 s2] & E2 & E).
    injection E as <- <- <-. eapply quiet_trans; [exact (ev_def_quiet _ _ _ _ _ D1 E1)|exact (ev_def_quiet _ _ _ _ _ D2 E2)].
  Qed.
  Lemma ev_dims_quiet auto : forall ds st dl st', Forall distinct_dim ds -> ev_dims X H auto ds st = Val (dl, st') -> quiet st st'.
  Proof.
    induction ds as [|d ds IH]; intros st dl st' D E; cbn [ev_dims] in E.
    - injection E as <- <-. apply quiet_refl.
    - inversion D as [|? ? (D1 & D2 & D3) D4]; subst.
      apply bind_inv in E; destruct E as ([l s1] & E1 & E).
      apply bind_inv in E; destruct E as ([[lo hi] s2] & E2 & E).
      apply bind_inv in E; destruct E as ([v3 s3] & E3 & E).
      apply bind_inv in E; destruct E as ([v4 s4] & E4 & E). injection E as <- <-.
      eapply quiet_trans; [exact (IH _ _ _ D4 E1)|].
      eapply quiet_trans; [exact (ev_interval_quiet _ _ _ _ _ D1 E2)|].
      eapply quiet_trans; [|exact (ev_def_quiet _ _ _ _ _ D3 E4)].
      destruct auto; [exact (ev_def_quiet _ _ _ _ _ D2 E3)|exact (ev_quiet _ _ _ _ D2 E3)].
  Qed.
  Lemma slice_loop_quiet : forall ds p l st r st', Forall lets_distinct l -> slice_loop X H p ds l st = Val (r, st') -> quiet st st'.
  Proof.
    induction ds as [|d ds IH]; intros p l st r st' D E; cbn [slice_loop] in E.
    - injection E as <- <-. apply quiet_refl.
    - destruct l as [|x l]; [injection E as <- <-; apply quiet_refl|].
      inversion D as [|? ? D1 D2]; subst. destruct (defined x).
      + destruct p as [q|]; [|exact (IH _ _ _ _ _ D2 E)].
        apply bind_inv in E; destruct E as ([v s1] & E1 & E).
        eapply quiet_trans; [exact (ev_quiet _ _ _ _ D1 E1)|exact (IH _ _ _ _ _ D2 E)].
      + apply bind_inv in E; destruct E as ([[q l'] s1] & E1 & E). injection E as <- <-. exact (IH _ _ _ _ _ D2 E1).
  Qed.
  Lemma crop_clone_quiet : forall l b d st b' st', Forall distinct_interval l -> crop_clone X H b d l st = Val (b', st') -> quiet st st'.
  Proof.
    induction l as [|x l IH]; intros b d st b' st' D E; cbn [crop_clone] in E.
    - injection E as <- <-. apply quiet_refl.
    - inversion D as [|? ? D1 D2]; subst. destruct (rank b <=? d)%nat; [injection E as <- <-; apply quiet_refl|].
      apply bind_inv in E; destruct E as ([[lo hi] s1] & E1 & E).
      eapply quiet_trans; [exact (ev_interval_def_quiet _ _ _ _ _ _ _ D1 E1)|exact (IH _ _ _ _ _ D2 E)].
  Qed.

  Lemma after_quiet A q st st1 z st2 : quiet st st1 -> step A q st1 z st2 -> step A q st z st2.
  Proof. intros Q S. eapply step_trans; [exact (quiet_step _ _ _ _ Q)|exact S]. Qed.

  (** ** Values and objects *)
  (** [st'] with some symbol changed: steps between states that differ in the context only *)
  Lemma step_ctx A B q st z st' c c' :
    step B q (set_ctx X st c) z st' ->
    (forall x, ~ In x A -> c' x = s_ctx X st x) ->
    step A q st z (set_ctx X st' c').
  Proof.
    intros [K1 K2 K3 K4 K5] C. split; [exact C|exact K2|exact K3|exact K4|exact K5].
  Qed.
  Lemma with_value_good A q s v f : good A q f -> good A q (with_value X s v f).
  Proof.
    intros G st z st' I E. unfold with_value in E.
    apply bind_inv in E; destruct E as ([w st1] & E1 & E). injection E as <- <-.
    pose proof (G _ _ _ (I : inv (set_ctx X st _)) E1) as S. eapply step_ctx; [exact S|].
    intros x N. unfold ctx_set. destruct (Nat.eqb_spec x s) as [->|n]; [reflexivity|].
    rewrite (k_ctx _ _ _ _ _ S x N). cbn [s_ctx set_ctx]. unfold ctx_set. apply Nat.eqb_neq in n. rewrite n. reflexivity.
  Qed.
  Lemma new_object_inv st b : inv st -> inv (set_next X (set_buf X st (s_next X st) (Some b)) (s_next X st + 1)).
  Proof.
    intros [I1 I2]. split; cbn [s_next set_next set_buf s_buf s_alloc].
    - intros a L. destruct (Z.eqb_spec a (s_next X st)); [lia|]. apply I1. lia.
    - eapply Forall_impl; [|exact I2]. cbn. intros; lia.
  Qed.
  Lemma with_object_good A q s b f : good A q f -> good A q (with_object X s b f).
  Proof.
    intros G st z st' I E. unfold with_object in E.
    apply bind_inv in E; destruct E as ([w st1] & E1 & E). injection E as <- <-.
    pose proof (with_value_good A q s _ f G _ _ _ (new_object_inv st b I) E1) as [K1 K2 K3 K4 K5].
    cbn [s_ctx s_buf s_next s_alloc s_log set_next set_buf] in *.
    split; cbn [s_ctx s_buf s_next s_alloc s_log set_next set_buf]; [exact K1| |lia|exact K4|exact K5].
    intro a. rewrite K2. destruct (Z.eqb_spec a (s_next X st)) as [->|n]; [|reflexivity].
    symmetry. apply (proj1 I). lia.
  Qed.

  Lemma ev_lets_keep : forall l st st1 old, Forall lets_distinct (map snd l) -> ev_lets X H l st = Val (st1, old) ->
    exists c, st1 = set_ctx X st c /\ map fst old = map fst l /\
      (forall s, ~ In s (map fst l) -> c s = s_ctx X st s) /\
      (NoDup (map fst l) -> forall s, In s (map fst l) -> In (s, s_ctx X st s) old).
  Proof.
    induction l as [|[s x] l IH]; intros st st1 old D E; cbn [ev_lets] in E.
    - injection E as <- <-. exists (s_ctx X st). split; [destruct st; reflexivity|]. cbn [map].
      split; [reflexivity|]. split; [reflexivity|]. intros _ s [].
    - cbn [map snd] in D. inversion D as [|? ? D1 D2]; subst.
      apply bind_inv in E; destruct E as ([v st0] & E0 & E).
      apply bind_inv in E; destruct E as ([st2 old'] & E1 & E). injection E as <- <-.
      destruct (ev_quiet _ _ _ _ D1 E0) as (c0 & -> & Q).
      destruct (IH _ _ _ D2 E1) as (c & -> & A4 & A5 & A6).
      cbn [s_ctx set_ctx] in *.
      exists c. split; [reflexivity|]. split; [cbn [map fst]; rewrite A4; reflexivity|]. split.
      { intros t Ht. cbn [map fst In] in Ht. rewrite A5 by tauto. unfold ctx_set.
        destruct (Nat.eqb_spec t s); [subst; tauto|apply Q]. }
      { intros N t Ht. cbn [map fst] in N. apply NoDup_cons_iff in N; destruct N as [N1 N2].
        cbn [map fst In] in Ht. destruct Ht as [<-|Ht].
        - left. rewrite Q; reflexivity.
        - right. specialize (A6 N2 t Ht). unfold ctx_set in A6. rewrite Q in A6.
          destruct (Nat.eqb_spec t s); [subst; tauto|exact A6]. }
  Qed.
  Lemma with_lets_good A q l f : NoDup (map fst l) -> Forall lets_distinct (map snd l) -> good A q f -> good A q (with_lets X H l f).
  Proof.
    intros N D G st z st' I E. unfold with_lets in E.
    apply bind_inv in E; destruct E as ([st1 old] & E1 & E).
    apply bind_inv in E; destruct E as ([w st2] & E2 & E). injection E as <- <-.
    destruct (ev_lets_keep _ _ _ _ D E1) as (c & -> & A1 & A2 & A3).
    pose proof (G _ _ _ (I : inv (set_ctx X st c)) E2) as S. eapply step_ctx; [exact S|].
    intros x NA. destruct (in_dec Nat.eq_dec x (map fst l)) as [J|J].
    - apply restore_all_in; [rewrite A1; exact N|exact (A3 N x J)].
    - rewrite restore_all_notin by (rewrite A1; exact J). rewrite (k_ctx _ _ _ _ _ S x NA). exact (A2 x J).
  Qed.

  (** ** Sequences and loops *)
  Lemma runs_good A q fs : Forall (good A q) fs -> forall st z st', inv st -> runs fs st z st' -> step A q st z st'.
  Proof.
    induction fs as [|f fs IH]; intros F st z st' I R; inversion R; subst.
    - apply step_refl.
    - inversion F as [|? ? F1 F2]; subst. match goal with E : f st = _ |- _ => pose proof (F1 _ _ _ I E) as S end.
      eapply step_trans; [exact S|]. apply (IH F2); [exact (step_inv _ _ _ _ _ I S)|assumption].
    - inversion F as [|? ? F1 F2]; subst. match goal with E : f st = _ |- _ => exact (F1 _ _ _ I E) end.
  Qed.

  Definition go_block := fix go (l : list stmt) (st : state) {struct l} : res (Z * state) :=
    match l with
    | [] => Val (0, st)
    | x :: l' => r <- exec X H x st ;; let '(z, st1) := r in if z =? 0 then go l' st1 else Val (z, st1)
    end.
  Lemma go_block_runs l : forall st z st', go_block l st = Val (z, st') <-> runs (map (exec X H) l) st z st'.
  Proof.
    induction l as [|x l IH]; intros st z st'; split; intro E.
    - cbn [go_block] in E. injection E as <- <-. constructor.
    - inversion E; subst. reflexivity.
    - cbn [go_block] in E. apply bind_inv in E; destruct E as ([w st1] & E1 & E).
      destruct (Z.eqb_spec w 0) as [->|n].
      + cbn [map]. eapply runs_next; [exact E1|]. apply IH. exact E.
      + injection E as <- <-. cbn [map]. apply runs_fail; assumption.
    - cbn [map] in E. inversion E; subst; cbn [go_block].
      + match goal with E : exec X H x st = _ |- _ => rewrite E end. cbn [bind]. apply IH. assumption.
      + match goal with E : exec X H x st = _ |- _ => rewrite E end. cbn [bind]. destruct (Z.eqb_spec z 0); [tauto|reflexivity].
  Qed.

  Definition iteration (sym : nat) (f : exec_t) (i : Z) : exec_t := fun st => f (set_ctx X st (ctx_set (s_ctx X st) sym i)).
  (** the values of the loop variable *)
  Fixpoint loop_values (lo hi step_ : Z) (n : nat) (i : Z) : list Z :=
    match n with
    | O => []
    | S n' => if (lo <=? i) && (i <=? hi) then i :: loop_values lo hi step_ n' (i + step_) else []
    end.
  Lemma serial_loop_runs sym f lo hi step_ : forall n i st z st',
    serial_loop X sym f lo hi step_ n i st = Val (z, st') ->
    runs (map (iteration sym f) (loop_values lo hi step_ n i)) st z st'.
  Proof.
    induction n as [|n IH]; intros i st z st' E; cbn [serial_loop loop_values] in *.
    - destruct ((lo <=? i) && (i <=? hi)); [discriminate|]. injection E as <- <-. constructor.
    - destruct ((lo <=? i) && (i <=? hi)); [|injection E as <- <-; constructor].
      apply bind_inv in E; destruct E as ([w st1] & E1 & E).
      apply bind_inv in E; destruct E as (i' & E2 & E). apply chk_inv in E2. destruct E2 as [-> _].
      cbn [map]. destruct (Z.eqb_spec w 0) as [->|n0].
      + eapply runs_next; [exact E1|]. exact (IH _ _ _ _ E).
      + injection E as <- <-. apply runs_fail; assumption.
  Qed.
  Lemma iteration_good A q sym f i : good A q f -> good (sym :: A) q (iteration sym f i).
  Proof.
    intros G st z st' I E. pose proof (G _ _ _ (I : inv (set_ctx X st _)) E) as S.
    destruct S as [K1 K2 K3 K4 K5]. split; [|exact K2|exact K3|exact K4|exact K5].
    intros x N. rewrite K1 by (intro J; apply N; right; exact J). cbn [s_ctx set_ctx]. unfold ctx_set.
    destruct (Nat.eqb_spec x sym) as [->|n]; [exfalso; apply N; left; reflexivity|reflexivity].
  Qed.
  Lemma serial_good A q sym f lo hi step_ n i : good A q f ->
    forall st z st', inv st -> serial_loop X sym f lo hi step_ n i st = Val (z, st') -> step (sym :: A) q st z st'.
  Proof.
    intros G st z st' I E. eapply runs_good; [|exact I|exact (serial_loop_runs _ _ _ _ _ _ _ _ _ _ E)].
    apply Forall_map. apply Forall_forall. intros v _. apply iteration_good. exact G.
  Qed.

  Lemma set_ctx_ctx st c c' : set_ctx X (set_ctx X st c) c' = set_ctx X st c'.
  Proof. reflexivity. Qed.
  (** a step between states, forgetting about the contexts *)
  Lemma par_good sym f A q parent cl lo step_ : good A q f -> forall sched wc result st z st',
    inv st -> par_loop X H sym f parent cl lo step_ sched wc result st = Val (z, st') ->
    (forall a, s_buf X st' a = s_buf X st a) /\ s_next X st <= s_next X st' /\
    table_kept (s_alloc X st) (s_alloc X st') /\
    exists evs r, z = (if result =? 0 then r else result) /\ s_log X st' = s_log X st ++ evs /\ reports r evs /\
                  (snd q = true -> Forall not_alloc evs) /\ balanced (s_alloc X st) evs (s_alloc X st').
  Proof.
    intros G. induction sched as [|[w i] sched IH]; intros wc result st z st' I E; cbn [par_loop] in E.
    - injection E as <- <-. split; [reflexivity|]. split; [lia|]. split; [reflexivity|]. exists [], 0.
      split; [destruct (Z.eqb_spec result 0); congruence|]. rewrite app_nil_r. split; [reflexivity|].
      split; [exact reports_nil|]. split; [constructor|apply balanced_refl].
    - apply bind_inv in E; destruct E as (c & E1 & E). apply bind_inv in E; destruct E as (t & E2 & E).
      apply bind_inv in E; destruct E as (v & E3 & E). apply bind_inv in E; destruct E as ([zi st1] & E4 & E).
      pose proof (G _ _ _ (I : inv (set_ctx X st _)) E4) as S.
      pose proof (step_inv _ _ _ _ _ (I : inv (set_ctx X st _)) S) as I1.
      destruct (IH _ _ _ _ _ I1 E) as (B1 & B2 & B3 & evs & r & B4 & B5 & B6 & B8 & B7).
      destruct S as [K1 K2 K3 K4 (e1 & L1 & (O1 & _ & O3) & B0)]. cbn [s_buf s_next s_alloc s_log set_ctx] in *.
      split; [intro a; rewrite B1; exact (K2 a)|]. split; [lia|]. split; [exact (table_trans _ _ _ K4 B3)|].
      exists (e1 ++ evs), (if zi =? 0 then r else zi). split; [|split; [|split; [|split]]].
      + rewrite B4. destruct (Z.eqb_spec result 0) as [->|n]; [reflexivity|].
        apply Z.eqb_neq in n. rewrite n. reflexivity.
      + rewrite B5, L1, app_assoc. reflexivity.
      + exact (reports_both _ _ _ _ O1 B6).
      + intro Q. apply Forall_app. exact (conj (O3 Q) (B8 Q)).
      + exact (balanced_trans _ _ _ _ _ B0 B7).
  Qed.
  Lemma new_context_good A q cl f : good A q f -> good [] q (with_new_context X H cl f).
  Proof.
    intros G st z st' I E. unfold with_new_context in E.
    apply bind_inv in E; destruct E as (c & E1 & E). apply bind_inv in E; destruct E as ([w st1] & E2 & E).
    injection E as <- <-. pose proof (G _ _ _ (I : inv (set_ctx X st _)) E2) as S.
    eapply step_ctx; [exact S|]. reflexivity.
  Qed.

  (** ** Changing a buffer in place *)
  Record changed (st : state) (a : Z) (b : buf) (st1 : state) : Prop := Changed {
    c_ctx : ctx_eq (s_ctx X st) (s_ctx X st1);
    c_buf : forall x, s_buf X st1 x = if x =? a then Some b else s_buf X st x;
    c_next : s_next X st1 = s_next X st;
    c_alloc : s_alloc X st1 = s_alloc X st;
    c_log : s_log X st1 = s_log X st }.
  Lemma quiet_changed st st1 a b : quiet st st1 -> changed st a b (set_buf X st1 a (Some b)).
  Proof. intros (c & -> & E). split; [exact E|reflexivity|reflexivity|reflexivity|reflexivity]. Qed.
  Lemma changed_self st a b : s_buf X st a = Some b -> changed st a b st.
  Proof.
    intro B. split; [apply ctx_eq_refl| |reflexivity|reflexivity|reflexivity].
    intro x. destruct (Z.eqb_spec x a); [subst; exact B|reflexivity].
  Qed.
  Lemma changed_trans st a b st1 b' st2 : changed st a b st1 -> changed st1 a b' st2 -> changed st a b' st2.
  Proof.
    intros [A1 A2 A3 A4 A5] [B1 B2 B3 B4 B5].
    split; [exact (ctx_eq_trans _ _ _ A1 B1)| |congruence|congruence|congruence].
    intro x. rewrite B2, A2. destruct (x =? a); reflexivity.
  Qed.
  Lemma in_place_good A q f st a b0 b1 st1 z st2 :
    inv st -> s_buf X st a = Some b0 -> changed st a b1 st1 -> good A q f -> f st1 = Val (z, st2) ->
    s_buf X st2 a = Some b1 /\ step A q st z (set_buf X st2 a (Some b0)).
  Proof.
    intros [I1 I2] B [C1 C2 C3 C4 C5] G E.
    assert (La : a < s_next X st).
    { destruct (Z_lt_le_dec a (s_next X st)) as [L|L]; [exact L|]. rewrite (I1 a L) in B. discriminate. }
    assert (I' : inv st1).
    { split; rewrite C3.
      - intros x L. rewrite C2. destruct (Z.eqb_spec x a); [lia|]. exact (I1 x L).
      - rewrite C4. exact I2. }
    destruct (G _ _ _ I' E) as [K1 K2 K3 K4 K5]. split; [rewrite K2, C2, Z.eqb_refl; reflexivity|].
    split; cbn [s_ctx s_buf s_next s_alloc s_log set_buf].
    - intros x N. rewrite (K1 x N). exact (C1 x).
    - intro x. destruct (Z.eqb_spec x a) as [->|n]; [symmetry; exact B|]. rewrite K2, C2.
      apply Z.eqb_neq in n. rewrite n. reflexivity.
    - lia.
    - rewrite <- C4. exact K4.
    - rewrite C5, C4 in K5. exact K5.
  Qed.

  Lemma crop_dims b d lo hi : (d < rank b)%nat -> exists lo' hi',
    dims (crop b d lo hi) = set_nth (dims b) d (set_bounds (dim_at b d) lo' hi') /\ elem_size (crop b d lo hi) = elem_size b.
  Proof.
    intro L. unfold crop. destruct (Nat.leb_spec (rank b) d); [lia|].
    eexists; eexists. split; reflexivity.
  Qed.
  Lemma nth_set_nth_same {A} (l : list A) d v x : (d < length l)%nat -> nth d (set_nth l d v) x = v.
  Proof. revert d; induction l as [|y l IH]; intros [|d] L; cbn [length set_nth nth] in *; try lia; [reflexivity|]. apply IH. lia. Qed.
  Lemma nth_set_nth_other {A} (l : list A) d e v x : d <> e -> nth d (set_nth l e v) x = nth d l x.
  Proof. revert d e; induction l as [|y l IH]; intros [|d] [|e] N; cbn [set_nth nth]; try reflexivity; [congruence|]. apply IH. congruence. Qed.
  Lemma set_nth_nth {A} (l : list A) d x v : set_nth (set_nth l d v) d (nth d l x) = l.
  Proof. revert d; induction l as [|y l IH]; intros [|d]; cbn [set_nth nth]; try reflexivity. rewrite IH. reflexivity. Qed.
  Lemma set_nth_comm {A} (l : list A) d e v w : d <> e -> set_nth (set_nth l d v) e w = set_nth (set_nth l e w) d v.
  Proof. revert d e; induction l as [|y l IH]; intros [|d] [|e] N; cbn [set_nth]; try reflexivity; [congruence|]. rewrite IH by congruence. reflexivity. Qed.
  Lemma length_set_nth {A} (l : list A) d v : length (set_nth l d v) = length l.
  Proof. revert d; induction l as [|y l IH]; intros [|d]; cbn [set_nth length]; try reflexivity. rewrite IH. reflexivity. Qed.
  Lemma restore_nth old : forall ds e d, (d < e)%nat -> nth d (restore_bounds ds e old) broadcast = nth d ds broadcast.
  Proof.
    induction old as [|[lo hi] old IH]; intros ds e d L; cbn [restore_bounds]; [reflexivity|].
    rewrite IH by lia. apply nth_set_nth_other. lia.
  Qed.
  Lemma restore_set old : forall ds e d v, (d < e)%nat -> restore_bounds (set_nth ds d v) e old = set_nth (restore_bounds ds e old) d v.
  Proof.
    induction old as [|[lo hi] old IH]; intros ds e d v L; cbn [restore_bounds]; [reflexivity|].
    rewrite nth_set_nth_other by lia. rewrite set_nth_comm by lia. rewrite IH by lia. reflexivity.
  Qed.
  Lemma set_bounds_self d lo hi : set_bounds (set_bounds d lo hi) (d_min d) (d_max d) = d.
  Proof. destruct d; reflexivity. Qed.
  Lemma crop_in_place_ok a : forall l d b st old st1, Forall distinct_interval l -> s_buf X st a = Some b ->
    crop_in_place X H a d l st = Val (old, st1) ->
    exists b', changed st a b' st1 /\ elem_size b' = elem_size b /\ restore_bounds (dims b') d old = dims b.
  Proof.
    induction l as [|x l IH]; intros d b st old st1 D B E; cbn [crop_in_place] in E.
    - injection E as <- <-. exists b. split; [exact (changed_self _ _ _ B)|split; reflexivity].
    - rewrite B in E. inversion D as [|? ? D1 D2]; subst. destruct (Nat.leb_spec (rank b) d) as [L|L].
      + injection E as <- <-. exists b. split; [exact (changed_self _ _ _ B)|split; reflexivity].
      + apply bind_inv in E; destruct E as ([[lo hi] s1] & E1 & E).
        apply bind_inv in E; destruct E as ([old' s2] & E2 & E). injection E as <- <-.
        pose proof (ev_interval_def_quiet _ _ _ _ _ _ _ D1 E1) as Q.
        assert (B1 : s_buf X (set_buf X s1 a (Some (crop b d lo hi))) a = Some (crop b d lo hi))
          by (cbn [s_buf set_buf]; rewrite Z.eqb_refl; reflexivity).
        destruct (IH (S d) (crop b d lo hi) _ _ _ D2 B1 E2) as (b' & C & Es & R).
        exists b'. split; [eapply changed_trans; [apply quiet_changed; exact Q|exact C]|].
        destruct (crop_dims b d lo hi L) as (lo' & hi' & Cd & Ce).
        split; [congruence|]. cbn [restore_bounds].
        rewrite restore_set by lia. rewrite R.
        rewrite <- (restore_nth old' (dims b') (S d) d) by lia. rewrite R, Cd.
        rewrite nth_set_nth_same by exact L. rewrite set_bounds_self. apply set_nth_nth.
  Qed.

  Lemma lookup_buffer_inv st s b : lookup_buffer X st s = Val b -> s_buf X st (s_ctx X st s) = Some b.
  Proof. unfold lookup_buffer. destruct (s_buf X st (s_ctx X st s)); [|discriminate]. intro E; injection E as ->; reflexivity. Qed.
  Lemma buf_eta b : Buf (base b) (elem_size b) (dims b) = b. Proof. destruct b; reflexivity. Qed.

  Lemma crop_shadowed_good A q s l f : Forall distinct_interval l -> good A q f -> good A q (exec_crop_shadowed X H s l f).
  Proof.
    intros D G st z st' I E. unfold exec_crop_shadowed in E. cbv zeta in E.
    apply bind_inv in E; destruct E as (b0 & E0 & E). apply lookup_buffer_inv in E0.
    apply bind_inv in E; destruct E as ([old st1] & E1 & E).
    apply bind_inv in E; destruct E as ([w st2] & E2 & E).
    destruct (crop_in_place_ok _ _ _ _ _ _ _ D E0 E1) as (b' & C & Es & R).
    destruct (in_place_good _ _ _ _ _ _ _ _ _ _ I E0 C G E2) as (B2 & S).
    rewrite B2 in E. injection E as <- <-. rewrite R, Es, buf_eta. exact S.
  Qed.
  Lemma crop_unshadowed_good A q s src l f : Forall distinct_interval l -> good A q f -> good A q (exec_crop_unshadowed X H s src l f).
  Proof.
    intros D G st z st' I E. unfold exec_crop_unshadowed in E.
    apply bind_inv in E; destruct E as (b & E0 & E). apply bind_inv in E; destruct E as ([b' st1] & E1 & E).
    pose proof (crop_clone_quiet _ _ _ _ _ _ D E1) as Q.
    eapply after_quiet; [exact Q|]. eapply with_object_good; [exact G|exact (quiet_inv _ _ Q I)|exact E].
  Qed.
  Lemma crop_dim_shadowed_good A q s d x f : distinct_interval x -> good A q f -> good A q (exec_crop_dim_shadowed X H s d x f).
  Proof.
    intros D G st z st' I E. unfold exec_crop_dim_shadowed in E. cbv zeta in E.
    apply bind_inv in E; destruct E as (b0 & E0 & E). apply lookup_buffer_inv in E0.
    destruct (Nat.leb_spec (rank b0) d) as [L|L]; [exact (G _ _ _ I E)|].
    apply bind_inv in E; destruct E as ([[lo hi] st1] & E1 & E).
    apply bind_inv in E; destruct E as ([w st2] & E2 & E).
    pose proof (quiet_changed _ _ (s_ctx X st s) (crop b0 d lo hi) (ev_interval_def_quiet _ _ _ _ _ _ _ D E1)) as C.
    destruct (in_place_good _ _ _ _ _ _ _ _ _ _ I E0 C G E2) as (B2 & S).
    rewrite B2 in E. injection E as <- <-.
    destruct (crop_dims b0 d lo hi L) as (lo' & hi' & Cd & Ce). rewrite Cd, Ce.
    rewrite nth_set_nth_same by exact L. rewrite set_bounds_self. unfold dim_at. rewrite set_nth_nth, buf_eta. exact S.
  Qed.
  Lemma crop_dim_unshadowed_good A q s src d x f : distinct_interval x -> good A q f -> good A q (exec_crop_dim_unshadowed X H s src d x f).
  Proof.
    intros D G st z st' I E. unfold exec_crop_dim_unshadowed in E. cbv zeta in E.
    apply bind_inv in E; destruct E as (b & E0 & E). apply bind_inv in E; destruct E as ([[lo hi] st1] & E1 & E).
    pose proof (ev_interval_def_quiet _ _ _ _ _ _ _ D E1) as Q.
    eapply after_quiet; [exact Q|]. eapply with_object_good; [exact G|exact (quiet_inv _ _ Q I)|exact E].
  Qed.
  Lemma slice_good A q s src l f : Forall lets_distinct l -> good A q f -> good A q (exec_slice X H s src l f).
  Proof.
    intros D G st z st' I E. unfold exec_slice in E.
    apply bind_inv in E; destruct E as (b & E0 & E). apply bind_inv in E; destruct E as ([[p ds] st1] & E1 & E).
    pose proof (slice_loop_quiet _ _ _ _ _ _ D E1) as Q.
    eapply after_quiet; [exact Q|]. eapply with_object_good; [exact G|exact (quiet_inv _ _ Q I)|exact E].
  Qed.
  Lemma slice_dim_good A q s src d x f : lets_distinct x -> good A q f -> good A q (exec_slice_dim X H s src d x f).
  Proof.
    intros D G st z st' I E. unfold exec_slice_dim in E.
    apply bind_inv in E; destruct E as (b & E0 & E).
    destruct (rank b <=? d)%nat; [exact (with_object_good _ _ _ _ _ G _ _ _ I E)|].
    apply bind_inv in E; destruct E as ([p st1] & E1 & E).
    assert (Q : quiet st st1).
    { destruct (base b); [|injection E1 as <- <-; apply quiet_refl].
      apply bind_inv in E1; destruct E1 as ([v s1] & E2 & E1). injection E1 as <- <-. exact (ev_quiet _ _ _ _ D E2). }
    eapply after_quiet; [exact Q|]. eapply with_object_good; [exact G|exact (quiet_inv _ _ Q I)|exact E].
  Qed.
  Lemma transpose_good A q s src p f : good A q f -> good A q (exec_transpose X s src p f).
  Proof.
    intros G st z st' I E. unfold exec_transpose in E. cbv zeta in E.
    apply bind_inv in E; destruct E as (b & E0 & E).
    destruct ((s =? src)%nat && is_truncate p); [|exact (with_object_good _ _ _ _ _ G _ _ _ I E)].
    apply lookup_buffer_inv in E0.
    destruct (rank b <? length p)%nat; [discriminate|].
    apply bind_inv in E; destruct E as ([w st2] & E2 & E).
    pose proof (quiet_changed _ _ (s_ctx X st src) (Buf (base b) (elem_size b) (firstn (length p) (dims b))) (quiet_refl st)) as C.
    destruct (in_place_good _ _ _ _ _ _ _ _ _ _ I E0 C G E2) as (B2 & S).
    rewrite B2 in E. cbn [base elem_size dims] in E. rewrite firstn_skipn, buf_eta in E. injection E as <- <-. exact S.
  Qed.
  Lemma make_good A q s p e ds f : lets_distinct p -> lets_distinct e -> Forall distinct_dim ds -> good A q f -> good A q (exec_make X H s p e ds f).
  Proof.
    intros D1 D2 D3 G st z st' I E. unfold exec_make in E. cbv zeta in E.
    apply bind_inv in E; destruct E as ([es st1] & E1 & E). apply bind_inv in E; destruct E as ([pv st2] & E2 & E).
    apply bind_inv in E; destruct E as ([dl st3] & E3 & E).
    pose proof (quiet_trans _ _ _ (ev_def_quiet _ _ _ _ _ D2 E1)
      (quiet_trans _ _ _ (ev_def_quiet _ _ _ _ _ D1 E2) (ev_dims_quiet _ _ _ _ _ D3 E3))) as Q.
    eapply after_quiet; [exact Q|]. destruct (validate_buffer _).
    - eapply with_object_good; [exact G|exact (quiet_inv _ _ Q I)|exact E].
    - injection E as <- <-. split; try reflexivity. exists [EvFailed s]. split; [reflexivity|].
      split; [apply outcome_fail; [reflexivity|discriminate]|].
      cbn [s_alloc log]. intros r n. split; [reflexivity|]. intros pre post Ep.
      destruct pre as [|? [|? ?]]; cbn [app] in Ep; try discriminate; [unfold frees, count; cbn; lia|].
      injection Ep as <- <-. unfold frees, count; cbn; lia.
  Qed.

  (** ** Allocation *)
  Lemma bal_one l e l' : (forall p, p <> 0 -> (allocs p [e] + live l p = frees p [e] + live l' p)%nat) -> balanced l [e] l'.
  Proof.
    intros E p n. specialize (E p n). split; [exact E|]. intros pre post Ep.
    destruct pre as [|x pre]; [unfold frees, count; cbn [filter length]; lia|].
    injection Ep as <- Ep. destruct pre; [|discriminate]. lia.
  Qed.
  Lemma live_cons a q l p : live ((a, q) :: l) p = (live l p + (if (q =? p)%Z then 1 else 0))%nat.
  Proof. unfold live. cbn [filter snd]. destruct (q =? p); cbn [length]; lia. Qed.
  Lemma bal_other l e : alloc_of e = None -> free_of e = None -> balanced l [e] l.
  Proof. intros E1 E2. apply bal_one. intros p n. unfold allocs, frees, count. cbn [filter]. rewrite E1, E2. reflexivity. Qed.
  Lemma bal_alloc l s p a : balanced l [EvAlloc s p] ((a, p) :: l).
  Proof. apply bal_one. intros r n. rewrite live_cons. unfold allocs, frees, count. cbn [filter alloc_of free_of]. destruct (p =? r); cbn [length]; lia. Qed.
  Lemma bal_free l s p a : balanced ((a, p) :: l) [EvFree s p] l.
  Proof. apply bal_one. intros r n. rewrite live_cons. unfold allocs, frees, count. cbn [filter alloc_of free_of]. destruct (p =? r); cbn [length]; lia. Qed.
  Lemma bal_null l a : balanced ((a, 0) :: l) [] l.
  Proof.
    intros r n. rewrite live_cons. destruct (Z.eqb_spec 0 r) as [<-|_]; [congruence|]. unfold allocs, frees, count. cbn [filter length].
    split; [lia|]. intros pre post E. destruct pre; [|discriminate]. cbn [filter length]. lia.
  Qed.
  Lemma bal_null' l a : balanced l [] ((a, 0) :: l).
  Proof.
    intros r n. rewrite live_cons. destruct (Z.eqb_spec 0 r) as [<-|_]; [congruence|]. unfold allocs, frees, count. cbn [filter length].
    split; [lia|]. intros pre post E. destruct pre; [|discriminate]. cbn [filter length]. lia.
  Qed.
  Lemma bal_clear s a : forall l p, lookup_alloc l a = Some p -> balanced l [EvFree s p] (clear_alloc l a).
  Proof.
    intros l p E. apply bal_one. intros r n. unfold allocs, frees, count. cbn [filter alloc_of free_of].
    revert E. induction l as [|[k q] l IH]; cbn [lookup_alloc clear_alloc]; intro E; [discriminate|].
    destruct (k =? a).
    - injection E as ->. rewrite !live_cons. destruct (Z.eqb_spec 0 r) as [<-|_]; [congruence|]. destruct (p =? r); cbn [length]; lia.
    - rewrite !live_cons. specialize (IH E). lia.
  Qed.
  Lemma clear_kept a l : table_kept l (clear_alloc l a).
  Proof.
    induction l as [|[k q] l IH]; cbn [clear_alloc]; [constructor|].
    destruct (k =? a); constructor; try (split; [reflexivity|]).
    - right; reflexivity.
    - apply table_refl.
    - left; reflexivity.
    - exact IH.
  Qed.

  (** what an allocate does once it knows its buffer and its block *)
  Definition allocate_rest (sym : nat) (body : exec_t) (b' : buf) (p : Z) (st3 : state) : res (Z * state) :=
    if alloc_fails b' then
      let st4 := log X st3 (EvFailed sym) in
      Val (-1, if p =? 0 then st4 else free_buffer X H sym b' p st4)
    else
      let a := s_next X st3 in
      r <- with_value X sym a body (set_alloc X (set_next X (set_buf X st3 a (Some b')) (a + 1)) ((a, p) :: s_alloc X st3)) ;;
      let '(z, st4) := r in
      match s_buf X st4 a, lookup_alloc (s_alloc X st4) a with
      | Some b4, Some p4 =>
          let st5 := if p4 =? 0 then st4 else free_buffer X H sym b4 p4 st4 in
          Val (z, set_alloc X (set_buf X st5 a None) (remove_alloc (s_alloc X st5) a))
      | _, _ => UB
      end.
  (** the state after the block was obtained *)
  Definition obtained (sym : nat) (p : Z) (st st3 : state) : Prop :=
    s_ctx X st3 = s_ctx X st /\ s_buf X st3 = s_buf X st /\ s_next X st3 = s_next X st /\ s_alloc X st3 = s_alloc X st /\
    ((p = 0 /\ s_log X st3 = s_log X st) \/ s_log X st3 = s_log X st ++ [EvAlloc sym p]).
  Lemma allocate_rest_good A q sym f b p st st3 z st' : inv st -> obtained sym p st st3 -> (snd q = true -> p = 0 /\ st3 = st) -> good A q f ->
    allocate_rest sym f b p st3 = Val (z, st') -> step A q st z st'.
  Proof.
    intros I (Oc & Ob & On & Oa & Ol) Os G E. unfold allocate_rest in E. cbv zeta in E.
    assert (L : exists pre, s_log X st3 = s_log X st ++ pre /\ Forall succeeds pre /\ (snd q = true -> Forall not_alloc pre) /\ balanced (s_alloc X st) pre ((s_next X st3, p) :: s_alloc X st)).
    { destruct Ol as [[-> Ol]|Ol].
      - exists []. rewrite app_nil_r. split; [exact Ol|]. split; [constructor|]. split; [constructor|apply bal_null'].
      - exists [EvAlloc sym p]. split; [exact Ol|]. split; [constructor; [reflexivity|constructor]|]. split; [|apply bal_alloc].
        intro Q. destruct (Os Q) as [_ ->]. apply (f_equal (@length event)) in Ol. rewrite app_length in Ol. cbn [length] in Ol. lia. }
    destruct L as (pre & L1 & L2 & L4 & L3).
    destruct (alloc_fails b).
    - injection E as <- <-. split.
      + intros x _. destruct (p =? 0); cbn; rewrite Oc; reflexivity.
      + intro x. destruct (p =? 0); cbn; rewrite Ob; reflexivity.
      + destruct (p =? 0); cbn; lia.
      + destruct (p =? 0); cbn; rewrite Oa; reflexivity.
      + destruct (Z.eqb_spec p 0) as [->|n].
        * exists (pre ++ [EvFailed sym]). cbn [s_log log s_alloc]. rewrite L1, app_assoc. split; [reflexivity|]. split.
          { apply outcome_seq; [exact (outcome_ok _ _ L2 L4)|]. apply outcome_fail; [reflexivity|discriminate]. }
          { rewrite Oa. eapply balanced_trans; [exact L3|].
            change [EvFailed sym] with ([EvFailed sym] ++ []). eapply balanced_trans; [apply bal_other; reflexivity|apply bal_null]. }
        * exists ((pre ++ [EvFailed sym]) ++ [EvFree sym p]). unfold free_buffer. cbn [s_log log s_alloc set_ext]. rewrite L1, !app_assoc. split; [reflexivity|]. split.
          { apply outcome_frees; [|constructor; [exact Logic.I|constructor]].
            apply outcome_seq; [exact (outcome_ok _ _ L2 L4)|]. apply outcome_fail; [reflexivity|discriminate]. }
          { rewrite Oa. eapply balanced_trans; [|apply bal_free].
            eapply balanced_trans; [exact L3|]. apply bal_other; reflexivity. }
    - set (a := s_next X st3) in *.
      apply bind_inv in E; destruct E as ([w st4] & E1 & E).
      assert (I3 : inv (set_alloc X (set_next X (set_buf X st3 a (Some b)) (a + 1)) ((a, p) :: s_alloc X st3))).
      { destruct I as [I1 I2]. unfold a. split; cbn [s_next s_buf s_alloc set_alloc set_next set_buf].
        - intros x Lx. destruct (Z.eqb_spec x (s_next X st3)); [lia|]. rewrite Ob. apply I1. lia.
        - constructor; [cbn [fst]; lia|]. rewrite Oa. eapply Forall_impl; [|exact I2]. cbn. intros; lia. }
      pose proof (with_value_good A q sym a f G _ _ _ I3 E1) as [K1 K2 K3 K4 (evs & M1 & M2 & M3)].
      cbn [s_ctx s_buf s_next s_alloc s_log set_alloc set_next set_buf map fst] in *.
      pose proof (K2 a) as Ka. rewrite Z.eqb_refl in Ka. rewrite Ka in E.
      destruct (s_alloc X st4) as [|[a4 p4] l4] eqn:Ea; [inversion K4|]. inversion K4 as [|? ? ? ? [Ka4 Kp4] K4']; subst. cbn [fst] in Ka4. subst a4. clear K4. rename K4' into K4.
      cbn [lookup_alloc] in E. rewrite Z.eqb_refl in E. injection E as <- <-.
      rewrite L1 in M1. rewrite Oa in K4, M3. fold (table_kept (s_alloc X st) l4) in K4.
      split.
      + intros x N. transitivity (s_ctx X st4 x); [destruct (p4 =? 0); reflexivity|]. rewrite (K1 x N), Oc. reflexivity.
      + intro x. cbn [s_buf set_alloc set_buf]. destruct (Z.eqb_spec x a) as [->|n].
        * symmetry. apply (proj1 I). unfold a. lia.
        * transitivity (s_buf X st4 x); [destruct (p4 =? 0); reflexivity|]. rewrite K2. apply Z.eqb_neq in n. rewrite n, Ob. reflexivity.
      + transitivity (s_next X st4); [unfold a in K3; lia|]. destruct (p4 =? 0); cbn; lia.
      + cbn [s_alloc set_alloc]. destruct (p4 =? 0); unfold free_buffer; cbn [s_alloc log set_ext]; rewrite Ea; cbn [remove_alloc]; rewrite Z.eqb_refl; exact K4.
      + cbn [s_alloc set_alloc set_buf s_log].
        destruct (Z.eqb_spec p4 0) as [->|n]; unfold free_buffer; cbn [s_alloc log set_ext s_log]; rewrite Ea; cbn [remove_alloc]; rewrite Z.eqb_refl, M1.
        * exists (pre ++ evs). split; [rewrite app_assoc; reflexivity|].
          split; [exact (outcome_seq _ _ _ _ (outcome_ok _ _ L2 L4) M2)|].
          rewrite <- (app_nil_r (pre ++ evs)). eapply balanced_trans; [|apply (bal_null l4 a)].
          eapply balanced_trans; [exact L3|exact M3].
        * exists ((pre ++ evs) ++ [EvFree sym p4]). split; [rewrite !app_assoc; reflexivity|].
          split; [apply outcome_frees; [exact (outcome_seq _ _ _ _ (outcome_ok _ _ L2 L4) M2)|constructor; [exact Logic.I|constructor]]|].
          eapply balanced_trans; [|apply (bal_free l4 sym p4 a)].
          eapply balanced_trans; [exact L3|exact M3].
  Qed.
  Lemma heap_obtained sym b st b' p st3 : heap_allocate X H sym b st = (b', p, st3) -> obtained sym p st st3.
  Proof.
    unfold heap_allocate. destruct (h_allocate X H sym b (s_ext X st)) as [[b1 p1] x]. intro E. injection E as <- <- <-.
    split; [reflexivity|]. split; [reflexivity|]. split; [reflexivity|]. split; [reflexivity|]. right. reflexivity.
  Qed.
  (** the shape of an allocate *)
  Lemma allocate_inv sym w e ds f st z st' : lets_distinct e -> Forall distinct_dim ds ->
    exec_allocate X H sym w e ds f st = Val (z, st') ->
    exists st2, quiet st st2 /\
      ((z = -1 /\ st' = log X st2 (EvFailed sym)) \/
       exists b p st3, obtained sym p st2 st3 /\ (w = stack -> p = 0 /\ st3 = st2) /\
         (w = heap -> s_log X st3 = s_log X st2 ++ [EvAlloc sym p]) /\ allocate_rest sym f b p st3 = Val (z, st')).
  Proof.
    intros D1 D2 E. unfold exec_allocate in E.
    apply bind_inv in E; destruct E as ([es st1] & E1 & E). apply bind_inv in E; destruct E as ([dl st2] & E2 & E). cbv zeta in E.
    exists st2. split; [exact (quiet_trans _ _ _ (ev_quiet _ _ _ _ D1 E1) (ev_dims_quiet _ _ _ _ _ D2 E2))|].
    apply bind_inv in E; destruct E as (r & E3 & E).
    assert (Ob : obtained sym 0 st2 st2).
    { split; [reflexivity|]. split; [reflexivity|]. split; [reflexivity|]. split; [reflexivity|]. left. split; reflexivity. }
    assert (Hh : forall b b' p st3, heap_allocate X H sym b st2 = (b', p, st3) -> s_log X st3 = s_log X st2 ++ [EvAlloc sym p]).
    { intros b b' p st3 E'. unfold heap_allocate in E'. destruct (h_allocate X H sym b (s_ext X st2)) as [[b1 p1] x]. injection E' as <- <- <-. reflexivity. }
    destruct r as [[[b p] st3]|].
    - right. exists b, p, st3.
      assert (C : obtained sym p st2 st3 /\ (w = stack -> p = 0 /\ st3 = st2) /\ (w = heap -> s_log X st3 = s_log X st2 ++ [EvAlloc sym p])).
      { destruct w.
        - apply bind_inv in E3; destruct E3 as ([b' [n|]] & E4 & E3); [|discriminate].
          destruct (n <=? h_auto_stack_threshold X H).
          + injection E3 as <- <- <-. split; [exact Ob|]. split; discriminate.
          + injection E3 as E3. split; [exact (heap_obtained _ _ _ _ _ _ E3)|]. split; discriminate.
        - apply bind_inv in E3; destruct E3 as ([b' [n|]] & E4 & E3); [|discriminate].
          injection E3 as <- <- <-. split; [exact Ob|]. split; [split; reflexivity|discriminate].
        - injection E3 as E3. split; [exact (heap_obtained _ _ _ _ _ _ E3)|]. split; [discriminate|intros _; exact (Hh _ _ _ _ E3)]. }
      destruct C as (C1 & C2 & C3). split; [exact C1|]. split; [exact C2|]. split; [exact C3|]. exact E.
    - left. injection E as <- <-. split; reflexivity.
  Qed.
  Lemma allocate_good A q sym w e ds f : lets_distinct e -> Forall distinct_dim ds -> (snd q = true -> w = stack) -> good A q f -> good A q (exec_allocate X H sym w e ds f).
  Proof.
    intros D1 D2 W G st z st' I E. destruct (allocate_inv _ _ _ _ _ _ _ _ D1 D2 E) as (st2 & Q & [[-> ->]|(b & p & st3 & O & Os & _ & R)]).
    - eapply after_quiet; [exact Q|]. split; try reflexivity. exists [EvFailed sym]. split; [reflexivity|].
      split; [apply outcome_fail; [reflexivity|discriminate]|]. apply bal_other; reflexivity.
    - eapply after_quiet; [exact Q|]. eapply allocate_rest_good; [exact (quiet_inv _ _ Q I)|exact O|intro V; exact (Os (W V))|exact G|exact R].
  Qed.

  Lemma check_good A q c : lets_distinct c -> good A q (exec_check X H c).
  Proof.
    intros D st z st' I E.
    assert (N : forall r, r = ev X H st c -> (r0 <- r ;; (let '(v, st1) := r0 in if v =? 0 then Val (1, log X st1 EvCheckFailed) else Val (0, st1))) = Val (z, st') -> step A q st z st').
    { intros r -> E'. apply bind_inv in E'; destruct E' as ([v st1] & E1 & E').
      pose proof (ev_quiet _ _ _ _ D E1) as Q. eapply after_quiet; [exact Q|].
      destruct (v =? 0); injection E' as <- <-; [|apply step_refl].
      split; try reflexivity. exists [EvCheckFailed]. split; [reflexivity|].
      split; [apply outcome_fail; [reflexivity|discriminate]|apply bal_other; reflexivity]. }
    unfold exec_check in E.
    destruct c as [| | | | | |fn t l|]; try exact (N _ eq_refl E).
    destruct fn; try exact (N _ eq_refl E).
    destruct l as [|x [|? ?]]; try exact (N _ eq_refl E);
      destruct x as [|s f d| | | | | |]; try exact (N _ eq_refl E); destruct f; try exact (N _ eq_refl E).
    cbv zeta in E. destruct (s_buf X st (s_ctx X st s)) as [b|]; [|discriminate].
    destruct (lookup_alloc (s_alloc X st) (s_ctx X st s)) as [p|] eqn:L; [|discriminate]. injection E as <- <-.
    split; try reflexivity.
    - cbn [s_alloc set_alloc]. unfold free_buffer. cbn [s_alloc log set_ext]. apply clear_kept.
    - exists [EvFree s p]. split; [reflexivity|]. split; [apply outcome_ok; [constructor; [reflexivity|constructor]|intros _; constructor; [reflexivity|constructor]]|].
      cbn [s_alloc set_alloc]. unfold free_buffer. cbn [s_alloc log set_ext]. apply bal_clear. exact L.
  Qed.

  Definition inner (s : stmt) : exec_t := match s with SLet _ b true => exec X H b | _ => exec X H s end.
  Lemma exec_block l st : exec X H (SBlock l) st = go_block l st.
  Proof. reflexivity. Qed.
  (** how a loop runs *)
  Lemma loop_inv sym w bounds step_ body st z st' :
    lets_distinct w -> distinct_interval bounds -> lets_distinct step_ ->
    exec X H (SLoop sym w bounds step_ body) st = Val (z, st') ->
    exists k lo hi stp st0 st1 st2, ev X H st w = Val (k, st0) /\ ev_interval X H st0 bounds = Val (lo, hi, st1) /\
      ev_def X H st1 step_ 1 = Val (stp, st2) /\ quiet st st2 /\ stp <> 0 /\
      ((k <= 1 /\ exists st3, serial_loop X sym (exec X H body) lo hi stp (Z.to_nat (hi - lo + 1)) lo (set_ctx X st2 (ctx_set (s_ctx X st2) sym 0)) = Val (z, st3) /\
          st' = set_ctx X st3 (ctx_set (s_ctx X st3) sym (s_ctx X st2 sym))) \/
       (1 < k /\ exists n, par_count lo hi stp = Val n /\
          ((n = 0 /\ z = 0 /\ st' = st2) \/
           (n = 1 /\ with_value X sym lo (exec X H body) st2 = Val (z, st')) \/
           (n <> 0 /\ n <> 1 /\ exists st3,
              par_loop X H sym (inner body) (s_ctx X st2) (as_closure body) lo stp (h_schedule X H n k (s_ext X st2)) (fun _ => None) 0 st2 = Val (z, st3) /\
              st' = set_ctx X st3 (s_ctx X st2))))).
  Proof.
    intros D1 D2 D3 E. cbn [exec] in E.
    apply bind_inv in E; destruct E as ([k st0] & E0 & E). apply bind_inv in E; destruct E as ([[lo hi] st1] & E1 & E).
    apply bind_inv in E; destruct E as ([stp st2] & E2 & E).
    exists k, lo, hi, stp, st0, st1, st2. split; [exact E0|]. split; [exact E1|]. split; [exact E2|].
    split; [exact (quiet_trans _ _ _ (ev_quiet _ _ _ _ D1 E0) (quiet_trans _ _ _ (ev_interval_quiet _ _ _ _ _ D2 E1) (ev_def_quiet _ _ _ _ _ D3 E2)))|].
    destruct (Z.eqb_spec stp 0) as [|n0]; [discriminate|]. split; [exact n0|].
    destruct (Z.ltb_spec 1 k) as [L|L].
    - right. split; [exact L|]. apply bind_inv in E; destruct E as (n & E3 & E). exists n. split; [exact E3|].
      destruct (Z.eqb_spec n 0) as [->|n1]; [injection E as <- <-; left; split; [reflexivity|split; reflexivity]|].
      destruct (Z.eqb_spec n 1) as [->|n2]; [right; left; split; [reflexivity|exact E]|].
      destruct (h_pool X H); [|discriminate].
      apply bind_inv in E; destruct E as ([z3 st3] & E4 & E). injection E as <- <-.
      right; right. split; [exact n1|]. split; [exact n2|]. exists st3. split; [|reflexivity].
      rewrite <- E4. unfold inner. destruct body as [| | |? ? []| | | | | | | | | | | | |]; reflexivity.
    - left. split; [lia|]. apply bind_inv in E; destruct E as ([z3 st3] & E4 & E). injection E as <- <-.
      exists st3. split; [exact E4|reflexivity].
  Qed.

  Definition run_set (sym : option nat) (st : state) (v : Z) : state :=
    match sym with Some s => set_ctx X st (ctx_set (s_ctx X st) s v) | None => st end.
  Lemma exec_async sym task body st : exec X H (SAsync sym task body) st =
    (if h_pool X H then
       if h_task_first X H (s_ext X st) then
         r <- with_new_context X H (as_closure task) (inner task) st ;; let '(t, st1) := r in
         r <- with_new_context X H (as_closure body) (inner body) (run_set sym st1 (h_task_handle X H (s_ext X st))) ;; let '(z, st2) := r in
         Val (if t =? 0 then z else t, run_set sym st2 0)
       else
         r <- with_new_context X H (as_closure body) (inner body) (run_set sym st (h_task_handle X H (s_ext X st))) ;; let '(z, st1) := r in
         r <- with_new_context X H (as_closure task) (inner task) (run_set sym st1 0) ;; let '(t, st2) := r in
         Val (if t =? 0 then z else t, st2)
     else
       r <- with_new_context X H (as_closure task) (inner task) st ;; let '(t, st1) := r in
       r <- with_new_context X H (as_closure body) (inner body) (run_set sym st1 0) ;; let '(z, st2) := r in
       Val (if t =? 0 then z else t, run_set sym st2 0)).
  Proof.
    cbn [exec]. unfold inner, run_set.
    destruct task as [| | |? ? []| | | | | | | | | | | | |]; destruct body as [| | |? ? []| | | | | | | | | | | | |]; reflexivity.
  Qed.
  (** two steps, whatever their results *)
  Lemma step_both A q st z1 st1 z2 st2 : step A (false, q) st z1 st1 -> step A (false, q) st1 z2 st2 ->
    step A (false, q) st (if z1 =? 0 then z2 else z1) st2 /\ step A (false, q) st (if z2 =? 0 then z1 else z2) st2.
  Proof.
    intros [K1 K2 K3 K4 (e1 & L1 & (O1 & _ & P1) & B1)] [M1 M2 M3 M4 (e2 & L2 & (O2 & _ & P2) & B2)].
    assert (C1 : forall x, ~ In x A -> s_ctx X st2 x = s_ctx X st x) by (intros x N; rewrite (M1 x N); exact (K1 x N)).
    assert (C2 : forall a, s_buf X st2 a = s_buf X st a) by (intro a; rewrite M2; exact (K2 a)).
    assert (C3 : s_next X st <= s_next X st2) by lia.
    pose proof (table_trans _ _ _ K4 M4) as C4.
    split; (split; [exact C1|exact C2|exact C3|exact C4|]; exists (e1 ++ e2); rewrite L2, L1, app_assoc; split; [reflexivity|];
      split; [split; [|split; [discriminate|intro Q; apply Forall_app; exact (conj (P1 Q) (P2 Q))]]|exact (balanced_trans _ _ _ _ _ B1 B2)]).
    - exact (reports_both _ _ _ _ O1 O2).
    - exact (reports_both' _ _ _ _ O1 O2).
  Qed.
  Definition sym_list (sym : option nat) : list nat := match sym with Some x => [x] | None => [] end.
  Lemma run_set_step q sym st v : step (sym_list sym) q st 0 (run_set sym st v).
  Proof.
    destruct sym as [s|]; [|apply step_refl]. cbn [sym_list run_set].
    split; try reflexivity.
    - intros x N. cbn [s_ctx set_ctx]. unfold ctx_set. destruct (Nat.eqb_spec x s); [subst; exfalso; apply N; left; reflexivity|reflexivity].
    - exists []. cbn [s_log set_ctx s_alloc]. rewrite app_nil_r. split; [reflexivity|]. split; [apply outcome_nil|apply balanced_refl].
  Qed.
  Lemma step_then A q z st st1 st2 : step A (false, q) st z st1 -> step A (false, q) st1 0 st2 -> step A (false, q) st z st2.
  Proof.
    intros S1 S2. destruct (step_both _ _ _ _ _ _ _ S1 S2) as [_ S]. exact S.
  Qed.

  Lemma distinct_go l : (fix go (l : list stmt) := match l with [] => True | x :: l' => distinct x /\ go l' end) l -> Forall distinct l.
  Proof. induction l as [|x l IH]; [constructor|]. intros [D1 D2]. constructor; [exact D1|exact (IH D2)]. Qed.

  Definition flags (s : stmt) : bool * bool := (sequential s, stack_only s).
  Lemma exec_good s : distinct s -> good (async_syms s) (flags s) (exec X H s) /\ good (async_syms s) (flags s) (inner s).
  Proof.
    assert (J : forall s, good (async_syms s) (flags s) (exec X H s) -> inner s = exec X H s ->
      good (async_syms s) (flags s) (exec X H s) /\ good (async_syms s) (flags s) (inner s)).
    { intros s0 G E. rewrite E. exact (conj G G). }
    induction s as [|t ins outs sc|src sx dst dx pad|l s c IHs|l IHl|s w x st b IHs|s w e ds b IHs|s p e ds b IHs|s v b IHs|s v b IHs
      |s v l b IHs|s v d x b IHs|s v l b IHs|s v d x b IHs|s v p b IHs|s s1 s2 IHs1 IHs2|c] using stmt_ind'; intro D.
    - apply J; [|reflexivity]. intros st z st' I E. discriminate.
    - apply J; [|reflexivity]. intros st z st' I E. cbn [exec] in E.
      destruct (h_call X H t ins outs sc (s_ctx X st) (s_buf X st) (s_ext X st)) as [r x]. injection E as <- <-.
      split; try reflexivity. exists [EvCall t r]. split; [reflexivity|]. split; [|apply bal_other; reflexivity].
      destruct (Z.eqb_spec r 0) as [->|n].
      + apply outcome_ok; [constructor; [reflexivity|constructor]|]. intros _. constructor; [reflexivity|constructor].
      + apply outcome_fail; [|exact n]. cbn [fails]. apply Z.eqb_neq in n. rewrite n. reflexivity.
    - apply J; [|reflexivity]. intros st z st' I E. discriminate.
    - destruct D as (D1 & D2 & D3). destruct (IHs D3) as [G _].
      assert (G' : good (async_syms s) (flags s) (exec X H (SLet l s c))) by exact (with_lets_good _ _ _ _ D1 D2 G).
      split; [exact G'|]. unfold inner. destruct c; [exact G|exact G'].
    - apply J; [|reflexivity]. cbn [distinct] in D. apply distinct_go in D.
      intros st z st' I E. rewrite exec_block in E. apply go_block_runs in E.
      eapply runs_good; [|exact I|exact E]. clear E I. apply Forall_map.
      induction l as [|x l IHl']; [constructor|].
      inversion D as [|? ? D1 D2]; subst. inversion IHl as [|? ? P1 P2]; subst. constructor.
      + eapply good_weaken; [| | |exact (proj1 (P1 D1))].
        * cbn [async_syms]. apply incl_appl. apply incl_refl.
        * cbn [flags fst sequential]. intro Q. apply andb_prop in Q. tauto.
        * cbn [flags snd stack_only]. intro Q. apply andb_prop in Q. tauto.
      + eapply Forall_impl; [|exact (IHl' P2 D2)]. intros y G. eapply good_weaken; [| | |exact G].
        * cbn [async_syms]. apply incl_appr. apply incl_refl.
        * cbn [flags fst sequential]. intro Q. apply andb_prop in Q. tauto.
        * cbn [flags snd stack_only]. intro Q. apply andb_prop in Q. tauto.
    - apply J; [|reflexivity]. destruct D as (D1 & D2 & D3 & D4). destruct (IHs D4) as [G GI].
      intros st' z st'' I E. destruct (loop_inv _ _ _ _ _ _ _ _ D1 D2 D3 E) as (k & lo & hi & stp & st0 & st1 & st2 & E0 & E1 & E2 & Q & n0 & C).
      eapply after_quiet; [exact Q|]. apply (quiet_inv _ _ Q) in I.
      cbn [async_syms].
      destruct C as [(L & st3 & E3 & ->)|(L & n & E3 & C)].
      + pose proof (serial_good _ _ _ _ _ _ _ _ _ G _ _ _ (I : inv (set_ctx X st2 _)) E3) as S.
        eapply step_ctx; [eapply step_weaken; [apply incl_refl| | |exact S]|].
        * cbn [flags fst sequential]. intro W. apply andb_prop in W. tauto.
        * intro W. exact W.
        * intros y N. unfold ctx_set. destruct (Nat.eqb_spec y s) as [->|n]; [reflexivity|].
          rewrite (k_ctx _ _ _ _ _ S y) by (intros [->|J']; [congruence|exact (N J')]).
          cbn [s_ctx set_ctx]. unfold ctx_set. apply Nat.eqb_neq in n. rewrite n. reflexivity.
      + destruct C as [(-> & -> & ->)|[(-> & E4)|(n1 & n2 & st3 & E4 & ->)]].
        * apply step_refl.
        * eapply step_weaken; [apply incl_refl| | |exact (with_value_good _ _ _ _ _ G _ _ _ I E4)].
          { cbn [flags fst sequential]. intro W. apply andb_prop in W. tauto. }
          { intro W. exact W. }
        * destruct (par_good _ _ _ _ _ _ _ _ GI _ _ _ _ _ _ I E4) as (B1 & B2 & B3 & evs & r & B4 & B5 & B6 & B8 & B7).
          cbn [Z.eqb] in B4. subst r. split; cbn [s_ctx s_buf s_next s_alloc s_log set_ctx]; [reflexivity|exact B1|exact B2|exact B3|].
          exists evs. split; [exact B5|]. split; [|exact B7]. split; [exact B6|]. split; [|exact B8].
          cbn [flags fst sequential]. intro W. apply andb_prop in W. destruct W as [W _]. exfalso.
          destruct w; try discriminate. cbn [serial_workers] in W. apply Z.leb_le in W.
          unfold ev in E0. cbn [eval bind] in E0. injection E0 as <- _. lia.
    - apply J; [|reflexivity]. destruct D as (D1 & D2 & D3). destruct (IHs D3) as [G _].
      apply (allocate_good _ _ _ _ _ _ _ D1 D2).
      + cbn [flags snd stack_only]. destruct w; [discriminate|reflexivity|discriminate].
      + eapply good_weaken; [apply incl_refl| | |exact G]; [intro Q; exact Q|]. cbn [flags snd stack_only]. destruct w; [discriminate|intro Q; exact Q|discriminate].
    - apply J; [|reflexivity]. destruct D as (D1 & D2 & D3 & D4). destruct (IHs D4) as [G _].
      exact (make_good _ _ _ _ _ _ _ D1 D2 D3 G).
    - apply J; [|reflexivity]. exact (with_value_good _ _ _ _ _ (proj1 (IHs D))).
    - apply J; [|reflexivity]. intros st z st' I E. cbn [exec] in E.
      apply bind_inv in E; destruct E as (b0 & E0 & E). exact (with_object_good _ _ _ _ _ (proj1 (IHs D)) _ _ _ I E).
    - apply J; [|reflexivity]. destruct D as [D1 D2]. destruct (IHs D2) as [G _]. intros st z st' I E. cbn [exec] in E.
      destruct (s =? v)%nat; [exact (crop_shadowed_good _ _ _ _ _ D1 G _ _ _ I E)|exact (crop_unshadowed_good _ _ _ _ _ _ D1 G _ _ _ I E)].
    - apply J; [|reflexivity]. destruct D as [D1 D2]. destruct (IHs D2) as [G _]. intros st z st' I E. cbn [exec] in E.
      destruct (s =? v)%nat; [exact (crop_dim_shadowed_good _ _ _ _ _ _ D1 G _ _ _ I E)|exact (crop_dim_unshadowed_good _ _ _ _ _ _ _ D1 G _ _ _ I E)].
    - apply J; [|reflexivity]. destruct D as [D1 D2]. exact (slice_good _ _ _ _ _ _ D1 (proj1 (IHs D2))).
    - apply J; [|reflexivity]. destruct D as [D1 D2]. exact (slice_dim_good _ _ _ _ _ _ _ D1 (proj1 (IHs D2))).
    - apply J; [|reflexivity]. exact (transpose_good _ _ _ _ _ _ (proj1 (IHs D))).
    - apply J; [|reflexivity]. destruct D as [D1 D2]. destruct (IHs1 D1) as [_ G1], (IHs2 D2) as [_ G2].
      intros st z st' I E. rewrite exec_async in E. cbn [async_syms]. fold (sym_list s). unfold flags. cbn [sequential stack_only].
      set (A := sym_list s).
      assert (N1 : good A (false, stack_only s1 && stack_only s2) (with_new_context X H (as_closure s1) (inner s1))).
      { eapply good_weaken; [| | |exact (new_context_good _ _ _ _ G1)]; [intros ? []|discriminate|cbn [flags snd]; intro Q; apply andb_prop in Q; tauto]. }
      assert (N2 : good A (false, stack_only s1 && stack_only s2) (with_new_context X H (as_closure s2) (inner s2))).
      { eapply good_weaken; [| | |exact (new_context_good _ _ _ _ G2)]; [intros ? []|discriminate|cbn [flags snd]; intro Q; apply andb_prop in Q; tauto]. }
      clear G1 G2 IHs1 IHs2.
      destruct (h_pool X H).
      + destruct (h_task_first X H (s_ext X st)).
        * apply bind_inv in E; destruct E as ([t st1] & E1 & E). apply bind_inv in E; destruct E as ([w st2] & E2 & E). injection E as <- <-.
          pose proof (N1 _ _ _ I E1) as S1. pose proof (step_inv _ _ _ _ _ I S1) as I1.
          pose proof (run_set_step (false, stack_only s1 && stack_only s2) s st1 (h_task_handle X H (s_ext X st))) as S2. pose proof (step_inv _ _ _ _ _ I1 S2) as I2.
          pose proof (N2 _ _ _ I2 E2) as S3.
          eapply step_then; [|apply run_set_step]. exact (proj1 (step_both _ _ _ _ _ _ _ (step_then _ _ _ _ _ _ S1 S2) S3)).
        * apply bind_inv in E; destruct E as ([t st1] & E1 & E). apply bind_inv in E; destruct E as ([w st2] & E2 & E). injection E as <- <-.
          pose proof (run_set_step (false, stack_only s1 && stack_only s2) s st (h_task_handle X H (s_ext X st))) as S1. pose proof (step_inv _ _ _ _ _ I S1) as I1.
          pose proof (N2 _ _ _ I1 E1) as S2. pose proof (step_inv _ _ _ _ _ I1 S2) as I2.
          pose proof (run_set_step (false, stack_only s1 && stack_only s2) s st1 0) as S3. pose proof (step_inv _ _ _ _ _ I2 S3) as I3.
          pose proof (N1 _ _ _ I3 E2) as S4.
          exact (proj2 (step_both _ _ _ _ _ _ _ (step_then _ _ _ _ _ _ (step_trans _ _ _ _ _ _ S1 S2) S3) S4)).
      + apply bind_inv in E; destruct E as ([t st1] & E1 & E). apply bind_inv in E; destruct E as ([w st2] & E2 & E). injection E as <- <-.
        pose proof (N1 _ _ _ I E1) as S1. pose proof (step_inv _ _ _ _ _ I S1) as I1.
        pose proof (run_set_step (false, stack_only s1 && stack_only s2) s st1 0) as S2. pose proof (step_inv _ _ _ _ _ I1 S2) as I2.
        pose proof (N2 _ _ _ I2 E2) as S3.
        eapply step_then; [|apply run_set_step]. exact (proj1 (step_both _ _ _ _ _ _ _ (step_then _ _ _ _ _ _ S1 S2) S3)).
    - apply J; [|reflexivity]. exact (check_good _ _ _ D).
  Qed.
End Eval.
