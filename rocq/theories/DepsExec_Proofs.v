From Coq Require Import ZArith List Bool Lia.
From Verif Require Import Arith_Model Arith_Proofs Buf_Model Alloc_Model Expr_Model Expr_Spec Expr_Proofs Stmt_Model Stmt_Proofs
  Deps_Model Deps_Spec Deps_Proofs.
Import ListNotations.
Open Scope Z_scope.

(** ** Running a statement in two contexts that agree on its free symbols *)
Section Exec.
  Variable X : Type.
  Variable H : host X.
  Notation state := (state X).
  Notation set_ctx := (set_ctx X).
  Notation s_ctx := (s_ctx X).
  Notation s_buf := (s_buf X).

  Definition same {A} (D : nat -> Prop) (a b : res (A * state)) : Prop :=
    match a, b with
    | UB, UB => True
    | Val (v, s), Val (v', s') => v = v' /\ same_state D s s'
    | _, _ => False
    end.
  Definition pres {A} (D : nat -> Prop) (f : state -> res (A * state)) : Prop :=
    forall st st', same_state D st st' -> same D (f st) (f st').
  Lemma same_bind {A B} D (a b : res (A * state)) (f g : A * state -> res (B * state)) :
    same D a b -> (forall v st st', same_state D st st' -> same D (f (v, st)) (g (v, st'))) -> same D (bind a f) (bind b g).
  Proof. destruct a as [(v, c)|], b as [(v', c')|]; cbn [same bind]; try tauto. intros (-> & K) F. apply F, K. Qed.
  Lemma same_bind' {A B} D D' (a b : res (A * state)) (f g : A * state -> res (B * state)) :
    same D a b -> (forall v st st', same_state D st st' -> same D' (f (v, st)) (g (v, st'))) -> same D' (bind a f) (bind b g).
  Proof. destruct a as [(v, c)|], b as [(v', c')|]; cbn [same bind]; try tauto. intros (-> & K) F. apply F, K. Qed.
  Lemma same_pure {A B} D (a : res A) (f g : A -> res (B * state)) :
    (forall v, same D (f v) (g v)) -> same D (bind a f) (bind a g).
  Proof. intros F. destruct a; cbn [bind same]; [apply F|exact I]. Qed.
  Lemma same_val {A} D (v : A) st st' : same_state D st st' -> same D (Val (v, st)) (Val (v, st')).
  Proof. intros K. split; auto. Qed.

  Lemma st_refl D st : same_state (X := X) D st st.
  Proof. exists (s_ctx st). split; [destruct st; reflexivity|]. intros y _. reflexivity. Qed.
  Lemma st_weaken (D D' : nat -> Prop) st st' : same_state (X := X) D st st' -> (forall y, D' y -> D y) -> same_state D' st st'.
  Proof. intros (c & E & K) S. exists c. split; auto. intros y Hy. apply K, S, Hy. Qed.
  Lemma st_ctx D st st' c c' : same_state (X := X) D st st' -> forall D', agree D' c c' -> same_state D' (set_ctx st c) (set_ctx st' c').
  Proof. intros (d & -> & K) D' A. exists c'. split; [reflexivity|exact A]. Qed.
  Lemma st_buf D st st' a b : same_state (X := X) D st st' -> same_state D (set_buf X st a b) (set_buf X st' a b).
  Proof. intros (c & -> & K). exists c. split; [reflexivity|exact K]. Qed.
  Lemma st_next D st st' a : same_state (X := X) D st st' -> same_state D (set_next X st a) (set_next X st' a).
  Proof. intros (c & -> & K). exists c. split; [reflexivity|exact K]. Qed.
  Lemma st_alloc D st st' a : same_state (X := X) D st st' -> same_state D (set_alloc X st a) (set_alloc X st' a).
  Proof. intros (c & -> & K). exists c. split; [reflexivity|exact K]. Qed.
  Lemma st_ext D st st' a : same_state (X := X) D st st' -> same_state D (set_ext X st a) (set_ext X st' a).
  Proof. intros (c & -> & K). exists c. split; [reflexivity|exact K]. Qed.
  Lemma st_log D st st' a : same_state (X := X) D st st' -> same_state D (log X st a) (log X st' a).
  Proof. intros (c & -> & K). exists c. split; [reflexivity|exact K]. Qed.
  Lemma get_buf D st st' : same_state (X := X) D st st' -> s_buf st' = s_buf st.
  Proof. intros (c & -> & K). reflexivity. Qed.
  Lemma get_next D st st' : same_state (X := X) D st st' -> s_next X st' = s_next X st.
  Proof. intros (c & -> & K). reflexivity. Qed.
  Lemma get_alloc D st st' : same_state (X := X) D st st' -> s_alloc X st' = s_alloc X st.
  Proof. intros (c & -> & K). reflexivity. Qed.
  Lemma get_ext D st st' : same_state (X := X) D st st' -> s_ext X st' = s_ext X st.
  Proof. intros (c & -> & K). reflexivity. Qed.
  Lemma get_ctx D st st' : same_state (X := X) D st st' -> agree D (s_ctx st) (s_ctx st').
  Proof. intros (c & -> & K). exact K. Qed.

  Lemma same_ext {A} (D D' : nat -> Prop) (a b : res (A * state)) : (forall y, D y <-> D' y) -> same D a b -> same D' a b.
  Proof.
    intros E. destruct a as [(v, c)|], b as [(v', c')|]; cbn [same]; try tauto. intros (-> & K). split; [reflexivity|].
    eapply st_weaken; [exact K|]. intros y. apply E.
  Qed.
  Lemma pres_ext {A} (D D' : nat -> Prop) (f : state -> res (A * state)) : (forall y, D y <-> D' y) -> pres D f -> pres D' f.
  Proof. intros E K st st' S1. apply (same_ext D D'); [exact E|]. apply K. eapply st_weaken; [exact S1|]. intros y. apply E. Qed.

  Definition D_expr (D : nat -> Prop) (e : expr) : Prop := forall y, free y e -> D y.
  Lemma ev_same D e : D_expr D e -> pres D (fun st => ev X H st e).
  Proof.
    intros F st st' K. pose proof (get_ctx _ _ _ K) as G. destruct K as (c' & -> & _). cbn [Stmt_Model.s_ctx Stmt_Model.set_ctx] in G.
    unfold ev. change (world_of X H (set_ctx st c')) with (world_of X H st). cbn [Stmt_Model.s_ctx Stmt_Model.set_ctx].
    pose proof (eval_rel (world_of X H st) e (fun y a a' => D y -> a = a') (s_ctx st) c') as E.
    specialize (E (fun y a _ => eq_refl)). assert (C : covers (world_of X H st) (fun y a a' => D y -> a = a') (fun y ro => occurs y ro e)).
    { intros y ro O a a' Ha. rewrite Ha by (apply F; exists ro; exact O). apply same_for_refl. }
    specialize (E C G). destruct (eval _ (s_ctx st) e) as [(v, d)|], (eval _ c' e) as [(v', d')|]; cbn [out_rel bind same] in *; try tauto.
    destruct E as (-> & E). split; [reflexivity|]. exists d'. split; [reflexivity|]. intros y Hy. exact (E y Hy).
  Qed.
  Lemma ev_def_same D e z : D_expr D e -> pres D (fun st => ev_def X H st e z).
  Proof. intros F st st' K. unfold ev_def. destruct (defined e); [apply ev_same; auto|apply same_val; auto]. Qed.
  Definition D_interval (D : nat -> Prop) (i : interval) : Prop := forall y, free_interval y i -> D y.
  Lemma ev_interval_same D i : D_interval D i -> pres D (fun st => ev_interval X H st i).
  Proof.
    intros F st st' K. unfold ev_interval. apply same_bind; [apply ev_same; auto; intros y Hy; apply F; left; auto|]. intros lo s1 s1' K1.
    apply same_bind; [apply ev_same; auto; intros y Hy; apply F; right; auto|]. intros hi s2 s2' K2. apply same_val, K2.
  Qed.
  Lemma ev_interval_def_same D i a b : D_interval D i -> pres D (fun st => ev_interval_def X H st i a b).
  Proof.
    intros F st st' K. unfold ev_interval_def. apply same_bind; [apply ev_def_same; auto; intros y Hy; apply F; left; auto|]. intros lo s1 s1' K1.
    apply same_bind; [apply ev_def_same; auto; intros y Hy; apply F; right; auto|]. intros hi s2 s2' K2. apply same_val, K2.
  Qed.
  Lemma ev_dims_same (D : nat -> Prop) auto l : (forall y, Exists (free_dim y) l -> D y) -> pres D (ev_dims X H auto l).
  Proof.
    induction l as [|d l IH]; intros F st st' K; cbn [ev_dims]; [apply same_val, K|].
    apply same_bind; [apply IH; auto; intros y Hy; apply F; right; exact Hy|]. intros ds s1 s1' K1.
    apply same_bind; [apply (ev_interval_same D (de_bounds d)); auto; intros y Hy; apply F; left; left; exact Hy|]. intros (lo, hi) s2 s2' K2.
    assert (Fs : D_expr D (de_stride d)) by (intros y Hy; apply F; left; right; left; exact Hy).
    assert (Ff : D_expr D (de_fold d)) by (intros y Hy; apply F; left; right; right; exact Hy).
    apply same_bind; [destruct auto; [apply ev_def_same|apply ev_same]; auto|]. intros s s3 s3' K3.
    apply same_bind; [apply ev_def_same; auto|]. intros f s4 s4' K4. apply same_val, K4.
  Qed.

  Definition also (D : nat -> Prop) (s : nat) : nat -> Prop := fun y => y = s \/ D y.
  Lemma agree_set D c c' s v : agree D c c' -> agree (also D s) (ctx_set c s v) (ctx_set c' s v).
  Proof. intros K y Hy. unfold ctx_set. destruct (Nat.eqb_spec y s); [reflexivity|]. destruct Hy; [tauto|auto]. Qed.
  Lemma agree_restore D c c' s v v' : agree (also D s) c c' -> (D s -> v = v') -> agree D (ctx_set c s v) (ctx_set c' s v').
  Proof. intros K V y Hy. unfold ctx_set. destruct (Nat.eqb_spec y s); [subst; auto|]. apply K. right. exact Hy. Qed.
  Lemma with_value_same D s v body : pres (also D s) body -> pres (A := Z) D (with_value X s v body).
  Proof.
    intros B st st' K. unfold with_value. eapply same_bind'.
    - apply B. eapply st_ctx; [exact K|]. apply agree_set, get_ctx, K.
    - intros z s1 s1' K1. apply same_val. eapply st_ctx; [exact K1|]. apply agree_restore; [exact (get_ctx _ _ _ K1)|].
      intros Hs. apply (get_ctx _ _ _ K s Hs).
  Qed.
  Lemma with_object_same D s b body : pres (also D s) body -> pres (A := Z) D (with_object X s b body).
  Proof.
    intros B st st' K. unfold with_object. rewrite (get_next _ _ _ K). apply same_bind.
    - apply with_value_same; [exact B|]. apply st_next, st_buf, K.
    - intros z s1 s1' K1. apply same_val, st_buf, K1.
  Qed.

  (** lets *)
  Lemma ev_lets_same (l : list (nat * expr)) : forall (B D : nat -> Prop) st st',
    (forall y, in_lets (free y) y l (B y) -> D y) -> same_state (X := X) D st st' ->
    match ev_lets X H l st, ev_lets X H l st' with
    | UB, UB => True
    | Val (d, old), Val (d', old') => exists D' : nat -> Prop, (forall y, B y -> D' y) /\ same_state D' d d' /\
        (forall y, ~ In y (map fst old) -> D y -> D' y) /\ old_rel (fun y a a' => D y -> a = a') old old'
    | _, _ => False
    end.
  Proof.
    induction l as [|(s, x) l IH]; intros B D st st' F K; cbn [ev_lets in_lets] in *.
    { exists D. split; [exact F|]. split; [exact K|]. split; [auto|constructor]. }
    pose proof (ev_same D x ltac:(intros y Hy; apply F; auto) st st' K) as E.
    destruct (ev X H st x) as [(v, d)|], (ev X H st' x) as [(v', d')|]; cbn [same bind] in *; try tauto.
    destruct E as (-> & Kd).
    specialize (IH B (also D s) (set_ctx d (ctx_set (s_ctx d) s v')) (set_ctx d' (ctx_set (s_ctx d') s v'))).
    assert (F' : forall y, in_lets (free y) y l (B y) -> also D s y).
    { intros y Hy. destruct (Nat.eq_dec y s); [left; auto|right]. apply F. right. split; auto. }
    specialize (IH F' ltac:(eapply st_ctx; [exact Kd|]; apply agree_set, get_ctx, Kd)).
    destruct (ev_lets X H l (set_ctx d (ctx_set (s_ctx d) s v'))) as [(e, old)|],
      (ev_lets X H l (set_ctx d' (ctx_set (s_ctx d') s v'))) as [(e', old')|]; cbn [bind]; try tauto.
    destruct IH as (D' & B' & Ke & Sub & Old). exists D'. split; [exact B'|]. split; [exact Ke|]. split.
    - intros y N Hy. cbn in N. apply Sub; [tauto|right; exact Hy].
    - constructor; [split; [reflexivity|cbn; intros Hs; exact (get_ctx _ _ _ Kd s Hs)]|].
      clear -Old. induction Old as [|p q o o' (E & V) F IHF]; constructor; auto. split; auto. intros Hy. apply V. right. exact Hy.
  Qed.
  Lemma with_lets_same l (B D : nat -> Prop) body : (forall y, in_lets (free y) y l (B y) -> D y) ->
    (forall D' : nat -> Prop, (forall y, B y -> D' y) -> pres D' body) -> pres (A := Z) D (with_lets X H l body).
  Proof.
    intros F HB st st' K. unfold with_lets. pose proof (ev_lets_same l B D st st' F K) as L.
    destruct (ev_lets X H l st) as [(d, old)|], (ev_lets X H l st') as [(d', old')|]; cbn [bind same]; try tauto.
    destruct L as (D' & B' & Kd & Sub & Old). specialize (HB D' B' d d' Kd).
    eapply same_bind'; [exact HB|]. intros z e e' Ke. apply same_val. eapply st_ctx; [exact Ke|].
    pose proof (restore_rel (fun y a a' => D y -> a = a') old old' Old (s_ctx e) (s_ctx e')) as R.
    intros y Hy. apply R; auto. intros t Nt Ht. apply (get_ctx _ _ _ Ke). apply Sub; auto.
  Qed.

  (** closures *)
  Lemma init_closure_same (l : list (nat * expr)) ex : plain_closure l -> forall p p' c,
    (forall y, In y (map fst l) -> ex <> Some y -> p y = p' y) ->
    init_closure p ex l c = init_closure p' ex l c.
  Proof.
    induction 1 as [|(s, x) l (d & E) F IH]; intros p p' c K; cbn [init_closure]; [reflexivity|].
    cbn [fst snd] in E. subst x.
    assert (KK : forall y, In y (map fst l) -> ex <> Some y -> p y = p' y) by (intros; apply K; [right; assumption|assumption]).
    destruct ex as [e|].
    - destruct (Nat.eqb_spec s e) as [->|N]; [apply IH, KK|]. rewrite (K s); [apply IH, KK|left; reflexivity|congruence].
    - rewrite (K s); [apply IH, KK|left; reflexivity|discriminate].
  Qed.
  Definition same_ctx (D : nat -> Prop) (a b : res context) : Prop :=
    match a, b with UB, UB => True | Val c, Val c' => agree D c c' | _, _ => False end.
  Definition free_in_closure (l : list (nat * expr)) : forall y, In y (map fst l) -> plain_closure l -> forall B : Prop, in_lets (free y) y l B.
  Proof.
    induction l as [|(s, x) l IH]; intros y I P B; [destruct I|]. inversion P as [|? ? (d & E) P']; subst. cbn [fst snd map in_lets] in *. subst x.
    destruct (Nat.eq_dec s y) as [->|N]; [left; exists (RField f_none); cbn; auto|right; split; auto]. apply IH; auto. destruct I; tauto.
  Qed.

  (** what the context of a statement run in its own context must agree on *)
  Definition closure_stmt (s : stmt) : Prop := match s with SLet l _ true => plain_closure l | _ => True end.
  Definition inner (s : stmt) : state -> res (Z * state) := match s with SLet _ b true => exec X H b | _ => exec X H s end.
  Definition inner_D (s : stmt) (D : nat -> Prop) : nat -> Prop := match s with SLet _ _ true => fun _ => True | _ => D end.
  Lemma init_same (D : nat -> Prop) s ex p p' : closure_stmt s -> (forall y, free_stmt y s -> ex <> Some y -> D y) -> agree D p p' ->
    same_ctx (inner_D s D) (init_context X H p (as_closure s) ex) (init_context X H p' (as_closure s) ex).
  Proof.
    intros C F K. unfold init_context, as_closure, inner_D, closure_stmt in *.
    destruct s; cbn [as_closure]; try exact K. destruct is_closure; [|exact K].
    rewrite (init_closure_same lets ex C p p' (h_junk X H)).
    - destruct (init_closure p' ex lets (h_junk X H)); cbn; auto. intros y _. reflexivity.
    - intros y I N. apply K, F; auto. cbn [free_stmt]. apply free_in_closure; auto.
  Qed.

  Lemma with_new_same (D D' : nat -> Prop) s body : closure_stmt s -> (forall y, free_stmt y s -> D y) -> D' = inner_D s D -> pres D' body ->
    pres (A := Z) D (with_new_context X H (as_closure s) body).
  Proof.
    intros C F -> B st st' K. unfold with_new_context.
    pose proof (init_same D s None _ _ C ltac:(auto) (get_ctx _ _ _ K)) as I.
    destruct (init_context X H (s_ctx st) _ None) as [c|], (init_context X H (s_ctx st') _ None) as [c'|]; cbn [same_ctx bind same] in *; try tauto.
    eapply same_bind'; [apply B; eapply st_ctx; [exact K|exact I]|]. intros z s1 s1' K1. apply same_val. eapply st_ctx; [exact K1|exact (get_ctx _ _ _ K)].
  Qed.

  (** loops *)
  Lemma serial_same D s body lo hi step n : pres (also D s) body -> forall i, pres (A := Z) (also D s) (serial_loop X s body lo hi step n i).
  Proof.
    intros B. induction n as [|n IH]; intros i st st' K; cbn [serial_loop]; (destruct ((lo <=? i) && (i <=? hi)); [|apply same_val, K]); [exact I|].
    eapply same_bind.
    - apply B. eapply st_ctx; [exact K|]. intros y Hy. pose proof (agree_set _ _ _ s i (get_ctx _ _ _ K)) as A. apply A. right. exact Hy.
    - intros z s1 s1' K1. apply same_pure. intros i'. destruct (z =? 0); [apply IH, K1|apply same_val, K1].
  Qed.
  Definition wc_rel (D : nat -> Prop) (a b : option context) : Prop :=
    match a, b with None, None => True | Some c, Some c' => agree D c c' | _, _ => False end.
  Lemma par_same D s body p p' cl cl' lo step sched : pres (also D s) body ->
    same_ctx D (init_context X H p cl (Some s)) (init_context X H p' cl' (Some s)) -> forall wc wc' r,
    (forall k, wc_rel D (wc k) (wc' k)) -> forall st st', (exists D0, same_state (X := X) D0 st st') ->
    same (fun _ => False) (par_loop X H s body p cl lo step sched wc r st) (par_loop X H s body p' cl' lo step sched wc' r st').
  Proof.
    intros B I. induction sched as [|(w, i) sched IH]; intros wc wc' r Wc st st' (D0 & K); cbn [par_loop].
    { apply same_val. eapply st_weaken; [exact K|tauto]. }
    assert (C : same_ctx D (match wc w with Some c => Val c | None => init_context X H p cl (Some s) end)
                  (match wc' w with Some c => Val c | None => init_context X H p' cl' (Some s) end)).
    { specialize (Wc w). destruct (wc w), (wc' w); cbn in Wc; try tauto; exact Wc. }
    destruct (match wc w with Some c => Val c | None => _ end) as [c|], (match wc' w with Some c => Val c | None => _ end) as [c'|];
      cbn [same_ctx bind same] in *; try tauto.
    apply same_pure. intros t. apply same_pure. intros v.
    eapply same_bind'; [apply B; eapply st_ctx; [exact K|apply agree_set; exact C]|]. intros z s1 s1' K1. apply IH; [|exists (also D s); exact K1].
    intros k. destruct (k =? w)%nat; [|apply Wc]. intros y Hy. apply (get_ctx _ _ _ K1). right. exact Hy.
  Qed.

  (** crops and slices *)
  Lemma crop_in_place_same (D : nat -> Prop) a l : (forall y, Exists (free_interval y) l -> D y) -> forall d, pres D (crop_in_place X H a d l).
  Proof.
    induction l as [|x l IH]; intros F d st st' K; cbn [crop_in_place]; [apply same_val, K|]. rewrite (get_buf _ _ _ K).
    destruct (s_buf st a) as [b|]; [|exact I]. destruct (rank b <=? d)%nat; [apply same_val, K|]. cbv zeta.
    apply same_bind; [apply (ev_interval_def_same D x); auto; intros y Hy; apply F; left; auto|]. intros (lo, hi) s1 s1' K1.
    apply same_bind; [apply IH; [intros y Hy; apply F; right; auto|apply st_buf, K1]|]. intros old s2 s2' K2. apply same_val, K2.
  Qed.
  Lemma crop_clone_same (D : nat -> Prop) l : (forall y, Exists (free_interval y) l -> D y) -> forall b d, pres D (crop_clone X H b d l).
  Proof.
    induction l as [|x l IH]; intros F b d st st' K; cbn [crop_clone]; [apply same_val, K|].
    destruct (rank b <=? d)%nat; [apply same_val, K|]. cbv zeta.
    apply same_bind; [apply (ev_interval_def_same D x); auto; intros y Hy; apply F; left; auto|]. intros (lo, hi) s1 s1' K1.
    apply IH; [intros y Hy; apply F; right; auto|apply K1].
  Qed.
  Lemma slice_loop_same (D : nat -> Prop) ds : forall at_ p, (forall y, any_of (free y) at_ -> D y) -> pres D (slice_loop X H p ds at_).
  Proof.
    induction ds as [|d ds IH]; intros at_ p F st st' K; cbn [slice_loop]; [apply same_val, K|].
    destruct at_ as [|x at_]; [apply same_val, K|]. assert (F' : forall y, any_of (free y) at_ -> D y) by (intros y Hy; apply F; right; exact Hy).
    destruct (defined x).
    - destruct p as [q|]; [|apply IH; auto]. apply same_bind; [apply ev_same; auto; intros y Hy; apply F; left; exact Hy|].
      intros v s1 s1' K1. apply IH; auto.
    - apply same_bind; [apply IH; auto|]. intros (q, l) s1 s1' K1. apply same_val, K1.
  Qed.
  Lemma lookup_same D st st' s : same_state (X := X) D st st' -> D s -> lookup_buffer X st' s = lookup_buffer X st s.
  Proof. intros K Hs. unfold lookup_buffer. rewrite (get_buf _ _ _ K), (get_ctx _ _ _ K s Hs). reflexivity. Qed.

  Lemma st_free D st st' s b p : same_state (X := X) D st st' -> same_state D (free_buffer X H s b p st) (free_buffer X H s b p st').
  Proof. intros K. unfold free_buffer. rewrite (get_ext _ _ _ K). apply st_log, st_ext, K. Qed.
  Lemma allocate_same (D : nat -> Prop) sym w e ds body : D_expr D e -> (forall y, Exists (free_dim y) ds -> D y) -> pres (also D sym) body ->
    pres (A := Z) D (exec_allocate X H sym w e ds body).
  Proof.
    intros Fe Fd B st st' K. unfold exec_allocate. apply same_bind; [apply ev_same; auto|]. intros es s1 s1' K1.
    apply same_bind; [apply ev_dims_same; auto|]. intros dl s2 s2' K2. cbv zeta.
    assert (HA : forall b, let '(b1, p1, t1) := heap_allocate X H sym b s2 in let '(b2, p2, t2) := heap_allocate X H sym b s2' in
       b1 = b2 /\ p1 = p2 /\ same_state D t1 t2).
    { intros b. unfold heap_allocate. rewrite (get_ext _ _ _ K2). destruct (h_allocate X H sym b (s_ext X s2)) as ((b', p), x).
      split; [reflexivity|]. split; [reflexivity|]. apply st_log, st_ext, K2. }
    set (Q := fun (o o' : res (option (buf * Z * state))) => match o, o' with
      | UB, UB => True | Val None, Val None => True
      | Val (Some (b, p, t)), Val (Some (b', p', t')) => b = b' /\ p = p' /\ same_state D t t' | _, _ => False end).
    match goal with |- same D (bind ?a _) (bind ?b _) => assert (QQ : Q a b) end.
    { assert (HB : forall b, Q (Val (Some (heap_allocate X H sym b s2))) (Val (Some (heap_allocate X H sym b s2')))).
      { intros b. specialize (HA b). unfold Q. destruct (heap_allocate X H sym b s2) as ((b1, p1), t1), (heap_allocate X H sym b s2') as ((b2, p2), t2). exact HA. }
      destruct w; try (apply HB); (destruct (init_strides _ _) as [(b', [n|])|]; cbn [bind]; [|exact I|exact I]).
      - destruct (n <=? _); [|apply HB]. rewrite (get_ext _ _ _ K2). cbn. auto.
      - rewrite (get_ext _ _ _ K2). cbn. auto. }
    match type of QQ with Q ?a ?b => destruct a as [[((b1, p1), t1)|]|], b as [[((b2, p2), t2)|]|] end; cbn [Q bind] in *; try tauto; try exact I.
    - destruct QQ as (<- & <- & K3). destruct (alloc_fails b1).
      { apply same_val. destruct (p1 =? 0); [apply st_log, K3|apply st_free, st_log, K3]. }
      rewrite (get_next _ _ _ K3), (get_alloc _ _ _ K3). apply same_bind.
      { apply with_value_same; [exact B|]. apply st_alloc, st_next, st_buf, K3. }
      intros z s4 s4' K4. rewrite (get_buf _ _ _ K4), (get_alloc _ _ _ K4).
      destruct (s_buf s4 (s_next X t1)) as [b4|]; [|exact I]. destruct (lookup_alloc (s_alloc X s4) (s_next X t1)) as [p4|]; [|exact I].
      assert (K5 : same_state D (if p4 =? 0 then s4 else free_buffer X H sym b4 p4 s4) (if p4 =? 0 then s4' else free_buffer X H sym b4 p4 s4'))
        by (destruct (p4 =? 0); [exact K4|apply st_free, K4]).
      apply same_val. rewrite (get_alloc _ _ _ K5). apply st_alloc, st_buf, K5.
    - apply same_val, st_log, K2.
  Qed.

  (** the whole *)
  Definition fine (s : stmt) : Prop := calls_read_named H s -> plain_closures s ->
    (forall D : nat -> Prop, (forall y, free_stmt y s -> D y) -> pres D (exec X H s)) /\
    (forall D : nat -> Prop, (forall y, free_stmt y s -> D y) -> pres (inner_D s D) (inner s)).

  Lemma fine_of s : (forall D : nat -> Prop, (forall y, free_stmt y s -> D y) -> pres D (exec X H s)) ->
    match s with SLet _ b true => False | _ => True end ->
    (forall D : nat -> Prop, (forall y, free_stmt y s -> D y) -> pres D (exec X H s)) /\
    (forall D : nat -> Prop, (forall y, free_stmt y s -> D y) -> pres (inner_D s D) (inner s)).
  Proof. intros G N. split; [exact G|]. intros D F. unfold inner_D, inner. destruct s; auto. destruct is_closure; [destruct N|auto]. Qed.
  Lemma sub_D (D : nat -> Prop) sym (b : stmt) (P : nat -> Prop) : (forall y, P y \/ (sym <> y /\ free_stmt y b) -> D y) -> forall y, free_stmt y b -> also D sym y.
  Proof. intros F y Hy. destruct (Nat.eq_dec y sym); [left; auto|right; apply F; right; auto]. Qed.
  Lemma closure_of s : plain_closures s -> closure_stmt s.
  Proof. destruct s; cbn; auto. destruct is_closure; cbn; auto. intros (K & _). auto. Qed.

  Lemma exec_same s : fine s.
  Proof.
    induction s as [|t ins outs sc|a b c d e|l b cl IHs|l IHl|s w i st b IHs|s w e ds b IHs|s p e ds b IHs|s v b IHs|s v b IHs
      |s v l b IHs|s v d i b IHs|s v l b IHs|s v d x b IHs|s v p b IHs|s s1 s2 IHs1 IHs2|c] using stmt_ind'; intros R P.
    - apply fine_of; [|exact I]. intros D F st st' K. exact I.
    - apply fine_of; [|exact I]. intros D F st st' K. cbn [exec]. cbn [calls_read_named] in R.
      rewrite (get_buf _ _ _ K), (get_ext _ _ _ K).
      rewrite (R (s_ctx st) (s_ctx st') (s_buf st) (s_ext X st)) by (intros y Hy; apply (get_ctx _ _ _ K), F; exact Hy).
      destruct (h_call X H t ins outs sc (s_ctx st') (s_buf st) (s_ext X st)) as (z, x). apply same_val. apply st_log, st_ext, K.
    - apply fine_of; [|exact I]. intros D F st st' K. exact I.
    - destruct P as (P1 & P2). destruct (IHs R P2) as (G & _).
      assert (GG : forall D : nat -> Prop, (forall y, free_stmt y (SLet l b cl) -> D y) -> pres D (exec X H (SLet l b cl))).
      { intros D F. cbn [exec]. apply with_lets_same with (B := fun y => free_stmt y b); auto. }
      split; [exact GG|]. intros D F. unfold inner_D, inner. destruct cl; [apply G; auto|apply GG, F].
    - apply fine_of; [|exact I]. intros D F. cbn [free_stmt calls_read_named plain_closures] in F, R, P. cbn [exec].
      induction IHl as [|x l Hx Hl IH]; intros st st' K; [apply same_val, K|].
      destruct R as (R1 & R2), P as (P1 & P2). destruct (Hx R1 P1) as (G & _).
      apply same_bind; [apply G; auto|]. intros z t t' Kt. destruct (z =? 0); [|apply same_val, Kt].
      apply IH; auto.
    - apply fine_of; [|exact I]. intros D F. cbn [free_stmt] in F. pose proof (closure_of b P) as C. destruct (IHs R P) as (G & Gi).
      assert (Fb : forall y, free_stmt y b -> also D s y) by (intros y Hy; destruct (Nat.eq_dec y s); [left; auto|right; apply F; auto]).
      intros st0 st0' K0. cbn [exec].
      apply same_bind; [apply ev_same; auto; intros y Hy; apply F; auto|]. intros k s0 s0' K.
      apply same_bind; [apply ev_interval_same; auto; intros y Hy; apply F; auto|]. intros (lo, hi) s1 s1' K1.
      apply same_bind; [apply ev_def_same; auto; intros y Hy; apply F; auto|]. intros stp s2 s2' K2.
      destruct (stp =? 0); [exact I|]. destruct (1 <? k).
      + apply same_pure. intros n. destruct (n =? 0); [apply same_val, K2|]. destruct (n =? 1); [apply with_value_same; auto|].
        destruct (h_pool X H); [|exact I]. cbv zeta. rewrite (get_ext _ _ _ K2).
        eapply same_bind'.
        * apply par_same with (D := inner_D b D).
          -- eapply pres_ext; [|apply Gi, Fb]. intros y. unfold inner_D. destruct b; try tauto. destruct is_closure; unfold also; tauto.
          -- apply init_same; [exact C| |exact (get_ctx _ _ _ K2)]. intros y Hy N. apply F. right. right. right. split; [congruence|exact Hy].
          -- intros. exact I.
          -- exists D. exact K2.
        * intros z s3 s3' K3. apply same_val. eapply st_ctx; [exact K3|exact (get_ctx _ _ _ K2)].
      + eapply same_bind'.
        * apply serial_same; [apply G, Fb|]. eapply st_ctx; [exact K2|]. apply agree_set, get_ctx, K2.
        * intros z s3 s3' K3. apply same_val. eapply st_ctx; [exact K3|]. apply agree_restore; [exact (get_ctx _ _ _ K3)|].
          intros Hs. apply (get_ctx _ _ _ K2 s Hs).
    - apply fine_of; [|exact I]. intros D F. cbn [free_stmt] in F. destruct (IHs R P) as (G & _). cbn [exec].
      apply allocate_same; [intros y Hy; apply F; auto|intros y Hy; apply F; auto|]. apply G. intros y Hy. destruct (Nat.eq_dec y s); [left; auto|right; apply F; auto].
    - apply fine_of; [|exact I]. intros D F. cbn [free_stmt] in F. destruct (IHs R P) as (G & _). intros st st' K. cbn [exec]. unfold exec_make.
      apply same_bind; [apply ev_def_same; auto; intros y Hy; apply F; auto|]. intros es s1 s1' K1.
      apply same_bind; [apply ev_def_same; auto; intros y Hy; apply F; auto|]. intros q s2 s2' K2.
      apply same_bind; [apply ev_dims_same; auto|]. intros dl s3 s3' K3. cbv zeta.
      destruct (validate_buffer _); [|apply same_val, st_log, K3]. apply with_object_same; auto.
      apply G. intros y Hy. destruct (Nat.eq_dec y s); [left; auto|right; apply F; auto].
    - apply fine_of; [|exact I]. intros D F. cbn [free_stmt] in F. destruct (IHs R P) as (G & _). cbn [exec].
      apply with_value_same. apply G. intros y Hy. destruct (Nat.eq_dec y s); [left; auto|right; apply F; auto].
    - apply fine_of; [|exact I]. intros D F. cbn [free_stmt] in F. destruct (IHs R P) as (G & _). intros st st' K. cbn [exec].
      rewrite (lookup_same _ _ _ v K) by (apply F; auto). apply same_pure. intros b0. apply with_object_same; auto.
      apply G. intros y Hy. destruct (Nat.eq_dec y s); [left; auto|right; apply F; auto].
    - apply fine_of; [|exact I]. intros D F. cbn [free_stmt] in F. destruct (IHs R P) as (G & _). intros st st' K. cbn [exec].
      assert (Fb : forall y, free_stmt y b -> also D s y) by (intros y Hy; destruct (Nat.eq_dec y s); [left; auto|right; apply F; auto]).
      destruct (Nat.eqb_spec s v) as [->|N].
      + unfold exec_crop_shadowed. rewrite (lookup_same _ _ _ v K) by (apply F; auto).
        apply same_pure. intros b0. rewrite <- (get_ctx _ _ _ K v) by (apply F; auto).
        apply same_bind; [apply crop_in_place_same; auto|]. intros old s1 s1' K1.
        apply same_bind; [apply G; auto; intros y Hy; destruct (Fb y Hy); [subst; apply F; auto|auto]|]. intros z s2 s2' K2.
        rewrite (get_buf _ _ _ K2). destruct (s_buf s2 (s_ctx st v)); [|exact I]. apply same_val, st_buf, K2.
      + unfold exec_crop_unshadowed. rewrite (lookup_same _ _ _ v K) by (apply F; auto).
        apply same_pure. intros b0. apply same_bind; [apply crop_clone_same; auto|]. intros b' s1 s1' K1. apply with_object_same; auto.
    - apply fine_of; [|exact I]. intros D F. cbn [free_stmt] in F. destruct (IHs R P) as (G & _). intros st st' K. cbn [exec].
      assert (Fb : forall y, free_stmt y b -> also D s y) by (intros y Hy; destruct (Nat.eq_dec y s); [left; auto|right; apply F; auto]).
      assert (Fi : D_interval D i) by (intros y Hy; apply F; auto).
      destruct (Nat.eqb_spec s v) as [->|N].
      + unfold exec_crop_dim_shadowed. rewrite (lookup_same _ _ _ v K) by (apply F; auto).
        assert (Gb : pres D (exec X H b)) by (apply G; auto; intros y Hy; destruct (Fb y Hy); [subst; apply F; auto|auto]).
        apply same_pure. intros b0. rewrite <- (get_ctx _ _ _ K v) by (apply F; auto). cbv zeta.
        destruct (rank b0 <=? d)%nat; [apply Gb, K|].
        apply same_bind; [apply (ev_interval_def_same D i); auto|]. intros (lo, hi) s1 s1' K1.
        apply same_bind; [apply Gb, st_buf, K1|]. intros z s2 s2' K2.
        rewrite (get_buf _ _ _ K2). destruct (s_buf s2 (s_ctx st v)); [|exact I]. apply same_val, st_buf, K2.
      + unfold exec_crop_dim_unshadowed. rewrite (lookup_same _ _ _ v K) by (apply F; auto).
        apply same_pure. intros b0. cbv zeta. apply same_bind; [apply (ev_interval_def_same D i); auto|]. intros (lo, hi) s1 s1' K1. apply with_object_same; auto.
    - apply fine_of; [|exact I]. intros D F. cbn [free_stmt] in F. destruct (IHs R P) as (G & _). intros st st' K. cbn [exec].
      assert (Fb : forall y, free_stmt y b -> also D s y) by (intros y Hy; destruct (Nat.eq_dec y s); [left; auto|right; apply F; auto]).
      unfold exec_slice. rewrite (lookup_same _ _ _ v K) by (apply F; auto). apply same_pure. intros b0.
      apply same_bind; [apply slice_loop_same; auto|]. intros (q, ds) s1 s1' K1. apply with_object_same; auto.
    - apply fine_of; [|exact I]. intros D F. cbn [free_stmt] in F. destruct (IHs R P) as (G & _). intros st st' K. cbn [exec].
      assert (Fb : forall y, free_stmt y b -> also D s y) by (intros y Hy; destruct (Nat.eq_dec y s); [left; auto|right; apply F; auto]).
      unfold exec_slice_dim. rewrite (lookup_same _ _ _ v K) by (apply F; auto). apply same_pure. intros b0.
      destruct (rank b0 <=? d)%nat; [apply with_object_same; auto|].
      apply same_bind.
      + destruct (base b0); [|apply same_val, K]. apply same_bind; [apply ev_same; auto; intros y Hy; apply F; auto|]. intros q s1 s1' K1. apply same_val, K1.
      + intros q s1 s1' K1. apply with_object_same; auto.
    - apply fine_of; [|exact I]. intros D F. cbn [free_stmt] in F. destruct (IHs R P) as (G & _). intros st st' K. cbn [exec].
      assert (Fb : forall y, free_stmt y b -> also D s y) by (intros y Hy; destruct (Nat.eq_dec y s); [left; auto|right; apply F; auto]).
      unfold exec_transpose. rewrite (lookup_same _ _ _ v K) by (apply F; auto). cbv zeta. apply same_pure. intros b0.
      destruct (Nat.eqb_spec s v) as [->|N]; cbn [andb]; [|apply with_object_same; auto].
      destruct (is_truncate p); [|apply with_object_same; auto]. destruct (rank b0 <? length p)%nat; [exact I|].
      rewrite <- (get_ctx _ _ _ K v) by (apply F; auto).
      apply same_bind; [apply G; [intros y Hy; destruct (Fb y Hy); [subst; apply F; auto|auto]|apply st_buf, K]|].
      intros z s1 s1' K1. rewrite (get_buf _ _ _ K1). destruct (s_buf s1 (s_ctx st v)); [|exact I]. apply same_val, st_buf, K1.
    - apply fine_of; [|exact I]. intros D F. cbn [free_stmt] in F. destruct R as (R1 & R2), P as (P1 & P2).
      destruct (IHs1 R1 P1) as (_ & G1), (IHs2 R2 P2) as (_ & G2).
      pose proof (closure_of _ P1) as C1. pose proof (closure_of _ P2) as C2. clear IHs1 IHs2.
      set (D' := match s with Some x => also D x | None => D end).
      assert (F1 : forall y, free_stmt y s1 -> D y) by auto.
      assert (F2 : forall y, free_stmt y s2 -> D' y).
      { intros y Hy. unfold D'. destruct s as [x|]; [destruct (Nat.eq_dec y x); [left; auto|right; apply F; right; split; [congruence|auto]]|apply F; right; split; [discriminate|auto]]. }
      assert (F1' : forall y, free_stmt y s1 -> D' y) by (intros y Hy; unfold D'; destruct s; [right|]; auto).
      assert (T : forall D : nat -> Prop, (forall y, free_stmt y s1 -> D y) -> pres D (with_new_context X H (as_closure s1) (inner s1)))
        by (intros E FE; eapply with_new_same; [exact C1|exact FE|reflexivity|apply G1, FE]).
      assert (B : forall D : nat -> Prop, (forall y, free_stmt y s2 -> D y) -> pres D (with_new_context X H (as_closure s2) (inner s2)))
        by (intros E FE; eapply with_new_same; [exact C2|exact FE|reflexivity|apply G2, FE]).
      set (set_sym := fun (st : state) v => match s with Some s => set_ctx st (ctx_set (s_ctx st) s v) | None => st end).
      assert (Set1 : forall st st' v, same_state D st st' -> same_state D' (set_sym st v) (set_sym st' v)).
      { intros st st' v K. unfold set_sym, D'. destruct s; [|exact K]. eapply st_ctx; [exact K|]. apply agree_set, get_ctx, K. }
      assert (Set2 : forall st st' v, same_state D' st st' -> same_state D (set_sym st v) (set_sym st' v)).
      { intros st st' v K. unfold set_sym, D' in *. destruct s; [|exact K]. eapply st_ctx; [exact K|]. apply agree_restore; auto. exact (get_ctx _ _ _ K). }
      intros st st' K. cbn [exec]. fold (inner s1) (inner s2). cbv zeta. fold set_sym. rewrite (get_ext _ _ _ K).
      destruct (h_pool X H); [destruct (h_task_first X H (s_ext X st))|].
      + apply same_bind; [apply T; auto|]. intros t t1 t1' K1. eapply same_bind'; [apply B; [exact F2|apply Set1, K1]|].
        intros z t2 t2' K2. apply same_val, Set2, K2.
      + eapply same_bind'; [apply B; [exact F2|apply Set1, K]|]. intros z t2 t2' K2. apply same_bind; [apply T; [exact F1|apply Set2, K2]|].
        intros t t1 t1' K1. apply same_val, K1.
      + apply same_bind; [apply T; auto|]. intros t t1 t1' K1. eapply same_bind'; [apply B; [exact F2|apply Set1, K1]|].
        intros z t2 t2' K2. apply same_val, Set2, K2.
    - apply fine_of; [|exact I]. intros D F st st' K. cbn [exec free_stmt] in *.
      assert (G : same D (r <- ev X H st c ;; let '(v, st1) := r in if v =? 0 then Val (1, log X st1 EvCheckFailed) else Val (0, st1))
                         (r <- ev X H st' c ;; let '(v, st1) := r in if v =? 0 then Val (1, log X st1 EvCheckFailed) else Val (0, st1))).
      { apply same_bind; [apply ev_same; auto|]. intros v s1 s1' K1. destruct (v =? 0); apply same_val; auto using st_log. }
      unfold exec_check. destruct c; try exact G. destruct fn; try exact G. destruct args as [|x l]; [exact G|].
      destruct x; try exact G. destruct f; try exact G. destruct l as [|? ?]; [|exact G].
      rewrite <- (get_ctx _ _ _ K sym) by (apply F; exists (RField f_none); cbn; auto).
      rewrite (get_buf _ _ _ K), (get_alloc _ _ _ K). destruct (s_buf st (s_ctx st sym)); [|exact I].
      destruct (lookup_alloc (s_alloc X st) (s_ctx st sym)); [|exact I]. cbv zeta. apply same_val.
      assert (K1 : same_state D (free_buffer X H sym b z st) (free_buffer X H sym b z st')) by (apply st_free, K).
      rewrite (get_alloc _ _ _ K1). apply st_alloc, K1.
  Qed.
End Exec.
