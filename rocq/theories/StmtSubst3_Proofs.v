(** Proofs for C54: the substituted statement is one to which the value semantics applies; substitution is defined. *)
From Coq Require Import ZArith List Bool Lia.
From Verif Require Import Arith_Model Arith_Proofs Buf_Model Alloc_Model Expr_Model Expr_Spec Expr_Proofs Stmt_Model Stmt_Spec Stmt_Proofs Simplify_Model Simplify_Proofs Deps_Model Deps_Spec
  Deps_Proofs Deps_Props Subst_Model Subst_Spec SubstMean_Proofs SubstEval_Proofs Subst_Props StmtSubst_Model StmtSubst_Spec VSem_Spec VMono_Proofs VExec_Proofs VRef_Proofs StmtSubst_Proofs StmtSubst2_Proofs.
Import ListNotations.
Open Scope Z_scope.

Lemma distinct_all l : (fix go (l : list expr) := match l with [] => True | p :: l' => lets_distinct p /\ go l' end) l <-> Forall lets_distinct l.
Proof. induction l as [|a l IH]; [split; constructor|]. rewrite IH. split; [intros (A & B); constructor; auto|intros F; inversion F; auto]. Qed.
Lemma distinct_snds l : (fix go (l : list (nat * expr)) := match l with [] => True | p :: l' => lets_distinct (snd p) /\ go l' end) l <-> Forall lets_distinct (map snd l).
Proof. induction l as [|a l IH]; [split; constructor|]. rewrite IH. split; [intros (A & B); constructor; auto|intros F; inversion F; auto]. Qed.
Lemma distinct_pop l : Forall lets_distinct l -> Forall lets_distinct (pop_undefined l).
Proof. intros F. rewrite Forall_forall in *. intros a I. apply F, in_pop, I. Qed.
Lemma mutate_lets_syms en mu l : forall l' al, mutate_lets en mu l = Val (l', al) -> map fst l' = map fst l.
Proof.
  induction l as [|(s, v) l IH]; intros l' al M; cbn [mutate_lets] in M; [injection M as <- <-; reflexivity|].
  apply bind_inv in M as (v' & _ & M). destruct (en s); [|injection M as <- <-; reflexivity]. apply bind_inv in M as ((l1, al1) & M1 & M). injection M as <- <-. cbn [map fst]. f_equal. exact (IH _ _ M1).
Qed.

Section Keep.
  Variable x : nat.
  Variable rep : expr.
  Hypothesis Lr : lets_distinct rep.
  Notation mut := (var_mutate x rep).
  Notation F := (fun s => free s rep).
  Notation sub_stmt := (sub_stmt x rep).

  Definition keep (e : expr) : Prop := forall e', lets_distinct e -> mut e = Val e' -> lets_distinct e'.
  Lemma keep_lets l : Forall keep (map snd l) -> Forall lets_distinct (map snd l) -> forall l' al, mutate_lets (enter_var x rep) mut l = Val (l', al) -> Forall lets_distinct (map snd l').
  Proof.
    induction l as [|(s, v) l IH]; intros G D l' al M; cbn [mutate_lets] in M; [injection M as <- <-; constructor|]. inversion G as [|? ? G1 G2]; inversion D as [|? ? D1 D2]; subst. cbn [snd] in *.
    apply bind_inv in M as (v' & Mv & M). destruct (enter_var x rep s).
    - apply bind_inv in M as ((l1, al1) & M1 & M). injection M as <- <-. constructor; [exact (G1 v' D1 Mv)|exact (IH G2 D2 _ _ M1)].
    - injection M as <- <-. constructor; [exact (G1 v' D1 Mv)|exact D2].
  Qed.
  Lemma keep_args l : Forall keep l -> Forall lets_distinct l -> forall l', mutate_args mut l = Val l' -> Forall lets_distinct l'.
  Proof.
    induction 1 as [|a l G _ IH]; intros D l' M; cbn [mutate_args] in M; [injection M as <-; constructor|]. inversion D; subst.
    apply bind_inv in M as (a' & Ma & M). apply bind_inv in M as (r & Mr & M). injection M as <-. constructor; auto.
  Qed.
  Lemma keep_all e : keep e.
  Proof.
    induction e as [|s f d|l b IHl IHb|o a b IHa IHb|a IHa|q t f IHq IHt IHf|fn t args IHargs|c0] using expr_ind'; intros e' D M; unfold var_mutate in M; cbn [mutate] in M; fold (var_mutate x rep) in M.
    - injection M as <-. exact I.
    - unfold visit_var in M. destruct (s =? x)%nat; [|injection M as <-; exact I]. destruct f; [injection M as <-; exact Lr|..]; (apply bind_inv in M as (y & _ & M); injection M as <-; exact I).
    - apply bind_inv in M as ((l', al) & Ml & M). apply bind_inv in M as (b' & Mb & M). injection M as <-. cbn [lets_distinct] in *. destruct D as (N & Dl & Db). apply distinct_snds in Dl. apply Forall_snd in IHl.
      split; [rewrite (mutate_lets_syms _ _ _ _ _ Ml); exact N|]. split; [apply distinct_snds; exact (keep_lets l IHl Dl l' al Ml)|]. destruct al; [exact (IHb b' Db Mb)|injection Mb as <-; exact Db].
    - apply bind_inv in M as (a' & Ma & M). apply bind_inv in M as (b' & Mb & M). injection M as <-. destruct D as (D1 & D2). unfold make_bin. destruct (_ && _); cbn [lets_distinct]; auto.
    - apply bind_inv in M as (a' & Ma & M). injection M as <-. exact (IHa a' D Ma).
    - apply bind_inv in M as (q' & Mq & M). apply bind_inv in M as (t' & Mt & M). apply bind_inv in M as (f' & Mf & M). injection M as <-. destruct D as (D1 & D2 & D3). cbn [lets_distinct]. auto.
    - apply bind_inv in M as (args' & Ma & M). apply bind_inv in M as (args2 & Mf & M). injection M as <-. cbn [lets_distinct] in *. apply distinct_all in D. apply distinct_all.
      pose proof (keep_args args IHargs D args' Ma) as K.
      assert (G : fn = i_buffer_at \/ args2 = args') by (destruct fn; try (right; injection Mf as <-; reflexivity); left; reflexivity). destruct G as [->| ->]; [|exact K].
      destruct args' as [|[|s f d| | | | | |] at_]; try discriminate Mf; [injection Mf as <-; constructor|..].
      + injection Mf as <-. exact K.
      + destruct f; try discriminate Mf. cbn [finish_at] in Mf. unfold pad in Mf. cbn [Nat.sub repeat] in Mf. rewrite app_nil_r in Mf. rewrite (fill_mins_clear (fun _ _ => EUndef) s at_ (fun _ => eq_refl) 0) in Mf. cbn [bind] in Mf.
        injection Mf as <-. inversion K as [|? ? _ K2]; subst. constructor; [exact I|]. apply distinct_pop. clear -K2. generalize 0. induction K2 as [|a l Ha _ IH]; intros d; cbn [clear_mins]; constructor; auto. destruct (is_min_of a s d); [exact I|exact Ha].
    - injection M as <-. exact I.
  Qed.
  Lemma keep_interval i i' : distinct_interval i -> mut_interval x rep i = Val i' -> distinct_interval i'.
  Proof. intros (A & B) M. unfold mut_interval in M. apply bind_inv in M as (a & Ma & M). apply bind_inv in M as (b & Mb & M). injection M as <-. split; [exact (keep_all _ _ A Ma)|exact (keep_all _ _ B Mb)]. Qed.
  Lemma keep_list {A} (f : A -> res A) (P : A -> Prop) l : (forall a a', P a -> f a = Val a' -> P a') -> Forall P l -> forall l', map_res f l = Val l' -> Forall P l'.
  Proof.
    intros G. induction 1 as [|a l Pa _ IH]; intros l' M; cbn [map_res] in M; [injection M as <-; constructor|]. apply bind_inv in M as (a' & Ma & M). apply bind_inv in M as (r & Mr & M). injection M as <-. constructor; [exact (G _ _ Pa Ma)|auto].
  Qed.
  Lemma keep_dim d d' : distinct_dim d -> mut_dim x rep d = Val d' -> distinct_dim d'.
  Proof.
    intros (A & B & C) M. unfold mut_dim in M. apply bind_inv in M as (i & Mi & M). apply bind_inv in M as (s & Ms & M). apply bind_inv in M as (f & Mf & M). injection M as <-.
    split; [exact (keep_interval _ _ A Mi)|]. split; [exact (keep_all _ _ B Ms)|exact (keep_all _ _ C Mf)].
  Qed.
  Lemma keep_crop src d i i' : distinct_interval i -> crop_bounds x rep src d i = Val i' -> distinct_interval i'.
  Proof.
    intros D M. unfold crop_bounds in M. apply bind_inv in M as (r & Mr & M). injection M as <-. destruct (keep_interval _ _ D Mr) as (A & B). split; cbn [fst snd]; [destruct (is_min_of _ _ _)|destruct (is_max_of _ _ _)]; auto; exact I.
  Qed.
  Lemma keep_crops src l : Forall distinct_interval l -> forall d l', crop_all x rep src d l = Val l' -> Forall distinct_interval l'.
  Proof.
    induction 1 as [|i l Hi _ IH]; intros d l' M; cbn [crop_all] in M; [injection M as <-; constructor|]. apply bind_inv in M as (i' & Mi & M). apply bind_inv in M as (r & Mr & M). injection M as <-.
    constructor; [exact (keep_crop _ _ _ _ Hi Mi)|exact (IH _ _ Mr)].
  Qed.
  (** the symbols of a new bound *)
  Lemma crops_free y src l : ~ F y -> Forall (fun i => ~ free y (fst i) /\ ~ free y (snd i)) l -> forall d l', crop_all x rep src d l = Val l' -> Forall (fun i => ~ free y (fst i) /\ ~ free y (snd i)) l'.
  Proof.
    intros Ny. induction 1 as [|i l (H1 & H2) _ IH]; intros d l' M; cbn [crop_all] in M; [injection M as <-; constructor|]. apply bind_inv in M as (i' & Mi & M). apply bind_inv in M as (r & Mr & M). injection M as <-.
    constructor; [|exact (IH _ _ Mr)]. unfold crop_bounds in Mi. apply bind_inv in Mi as (j & Mj & Mi). injection Mi as <-. unfold mut_interval in Mj. apply bind_inv in Mj as (a & Ma & Mj). apply bind_inv in Mj as (b & Mb & Mj). injection Mj as <-.
    cbn [fst snd]. split.
    - destruct (is_min_of _ _ _); [intros (ro & [])|]. intros Fy. destruct (gone_all x rep _ _ y Ma Fy) as [K|(K & _)]; auto.
    - destruct (is_max_of _ _ _); [intros (ro & [])|]. intros Fy. destruct (gone_all x rep _ _ y Mb Fy) as [K|(K & _)]; auto.
  Qed.

  Lemma distinct_go l : (fix go (l : list stmt) := match l with [] => True | x :: l' => distinct x /\ go l' end) l <-> Forall distinct l.
  Proof. induction l as [|a l IH]; [split; constructor|]. rewrite IH. split; [intros (A & B); constructor; auto|intros K; inversion K; auto]. Qed.
  Lemma by_value_go l : (fix go (l : list stmt) := match l with [] => True | x :: l' => by_value x /\ go l' end) l <-> Forall by_value l.
  Proof. induction l as [|a l IH]; [split; constructor|]. rewrite IH. split; [intros (A & B); constructor; auto|intros K; inversion K; auto]. Qed.
  Lemma crop_all_tl src d l l' : crop_all x rep src d l = Val l' -> crop_all x rep src (S d) (tl l) = Val (tl l').
  Proof. destruct l as [|i l]; cbn [crop_all]; intros M; [injection M as <-; reflexivity|]. apply bind_inv in M as (i' & _ & M). apply bind_inv in M as (r & Mr & M). injection M as <-. exact Mr. Qed.

  Lemma keep_stmt s : plain_stmt s -> no_capture_stmt x rep s -> distinct s -> by_value s -> forall s', sub_stmt s = Val s' -> distinct s' /\ by_value s'.
  Proof.
    induction s as [|t ins outs sc|src sx dst dx pad|l s c IHs|l IHl|s w y st b IHs|s w e ds b IHs|s p e ds b IHs|s v b IHs|s v b IHs
      |s v l b IHs|s v d y b IHs|s v l b IHs|s v d y b IHs|s v p b IHs|s s1 s2 IHs1 IHs2|c] using stmt_ind'; cbn [plain_stmt no_capture_stmt distinct by_value]; intros P N D B s' M; try contradiction.
    all: try rewrite sub_block in M; cbn [StmtSubst_Model.sub_stmt] in M.
    all: try (assert (Bd : forall b', (if enter_var x rep s then sub_stmt b else Val b) = Val b' -> distinct b' /\ by_value b');
      [intros b' Mb'; destruct (enter_var x rep s) eqn:En; [|injection Mb' as <-; tauto]; apply enter_true in En as (En & _); apply IHs; tauto|]).
    - injection M as <-. split; exact I.
    - apply bind_inv in M as (i' & M1 & M). apply bind_inv in M as (o' & M2 & M). apply bind_inv in M as (sc' & M3 & M). injection M as <-. cbn [distinct by_value].
      pose proof (keep_list mut lets_distinct sc keep_all B sc' M3). auto.
    - destruct P as (-> & P). destruct D as (D1 & D2 & D), B as (_ & B). apply bind_inv in M as ((l', al) & M1 & M). apply bind_inv in M as (b' & M2 & M). injection M as <-. cbn [distinct by_value].
      assert (Bd : distinct b' /\ by_value b').
      { destruct al; [|injection M2 as <-; auto]. apply IHs; auto. clear -N M1. revert l' M1 N. induction l as [|(s0, v) l IH]; intros l' M1 N; cbn [no_capture_stmt_lets mutate_lets] in *; [exact N|].
        apply bind_inv in M1 as (v' & _ & M1). destruct (enter_var x rep s0) eqn:En; [|discriminate M1]. apply bind_inv in M1 as ((l1, al1) & M2 & M1). injection M1 as <- ->. apply enter_true in En as (En & _).
        destruct N as (_ & [N|(_ & N)]); [congruence|]. exact (IH _ M2 N). }
      split; [|split; [discriminate|tauto]]. split; [rewrite (mutate_lets_syms _ _ _ _ _ M1); exact D1|]. split; [|tauto]. apply (keep_lets l) with (al := al); auto. apply Forall_forall. intros e _. apply keep_all.
    - destruct P as (L & Bl & P). apply plain_go in P. apply nc_stmt_go in N. apply distinct_go in D. apply by_value_go in B. apply bind_inv in M as (l' & Ml & M). injection M as <-.
      assert (G : Forall distinct l' /\ Forall by_value l' /\ length l' = length l /\ forallb in_block l' = forallb in_block l).
      { clear L Bl. revert l' Ml. induction IHl as [|y l Hy _ IH]; intros l' Ml; cbn [sub_list] in Ml; [injection Ml as <-; repeat split; constructor|].
        apply bind_inv in Ml as (y' & My & Ml). apply bind_inv in Ml as (r & Mr & Ml). injection Ml as <-. inversion P; inversion N; inversion D; inversion B; subst.
        destruct (sub_plain x rep y ltac:(assumption) y' My) as (A1 & A2). destruct (IH ltac:(assumption) ltac:(assumption) ltac:(assumption) ltac:(assumption) r Mr) as (B1 & B2 & B3 & B4).
        destruct (Hy ltac:(assumption) ltac:(assumption) ltac:(assumption) ltac:(assumption) y' My) as (H1' & H2'). split; [constructor; auto|]. split; [constructor; auto|]. split; [cbn [length]; congruence|cbn [forallb]; congruence]. }
      destruct G as (G1 & G2 & G3 & G4). rewrite block_make_flat by congruence. cbn [distinct by_value]. split; [apply distinct_go; exact G1|apply by_value_go; exact G2].
    - destruct D as (D1 & D2 & D3 & D). apply bind_inv in M as (i' & M1 & M). apply bind_inv in M as (st' & M2 & M). apply bind_inv in M as (b' & M3 & M). injection M as <-. destruct (Bd b' M3). cbn [distinct by_value].
      pose proof (keep_interval _ _ D2 M1). pose proof (keep_all _ _ D3 M2). auto.
    - destruct D as (D1 & D2 & D). apply bind_inv in M as (e' & M1 & M). apply bind_inv in M as (ds' & M2 & M). apply bind_inv in M as (b' & M3 & M). injection M as <-. destruct (Bd b' M3). cbn [distinct by_value].
      pose proof (keep_list _ distinct_dim ds keep_dim D2 ds' M2). pose proof (keep_all _ _ D1 M1). auto.
    - destruct D as (D0 & D1 & D2 & D). apply bind_inv in M as (p' & M0 & M). apply bind_inv in M as (e' & M1 & M). apply bind_inv in M as (ds' & M2 & M). apply bind_inv in M as (b' & M3 & M). injection M as <-. destruct (Bd b' M3). cbn [distinct by_value].
      pose proof (keep_list _ distinct_dim ds keep_dim D2 ds' M2). pose proof (keep_all _ _ D1 M1). pose proof (keep_all _ _ D0 M0). auto.
    - apply bind_inv in M as (b' & M3 & M). injection M as <-. destruct (Bd b' M3). auto.
    - apply bind_inv in M as (v' & M1 & M). apply bind_inv in M as (b' & M3 & M). injection M as <-. destruct (Bd b' M3). auto.
    - destruct D as (D1 & D), B as (B1 & B), N as (N1 & N2 & N). apply bind_inv in M as (v' & M1 & M). apply bind_inv in M as (l' & M2 & M). apply bind_inv in M as (b' & M3 & M). injection M as <-. destruct (Bd b' M3) as (Q1 & Q2). cbn [distinct by_value].
      split; [split; [exact (keep_crops v' l D1 _ _ M2)|exact Q1]|]. split; [|exact Q2]. intros ->. destruct (visit_names x rep v v' M1) as (d & Q). destruct (Nat.eq_dec v x) as [->|n].
      { exfalso. rewrite sub_same in Q. apply (N1 eq_refl). rewrite Q. exists (RField f_none). cbn. auto. }
      rewrite (sub_other _ _ _ n) in Q. injection Q as -> _. apply crop_all_tl in M2. destruct (N2 eq_refl) as [N3|N3]; [exact (crops_free v' v' _ N3 (B1 eq_refl) _ _ M2)|].
      rewrite N3 in M2. injection M2 as <-. constructor.
    - destruct D as (D1 & D). apply bind_inv in M as (v' & M1 & M). apply bind_inv in M as (l' & M2 & M). apply bind_inv in M as (b' & M3 & M). injection M as <-. destruct (Bd b' M3). cbn [distinct by_value].
      pose proof (keep_crop _ _ _ _ D1 M2). auto.
    - destruct D as (D1 & D). apply bind_inv in M as (v' & M1 & M). apply bind_inv in M as (l' & M2 & M). apply bind_inv in M as (b' & M3 & M). injection M as <-. destruct (Bd b' M3). cbn [distinct by_value].
      pose proof (keep_list mut lets_distinct l keep_all D1 l' M2). auto.
    - destruct D as (D1 & D). apply bind_inv in M as (v' & M1 & M). apply bind_inv in M as (l' & M2 & M). apply bind_inv in M as (b' & M3 & M). injection M as <-. destruct (Bd b' M3). cbn [distinct by_value].
      pose proof (keep_all _ _ D1 M2). auto.
    - apply bind_inv in M as (v' & M1 & M). apply bind_inv in M as (b' & M3 & M). injection M as <-. destruct (Bd b' M3). auto.
    - apply bind_inv in M as (c' & Mc & M). injection M as <-. split; [exact (keep_all _ _ D Mc)|exact I].
  Qed.
End Keep.

Section Defined.
  Variable x : nat.
  Variable rep : expr.
  Notation mut := (var_mutate x rep).
  Notation sub_stmt := (sub_stmt x rep).
  Notation replaceable := (replaceable x rep).
  Lemma def_map {A} (f : A -> res A) (P : A -> Prop) l : (forall a, P a -> exists a', f a = Val a') -> Forall P l -> exists l', map_res f l = Val l'.
  Proof. intros G. induction 1 as [|a l Pa _ (r & IH)]; [eexists; reflexivity|]. cbn [map_res]. destruct (G a Pa) as (a' & ->). rewrite IH. eexists. reflexivity. Qed.
  Definition able (e : expr) : Prop := plain_heads e /\ replaceable e.
  Lemma able_def e : able e -> exists e', mut e = Val e'. Proof. intros (P & R). exact (def_all x rep e P R). Qed.
  Lemma able_interval i : every_interval able i -> exists i', mut_interval x rep i = Val i'.
  Proof. intros (A & B). unfold mut_interval. destruct (able_def _ A) as (a & ->), (able_def _ B) as (b & ->). eexists. reflexivity. Qed.
  Lemma able_dim d : every_dim able d -> exists d', mut_dim x rep d = Val d'.
  Proof. intros (A & B & C). unfold mut_dim. destruct (able_interval _ A) as (a & ->), (able_def _ B) as (b & ->), (able_def _ C) as (c & ->). eexists. reflexivity. Qed.
  Lemma able_crop src d i : every_interval able i -> exists i', crop_bounds x rep src d i = Val i'.
  Proof. intros A. unfold crop_bounds. destruct (able_interval _ A) as (a & ->). eexists. reflexivity. Qed.
  Lemma able_crops src l : Forall (every_interval able) l -> forall d, exists l', crop_all x rep src d l = Val l'.
  Proof. induction 1 as [|i l A _ IH]; intros d; cbn [crop_all]; [eexists; reflexivity|]. destruct (able_crop src d i A) as (i' & ->), (IH (S d)) as (r & ->). eexists. reflexivity. Qed.
  Lemma able_symbol y : (exists z d, rep = EVar z f_none d) \/ y <> x -> exists y', visit_symbol x rep y = Val y'.
  Proof. unfold visit_symbol. destruct (Nat.eqb_spec y x) as [->|n]; [|eauto]. intros [(z & d & ->)|n]; [eexists; reflexivity|congruence]. Qed.
  Lemma able_symbols l : (exists z d, rep = EVar z f_none d) \/ ~ In x l -> exists l', map_res (visit_symbol x rep) l = Val l'.
  Proof.
    intros G. apply (def_map _ (fun y => (exists z d, rep = EVar z f_none d) \/ y <> x)); [exact able_symbol|]. apply Forall_forall. intros y Iy. destruct G as [G|G]; [left; exact G|right]. intros ->. exact (G Iy).
  Qed.
  Lemma able_lets l : Forall able (map snd l) -> exists l' al, mutate_lets (enter_var x rep) mut l = Val (l', al).
  Proof.
    induction l as [|(s, v) l IH]; intros A; cbn [mutate_lets]; [eauto|]. inversion A as [|? ? A1 A2]; subst. destruct (able_def _ A1) as (v' & Q). cbn [snd] in Q. rewrite Q. cbn [bind]. destruct (enter_var x rep s); [|eauto].
    destruct (IH A2) as (l' & al & ->). cbn [bind]. eauto.
  Qed.
  Lemma able_stmt s : every_expr able s -> (exists z d, rep = EVar z f_none d) \/ no_buffer x s -> exists s', sub_stmt s = Val s'.
  Proof.
    induction s as [|t ins outs sc|src sx dst dx pad|l s c IHs|l IHl|s w y st b IHs|s w e ds b IHs|s p e ds b IHs|s v b IHs|s v b IHs
      |s v l b IHs|s v d y b IHs|s v l b IHs|s v d y b IHs|s v p b IHs|s s1 s2 IHs1 IHs2|c] using stmt_ind'; cbn [every_expr no_buffer]; intros A N.
    all: try rewrite sub_block; cbn [StmtSubst_Model.sub_stmt].
    all: try (assert (Bd : exists b', (if enter_var x rep s then sub_stmt b else Val b) = Val b');
      [destruct (enter_var x rep s); [apply IHs; tauto|eauto]|]; destruct Bd as (b' & Bd)).
    all: try (destruct (able_symbol v ltac:(tauto)) as (v' & ->); cbn [bind]).
    - eauto.
    - destruct (able_symbols ins ltac:(tauto)) as (i' & ->), (able_symbols outs ltac:(tauto)) as (o' & ->), (def_map mut able sc able_def A) as (sc' & ->). eexists. reflexivity.
    - destruct (able_symbol src ltac:(tauto)) as (src' & ->), (able_symbol dst ltac:(tauto)) as (dst' & ->). cbn [bind].
      assert (G : exists p', match pad with Some p => p' <- visit_symbol x rep p ;; Val (Some p') | None => Val None end = Val p').
      { destruct pad as [p|]; [|eauto]. destruct (able_symbol p) as (p' & ->); [|eexists; reflexivity]. destruct N as [N|(_ & _ & N)]; [auto|right; congruence]. }
      destruct G as (p' & ->). cbn [bind]. destruct (forallb _ _); [|eauto]. destruct (def_map mut able sx able_def A) as (sx' & ->). eexists. reflexivity.
    - destruct A as (A1 & A). destruct (able_lets l A1) as (l' & al & ->). cbn [bind]. destruct al; [|eexists; reflexivity]. destruct (IHs A N) as (b' & ->). eexists. reflexivity.
    - assert (G : exists l', sub_list x rep l = Val l').
      { apply every_go in A. assert (N' : (exists z d, rep = EVar z f_none d) \/ Forall (no_buffer x) l).
        { destruct N as [N|N]; [left; exact N|right]. clear -N. induction l as [|a l IH]; constructor; [tauto|apply IH; tauto]. }
        clear N. induction IHl as [|y l Hy _ IH]; [eexists; reflexivity|]. cbn [sub_list]. inversion A; subst. destruct (Hy ltac:(assumption)) as (y' & ->); [destruct N' as [N'|N']; [auto|right; inversion N'; assumption]|].
        destruct IH as (r & ->); [assumption|destruct N' as [N'|N']; [auto|right; inversion N'; assumption]|]. eexists. reflexivity. }
      destruct G as (l' & ->). eexists. reflexivity.
    - destruct A as (_ & A1 & A2 & _). destruct (able_interval _ A1) as (i' & ->), (able_def _ A2) as (st' & ->). cbn [bind]. rewrite Bd. eexists. reflexivity.
    - destruct A as (A1 & A2 & _). destruct (able_def _ A1) as (e' & ->), (def_map _ _ ds able_dim A2) as (ds' & ->). cbn [bind]. rewrite Bd. eexists. reflexivity.
    - destruct A as (A0 & A1 & A2 & _). destruct (able_def _ A0) as (p' & ->), (able_def _ A1) as (e' & ->), (def_map _ _ ds able_dim A2) as (ds' & ->). cbn [bind]. rewrite Bd. eexists. reflexivity.
    - rewrite Bd. eexists. reflexivity.
    - rewrite Bd. eexists. reflexivity.
    - destruct A as (A1 & _). destruct (able_crops v' l A1 0) as (l' & ->). cbn [bind]. rewrite Bd. eexists. reflexivity.
    - destruct A as (A1 & _). destruct (able_crop v' d y A1) as (i' & ->). cbn [bind]. rewrite Bd. eexists. reflexivity.
    - destruct A as (A1 & _). destruct (def_map mut able l able_def A1) as (l' & ->). cbn [bind]. rewrite Bd. eexists. reflexivity.
    - destruct A as (A1 & _). destruct (able_def _ A1) as (e' & ->). cbn [bind]. rewrite Bd. eexists. reflexivity.
    - rewrite Bd. eexists. reflexivity.
    - destruct s as [y|]; [|eauto]. destruct (enter_var x rep y); [|eexists; reflexivity]. destruct IHs1 as (t' & ->); [tauto..|]. destruct IHs2 as (b' & ->); [tauto..|]. eexists. reflexivity.
    - destruct (able_def _ A) as (c' & ->). eexists. reflexivity.
  Qed.
End Defined.

Lemma every_impl (P Q : expr -> Prop) s : (forall e, P e -> Q e) -> every_expr P s -> every_expr Q s.
Proof.
  intros I1. assert (Fe : forall l, Forall P l -> Forall Q l) by (intros l; apply Forall_impl; exact I1).
  assert (Ii : forall i, every_interval P i -> every_interval Q i) by (intros i (A & B); split; auto). assert (Id : forall d, every_dim P d -> every_dim Q d) by (intros d (A & B & C); split; [|split]; auto).
  induction s as [|t ins outs sc|src sx dst dx pad|l s c IHs|l IHl|s w y st b IHs|s w e ds b IHs|s p e ds b IHs|s v b IHs|s v b IHs
    |s v l b IHs|s v d y b IHs|s v l b IHs|s v d y b IHs|s v p b IHs|s s1 s2 IHs1 IHs2|c] using stmt_ind'; cbn [every_expr]; auto.
  - intros (A & B). auto.
  - intros A. induction IHl as [|a l Ha _ IH]; [exact I|]. destruct A as (A1 & A2). split; [exact (Ha A1)|exact (IH A2)].
  - intros (A & B & C & D). auto 10.
  - intros (A & B & C). split; [auto|]. split; [eapply Forall_impl; [exact Id|exact B]|auto].
  - intros (A0 & A & B & C). split; [auto|]. split; [auto|]. split; [eapply Forall_impl; [exact Id|exact B]|auto].
  - intros (A & B). split; [eapply Forall_impl; [exact Ii|exact A]|auto].
  - intros (A & B). auto.
  - intros (A & B). auto.
  - intros (A & B). auto.
  - intros (A & B). auto.
Qed.
Lemma every_and (P Q : expr -> Prop) s : every_expr P s -> every_expr Q s -> every_expr (fun e => P e /\ Q e) s.
Proof.
  assert (Fa : forall (A : Type) (R1 R2 R3 : A -> Prop) l, (forall a, R1 a -> R2 a -> R3 a) -> Forall R1 l -> Forall R2 l -> Forall R3 l) by (intros A R1 R2 R3 l G F1 F2; rewrite Forall_forall in *; auto).
  assert (Fe : forall l, Forall P l -> Forall Q l -> Forall (fun e => P e /\ Q e) l) by (intros l; apply Fa; auto).
  assert (Ii : forall i, every_interval P i -> every_interval Q i -> every_interval (fun e => P e /\ Q e) i) by (intros i (A & B) (C & D); split; auto).
  assert (Id : forall d, every_dim P d -> every_dim Q d -> every_dim (fun e => P e /\ Q e) d) by (intros d (A & B & C) (A' & B' & C'); split; [|split]; auto).
  induction s as [|t ins outs sc|src sx dst dx pad|l s c IHs|l IHl|s w y st b IHs|s w e ds b IHs|s p e ds b IHs|s v b IHs|s v b IHs
    |s v l b IHs|s v d y b IHs|s v l b IHs|s v d y b IHs|s v p b IHs|s s1 s2 IHs1 IHs2|c] using stmt_ind'; cbn [every_expr]; auto.
  - intros (A & B) (A' & B'). auto.
  - intros A B. induction IHl as [|a l Ha _ IH]; [exact I|]. destruct A as (A1 & A2), B as (B1 & B2). split; [exact (Ha A1 B1)|exact (IH A2 B2)].
  - intros (A & B & C & D) (A' & B' & C' & D'). auto 10.
  - intros (A & B & C) (A' & B' & C'). split; [auto|]. split; [exact (Fa _ _ _ _ _ Id B B')|auto].
  - intros (A0 & A & B & C) (A0' & A' & B' & C'). split; [auto|]. split; [auto|]. split; [exact (Fa _ _ _ _ _ Id B B')|auto].
  - intros (A & B) (A' & B'). split; [exact (Fa _ _ _ _ _ Ii A A')|auto].
  - intros (A & B) (A' & B'). auto.
  - intros (A & B) (A' & B'). auto.
  - intros (A & B) (A' & B'). auto.
  - intros (A & B) (A' & B'). auto.
Qed.
