(** The evaluator does what the value semantics says: statements. *)
From Coq Require Import ZArith List Bool Lia.
From Verif Require Import Arith_Model Arith_Proofs Buf_Model Alloc_Model Expr_Model Expr_Proofs Stmt_Model Stmt_Spec Stmt_Proofs Deps_Spec VSem_Spec VMono_Proofs VSem_Proofs.
Import ListNotations.
Open Scope Z_scope.

Lemma vset_same E s v : vset E s v s = v. Proof. unfold vset. rewrite Nat.eqb_refl. reflexivity. Qed.
Lemma vset_other E s v x : x <> s -> vset E s v x = E x. Proof. intro n. unfold vset. apply Nat.eqb_neq in n. rewrite n. reflexivity. Qed.
Lemma vforget_in l E x : In x l -> vforget l E x = Undef.
Proof. intro I. unfold vforget. rewrite (proj2 (existsb_exists _ _)); [reflexivity|]. exists x. split; [exact I|apply Nat.eqb_refl]. Qed.
Lemma vforget_out l E x : ~ In x l -> vforget l E x = E x.
Proof.
  intro N. unfold vforget. destruct (existsb (Nat.eqb x) l) eqn:Ex; [|reflexivity]. exfalso. apply existsb_exists in Ex as (y & I & Q). apply Nat.eqb_eq in Q. subst. exact (N I).
Qed.
Lemma vforget_le l E x : vle (vforget l E x) (E x).
Proof. unfold vforget. destruct (existsb (Nat.eqb x) l); [exact Logic.I|apply vle_refl]. Qed.

(** ** Tables of allocations *)
Lemma set_nth_app1 {A} (l : list A) d v r : (d < length l)%nat -> set_nth (l ++ r) d v = set_nth l d v ++ r.
Proof. revert d; induction l as [|y l IH]; intros [|d] L; cbn [length app set_nth] in *; try lia; [reflexivity|]. rewrite IH by lia. reflexivity. Qed.
Lemma set_nth_app2 {A} (l : list A) v x : set_nth (l ++ [x]) (length l) v = l ++ [v].
Proof. induction l as [|y l IH]; cbn [length app set_nth]; [reflexivity|]. rewrite IH. reflexivity. Qed.
Lemma table_at l id a : NoDup (map fst l) -> nth_error (rev (map fst l)) id = Some a ->
  exists p, nth_error (rev (map snd l)) id = Some p /\ lookup_alloc l a = Some p /\
    map snd (clear_alloc l a) = rev (set_nth (rev (map snd l)) id 0).
Proof.
  induction l as [|(k, p) l IH]; cbn [map rev fst snd lookup_alloc clear_alloc]; intros N L; [destruct id; discriminate|].
  apply NoDup_cons_iff in N as (N1 & N2).
  assert (Lid : (id < length l)%nat \/ id = length l).
  { assert (nth_error (rev (map fst l) ++ [k]) id <> None) as Lt by congruence. apply nth_error_Some in Lt. rewrite app_length, rev_length, map_length in Lt. cbn in Lt. lia. }
  destruct Lid as [Lid| ->].
  - rewrite nth_error_app1 in L by (rewrite rev_length, map_length; exact Lid).
    destruct (IH N2 L) as (q & Q1 & Q2 & Q3). exists q.
    rewrite nth_error_app1 by (rewrite rev_length, map_length; exact Lid). split; [exact Q1|].
    destruct (Z.eqb_spec k a) as [->|n].
    + exfalso. apply N1. apply nth_error_In in L. rewrite <- in_rev in L. exact L.
    + split; [exact Q2|]. cbn [map snd]. rewrite Q3, set_nth_app1 by (rewrite rev_length, map_length; exact Lid). rewrite rev_app_distr. reflexivity.
  - rewrite nth_error_app2 in L by (rewrite rev_length, map_length; lia). rewrite rev_length, map_length, Nat.sub_diag in L. injection L as <-.
    exists p. rewrite nth_error_app2 by (rewrite rev_length, map_length; lia). rewrite rev_length, map_length, Nat.sub_diag. split; [reflexivity|].
    rewrite Z.eqb_refl. split; [reflexivity|]. cbn [map snd].
    replace (length l) with (length (rev (map snd l))) by (rewrite rev_length, map_length; reflexivity).
    rewrite set_nth_app2, rev_app_distr, rev_involutive. reflexivity.
Qed.

Section Sim.
  Variable X : Type.
  Variable H : host X.
  Variable call_v : nat -> list buf -> list buf -> list Z -> X -> Z * X.
  Variable copy_v : buf -> buf -> option buf -> (list Z -> option (list Z)) -> X -> X.
  Variable consts : Z -> option buf.
  Hypothesis Hcall : calls_by_value X H call_v.
  Notation state := (state X).
  Notation exec_t := (exec_t X).
  Notation rep := (represents X consts).
  Notation outside := (outside X).
  Notation quiet := (quiet X).
  Notation veval := (veval X H).
  Notation vexec := (vexec X H call_v copy_v consts).

  Definition seen (E : venv) (st : state) : Prop := sees E (s_buf X st) (s_ctx X st).
  Lemma seen_quiet E st st' : quiet st st' -> seen E st -> seen E st'.
  Proof. intros (c & -> & Q) S. exact (sees_ctx_eq _ _ _ _ S Q). Qed.

  Lemma rep_weaken E E' v st : (forall x, vle (E' x) (E x)) -> rep E v st -> rep E' v st.
  Proof.
    intros L [R1 R2 R3 R4 R5 R6]. split; auto.
    - intro x. specialize (L x). specialize (R1 x). destruct (E' x) as [|z|k b]; destruct (E x) as [|z'|k' b']; cbn [vle] in L; try contradiction; auto; [congruence|]. destruct L as (_ & ->). exact R1.
    - intros x k b Ex N. pose proof (L x) as Lx. rewrite Ex in Lx. destruct (E x) as [|z|k' b'] eqn:Ey; cbn [vle] in Lx; try contradiction. destruct Lx as (Lk & ->).
      assert (N' : alone k' = true) by (apply Lk; exact N).
      destruct (R2 x k' b' Ey N') as (A & B). split; [exact A|]. intros y ky byy Eyy Q.
      pose proof (L y) as Ly. rewrite Eyy in Ly. destruct (E y) as [|z|k2 b2] eqn:Ez; cbn [vle] in Ly; try contradiction. exact (B y k2 b2 Ez Q).
    - intros x k id b Ex Bk. pose proof (L x) as Lx. rewrite Ex in Lx. destruct (E x) as [|z|k' b'] eqn:Ey; cbn [vle] in Lx; try contradiction.
      destruct Lx as ((_ & Lk) & ->). apply (R3 x _ id _ Ey). destruct Lk; congruence.
  Qed.
  Lemma rep_ctx E v st c : ctx_eq (s_ctx X st) c -> rep E v st -> rep E v (set_ctx X st c).
  Proof.
    intros Q [R1 R2 R3 R4 R5 R6]. split; auto.
    - exact (sees_ctx_eq _ _ _ _ R1 Q).
    - intros x k b Ex N. cbn [s_ctx set_ctx]. rewrite (Q x). destruct (R2 x k b Ex N) as (A & B). split; [exact A|]. intros y k' b' Ey. rewrite (Q y). exact (B y k' b' Ey).
    - intros x k id b Ex. cbn [s_ctx set_ctx s_alloc]. rewrite (Q x). exact (R3 x k id b Ex).
  Qed.
  Lemma rep_quiet E v st st' : quiet st st' -> rep E v st -> rep E v st'.
  Proof. intros (c & -> & Q). exact (rep_ctx E v st c Q). Qed.
  Lemma rep_num E v st s z : rep E v st -> rep (vset E s (Num z)) v (set_ctx X st (ctx_set (s_ctx X st) s z)).
  Proof.
    intros [R1 R2 R3 R4 R5 R6]. split; auto.
    - apply sees_num. exact R1.
    - intros x k b Ex N. cbn [s_ctx set_ctx]. unfold vset in Ex. unfold ctx_set. destruct (Nat.eqb_spec x s); [discriminate|].
      destruct (R2 x k b Ex N) as (A & B). split; [exact A|]. intros y k' b' Ey. unfold vset in Ey. destruct (Nat.eqb_spec y s); [discriminate|]. exact (B y k' b' Ey).
    - intros x k id b Ex. cbn [s_ctx set_ctx s_alloc]. unfold vset in Ex. unfold ctx_set. destruct (Nat.eqb_spec x s); [discriminate|]. exact (R3 x k id b Ex).
  Qed.
  (** the address of a new object *)
  Lemma rep_fresh E v st x k b : rep E v st -> inv st -> E x = Buffer k b -> s_ctx X st x <> s_next X st.
  Proof. intros [R1 _ _ _ _ _] (I & _) Ex Q. specialize (R1 x). rewrite Ex, Q, I in R1 by lia. discriminate. Qed.
  Lemma rep_new_gen E v st s b k al v2 : rep E v st -> inv st ->
    (k = Own /\ al = s_alloc X st /\ v2 = v \/
     exists p, k = Owner (length (v_alloc X v)) /\ al = (s_next X st, p) :: s_alloc X st /\ v2 = v_set_alloc X v (p :: v_alloc X v)) ->
    rep (vset E s (Buffer k b)) v2 (set_ctx X (set_alloc X (set_next X (set_buf X st (s_next X st) (Some b)) (s_next X st + 1)) al) (ctx_set (s_ctx X st) s (s_next X st))).
  Proof.
    intros R I C. pose proof (rep_fresh E v st) as Fr. pose proof R as [R1 R2 R3 R4 R5 R6].
    assert (Fc : consts (s_next X st) = None).
    { destruct (consts (s_next X st)) as [b'|] eqn:Ec; [|reflexivity]. apply R4 in Ec. rewrite (proj1 I) in Ec by lia. discriminate. }
    split; cbn [s_ctx s_buf s_alloc set_ctx set_alloc set_next set_buf].
    - intro x. cbn [s_buf s_ctx]. unfold vset, ctx_set. destruct (Nat.eqb_spec x s); [rewrite Z.eqb_refl; reflexivity|].
      pose proof (R1 x) as R1x. destruct (E x) as [|z|k' b'] eqn:Ex; auto. destruct (Z.eqb_spec (s_ctx X st x) (s_next X st)) as [Q|_]; [|exact R1x].
      exfalso. exact (Fr x k' b' R I Ex Q).
    - intros x k' b' Ex N. unfold vset in Ex. unfold ctx_set. destruct (Nat.eqb_spec x s) as [->|n].
      + split; [exact Fc|]. intros y ky byy Ey. unfold vset in Ey. destruct (Nat.eqb_spec y s); [congruence|]. intro Q. exfalso. exact (Fr y ky byy R I Ey Q).
      + destruct (R2 x k' b' Ex N) as (A & B). split; [exact A|]. intros y ky byy Ey. unfold vset in Ey. destruct (Nat.eqb_spec y s) as [->|n'].
        * intro Q. exfalso. exact (Fr x k' b' R I Ex (eq_sym Q)).
        * exact (B y ky byy Ey).
    - intros x k' id b' Ex Bk. unfold vset in Ex. unfold ctx_set. destruct (Nat.eqb_spec x s) as [->|n].
      + destruct C as [(-> & _)|(p & -> & -> & _)]; injection Ex as <- <-; [discriminate|]. injection Bk as <-. destruct R6 as (_ & -> & _). cbn [map fst rev].
        rewrite nth_error_app2 by (rewrite rev_length, !map_length; lia). rewrite rev_length, !map_length, Nat.sub_diag. reflexivity.
      + pose proof (R3 x k' id b' Ex Bk) as R3x. destruct C as [(_ & -> & _)|(p & _ & -> & _)]; [exact R3x|]. cbn [map fst rev].
        rewrite nth_error_app1; [exact R3x|]. apply nth_error_Some. congruence.
    - intros p b' Ec. destruct (Z.eqb_spec p (s_next X st)) as [->|_]; [congruence|exact (R4 p b' Ec)].
    - destruct C as [(_ & -> & _)|(p & _ & -> & _)]; [exact R5|]. cbn [map fst]. constructor; [|exact R5].
      intro J. apply in_map_iff in J as ((a, q) & Qa & J). cbn [fst] in Qa. subst a. destruct I as (_ & I). rewrite Forall_forall in I. specialize (I _ J). cbn in I. lia.
    - destruct R6 as (Q1 & Q2 & Q3). destruct C as [(_ & -> & ->)|(p & _ & -> & ->)]; [exact (conj Q1 (conj Q2 Q3))|].
      split; [exact Q1|]. split; [|exact Q3]. cbn. rewrite Q2. reflexivity.
  Qed.
  Lemma rep_new E v st s b : rep E v st -> inv st ->
    rep (vset E s (Buffer Own b)) v (set_ctx X (set_next X (set_buf X st (s_next X st) (Some b)) (s_next X st + 1)) (ctx_set (s_ctx X st) s (s_next X st))).
  Proof. intros R I. apply (rep_new_gen E v st s b Own (s_alloc X st) v R I). left. auto. Qed.
  Lemma rep_const E v st s p b : rep E v st -> consts p = Some b -> rep (vset E s (Buffer Shared b)) v (set_ctx X st (ctx_set (s_ctx X st) s p)).
  Proof.
    intros [R1 R2 R3 R4 R5 R6] Ec. split; auto; cbn [s_ctx s_buf s_alloc set_ctx].
    - intro x. unfold vset, ctx_set. destruct (Nat.eqb_spec x s); [exact (R4 p b Ec)|apply R1].
    - intros x k b' Ex N. unfold vset in Ex. unfold ctx_set. destruct (Nat.eqb_spec x s); [injection Ex as <- <-; discriminate|].
      destruct (R2 x k b' Ex N) as (A & B). split; [exact A|]. intros y k' b2 Ey. unfold vset in Ey. destruct (Nat.eqb_spec y s); [intros ->; congruence|]. exact (B y k' b2 Ey).
    - intros x k id b' Ex Bk. unfold vset in Ex. unfold ctx_set. destruct (Nat.eqb_spec x s); [injection Ex as <- <-; discriminate|]. exact (R3 x k id b' Ex Bk).
  Qed.
  Lemma rep_alias E v st s y k b : rep E v st -> E y = Buffer k b ->
    rep (vset (vset E y (Buffer (Kind false (block k)) b)) s (Buffer (Kind false (block k)) b)) v (set_ctx X st (ctx_set (s_ctx X st) s (s_ctx X st y))).
  Proof.
    intros R Ey. destruct (Nat.eq_dec y s) as [->|N0].
    { apply (rep_weaken E); [|apply rep_ctx; [|exact R]].
      - intro x. unfold vset. destruct (Nat.eqb_spec x s) as [->|_]; [rewrite Ey; exact (share_vle (Buffer k b))|apply vle_refl].
      - intro x. unfold ctx_set. destruct (Nat.eqb_spec x s) as [->|]; reflexivity. }
    destruct R as [R1 R2 R3 R4 R5 R6]. split; auto; cbn [s_ctx s_buf s_alloc set_ctx].
    - pose proof (R1 y) as Sy. rewrite Ey in Sy. intro x. unfold vset, ctx_set. destruct (Nat.eqb_spec x s); [exact Sy|]. destruct (Nat.eqb_spec x y) as [->|]; [exact Sy|apply R1].
    - intros x k' b' Ex N. unfold vset in Ex. unfold ctx_set. destruct (Nat.eqb_spec x s); [injection Ex as <- <-; discriminate|]. destruct (Nat.eqb_spec x y) as [->|n1]; [injection Ex as <- <-; discriminate|].
      destruct (R2 x k' b' Ex N) as (A & B). split; [exact A|]. intros u k2 b2 Eu Q. unfold vset in Eu. destruct (Nat.eqb_spec u s) as [->|].
      + exfalso. apply n1. symmetry. exact (B y k b Ey Q).
      + destruct (Nat.eqb_spec u y) as [->|]; [exact (B y k b Ey Q)|exact (B u k2 b2 Eu Q)].
    - intros x k' id b' Ex Bk. unfold vset in Ex. unfold ctx_set. destruct (Nat.eqb_spec x s); [injection Ex as <- <-; exact (R3 y k id b Ey Bk)|].
      destruct (Nat.eqb_spec x y) as [->|]; [injection Ex as <- <-; exact (R3 y k id b Ey Bk)|]. exact (R3 x k' id b' Ex Bk).
  Qed.
  Lemma rep_change E v st s k b b' : rep E v st -> E s = Buffer k b -> alone k = true -> rep (vset E s (Buffer Own b')) v (set_buf X st (s_ctx X st s) (Some b')).
  Proof.
    intros [R1 R2 R3 R4 R5 R6] Es Nk. destruct (R2 s k b Es Nk) as (A0 & B0). split; auto; cbn [s_ctx s_buf s_alloc set_buf].
    - intro x. unfold vset. destruct (Nat.eqb_spec x s) as [->|n]; [rewrite Z.eqb_refl; reflexivity|]. pose proof (R1 x) as R1x. destruct (E x) as [|z|kx bx] eqn:Ex; auto.
      destruct (Z.eqb_spec (s_ctx X st x) (s_ctx X st s)) as [Q|_]; [|exact R1x]. exfalso. apply n. exact (B0 x kx bx Ex Q).
    - intros x kx bx Ex N. unfold vset in Ex. destruct (Nat.eqb_spec x s) as [->|n].
      + split; [exact A0|]. intros y ky byy Ey Q. unfold vset in Ey. destruct (Nat.eqb_spec y s); [assumption|]. exact (B0 y ky byy Ey Q).
      + destruct (R2 x kx bx Ex N) as (A & B). split; [exact A|]. intros y ky byy Ey Q. unfold vset in Ey. destruct (Nat.eqb_spec y s) as [->|]; [exact (B s k b Es Q)|exact (B y ky byy Ey Q)].
    - intros x kx id bx Ex Bk. unfold vset in Ex. destruct (Nat.eqb_spec x s); [injection Ex as <- <-; discriminate|]. exact (R3 x kx id bx Ex Bk).
    - intros p bp Ec. destruct (Z.eqb_spec p (s_ctx X st s)) as [->|]; [congruence|exact (R4 p bp Ec)].
  Qed.
  Lemma rep_step A q E v st z v1 st1 : rep E v st -> step X A q st z st1 -> outside v1 st1 -> rep (vforget A E) v1 st1.
  Proof.
    intros [R1 R2 R3 R4 R5 R6] [K1 K2 K3 K4 _] O.
    assert (Fg : forall x k b, vforget A E x = Buffer k b -> E x = Buffer k b /\ s_ctx X st1 x = s_ctx X st x).
    { intros x k b Ex. destruct (in_dec Nat.eq_dec x A) as [J|J]; [rewrite vforget_in in Ex by exact J; discriminate|]. rewrite vforget_out in Ex by exact J. split; [exact Ex|exact (K1 x J)]. }
    split; auto.
    - intro x. destruct (in_dec Nat.eq_dec x A) as [J|J]; [rewrite vforget_in by exact J; exact Logic.I|]. rewrite vforget_out by exact J.
      pose proof (R1 x) as R1x. destruct (E x); auto; rewrite (K1 x J); [exact R1x|rewrite K2; exact R1x].
    - intros x k b Ex N. destruct (Fg _ _ _ Ex) as (Ex' & ->). destruct (R2 x k b Ex' N) as (P & Q). split; [exact P|]. intros y k' b' Ey. destruct (Fg _ _ _ Ey) as (Ey' & ->). exact (Q y k' b' Ey').
    - intros x k id b Ex Bk. destruct (Fg _ _ _ Ex) as (Ex' & ->). rewrite (table_keys _ _ K4). exact (R3 x k id b Ex' Bk).
    - intros p b Ec. rewrite K2. exact (R4 p b Ec).
    - rewrite (table_keys _ _ K4). exact R5.
  Qed.
  Lemma rep_out E v st v1 st1 : rep E v st -> s_ctx X st1 = s_ctx X st -> s_buf X st1 = s_buf X st -> s_alloc X st1 = s_alloc X st -> outside v1 st1 -> rep E v1 st1.
  Proof.
    intros [R1 R2 R3 R4 R5 R6] Q1 Q2 Q3 O. split; rewrite ?Q1, ?Q2, ?Q3; auto.
  Qed.

  (** ** Expressions *)
  Lemma ev_v e E st z : lets_distinct e -> seen E st -> veval E e = Val z -> exists st1, ev X H st e = Val (z, st1) /\ quiet st st1.
  Proof.
    intros D S V. destruct (eval_veval (world_of X H st) X H eq_refl eq_refl e D E (s_ctx X st) z S V) as (c & Ec & Q).
    exists (set_ctx X st c). unfold ev. rewrite Ec. split; [reflexivity|]. exists c. auto.
  Qed.
  Lemma ev_def_v e E st z d : lets_distinct e -> seen E st -> veval_def X H E e d = Val z -> exists st1, ev_def X H st e d = Val (z, st1) /\ quiet st st1.
  Proof.
    intros D S V. unfold veval_def in V. unfold ev_def. destruct (defined e); [exact (ev_v e E st z D S V)|]. injection V as <-. exists st. split; [reflexivity|apply quiet_refl].
  Qed.
  Lemma ev_interval_v x E st lo hi : distinct_interval x -> seen E st -> vinterval X H E x = Val (lo, hi) -> exists st1, ev_interval X H st x = Val (lo, hi, st1) /\ quiet st st1.
  Proof.
    intros (D1 & D2) S V. unfold vinterval in V. apply bind_inv in V as (l & V1 & V). apply bind_inv in V as (h & V2 & V). injection V as -> ->.
    destruct (ev_v _ _ _ _ D1 S V1) as (st1 & E1 & Q1). destruct (ev_v _ _ st1 _ D2 (seen_quiet _ _ _ Q1 S) V2) as (st2 & E2 & Q2).
    exists st2. unfold ev_interval. rewrite E1. cbn [bind]. rewrite E2. split; [reflexivity|exact (quiet_trans _ _ _ _ Q1 Q2)].
  Qed.
  Lemma ev_interval_def_v x E st lo0 hi0 r : distinct_interval x -> seen E st -> vinterval_def X H E x lo0 hi0 = Val r ->
    exists st1, ev_interval_def X H st x lo0 hi0 = Val (fst r, snd r, st1) /\ quiet st st1.
  Proof.
    intros (D1 & D2) S V. unfold vinterval_def in V. apply bind_inv in V as (l & V1 & V). apply bind_inv in V as (h & V2 & V). injection V as <-.
    destruct (ev_def_v _ _ _ _ _ D1 S V1) as (st1 & E1 & Q1). destruct (ev_def_v _ _ st1 _ _ D2 (seen_quiet _ _ _ Q1 S) V2) as (st2 & E2 & Q2).
    exists st2. unfold ev_interval_def. rewrite E1. cbn [bind]. rewrite E2. split; [reflexivity|exact (quiet_trans _ _ _ _ Q1 Q2)].
  Qed.
  Lemma ev_dims_v auto ds : Forall distinct_dim ds -> forall E st dl, seen E st -> vdims X H E auto ds = Val dl -> exists st1, ev_dims X H auto ds st = Val (dl, st1) /\ quiet st st1.
  Proof.
    induction 1 as [|d ds (D1 & D2 & D3) D IH]; intros E st dl S V; cbn [vdims ev_dims] in *.
    - injection V as <-. exists st. split; [reflexivity|apply quiet_refl].
    - apply bind_inv in V as (dl' & V1 & V). apply bind_inv in V as (x & V2 & V). injection V as <-. unfold vdim in V2.
      apply bind_inv in V2 as ((lo, hi) & V3 & V2). apply bind_inv in V2 as (s & V4 & V2). apply bind_inv in V2 as (f & V5 & V2). injection V2 as <-.
      destruct (IH E st dl' S V1) as (s1 & -> & Q1). cbn [bind]. pose proof (seen_quiet _ _ _ Q1 S) as S1.
      destruct (ev_interval_v _ _ _ _ _ D1 S1 V3) as (s2 & -> & Q2). cbn [bind]. pose proof (seen_quiet _ _ _ Q2 S1) as S2.
      assert (T : exists s3, (if auto then ev_def X H s2 (de_stride d) auto_stride else ev X H s2 (de_stride d)) = Val (s, s3) /\ quiet s2 s3).
      { destruct auto; [exact (ev_def_v _ _ _ _ _ D2 S2 V4)|exact (ev_v _ _ _ _ D2 S2 V4)]. }
      destruct T as (s3 & -> & Q3). cbn [bind]. pose proof (seen_quiet _ _ _ Q3 S2) as S3.
      destruct (ev_def_v _ _ _ _ _ D3 S3 V5) as (s4 & -> & Q4). cbn [bind fst snd].
      exists s4. split; [reflexivity|]. exact (quiet_trans _ _ _ _ Q1 (quiet_trans _ _ _ _ Q2 (quiet_trans _ _ _ _ Q3 Q4))).
  Qed.
  Lemma slice_v ds : forall l E st p r, Forall lets_distinct l -> seen E st -> vslice X H E p ds l = Val r ->
    exists st1, slice_loop X H p ds l st = Val (r, st1) /\ quiet st st1.
  Proof.
    induction ds as [|d ds IH]; intros l E st p r D S V; cbn [vslice slice_loop] in *.
    - injection V as <-. exists st. split; [reflexivity|apply quiet_refl].
    - destruct l as [|x l]; [injection V as <-; exists st; split; [reflexivity|apply quiet_refl]|]. inversion D as [|? ? D1 D2]; subst. destruct (defined x).
      + destruct p as [q|]; [|exact (IH l E st None r D2 S V)].
        apply bind_inv in V as (y & V1 & V). destruct (ev_v _ _ _ _ D1 S V1) as (s1 & -> & Q1). cbn [bind].
        destruct (IH l E s1 _ r D2 (seen_quiet _ _ _ Q1 S) V) as (s2 & -> & Q2). exists s2. split; [reflexivity|exact (quiet_trans _ _ _ _ Q1 Q2)].
      + apply bind_inv in V as ((q, l') & V1 & V). injection V as <-. destruct (IH l E st p _ D2 S V1) as (s1 & -> & Q1). cbn [bind fst snd]. exists s1. auto.
  Qed.
  Lemma crop_clone_v l : Forall distinct_interval l -> forall E st b d b', seen E st -> vcrop X H E b d l = Val b' ->
    exists st1, crop_clone X H b d l st = Val (b', st1) /\ quiet st st1.
  Proof.
    induction 1 as [|x l D1 D IH]; intros E st b d b' S V; cbn [vcrop crop_clone] in *.
    - injection V as <-. exists st. split; [reflexivity|apply quiet_refl].
    - destruct (rank b <=? d)%nat; [injection V as <-; exists st; split; [reflexivity|apply quiet_refl]|].
      apply bind_inv in V as (r & V1 & V). destruct (ev_interval_def_v _ _ _ _ _ _ D1 S V1) as (s1 & -> & Q1). cbn [bind].
      destruct (IH E s1 _ _ b' (seen_quiet _ _ _ Q1 S) V) as (s2 & -> & Q2). exists s2. split; [reflexivity|exact (quiet_trans _ _ _ _ Q1 Q2)].
  Qed.
  Lemma vbuffer_v E st x b : seen E st -> vbuffer E x = Val b -> s_buf X st (s_ctx X st x) = Some b /\ lookup_buffer X st x = Val b.
  Proof.
    intros S V. unfold vbuffer in V. specialize (S x). unfold lookup_buffer. destruct (E x); try discriminate. injection V as ->. rewrite S. auto.
  Qed.
  Lemma vbuffers_v E st l bs : seen E st -> vbuffers E l = Val bs -> Forall2 (fun y b => s_buf X st (s_ctx X st y) = Some b) l bs.
  Proof.
    intro S. revert bs. induction l as [|x l IH]; intros bs V; cbn [vbuffers] in V; [injection V as <-; constructor|].
    apply bind_inv in V as (b & V1 & V). apply bind_inv in V as (bs' & V2 & V). injection V as <-. constructor; [exact (proj1 (vbuffer_v _ _ _ _ S V1))|exact (IH _ V2)].
  Qed.

  (** ** Statements *)
  Definition sim (E : venv) (f : exec_t) (g : vbody X) : Prop :=
    forall v st z v', rep E v st -> inv st -> g v = Val (z, v') -> exists st', f st = Val (z, st') /\ outside v' st'.
  Lemma sim_weaken E E' f g : (forall x, vle (E x) (E' x)) -> sim E f g -> sim E' f g.
  Proof. intros L S v st z v' R. apply S. exact (rep_weaken _ _ _ _ L R). Qed.
  Lemma with_value_run E s a f g v st z v' : sim E f g -> rep E v (set_ctx X st (ctx_set (s_ctx X st) s a)) -> inv st -> g v = Val (z, v') ->
    exists st', with_value X s a f st = Val (z, st') /\ outside v' st'.
  Proof.
    intros S R I G. destruct (S v _ z v' R I G) as (st1 & E1 & O). unfold with_value. rewrite E1. cbn [bind]. eexists. split; [reflexivity|]. exact O.
  Qed.
  Lemma with_object_run E s b f g v st z v' : sim (vset E s (Buffer Own b)) f g -> rep E v st -> inv st -> g v = Val (z, v') ->
    exists st', with_object X s b f st = Val (z, st') /\ outside v' st'.
  Proof.
    intros S R I G. unfold with_object.
    destruct (with_value_run _ s (s_next X st) f g v (set_next X (set_buf X st (s_next X st) (Some b)) (s_next X st + 1)) z v' S) as (st1 & -> & O).
    - exact (rep_new E v st s b R I).
    - apply new_object_inv. exact I.
    - exact G.
    - cbn [bind]. eexists. split; [reflexivity|]. exact O.
  Qed.
  Lemma rep_seen E v st : rep E v st -> seen E st. Proof. intros [R1 _ _ _ _ _]. exact R1. Qed.
  Lemma ctx_set_self (c c' : context) s : ctx_eq c c' -> ctx_eq c (ctx_set c' s (c' s)).
  Proof. intros Q x. unfold ctx_set. destruct (Nat.eqb_spec x s) as [->|]; apply Q. Qed.
  Lemma ev_lets_v l : Forall lets_distinct (map snd l) -> forall E v st E1, rep E v st -> vlets X H l E = Val E1 ->
    exists st1 old, ev_lets X H l st = Val (st1, old) /\ rep E1 v st1 /\ (inv st -> inv st1).
  Proof.
    induction l as [|(s, x) l IH]; intros D E v st E1 R V; cbn [vlets ev_lets] in *.
    - injection V as <-. exists st, []. auto.
    - inversion D as [|? ? D1 D2]; subst. apply bind_inv in V as (E' & V1 & V).
      assert (N : forall r, veval E x = r -> (v0 <- r ;; Val (vset E s (Num v0))) = Val E' ->
        exists z st1, ev X H st x = Val (z, st1) /\ quiet st st1 /\ rep E' v (set_ctx X st1 (ctx_set (s_ctx X st1) s z))).
      { intros r Vr W. subst r. apply bind_inv in W as (z & Vz & W). injection W as <-. destruct (ev_v _ _ _ _ D1 (rep_seen _ _ _ R) Vz) as (st1 & E2 & Q).
        exists z, st1. split; [exact E2|]. split; [exact Q|]. apply rep_num. exact (rep_quiet _ _ _ _ Q R). }
      assert (M : exists z st1, ev X H st x = Val (z, st1) /\ quiet st st1 /\ rep E' v (set_ctx X st1 (ctx_set (s_ctx X st1) s z))).
      { unfold vlet in V1. destruct x as [|y f d| | | | | |]; try exact (N _ eq_refl V1). destruct f; try exact (N _ eq_refl V1). clear N.
        exists (s_ctx X st y), st. split; [unfold ev; cbn [eval bind]; destruct st; reflexivity|]. split; [apply quiet_refl|].
        destruct (E y) as [|z|k b] eqn:Ey; injection V1 as <-.
        - apply (rep_weaken (vset E s (Num (s_ctx X st y)))); [|apply rep_num; exact R]. intro x. unfold vset. destruct (Nat.eqb x s); [exact Logic.I|apply vle_refl].
        - pose proof (rep_seen _ _ _ R y) as Sy. rewrite Ey in Sy. rewrite Sy. apply rep_num. exact R.
        - exact (rep_alias _ _ _ _ _ _ _ R Ey). }
      destruct M as (z & st1 & -> & Q & R1). cbn [bind]. destruct (IH D2 E' v _ E1 R1 V) as (st2 & old & -> & R2 & I2). cbn [bind].
      eexists _, _. split; [reflexivity|]. split; [exact R2|]. intro I. apply I2. destruct Q as (c & -> & _). exact I.
  Qed.
  Lemma with_lets_sim l E f g : Forall lets_distinct (map snd l) -> (forall E1, vlets X H l E = Val E1 -> sim E1 f (g E1)) ->
    sim E (with_lets X H l f) (fun v => E1 <- vlets X H l E ;; g E1 v).
  Proof.
    intros D S v st z v' R I G. apply bind_inv in G as (E1 & V & G). destruct (ev_lets_v l D E v st E1 R V) as (st1 & old & El & R1 & I1).
    destruct (S E1 V v st1 z v' R1 (I1 I) G) as (st2 & Eb & O). unfold with_lets. rewrite El. cbn [bind]. rewrite Eb. cbn [bind]. eexists. split; [reflexivity|exact O].
  Qed.

  (** closures that only hand on symbols do nothing as lets *)
  Lemma plain_lets l : plain_closure l -> forall st, exists st1 old, ev_lets X H l st = Val (st1, old) /\ quiet st st1.
  Proof.
    induction 1 as [|(s, x) l (d & Hx) F IH]; intro st; cbn [ev_lets]; [exists st, []; split; [reflexivity|apply quiet_refl]|]. cbn [fst snd] in Hx. subst x.
    unfold ev. cbn [eval bind]. set (st1 := set_ctx X (set_ctx X st (s_ctx X st)) _). destruct (IH st1) as (st2 & old & -> & Q). cbn [bind]. eexists _, _. split; [reflexivity|].
    apply (quiet_trans _ _ st1); [|exact Q]. exists (ctx_set (s_ctx X st) s (s_ctx X st s)). split; [reflexivity|]. apply ctx_set_self. apply ctx_eq_refl.
  Qed.
  Lemma plain_parallel l : plain_closure l -> forall E acc E1, (forall x, vle (acc x) (E x)) -> vclosure E l acc = Val E1 -> forall x, vle (E1 x) (E x).
  Proof.
    induction 1 as [|(s, x) l (d & Hx) F IH]; intros E acc E1 L V; cbn [vclosure] in V; [injection V as <-; exact L|]. cbn [fst snd] in Hx. subst x.
    apply (IH E _ E1) with (2 := V). intro x. unfold vset. destruct (Nat.eqb_spec x s) as [->|]; [apply share_vle|apply L].
  Qed.

  (** in place *)
  Lemma in_place_run A q E s k b b' f g v st st1 z v' : good X A q f -> sim (vset E s (Buffer Own b')) f g -> E s = Buffer k b -> alone k = true ->
    rep E v st -> inv st -> quiet st st1 -> g v = Val (z, v') ->
    exists st2, f (set_buf X st1 (s_ctx X st s) (Some b')) = Val (z, st2) /\ outside v' st2 /\ s_buf X st2 (s_ctx X st s) = Some b'.
  Proof.
    intros Gf S Es Nk R I Q G.
    assert (Qs : s_ctx X st s = s_ctx X st1 s) by (destruct Q as (c & -> & Q); symmetry; apply Q). rewrite Qs.
    pose proof (rep_change _ _ _ _ _ _ b' (rep_quiet _ _ _ _ Q R) Es Nk) as R1.
    assert (I1 : inv (set_buf X st1 (s_ctx X st1 s) (Some b'))).
    { pose proof (rep_seen _ _ _ R s) as Ss. rewrite Es in Ss. destruct I as (I1 & I2). destruct Q as (c & -> & Q). cbn [s_ctx set_ctx set_buf] in *. rewrite <- Qs in *. split; [|exact I2].
      intros a La. cbn [s_buf s_next set_buf set_ctx] in *. destruct (Z.eqb_spec a (s_ctx X st s)) as [->|_]; [|exact (I1 a La)]. rewrite (I1 _ La) in Ss. discriminate. }
    destruct (S v _ z v' R1 I1 G) as (st2 & E2 & O). exists st2. split; [exact E2|]. split; [exact O|].
    rewrite (k_buf _ _ _ _ _ _ (Gf _ _ _ I1 E2)). cbn [s_buf set_buf]. rewrite Z.eqb_refl. reflexivity.
  Qed.
  Lemma in_place_kind E s : in_place E s s = Val tt -> forall b, vbuffer E s = Val b -> exists k, E s = Buffer k b /\ alone k = true.
  Proof.
    unfold in_place, vbuffer. rewrite Nat.eqb_refl. destruct (E s) as [|z|[[] o] b]; try discriminate. intros P b' Q. injection Q as ->. eexists. split; reflexivity.
  Qed.
  Lemma vinterval_def_mono E E' i a b r : le_on (fun x => free x (fst i) \/ free x (snd i)) E E' -> vinterval_def X H E i a b = Val r -> vinterval_def X H E' i a b = Val r.
  Proof.
    intros L V. unfold vinterval_def, veval_def in *. apply bind_inv in V as (lo & V1 & V). apply bind_inv in V as (hi & V2 & V).
    destruct (defined (fst i)); destruct (defined (snd i)); rewrite ?(veval_mono X H _ E E' _ (fun x Fx => L x (or_introl Fx)) V1), ?(veval_mono X H _ E E' _ (fun x Fx => L x (or_intror Fx)) V2); cbn [bind];
      repeat match goal with Q : Val _ = Val _ |- _ => injection Q as <- end; reflexivity.
  Qed.
  Lemma crop_in_place_v s l : Forall distinct_interval l -> Forall (fun i => ~ free s (fst i) /\ ~ free s (snd i)) l -> forall E v st b d b',
    rep (vset E s (Buffer Own b)) v st -> inv st -> vcrop X H E b d l = Val b' ->
    exists old st1, crop_in_place X H (s_ctx X st s) d l st = Val (old, st1) /\ rep (vset E s (Buffer Own b')) v st1 /\ inv st1 /\ s_ctx X st1 s = s_ctx X st s.
  Proof.
    induction 1 as [|x l D1 D IH]; intros F E v st b d b' R I V; cbn [vcrop crop_in_place] in *.
    - injection V as <-. exists [], st. auto.
    - inversion F as [|? ? (F1 & F2) F3]; subst. pose proof (rep_seen _ _ _ R s) as Ss. rewrite vset_same in Ss. rewrite Ss.
      destruct (rank b <=? d)%nat; [injection V as <-; exists [], st; auto|].
      apply bind_inv in V as (r & V1 & V).
      assert (V1' : vinterval_def X H (vset E s (Buffer Own b)) x (d_min (dim_at b d)) (d_max (dim_at b d)) = Val r).
      { apply (vinterval_def_mono E); [|exact V1]. intros y Fy. rewrite vset_other; [apply vle_refl|]. intros ->. tauto. }
      destruct (ev_interval_def_v _ _ _ _ _ _ D1 (rep_seen _ _ _ R) V1') as (s1 & -> & Q). cbn [bind].
      assert (Qs : s_ctx X s1 s = s_ctx X st s) by (destruct Q as (c & -> & Q); apply Q).
      pose proof (rep_change _ _ s1 s Own b (crop b d (fst r) (snd r)) (rep_quiet _ _ _ _ Q R) (vset_same _ _ _) eq_refl) as R1. rewrite Qs in R1.
      assert (I1 : inv (set_buf X s1 (s_ctx X st s) (Some (crop b d (fst r) (snd r))))).
      { destruct I as (I1 & I2). destruct Q as (c & -> & Q). cbn [s_ctx set_ctx set_buf] in *. split; [|exact I2].
        intros a La. cbn [s_buf s_next set_buf set_ctx] in *. destruct (Z.eqb_spec a (s_ctx X st s)) as [->|_]; [|exact (I1 a La)]. rewrite (I1 _ La) in Ss. discriminate. }
      assert (R2 : rep (vset E s (Buffer Own (crop b d (fst r) (snd r)))) v (set_buf X s1 (s_ctx X st s) (Some (crop b d (fst r) (snd r))))).
      { apply (rep_weaken _ _ _ _) with (2 := R1). intro y. unfold vset. destruct (Nat.eqb_spec y s); apply vle_refl. }
      destruct (IH F3 E v _ _ (S d) b' R2 I1 V) as (old & st2 & E2 & R3 & I3 & Q3). cbn [s_ctx set_buf] in E2, Q3. rewrite Qs in E2, Q3. rewrite E2. cbn [bind].
      eexists _, _. split; [reflexivity|]. auto.
  Qed.

  (** loops *)
  Lemma serial_v A q sym E f g lo hi stp : good X A q f -> (forall y, sim (vset (vforget A E) sym (Num y)) f (g y)) -> forall n i v st z v',
    rep (vset (vforget A E) sym Undef) v st -> inv st -> vserial X g lo hi stp n i v = Val (z, v') ->
    exists st', serial_loop X sym f lo hi stp n i st = Val (z, st') /\ outside v' st'.
  Proof.
    intros Gf S. induction n as [|n IH]; intros i v st z v' R I G; cbn [vserial serial_loop] in *; destruct ((lo <=? i) && (i <=? hi)).
    - discriminate.
    - injection G as <- <-. exists st. split; [reflexivity|]. exact (rp_outside _ _ _ _ _ R).
    - apply bind_inv in G as ((z1, v1) & G1 & G).
      assert (R1 : rep (vset (vforget A E) sym (Num i)) v (set_ctx X st (ctx_set (s_ctx X st) sym i))).
      { apply (rep_weaken (vset (vset (vforget A E) sym Undef) sym (Num i))); [|apply rep_num; exact R]. intro x. unfold vset. destruct (Nat.eqb x sym); apply vle_refl. }
      destruct (S i v _ z1 v1 R1 I G1) as (st1 & E1 & O1). rewrite E1. cbn [bind]. apply bind_inv in G as (i' & Ei & G). rewrite Ei. cbn [bind].
      pose proof (Gf _ _ _ (I : inv (set_ctx X st _)) E1) as K. destruct (z1 =? 0).
      + apply (IH i' v1 st1 z v'); [|exact (step_inv _ _ _ _ _ _ (I : inv (set_ctx X st _)) K)|exact G].
        apply (rep_weaken (vforget A (vset (vforget A E) sym (Num i)))); [|exact (rep_step _ _ _ _ _ _ _ _ R1 K O1)].
        intro x. destruct (in_dec Nat.eq_dec x A) as [J|J].
        * unfold vset. destruct (Nat.eqb x sym); [exact Logic.I|]. rewrite vforget_in by exact J. exact Logic.I.
        * rewrite (vforget_out A (vset _ _ _)) by exact J. unfold vset. destruct (Nat.eqb x sym); [exact Logic.I|apply vle_refl].
      + injection G as <- <-. exists st1. auto.
    - injection G as <- <-. exists st. split; [reflexivity|]. exact (rp_outside _ _ _ _ _ R).
  Qed.

  (** contexts of workers and tasks *)
  Definition means (keys : list Z) (m : Z -> option buf) (v : value) (a : Z) : Prop :=
    match v with
    | Undef => True
    | Num z => a = z
    | Buffer k b => m a = Some b /\ forall id, block k = Some id -> nth_error (rev keys) id = Some a
    end.
  Definition sees_but (o : option nat) (E : venv) (keys : list Z) (m : Z -> option buf) (c : context) : Prop := forall x, o <> Some x -> means keys m (E x) (c x).
  Definition all_shared (E : venv) : Prop := forall x k b, E x = Buffer k b -> alone k = false.
  Lemma share_shared v k b : share v = Buffer k b -> alone k = false.
  Proof. destruct v; cbn; try congruence. intro Q. injection Q as <- _. reflexivity. Qed.
  Lemma means_share keys m v a : means keys m v a -> means keys m (share v) a.
  Proof. destruct v; exact (fun M => M). Qed.
  Lemma init_closure_v keys m E parent o l : sees_but None E keys m parent -> forall acc c E1, sees_but o acc keys m c -> all_shared acc -> vclosure E l acc = Val E1 ->
    exists c1, init_closure parent o l c = Val c1 /\ sees_but o E1 keys m c1 /\ all_shared E1.
  Proof.
    intro S. induction l as [|(s, x) l IH]; intros acc c E1 Sa Ha V; cbn [vclosure init_closure] in *.
    - injection V as <-. eauto.
    - destruct x as [|y f d| | | | | |]; try discriminate. destruct f; try discriminate.
      assert (Ha' : all_shared (vset acc s (share (E y)))).
      { intros x k b. unfold vset. destruct (Nat.eqb x s); [apply share_shared|apply Ha]. }
      destruct (match o with Some e => Nat.eqb s e | None => false end) eqn:Ho.
      + destruct o as [e|]; [|discriminate]. apply Nat.eqb_eq in Ho. subst e. apply (IH _ c E1 ) with (2 := Ha') (3 := V).
        intros x Nx. rewrite vset_other by congruence. exact (Sa x Nx).
      + apply (IH _ (ctx_set c s (parent y)) E1) with (2 := Ha') (3 := V). intros x Nx. unfold vset, ctx_set. destruct (Nat.eqb_spec x s); [|exact (Sa x Nx)].
        apply means_share. apply S. discriminate.
  Qed.
  Lemma init_context_v keys m E parent cl o E1 : sees_but None E keys m parent -> vparallel E cl = Val E1 ->
    exists c1, init_context X H parent cl o = Val c1 /\ sees_but o E1 keys m c1 /\ all_shared E1.
  Proof.
    intros S V. destruct cl as [l|]; cbn [vparallel init_context] in *.
    - apply (init_closure_v keys m E parent o l S _ _ E1) with (3 := V); [intros x _; exact Logic.I|intros x k b Q; discriminate].
    - injection V as <-. exists parent. split; [reflexivity|]. split.
      + intros x _. unfold vshare. apply means_share. apply S. discriminate.
      + intros x k b. apply share_shared.
  Qed.
  Notation keys st := (map fst (s_alloc X st)).
  Lemma rep_shared E v st c : rep (fun _ => Undef) v st -> all_shared E -> sees_but None E (keys st) (s_buf X st) c -> rep E v (set_ctx X st c).
  Proof.
    intros [_ _ _ R4 R5 R6] Ha S. split; auto.
    - intro x. specialize (S x ltac:(discriminate)). cbn [s_buf s_ctx set_ctx]. destruct (E x); [exact Logic.I|exact S|exact (proj1 S)].
    - intros x k b Ex N. rewrite (Ha x k b Ex) in N. discriminate.
    - intros x k id b Ex Bk. specialize (S x ltac:(discriminate)). rewrite Ex in S. exact (proj2 S id Bk).
  Qed.
  Lemma rep_means E v st : rep E v st -> sees_but None E (keys st) (s_buf X st) (s_ctx X st).
  Proof.
    intros [R1 _ R3 _ _ _] x _. pose proof (R1 x) as R1x. destruct (E x) as [|z|k b] eqn:Ex; [exact Logic.I|exact R1x|]. split; [exact R1x|]. intros id Bk. exact (R3 x k id b Ex Bk).
  Qed.
  Lemma means_ext ks m m' v a : (forall p, m' p = m p) -> means ks m v a -> means ks m' v a.
  Proof. intros Q M. destruct v; auto. destruct M as (M1 & M2). split; [rewrite Q; exact M1|exact M2]. Qed.
  Lemma rep_none E v st : rep E v st -> rep (fun _ => Undef) v st.
  Proof. apply rep_weaken. intro x. exact Logic.I. Qed.
  Lemma sees_ext E m m' c : (forall a, m' a = m a) -> sees E m c -> sees E m' c.
  Proof. intros Q S x. specialize (S x). destruct (E x); auto. rewrite Q. exact S. Qed.
  Lemma par_v A q sym f g E E1 parent cl lo stp : good X A q f -> (forall y, sim (vset (vforget A E1) sym (Num y)) f (g y)) -> vparallel E cl = Val E1 ->
    forall sched wc result v st z v', rep (fun _ => Undef) v st -> inv st -> sees_but None E (keys st) (s_buf X st) parent ->
    (forall w c, wc w = Some c -> sees_but (Some sym) (vforget A E1) (keys st) (s_buf X st) c) ->
    vpar X g lo stp sched result v = Val (z, v') -> exists st', par_loop X H sym f parent cl lo stp sched wc result st = Val (z, st') /\ outside v' st'.
  Proof.
    intros Gf S Vp. induction sched as [|(w, i) sched IH]; intros wc result v st z v' R I Sp Hw G; cbn [vpar par_loop] in *.
    - injection G as <- <-. exists st. split; [reflexivity|exact (rp_outside _ _ _ _ _ R)].
    - destruct (init_context_v _ _ E parent cl (Some sym) E1 Sp Vp) as (c0 & Ec0 & Sc0 & Ha).
      assert (C : exists c, match wc w with Some c => Val c | None => init_context X H parent cl (Some sym) end = Val c /\ sees_but (Some sym) (vforget A E1) (keys st) (s_buf X st) c).
      { destruct (wc w) as [c|] eqn:Ew; [exists c; split; [reflexivity|exact (Hw _ _ Ew)]|]. exists c0. split; [exact Ec0|]. intros x Nx. specialize (Sc0 x Nx). unfold vforget. destruct (existsb (Nat.eqb x) A); [exact Logic.I|exact Sc0]. }
      destruct C as (c & -> & Sc). cbn [bind]. apply bind_inv in G as (t & -> & G). cbn [bind]. apply bind_inv in G as (y & -> & G). cbn [bind].
      apply bind_inv in G as ((z1, v1) & G1 & G).
      assert (R1 : rep (vset (vforget A E1) sym (Num y)) v (set_ctx X st (ctx_set c sym y))).
      { apply rep_shared; [exact R| |].
        - intros x k b. unfold vset. destruct (Nat.eqb x sym); [discriminate|]. unfold vforget. destruct (existsb (Nat.eqb x) A); [discriminate|]. apply Ha.
        - intros x _. unfold vset, ctx_set. destruct (Nat.eqb_spec x sym); [reflexivity|]. apply Sc. congruence. }
      destruct (S y v _ z1 v1 R1 I G1) as (st1 & E2 & O1). rewrite E2. cbn [bind]. pose proof (Gf _ _ _ (I : inv (set_ctx X st _)) E2) as K.
      pose proof (rep_step _ _ _ _ _ _ _ _ R1 K O1) as R2.
      apply (IH _ _ v1 st1 z v') with (5 := G).
      + exact (rep_none _ _ _ R2).
      + exact (step_inv _ _ _ _ _ _ (I : inv (set_ctx X st _)) K).
      + rewrite (table_keys _ _ (k_table _ _ _ _ _ _ K)). intros x Nx. exact (means_ext _ _ _ _ _ (k_buf _ _ _ _ _ _ K) (Sp x Nx)).
      + intros w' c' Ew x Nx. destruct (w' =? w)%nat; [|].
        * injection Ew as <-. pose proof (rep_means _ _ _ R2 x ltac:(discriminate)) as Sx. destruct (in_dec Nat.eq_dec x A) as [J|J]; [rewrite vforget_in by exact J; exact Logic.I|].
          rewrite vforget_out in Sx by exact J. rewrite vset_other in Sx by congruence. exact Sx.
        * rewrite (table_keys _ _ (k_table _ _ _ _ _ _ K)). exact (means_ext _ _ _ _ _ (k_buf _ _ _ _ _ _ K) (Hw _ _ Ew x Nx)).
  Qed.
  Lemma new_context_v E cl E1 f g v st z v' : vparallel E cl = Val E1 -> sim E1 f g -> rep E v st -> inv st -> g v = Val (z, v') ->
    exists st', with_new_context X H cl f st = Val (z, st') /\ outside v' st'.
  Proof.
    intros Vp S R I G. destruct (init_context_v _ _ E (s_ctx X st) cl None E1 (rep_means _ _ _ R) Vp) as (c & Ec & Sc & Ha).
    assert (R1 : rep E1 v (set_ctx X st c)).
    { apply rep_shared; [exact (rep_none _ _ _ R)|exact Ha|exact Sc]. }
    destruct (S v _ z v' R1 I G) as (st1 & E2 & O). unfold with_new_context. rewrite Ec. cbn [bind]. rewrite E2. cbn [bind]. eexists. split; [reflexivity|exact O].
  Qed.

  (** allocation *)
  Lemma outside_event v st e : outside v st -> outside (v_event X v (unnamed e)) (log X st e).
  Proof. intros (A & B & C). split; [exact A|]. split; [exact B|]. cbn. rewrite map_app, C. reflexivity. Qed.
  Lemma outside_ext v st x : outside v st -> outside (v_set_ext X v x) (set_ext X st x).
  Proof. intros (A & B & C). split; [reflexivity|]. split; [exact B|exact C]. Qed.
  Lemma outside_free sym b p v st : outside v st -> outside (v_free X H sym b p v) (free_buffer X H sym b p st).
  Proof.
    intros O. unfold v_free, free_buffer. apply (outside_event _ _ (EvFree sym p)). rewrite (proj1 O). apply outside_ext. exact O.
  Qed.
  Lemma allocate_v A q sym w elem ds E f g : lets_distinct elem -> Forall distinct_dim ds -> good X A q f -> (forall b, sim (vset E sym b) f (g b)) ->
    sim E (exec_allocate X H sym w elem ds f) (fun v => es <- veval E elem ;; dl <- vdims X H E true ds ;; vallocate X H sym w es dl g v).
  Proof.
    intros D1 D2 Gf S v st z v' R I G. apply bind_inv in G as (es & V1 & G). apply bind_inv in G as (dl & V2 & G).
    unfold exec_allocate. destruct (ev_v _ _ _ _ D1 (rep_seen _ _ _ R) V1) as (st1 & -> & Q1). cbn [bind].
    destruct (ev_dims_v _ _ D2 _ _ _ (seen_quiet _ _ _ Q1 (rep_seen _ _ _ R)) V2) as (st2 & -> & Q2). cbn [bind].
    pose proof (rep_quiet _ _ _ _ (quiet_trans _ _ _ _ Q1 Q2) R) as R2. pose proof (quiet_inv _ _ _ (quiet_trans _ _ _ _ Q1 Q2) I) as I2. clear Q1 Q2 R I.
    unfold vallocate in G. set (b := Buf None es dl) in *. apply bind_inv in G as (r & Gr & G).
    assert (Hp : forall b0, exists b' p v3 st3, v_heap X H sym b0 v = (b', p, v3) /\ heap_allocate X H sym b0 st2 = (b', p, st3) /\ rep E v3 st3 /\ inv st3).
    { intro b0. pose proof (rp_outside _ _ _ _ _ R2) as O. unfold v_heap, heap_allocate. rewrite (proj1 O). destruct (h_allocate X H sym b0 (s_ext X st2)) as ((b', p), x).
      eexists _, _, _, _. split; [reflexivity|]. split; [reflexivity|]. split; [|exact I2].
      apply (rep_out _ _ _ _ _ R2); try reflexivity. apply (outside_event _ _ (EvAlloc sym p)). apply outside_ext. exact O. }
    assert (C : r = None /\ match w with
       | heap => Val (Some (heap_allocate X H sym b st2))
       | _ => r <- init_strides b (h_stride_alignment X H) ;; let '(b', size) := r in
             match size with
             | None => Val None
             | Some n =>
                 if match w with stack => true | _ => n <=? h_auto_stack_threshold X H end
                 then Val (Some (Buf (Some (h_alloca X H b' n (s_ext X st2))) (elem_size b') (dims b'), 0, st2))
                 else Val (Some (heap_allocate X H sym b' st2))
             end
       end = Val None \/
       exists b' p v3 st3, r = Some (b', p, v3) /\ match w with
       | heap => Val (Some (heap_allocate X H sym b st2))
       | _ => r <- init_strides b (h_stride_alignment X H) ;; let '(b', size) := r in
             match size with
             | None => Val None
             | Some n =>
                 if match w with stack => true | _ => n <=? h_auto_stack_threshold X H end
                 then Val (Some (Buf (Some (h_alloca X H b' n (s_ext X st2))) (elem_size b') (dims b'), 0, st2))
                 else Val (Some (heap_allocate X H sym b' st2))
             end
       end = Val (Some (b', p, st3)) /\ rep E v3 st3 /\ inv st3).
    { destruct w.
      - apply bind_inv in Gr as ((b', size) & -> & Gr). cbn [bind]. destruct size as [n|]; [|injection Gr as <-; left; auto]. destruct (n <=? h_auto_stack_threshold X H).
        + injection Gr as <-. right. eexists _, _, _, _. split; [reflexivity|]. rewrite (proj1 (rp_outside _ _ _ _ _ R2)). auto.
        + destruct (Hp b') as (b1 & p & v3 & st3 & Hv & -> & R3 & I3). rewrite Hv in Gr. injection Gr as <-. right. eexists _, _, _, _. split; [reflexivity|]. auto.
      - apply bind_inv in Gr as ((b', size) & -> & Gr). cbn [bind]. destruct size as [n|]; [|injection Gr as <-; left; auto].
        injection Gr as <-. right. eexists _, _, _, _. split; [reflexivity|]. rewrite (proj1 (rp_outside _ _ _ _ _ R2)). auto.
      - destruct (Hp b) as (b1 & p & v3 & st3 & Hv & -> & R3 & I3). rewrite Hv in Gr. injection Gr as <-. right. eexists _, _, _, _. split; [reflexivity|]. auto. }
    cbv zeta. destruct C as [(-> & ->)|(b' & p & v3 & st3 & -> & -> & R3 & I3)]; cbn [bind].
    { injection G as <- <-. eexists. split; [reflexivity|]. apply (outside_event _ _ (EvFailed sym)). exact (rp_outside _ _ _ _ _ R2). }
    clear Hp Gr R2 I2 V1 V2 st st1 st2 b v. destruct (alloc_fails b').
    { injection G as <- <-. eexists. split; [reflexivity|]. pose proof (outside_event _ _ (EvFailed sym) (rp_outside _ _ _ _ _ R3)) as O.
      destruct (p =? 0); [exact O|]. apply outside_free. exact O. }
    apply bind_inv in G as ((z4, v4) & G4 & G).
    set (st0 := set_alloc X (set_next X (set_buf X st3 (s_next X st3) (Some b')) (s_next X st3 + 1)) ((s_next X st3, p) :: s_alloc X st3)) in *.
    assert (I0 : inv st0).
    { destruct I3 as (I1 & I2). split; cbn [s_next s_buf s_alloc set_alloc set_next set_buf st0].
      - intros x Lx. destruct (Z.eqb_spec x (s_next X st3)); [lia|]. apply I1. lia.
      - constructor; [cbn [fst]; lia|]. eapply Forall_impl; [|exact I2]. cbn. intros; lia. }
    assert (R0 : rep (vset E sym (Buffer (Owner (length (v_alloc X v3))) b')) (v_set_alloc X v3 (p :: v_alloc X v3)) (set_ctx X st0 (ctx_set (s_ctx X st0) sym (s_next X st3)))).
    { apply (rep_new_gen E v3 st3 sym b' _ _ _ R3 I3). right. exists p. auto. }
    destruct (with_value_run _ sym (s_next X st3) f _ _ st0 z4 v4 (S _) R0 I0 G4) as (st4 & E4 & O4). rewrite E4. cbn [bind].
    pose proof (with_value_good _ A q sym (s_next X st3) f Gf _ _ _ I0 E4) as K. pose proof (k_buf _ _ _ _ _ _ K (s_next X st3)) as Kb.
    cbn [s_buf set_alloc set_next set_buf st0] in Kb. rewrite Z.eqb_refl in Kb. rewrite Kb.
    pose proof (k_table _ _ _ _ _ _ K) as Kt. cbn [s_alloc set_alloc st0] in Kt.
    destruct (s_alloc X st4) as [|(a4, p4) l4] eqn:Ea; [inversion Kt|]. inversion Kt as [|? ? ? ? (Ka & _) _]; subst. cbn [fst] in Ka. subst a4. clear Kt.
    cbn [lookup_alloc]. rewrite Z.eqb_refl. destruct O4 as (O1 & O2 & O3). rewrite Ea in O2. cbn [map snd] in O2. rewrite O2 in G.
    injection G as <- <-. eexists. split; [reflexivity|].
    assert (O5 : outside (if p4 =? 0 then v4 else v_free X H sym b' p4 v4) (if p4 =? 0 then st4 else free_buffer X H sym b' p4 st4)).
    { assert (O : outside v4 st4) by (split; [exact O1|split; [rewrite Ea; exact O2|exact O3]]). destruct (p4 =? 0); [exact O|apply outside_free; exact O]. }
    destruct O5 as (P1 & P2 & P3). split; [exact P1|]. split; [|exact P3]. cbn [v_alloc v_set_alloc s_alloc set_alloc].
    destruct (p4 =? 0); unfold free_buffer; cbn [s_alloc log set_ext]; rewrite Ea; cbn [remove_alloc]; rewrite Z.eqb_refl; reflexivity.
  Qed.

  (** checks *)
  Lemma check_v c E : lets_distinct c -> sim E (exec_check X H c) (vexec (SCheck c) E).
  Proof.
    intros D v st z v' R I G.
    assert (N : forall r, r = veval E c -> (y <- r ;; (if y =? 0 then Val (1, v_event X v EvCheckFailed) else Val (0, v))) = Val (z, v') ->
      exists st', (r <- ev X H st c ;; (let '(y, st1) := r in if y =? 0 then Val (1, log X st1 EvCheckFailed) else Val (0, st1))) = Val (z, st') /\ outside v' st').
    { intros r -> G'. apply bind_inv in G' as (y & V & G'). destruct (ev_v _ _ _ _ D (rep_seen _ _ _ R) V) as (st1 & -> & Q). cbn [bind].
      pose proof (rp_outside _ _ _ _ _ (rep_quiet _ _ _ _ Q R)) as O. destruct (y =? 0); injection G' as <- <-; eexists; (split; [reflexivity|]); [|exact O].
      apply (outside_event _ _ EvCheckFailed). exact O. }
    cbn [VSem_Spec.vexec] in G. unfold exec_check.
    destruct c as [| | | | | |fn t l|]; try exact (N _ eq_refl G).
    destruct fn; try exact (N _ eq_refl G).
    destruct l as [|x [|? ?]]; try exact (N _ eq_refl G);
      destruct x as [|s f d| | | | | |]; try exact (N _ eq_refl G); destruct f; try exact (N _ eq_refl G).
    clear N. destruct (E s) as [|y|[al [id|]] b] eqn:Es; try discriminate.
    pose proof (rep_seen _ _ _ R s) as Ss. rewrite Es in Ss. cbv zeta. rewrite Ss.
    destruct (table_at _ _ _ (rp_keys _ _ _ _ _ R) (rp_owner _ _ _ _ _ R s _ id b Es eq_refl)) as (p & T1 & T2 & T3). rewrite T2.
    pose proof (rp_outside _ _ _ _ _ R) as O. destruct O as (O1 & O2 & O3). rewrite O2, T1 in G. cbn [of_ bind] in G. injection G as <- <-.
    eexists. split; [reflexivity|]. destruct (outside_free s b p v st (rp_outside _ _ _ _ _ R)) as (P1 & P2 & P3). split; [exact P1|]. split; [|exact P3].
    cbn [v_alloc v_set_alloc s_alloc set_alloc]. unfold v_free, free_buffer. cbn [v_alloc v_event v_set_ext s_alloc log set_ext]. rewrite O2. symmetry. exact T3.
  Qed.

  Definition vinner (s : stmt) : venv -> vbody X := match s with SLet _ b true => vexec b | _ => vexec s end.
  Lemma vgo_block l : forall E v, vexec (SBlock l) E v =
    (fix go (l : list stmt) (E : venv) (v : vstate X) {struct l} : res (Z * vstate X) :=
           match l with
           | [] => Val (0, v)
           | x :: l' => r <- vexec x E v ;; let '(z, v1) := r in if z =? 0 then go l' (vforget (async_syms x) E) v1 else Val (z, v1)
           end) l E v.
  Proof. reflexivity. Qed.
  Lemma vexec_cons x l E v : vexec (SBlock (x :: l)) E v = (r <- vexec x E v ;; let '(z, v1) := r in if z =? 0 then vexec (SBlock l) (vforget (async_syms x) E) v1 else Val (z, v1)).
  Proof. reflexivity. Qed.
  Lemma exec_cons x l st : exec X H (SBlock (x :: l)) st = (r <- exec X H x st ;; let '(z, st1) := r in if z =? 0 then exec X H (SBlock l) st1 else Val (z, st1)).
  Proof. reflexivity. Qed.
  Lemma vexec_async sym task body E v : vexec (SAsync sym task body) E v =
    (Et <- vparallel (vforget (sym_list sym) E) (as_closure task) ;;
     let body_env := fun h => vparallel (match sym with Some s => vset E s (Num h) | None => E end) (as_closure body) in
     if h_pool X H then
       Eb <- body_env (h_task_handle X H (v_ext X v)) ;;
       if h_task_first X H (v_ext X v) then
         r <- vinner task Et v ;; let '(t, v1) := r in r <- vinner body Eb v1 ;; let '(z, v2) := r in Val (if t =? 0 then z else t, v2)
       else
         r <- vinner body Eb v ;; let '(z, v1) := r in r <- vinner task Et v1 ;; let '(t, v2) := r in Val (if t =? 0 then z else t, v2)
     else
       Eb <- body_env 0 ;;
       r <- vinner task Et v ;; let '(t, v1) := r in r <- vinner body Eb v1 ;; let '(z, v2) := r in Val (if t =? 0 then z else t, v2)).
  Proof.
    cbn [VSem_Spec.vexec]. unfold vinner, sym_list.
    destruct task as [| | |? ? []| | | | | | | | | | | | |]; destruct body as [| | |? ? []| | | | | | | | | | | | |]; reflexivity.
  Qed.
  Lemma vexec_loop sym w bounds stp body E v : vexec (SLoop sym w bounds stp body) E v =
    (k <- veval E w ;; i <- vinterval X H E bounds ;; s <- veval_def X H E stp 1 ;;
        let '(lo, hi) := i in
        if s =? 0 then UB
        else if 1 <? k then
          n <- par_count lo hi s ;;
          if n =? 0 then Val (0, v)
          else
            E1 <- vparallel E (as_closure body) ;;
            if n =? 1 then vinner body (vset (vforget (async_syms body) E1) sym (Num lo)) v
            else if h_pool X H then vpar X (fun y => vinner body (vset (vforget (async_syms body) E1) sym (Num y))) lo s (h_schedule X H n k (v_ext X v)) 0 v
            else UB
        else vserial X (fun y => vexec body (vset (vforget (async_syms body) E) sym (Num y))) lo hi s (Z.to_nat (hi - lo + 1)) lo v).
  Proof. cbn [VSem_Spec.vexec]. unfold vinner. destruct body as [| | |? ? []| | | | | | | | | | | | |]; reflexivity. Qed.
  Lemma exec_loop sym w bounds stp body st : exec X H (SLoop sym w bounds stp body) st =
    (r <- ev X H st w ;; let '(k, st0) := r in
        r <- ev_interval X H st0 bounds ;; let '(lo, hi, st1) := r in
        r <- ev_def X H st1 stp 1 ;; let '(s, st2) := r in
        if s =? 0 then UB
        else if 1 <? k then
          n <- par_count lo hi s ;;
          if n =? 0 then Val (0, st2)
          else if n =? 1 then with_value X sym lo (exec X H body) st2
          else if h_pool X H then
            r <- par_loop X H sym (inner X H body) (s_ctx X st2) (as_closure body) lo s (h_schedule X H n k (s_ext X st2)) (fun _ => None) 0 st2 ;;
            let '(z, st3) := r in Val (z, set_ctx X st3 (s_ctx X st2))
          else UB
        else
          let old := s_ctx X st2 sym in
          r <- serial_loop X sym (exec X H body) lo hi s (Z.to_nat (hi - lo + 1)) lo (set_ctx X st2 (ctx_set (s_ctx X st2) sym 0)) ;;
          let '(z, st3) := r in Val (z, set_ctx X st3 (ctx_set (s_ctx X st3) sym old))).
  Proof. cbn [exec]. unfold inner. destruct body as [| | |? ? []| | | | | | | | | | | | |]; reflexivity. Qed.
  Lemma vlist_v E st l vs : Forall lets_distinct l -> seen E st -> vlist X H E l = Val vs ->
    Forall2 (fun e z => exists c', eval (world_of X H st) (s_ctx X st) e = Val (z, c')) l vs.
  Proof.
    intros D S. revert vs. induction D as [|x l D1 D IH]; intros vs V; cbn [vlist] in V; [injection V as <-; constructor|].
    apply bind_inv in V as (y & V1 & V). apply bind_inv in V as (vs' & V2 & V). injection V as <-. constructor; [|exact (IH _ V2)].
    destruct (eval_veval (world_of X H st) X H eq_refl eq_refl x D1 E (s_ctx X st) y S V1) as (c & Ec & _). exists c. exact Ec.
  Qed.
  Lemma rep_run_set E v st sym z : rep E v st -> rep (match sym with Some s => vset E s (Num z) | None => E end) v (run_set X sym st z).
  Proof. intro R. destruct sym as [s|]; [apply rep_num; exact R|exact R]. Qed.
  Lemma by_value_go l : (fix go (l : list stmt) := match l with [] => True | x :: l' => by_value x /\ go l' end) l -> Forall by_value l.
  Proof. induction l as [|x l IH]; [constructor|]. intros (D1 & D2). constructor; [exact D1|exact (IH D2)]. Qed.
  Lemma sim_ext E f g g' : (forall v, g v = g' v) -> sim E f g -> sim E f g'.
  Proof. intros Q S v st z v' R I G. apply (S v st z v' R I). rewrite Q. exact G. Qed.
  Lemma outside_run_set v st sym z : outside v st -> outside v (run_set X sym st z).
  Proof. destruct sym; exact (fun O => O). Qed.
  Lemma forget_set sym E h x : vle (vforget (sym_list sym) E x) (match sym with Some s => vset E s (Num h) | None => E end x).
  Proof.
    destruct sym as [s|]; cbn [sym_list]; [|apply vforget_le]. destruct (Nat.eq_dec x s) as [->|n].
    - rewrite vforget_in by (left; reflexivity). exact Logic.I.
    - rewrite vforget_out by (intros [->|[]]; congruence). rewrite vset_other by exact n. apply vle_refl.
  Qed.

  Lemma closure_run E body f g : (forall l b, body = SLet l b true -> plain_closure l) ->
    f = inner X H body -> sim E f g -> sim E (exec X H body) g.
  Proof.
    intros P -> S. destruct body as [| | |l b []| | | | | | | | | | | | |]; try exact S. intros v st z v' R I G. cbn [inner] in S. cbn [exec]. unfold with_lets.
    destruct (plain_lets l (P l b eq_refl) st) as (st1 & old & -> & Q). cbn [bind].
    destruct (S v st1 z v' (rep_quiet _ _ _ _ Q R) (quiet_inv _ _ _ Q I) G) as (st2 & -> & O). cbn [bind]. eexists. split; [reflexivity|exact O].
  Qed.
  Lemma parallel_le E body E1 : (forall l b, body = SLet l b true -> plain_closure l) -> vparallel E (as_closure body) = Val E1 -> forall x, vle (E1 x) (E x).
  Proof.
    intros P V. assert (N : vparallel E None = Val E1 -> forall x, vle (E1 x) (E x)).
    { intro Q. injection Q as <-. intro x. apply share_vle. }
    destruct body as [| | |l b []| | | | | | | | | | | | |]; try exact (N V). cbn [as_closure vparallel] in V.
    apply (plain_parallel l (P l b eq_refl) E (fun _ => Undef) E1) with (2 := V). intro x. exact Logic.I.
  Qed.

  Theorem exec_vexec s : distinct s -> by_value s -> forall E, sim E (exec X H s) (vexec s E) /\ sim E (inner X H s) (vinner s E).
  Proof.
    assert (J : forall s, (forall E, sim E (exec X H s) (vexec s E)) -> inner X H s = exec X H s -> vinner s = vexec s ->
      forall E, sim E (exec X H s) (vexec s E) /\ sim E (inner X H s) (vinner s E)).
    { intros s0 G E1 E2 E. rewrite E1, E2. split; apply G. }
    induction s as [|t ins outs sc|src sx dst dx pad|l s c IHs|l IHl|s w x st b IHs|s w e ds b IHs|s p e ds b IHs|s v b IHs|s v b IHs
      |s v l b IHs|s v d x b IHs|s v l b IHs|s v d x b IHs|s v p b IHs|s s1 s2 IHs1 IHs2|c] using stmt_ind'; intros D B.
    - apply J; try reflexivity. intros E v st z v' R I G. discriminate.
    - apply J; try reflexivity. intros E v st z v' R I G. cbn [VSem_Spec.vexec] in G. cbn [exec]. cbn [by_value] in B.
      apply bind_inv in G as (bi & V1 & G). apply bind_inv in G as (bo & V2 & G). apply bind_inv in G as (vs & V3 & G). pose proof (rep_seen _ _ _ R) as Se.
      rewrite (Hcall t ins outs sc (s_ctx X st) (s_buf X st) (s_ext X st) bi bo vs (vbuffers_v _ _ _ _ Se V1) (vbuffers_v _ _ _ _ Se V2) (vlist_v _ _ _ _ B Se V3)).
      pose proof (rp_outside _ _ _ _ _ R) as O. rewrite <- (proj1 O). destruct (call_v t bi bo vs (v_ext X v)) as (r, x). injection G as <- <-.
      eexists. split; [reflexivity|]. apply (outside_event _ _ (EvCall t r)). apply outside_ext. exact O.
    - destruct B.
    - destruct D as (D1 & D2 & D3). destruct B as (_ & B). specialize (IHs D3 B). intro E.
      assert (S : sim E (exec X H (SLet l s c)) (vexec (SLet l s c) E)).
      { apply (with_lets_sim l E (exec X H s) (fun E1 => vexec s E1)); [exact D2|]. intros E1 _. apply IHs. }
      split; [exact S|]. unfold inner, vinner. destruct c; [apply IHs|exact S].
    - apply J; try reflexivity. cbn [distinct] in D. apply distinct_go in D. cbn [by_value] in B. apply by_value_go in B.
      induction l as [|x l IHl']; intros E v st z v' R I G.
      + injection G as <- <-. exists st. split; [reflexivity|exact (rp_outside _ _ _ _ _ R)].
      + inversion D as [|? ? D1 D2]; inversion B as [|? ? B1 B2]; inversion IHl as [|? ? P1 P2]; subst.
        rewrite vexec_cons in G. apply bind_inv in G as ((z1, v1) & G1 & G). rewrite exec_cons.
        destruct (proj1 (P1 D1 B1 E) v st z1 v1 R I G1) as (st1 & E1 & O1). rewrite E1. cbn [bind]. destruct (z1 =? 0); [|injection G as <- <-; eauto].
        pose proof (proj1 (exec_good X H x D1) _ _ _ I E1) as K.
        exact (IHl' P2 D2 B2 (vforget (async_syms x) E) v1 st1 z v' (rep_step _ _ _ _ _ _ _ _ R K O1) (step_inv _ _ _ _ _ _ I K) G).
    - apply J; try reflexivity. destruct D as (D1 & D2 & D3 & D4). cbn [by_value] in B. specialize (IHs D4 B). destruct (exec_good X H b D4) as (Gd & Gi).
      intros E v st' z v' R I G. rewrite vexec_loop in G. rewrite exec_loop.
      apply bind_inv in G as (k & V1 & G). apply bind_inv in G as ((lo, hi) & V2 & G). apply bind_inv in G as (stp & V3 & G).
      destruct (ev_v _ _ _ _ D1 (rep_seen _ _ _ R) V1) as (t1 & -> & Q1). cbn [bind]. pose proof (rep_quiet _ _ _ _ Q1 R) as R1.
      destruct (ev_interval_v _ _ _ _ _ D2 (rep_seen _ _ _ R1) V2) as (t2 & -> & Q2). cbn [bind]. pose proof (rep_quiet _ _ _ _ Q2 R1) as R2.
      destruct (ev_def_v _ _ _ _ _ D3 (rep_seen _ _ _ R2) V3) as (t3 & -> & Q3). cbn [bind]. pose proof (rep_quiet _ _ _ _ Q3 R2) as R3.
      pose proof (quiet_inv _ _ _ (quiet_trans _ _ _ _ Q1 (quiet_trans _ _ _ _ Q2 Q3)) I) as I3. clear Q1 Q2 Q3 R1 R2 R I V1 V2 V3 t1 t2.
      destruct (stp =? 0); [discriminate|]. destruct (1 <? k).
      + apply bind_inv in G as (n & -> & G). cbn [bind]. destruct (n =? 0); [injection G as <- <-; exists t3; split; [reflexivity|exact (rp_outside _ _ _ _ _ R3)]|].
        apply bind_inv in G as (E1 & Vp & G).
        assert (P : forall l b0, b = SLet l b0 true -> plain_closure l) by (intros l b0 ->; apply B; reflexivity).
        destruct (n =? 1).
        { apply (with_value_run _ _ _ _ _ _ _ _ _ (closure_run _ b _ _ P eq_refl (proj2 (IHs _)))) with (3 := G); [|exact I3].
          apply (rep_weaken (vset E s (Num lo))); [|apply rep_num; exact R3]. intro y. unfold vset. destruct (Nat.eqb y s); [apply vle_refl|].
          apply (vle_trans _ (E1 y)); [apply vforget_le|exact (parallel_le _ _ _ P Vp y)]. }
        destruct (h_pool X H); [|discriminate]. rewrite (proj1 (rp_outside _ _ _ _ _ R3)) in G.
        destruct (par_v _ _ s (inner X H b) (fun y => vinner b (vset (vforget (async_syms b) E1) s (Num y))) E E1 (s_ctx X t3) (as_closure b) lo stp Gi (fun y => proj2 (IHs _)) Vp
          (h_schedule X H n k (s_ext X t3)) (fun _ => None) 0 v t3 z v' (rep_none _ _ _ R3) I3 (rep_means _ _ _ R3) ltac:(intros ? ? Q; discriminate Q) G) as (t4 & -> & O).
        cbn [bind]. eexists. split; [reflexivity|exact O].
      + cbv zeta.
        destruct (serial_v _ _ s E (exec X H b) (fun y => vexec b (vset (vforget (async_syms b) E) s (Num y))) lo hi stp Gd (fun y => proj1 (IHs _)) (Z.to_nat (hi - lo + 1)) lo v
          (set_ctx X t3 (ctx_set (s_ctx X t3) s 0)) z v') as (t4 & -> & O); [|exact I3|exact G|cbn [bind]; eexists; split; [reflexivity|exact O]].
        apply (rep_weaken (vset E s (Num 0))); [|apply rep_num; exact R3]. intro y. unfold vset. destruct (Nat.eqb y s); [exact Logic.I|apply vforget_le].
    - apply J; try reflexivity. destruct D as (D1 & D2 & D3). cbn [by_value] in B. intro E.
      exact (allocate_v _ _ s w e ds E (exec X H b) (fun b0 => vexec b (vset E s b0)) D1 D2 (proj1 (exec_good X H b D3)) (fun b0 => proj1 (IHs D3 B (vset E s b0)))).
    - apply J; try reflexivity. destruct D as (D1 & D2 & D3 & D4). cbn [by_value] in B. specialize (IHs D4 B). intros E v st z v' R I G. cbn [VSem_Spec.vexec] in G. cbn [exec]. unfold exec_make.
      apply bind_inv in G as (es & V1 & G). apply bind_inv in G as (p0 & V2 & G). apply bind_inv in G as (dl & V3 & G).
      destruct (ev_def_v _ _ _ _ _ D2 (rep_seen _ _ _ R) V1) as (t1 & -> & Q1). cbn [bind]. pose proof (rep_quiet _ _ _ _ Q1 R) as R1.
      destruct (ev_def_v _ _ _ _ _ D1 (rep_seen _ _ _ R1) V2) as (t2 & -> & Q2). cbn [bind]. pose proof (rep_quiet _ _ _ _ Q2 R1) as R2.
      destruct (ev_dims_v _ _ D3 _ _ _ (rep_seen _ _ _ R2) V3) as (t3 & -> & Q3). cbn [bind]. pose proof (rep_quiet _ _ _ _ Q3 R2) as R3.
      pose proof (quiet_inv _ _ _ (quiet_trans _ _ _ _ Q1 (quiet_trans _ _ _ _ Q2 Q3)) I) as I3. cbv zeta in *. destruct (validate_buffer _).
      + exact (with_object_run E s _ _ _ _ _ _ _ (proj1 (IHs _)) R3 I3 G).
      + injection G as <- <-. eexists. split; [reflexivity|]. apply (outside_event _ _ (EvFailed s)). exact (rp_outside _ _ _ _ _ R3).
    - apply J; try reflexivity. cbn [by_value distinct] in *. intros E v0 st z v' R I G. cbn [VSem_Spec.vexec] in G. cbn [exec].
      destruct (consts v) as [b0|] eqn:Ec; [|discriminate]. cbn [of_ bind] in G.
      exact (with_value_run _ _ _ _ _ _ _ _ _ (proj1 (IHs D B _)) (rep_const _ _ _ s v b0 R Ec) I G).
    - apply J; try reflexivity. cbn [by_value distinct] in *. intros E v0 st z v' R I G. cbn [VSem_Spec.vexec] in G. cbn [exec].
      apply bind_inv in G as (b0 & V & G). rewrite (proj2 (vbuffer_v _ _ _ _ (rep_seen _ _ _ R) V)). cbn [bind].
      exact (with_object_run E s b0 _ _ _ _ _ _ (proj1 (IHs D B _)) R I G).
    - apply J; try reflexivity. destruct D as (D1 & D2). destruct B as (B1 & B2). specialize (IHs D2 B2). destruct (exec_good X H b D2) as (Gd & _).
      intros E v0 st z v' R I G. cbn [VSem_Spec.vexec] in G. cbn [exec].
      apply bind_inv in G as (b0 & V & G). apply bind_inv in G as ([] & Ip & G). apply bind_inv in G as (b' & Vc & G).
      destruct (vbuffer_v _ _ _ _ (rep_seen _ _ _ R) V) as (Bs & Lk).
      destruct (Nat.eqb_spec s v) as [<-|n].
      + destruct (in_place_kind _ _ Ip _ V) as (k & Es & Nk). unfold exec_crop_shadowed. cbv zeta. rewrite Lk. cbn [bind].
        assert (C : exists old st1, crop_in_place X H (s_ctx X st s) 0 l st = Val (old, st1) /\
          (exists E2, rep E2 v0 st1 /\ forall x, vle (vset E s (Buffer Own b') x) (E2 x)) /\ inv st1 /\ s_ctx X st1 s = s_ctx X st s).
        { destruct l as [|i0 l]; cbn [vcrop crop_in_place] in *.
          - injection Vc as <-. exists [], st. split; [reflexivity|]. split; [|auto]. exists E. split; [exact R|]. intro x. unfold vset. destruct (Nat.eqb_spec x s) as [->|]; [|apply vle_refl].
            rewrite Es. cbn. split; [split; [intros _; exact Nk|left; reflexivity]|reflexivity].
          - rewrite Bs. destruct (rank b0 <=? 0)%nat.
            + injection Vc as <-. exists [], st. split; [reflexivity|]. split; [|auto]. exists E. split; [exact R|]. intro x. unfold vset. destruct (Nat.eqb_spec x s) as [->|]; [|apply vle_refl].
              rewrite Es. cbn. split; [split; [intros _; exact Nk|left; reflexivity]|reflexivity].
            + apply bind_inv in Vc as (r & V1 & Vc). inversion D1 as [|? ? D3 D4]; subst. specialize (B1 eq_refl). cbn [tl] in B1.
              destruct (ev_interval_def_v _ _ _ _ _ _ D3 (rep_seen _ _ _ R) V1) as (t1 & -> & Q). cbn [bind].
              assert (Qs : s_ctx X t1 s = s_ctx X st s) by (destruct Q as (c & -> & Q); apply Q).
              pose proof (rep_change _ _ t1 s k b0 (crop b0 0 (fst r) (snd r)) (rep_quiet _ _ _ _ Q R) Es Nk) as R1. rewrite Qs in R1.
              assert (I1 : inv (set_buf X t1 (s_ctx X st s) (Some (crop b0 0 (fst r) (snd r))))).
              { destruct I as (I1 & I2). destruct Q as (c & -> & Q). cbn [s_ctx set_ctx set_buf] in *. split; [|exact I2].
                intros a La. cbn [s_buf s_next set_buf set_ctx] in *. destruct (Z.eqb_spec a (s_ctx X st s)) as [->|_]; [|exact (I1 a La)]. rewrite (I1 _ La) in Bs. discriminate. }
              destruct (crop_in_place_v s l D4 B1 E v0 _ _ 1%nat b' R1 I1 Vc) as (old & t2 & E2 & R2 & I2 & Q2). cbn [s_ctx set_buf] in E2, Q2. rewrite Qs in E2, Q2. rewrite E2. cbn [bind].
              eexists _, _. split; [reflexivity|]. split; [|auto]. eexists. split; [exact R2|]. intro x. apply vle_refl. }
        destruct C as (old & st1 & -> & (E2 & R2 & L2) & I1 & Q1). cbn [bind].
        destruct (proj1 (IHs (vset E s (Buffer Own b'))) v0 st1 z v' (rep_weaken _ _ _ _ L2 R2) I1 G) as (st2 & E3 & O). rewrite E3. cbn [bind].
        pose proof (k_buf _ _ _ _ _ _ (Gd _ _ _ I1 E3) (s_ctx X st s)) as Kb. pose proof (rep_seen _ _ _ (rep_weaken _ _ _ _ L2 R2) s) as Ss. rewrite vset_same, Q1 in Ss. rewrite Kb, Ss.
        eexists. split; [reflexivity|]. exact O.
      + unfold exec_crop_unshadowed. rewrite Lk. cbn [bind]. destruct (crop_clone_v _ D1 _ _ _ _ _ (rep_seen _ _ _ R) Vc) as (t1 & -> & Q). cbn [bind].
        exact (with_object_run E s b' _ _ _ _ _ _ (proj1 (IHs _)) (rep_quiet _ _ _ _ Q R) (quiet_inv _ _ _ Q I) G).
    - apply J; try reflexivity. destruct D as (D1 & D2). cbn [by_value] in B. specialize (IHs D2 B). destruct (exec_good X H b D2) as (Gd & _).
      intros E v0 st z v' R I G. cbn [VSem_Spec.vexec] in G. cbn [exec].
      apply bind_inv in G as (b0 & V & G). apply bind_inv in G as ([] & Ip & G). apply bind_inv in G as (r & Vc & G).
      destruct (vbuffer_v _ _ _ _ (rep_seen _ _ _ R) V) as (Bs & Lk).
      destruct (Nat.eqb_spec s v) as [<-|n].
      + destruct (in_place_kind _ _ Ip _ V) as (k & Es & Nk). unfold exec_crop_dim_shadowed. cbv zeta. rewrite Lk. cbn [bind].
        destruct (rank b0 <=? d)%nat eqn:Rk.
        * unfold crop in G. rewrite Rk in G. apply (proj1 (IHs _) v0 st z v') with (3 := G); [|exact I].
          apply (rep_weaken E); [|exact R]. intro y. unfold vset. destruct (Nat.eqb_spec y s) as [->|]; [|apply vle_refl]. rewrite Es. split; [split; [intros _; exact Nk|left; reflexivity]|reflexivity].
        * destruct (ev_interval_def_v _ _ _ _ _ _ D1 (rep_seen _ _ _ R) Vc) as (t1 & -> & Q). cbn [bind].
          destruct (in_place_run _ _ E s k b0 _ _ _ v0 st t1 z v' Gd (proj1 (IHs _)) Es Nk R I Q G) as (t2 & -> & O & Bs2). cbn [bind]. rewrite Bs2. eexists. split; [reflexivity|]. exact O.
      + unfold exec_crop_dim_unshadowed. rewrite Lk. cbn [bind]. cbv zeta. destruct (ev_interval_def_v _ _ _ _ _ _ D1 (rep_seen _ _ _ R) Vc) as (t1 & -> & Q). cbn [bind].
        exact (with_object_run E s _ _ _ _ _ _ _ (proj1 (IHs _)) (rep_quiet _ _ _ _ Q R) (quiet_inv _ _ _ Q I) G).
    - apply J; try reflexivity. destruct D as (D1 & D2). cbn [by_value] in B. specialize (IHs D2 B). intros E v0 st z v' R I G. cbn [VSem_Spec.vexec] in G. cbn [exec]. unfold exec_slice.
      apply bind_inv in G as (b0 & V & G). apply bind_inv in G as ((q, dl) & Vs & G). rewrite (proj2 (vbuffer_v _ _ _ _ (rep_seen _ _ _ R) V)). cbn [bind].
      destruct (slice_v _ _ _ _ _ _ D1 (rep_seen _ _ _ R) Vs) as (t1 & -> & Q). cbn [bind].
      exact (with_object_run E s _ _ _ _ _ _ _ (proj1 (IHs _)) (rep_quiet _ _ _ _ Q R) (quiet_inv _ _ _ Q I) G).
    - apply J; try reflexivity. destruct D as (D1 & D2). cbn [by_value] in B. specialize (IHs D2 B). intros E v0 st z v' R I G. cbn [VSem_Spec.vexec] in G. cbn [exec]. unfold exec_slice_dim.
      apply bind_inv in G as (b0 & V & G). apply bind_inv in G as (b' & Vs & G). rewrite (proj2 (vbuffer_v _ _ _ _ (rep_seen _ _ _ R) V)). cbn [bind].
      unfold vslice_dim in Vs. destruct (rank b0 <=? d)%nat; [injection Vs as <-; exact (with_object_run E s _ _ _ _ _ _ _ (proj1 (IHs _)) R I G)|].
      apply bind_inv in Vs as (p & Vp & Vs). injection Vs as <-. destruct (base b0) as [q|].
      + apply bind_inv in Vp as (y & Vy & Vp). injection Vp as <-. destruct (ev_v _ _ _ _ D1 (rep_seen _ _ _ R) Vy) as (t1 & -> & Q). cbn [bind].
        exact (with_object_run E s _ _ _ _ _ _ _ (proj1 (IHs _)) (rep_quiet _ _ _ _ Q R) (quiet_inv _ _ _ Q I) G).
      + injection Vp as <-. cbn [bind]. exact (with_object_run E s _ _ _ _ _ _ _ (proj1 (IHs _)) R I G).
    - apply J; try reflexivity. cbn [by_value distinct] in *. specialize (IHs D B). destruct (exec_good X H b D) as (Gd & _).
      intros E v0 st z v' R I G. cbn [VSem_Spec.vexec] in G. cbn [exec]. unfold exec_transpose. cbv zeta.
      apply bind_inv in G as (b0 & V & G). destruct (vbuffer_v _ _ _ _ (rep_seen _ _ _ R) V) as (Bs & Lk). rewrite Lk. cbn [bind].
      destruct ((s =? v)%nat && is_truncate p) eqn:T.
      + apply andb_prop in T as (T & _). apply Nat.eqb_eq in T. subst v. destruct (rank b0 <? length p)%nat; [discriminate|]. apply bind_inv in G as ([] & Ip & G).
        destruct (in_place_kind _ _ Ip _ V) as (k & Es & Nk).
        destruct (in_place_run _ _ E s k b0 _ _ _ v0 st st z v' Gd (proj1 (IHs _)) Es Nk R I (quiet_refl _ _) G) as (t2 & -> & O & Bs2). cbn [bind]. rewrite Bs2. eexists. split; [reflexivity|]. exact O.
      + exact (with_object_run E s _ _ _ _ _ _ _ (proj1 (IHs _)) R I G).
    - apply J; try reflexivity. destruct D as (D1 & D2), B as (B1 & B2). specialize (IHs1 D1 B1). specialize (IHs2 D2 B2).
      pose proof (new_context_good X H _ _ (as_closure s1) _ (proj2 (exec_good X H s1 D1))) as N1. pose proof (new_context_good X H _ _ (as_closure s2) _ (proj2 (exec_good X H s2 D2))) as N2.
      intros E v st z v' R I G. rewrite vexec_async in G. rewrite exec_async. apply bind_inv in G as (Et & Vt & G). cbv zeta in G.
      assert (Rt : rep (vforget (sym_list s) E) v st) by exact (rep_weaken _ _ _ _ (vforget_le _ _) R).
      assert (T1 : forall h Eb v1 v2 z1 z2, vparallel (match s with Some y => vset E y (Num h) | None => E end) (as_closure s2) = Val Eb ->
        vinner s1 Et v = Val (z1, v1) -> vinner s2 Eb v1 = Val (z2, v2) ->
        exists st1 st2, with_new_context X H (as_closure s1) (inner X H s1) st = Val (z1, st1) /\
          with_new_context X H (as_closure s2) (inner X H s2) (run_set X s st1 h) = Val (z2, st2) /\ outside v2 st2).
      { intros h Eb v1 v2 z1 z2 Vb G1 G2. destruct (new_context_v _ _ _ _ _ _ _ _ _ Vt (proj2 (IHs1 Et)) Rt I G1) as (st1 & E1 & O1).
        pose proof (N1 _ _ _ I E1) as K. assert (R1 : rep E v1 st1).
        { apply (rep_weaken (vforget [] E)); [intro y; rewrite vforget_out by (intros []); apply vle_refl|]. exact (rep_step _ _ _ _ _ _ _ _ R K O1). }
        assert (I1 : inv (run_set X s st1 h)) by (pose proof (step_inv _ _ _ _ _ _ I K) as I1; destruct s; exact I1).
        destruct (new_context_v _ _ _ _ _ _ _ _ _ Vb (proj2 (IHs2 Eb)) (rep_run_set _ _ _ s h R1) I1 G2) as (st2 & E2 & O2). exists st1, st2. auto. }
      destruct (h_pool X H).
      + apply bind_inv in G as (Eb & Vb & G). pose proof (proj1 (rp_outside _ _ _ _ _ R)) as Oe. rewrite Oe in G, Vb. destruct (h_task_first X H (s_ext X st)).
        * apply bind_inv in G as ((z1, v1) & G1 & G). apply bind_inv in G as ((z2, v2) & G2 & G). injection G as <- <-.
          destruct (T1 _ _ _ _ _ _ Vb G1 G2) as (st1 & st2 & -> & E2 & O). cbn [bind]. rewrite E2. cbn [bind]. eexists. split; [reflexivity|]. apply outside_run_set. exact O.
        * apply bind_inv in G as ((z1, v1) & G1 & G). apply bind_inv in G as ((z2, v2) & G2 & G). injection G as <- <-.
          assert (I0 : inv (run_set X s st (h_task_handle X H (s_ext X st)))) by (destruct s; exact I).
          destruct (new_context_v _ _ _ _ _ _ _ _ _ Vb (proj2 (IHs2 Eb)) (rep_run_set _ _ _ s _ R) I0 G1) as (st1 & E1 & O1). rewrite E1. cbn [bind].
          pose proof (N2 _ _ _ I0 E1) as K. assert (I1 : inv (run_set X s st1 0)) by (pose proof (step_inv _ _ _ _ _ _ I0 K) as I1; destruct s; exact I1).
          assert (R1 : rep (vforget (sym_list s) E) v1 (run_set X s st1 0)).
          { apply (rep_weaken (match s with Some y => vset (vforget [] (match s with Some s0 => vset E s0 (Num (h_task_handle X H (s_ext X st))) | None => E end)) y (Num 0)
                               | None => vforget [] (match s with Some s0 => vset E s0 (Num (h_task_handle X H (s_ext X st))) | None => E end) end)).
            - intro y. destruct s as [s|]; cbn [sym_list].
              + destruct (Nat.eq_dec y s) as [->|n]; [rewrite vforget_in by (left; reflexivity); exact Logic.I|].
                rewrite vforget_out by (intros [->|[]]; congruence). rewrite vset_other by exact n. rewrite vforget_out by (intros []). rewrite vset_other by exact n. apply vle_refl.
              + apply vle_refl.
            - apply rep_run_set. exact (rep_step _ _ _ _ _ _ _ _ (rep_run_set _ _ _ s _ R) K O1). }
          destruct (new_context_v _ _ _ _ _ _ _ _ _ Vt (proj2 (IHs1 Et)) R1 I1 G2) as (st2 & E2 & O2). rewrite E2. cbn [bind]. eexists. split; [reflexivity|exact O2].
      + apply bind_inv in G as (Eb & Vb & G). apply bind_inv in G as ((z1, v1) & G1 & G). apply bind_inv in G as ((z2, v2) & G2 & G). injection G as <- <-.
        destruct (T1 _ _ _ _ _ _ Vb G1 G2) as (st1 & st2 & -> & E2 & O). cbn [bind]. rewrite E2. cbn [bind]. eexists. split; [reflexivity|]. apply outside_run_set. exact O.
    - apply J; try reflexivity. intro E. cbn [distinct] in D. exact (check_v c E D).
  Qed.
End Sim.
