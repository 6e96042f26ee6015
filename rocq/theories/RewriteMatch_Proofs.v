(** Matching is sound (C11): if a pattern matches an expression, the meaning of the
    expression is the meaning of the pattern with the wildcards standing for the
    subexpressions they were bound to. *)
From Coq Require Import ZArith List Bool Lia.
From Verif Require Import Arith_Model Arith_Spec Arith_Proofs Buf_Model Expr_Model Expr_Spec Expr_Proofs Match_Model
  Match_Proofs Expr_Props Rewrite_Model Rewrite_Proofs.
Import ListNotations.
Open Scope Z_scope.

(** ** Static conditions on the left hand sides of rules *)

(** [d] is an identity for the operator on that side *)
Definition opt_id (o : binop) (left : bool) (d : Z) : bool :=
  match o with
  | Add | Or => d =? 0
  | Mul | And => d =? 1
  | Sub => negb left && (d =? 0)
  | Div => negb left && (d =? 1)
  | _ => false
  end.
Definition is_logic (o : binop) : bool := match o with And | Or => true | _ => false end.
Definition is_opt (p : pat) : bool := match p with POpt _ _ => true | _ => false end.
(** patterns such as may_be<true>(y) && z, which match any z: only the truth value of
    z is preserved *)
Fixpoint logic_opt (p : pat) : bool :=
  match p with
  | POpt p _ => logic_opt p
  | PBin o a b => is_logic o && (is_opt a || is_opt b)
  | _ => false
  end.
Fixpoint wfp (p : pat) : bool :=
  match p with
  | PWild _ | PConst _ | PLit _ => true
  | POpt p _ => wfp p
  | PBin o a b => wfp a && wfp b && (is_logic o || negb (logic_opt a) && negb (logic_opt b))
                  && match a, b with
                     | POpt _ d, _ => opt_id o true d
                     | _, POpt _ d => opt_id o false d
                     | _, _ => true
                     end
  | PNot a => wfp a && negb (logic_opt a)
  | PSel a b c => wfp a && wfp b && wfp c && negb (logic_opt a) && negb (logic_opt b) && negb (logic_opt c)
  | PCall0 fn => match fn with i_positive_infinity | i_negative_infinity => true | _ => false end
  | PCall1 fn a => match fn with i_abs => true | _ => false end && wfp a && negb (logic_opt a)
  | PCall2 fn a b => match fn with i_and_then | i_or_else => true | _ => false end
                     && wfp a && wfp b && negb (logic_opt a) && negb (logic_opt b)
  | PStair x a b c => wfp x && wfp a && wfp b && wfp c && negb (logic_opt x) && negb (logic_opt a) && negb (logic_opt b) && negb (logic_opt c)
  | _ => false
  end.
Definition wf_rule (r : rule) : bool :=
  wfp (r_lhs r) && negb (logic_opt (r_lhs r)) &&
  match r_lhs r with
  | PBin _ a b => negb (is_opt a) && negb (is_opt b)
  | PNot _ | PSel _ _ _ | PCall1 _ _ | PCall2 _ _ _ => true
  | _ => false
  end && forallb (fun q => lits_ok (fst q) && lits_ok (snd q)) (r_alts r).

(** ** Subexpressions and constants *)
Inductive subexpr (x : expr) : expr -> Prop :=
| sub_refl : subexpr x x
| sub_l o a b : subexpr x a -> subexpr x (EBin o a b)
| sub_r o a b : subexpr x b -> subexpr x (EBin o a b)
| sub_not a : subexpr x a -> subexpr x (ENot a)
| sub_c c t f : subexpr x c -> subexpr x (ESelect c t f)
| sub_t c t f : subexpr x t -> subexpr x (ESelect c t f)
| sub_f c t f : subexpr x f -> subexpr x (ESelect c t f)
| sub_arg fn t args a : In a args -> subexpr x a -> subexpr x (ECall fn t args).

(** every constant of [e] outside of lets satisfies [P] *)
Definition consts_all (P : Z -> Prop) (e : expr) : Prop := forall z, subexpr (EConst z) e -> P z.

Lemma consts_ok_all e : consts_ok e -> consts_all in64 e.
Proof.
  intros K z H. revert K. induction H; cbn [consts_ok]; try tauto.
  intros K. apply IHsubexpr. clear -K H. induction args as [|b l IH]; [inversion H|].
  destruct K as [K1 K2]. destruct H as [<-|H]; auto.
Qed.

Definition bext (m m' : binds) : Prop :=
  (forall n e, b_var m n = Some e -> b_var m' n = Some e) /\
  (forall n z, b_const m n = Some z -> b_const m' n = Some z).
Lemma bext_refl m : bext m m. Proof. split; auto. Qed.
Lemma bext_trans a b c : bext a b -> bext b c -> bext a c.
Proof. intros [A1 A2] [B1 B2]; split; auto. Qed.

Definition xtruth (x : xval) : xval := match x with Fin z => Fin (of_bool (truthy z)) | _ => Bad end.
Definition sim (p : pat) (x y : xval) : Prop := if logic_opt p then xtruth x = xtruth y else x = y.
Lemma sim_truth p x y : sim p x y -> xtruth x = xtruth y.
Proof. unfold sim; destruct (logic_opt p); auto; intros ->; reflexivity. Qed.
Lemma xtruth_idem x : xtruth (xtruth x) = xtruth x.
Proof. destruct x; cbn; rewrite ?truthy_of_bool; reflexivity. Qed.
Lemma xbool2_truth f a b : xbool2 f a b = xbool2 f (xtruth a) (xtruth b).
Proof. destruct a, b; cbn; rewrite ?truthy_of_bool; reflexivity. Qed.
Lemma xbin_logic o a b a' b' : is_logic o = true -> xtruth a = xtruth a' -> xtruth b = xtruth b' -> xbin o a b = xbin o a' b'.
Proof.
  intros L A B. destruct o; try discriminate; cbn [xbin]; rewrite (xbool2_truth _ a b), (xbool2_truth _ a' b'), A, B; reflexivity.
Qed.
Lemma opt_left o d y : opt_id o true d = true -> is_logic o = false -> xbin o (Fin d) y = y.
Proof.
  destruct o; cbn [opt_id is_logic negb andb]; try discriminate; intros E _; apply Z.eqb_eq in E; subst; cbn [xbin].
  - destruct y; reflexivity.
  - destruct y; cbn [xmul]; rewrite ?Z.mul_1_l; reflexivity.
Qed.
Lemma opt_right o d y : opt_id o false d = true -> is_logic o = false -> xbin o y (Fin d) = y.
Proof.
  destruct o; cbn [opt_id is_logic negb andb]; try discriminate; intros E _; apply Z.eqb_eq in E; subst; cbn [xbin].
  - destruct y; cbn [xadd]; rewrite ?Z.add_0_r; reflexivity.
  - destruct y; cbn [xsub xneg xadd]; rewrite ?Z.sub_0_r, ?Z.add_0_r; reflexivity.
  - destruct y; cbn [xmul]; rewrite ?Z.mul_1_r; reflexivity.
  - destruct y; cbn [xdiv]; rewrite ?ediv_pos, ?Z.div_1_r by lia; reflexivity.
Qed.
Lemma logic_left o d y : opt_id o true d = true -> is_logic o = true -> xbin o (Fin d) y = xtruth y.
Proof.
  destruct o; cbn [opt_id is_logic]; try discriminate; intros E _; apply Z.eqb_eq in E; subst; destruct y; reflexivity.
Qed.
Lemma logic_right o d y : opt_id o false d = true -> is_logic o = true -> xbin o y (Fin d) = xtruth y.
Proof.
  destruct o; cbn [opt_id is_logic]; try discriminate; intros E _; apply Z.eqb_eq in E; subst; destruct y; cbn;
    rewrite ?andb_true_r, ?orb_false_r; reflexivity.
Qed.
Lemma opt_id_01 o l d : opt_id o l d = true -> d = 0 \/ d = 1.
Proof. destruct o, l; cbn [opt_id negb andb]; try discriminate; intros E; apply Z.eqb_eq in E; auto. Qed.

(** (a - x) / b = (x + |b| - 1 - a) / -b *)
Lemma stair_flip x ac b : xdiv (xsub (Fin ac) x) (Fin b) = xdiv (xadd x (Fin (Z.abs b - 1 - ac))) (Fin (- b)).
Proof.
  destruct x; cbn [xsub xneg xadd xdiv]; rewrite ?Z.opp_involutive; try reflexivity.
  f_equal. destruct (Z.eq_dec b 0) as [->|nz]; [reflexivity|].
  pose proof (euclid_ediv (ac + - z) b nz) as E. pose proof (euclid_ediv (z + (Z.abs b - 1 - ac)) (- b) ltac:(lia)) as E'.
  assert (E2 : euclid (z + (Z.abs b - 1 - ac)) (- b) (ediv (ac + - z) b) (Z.abs b - 1 - emod (ac + - z) b)).
  { destruct E as [E1 E2]. split; [|lia]. lia. }
  destruct (euclid_unique _ _ _ _ _ _ E' E2); auto.
Qed.

Section MatchOk.
  Variable W : world.
  Variable r : env.
  Notation M := (meaning W r).
  Definition vals (m : binds) (n : nat) : xval := M (bound_var m n).
  Notation S m p := (psem (vals m) (bound_const m) p).

  (** [P]: what is known of the constants of the expression; [Q]: of bound constants *)
  Variables P Q : Z -> Prop.
  Hypothesis PQ : forall z, P z -> Q z.
  Hypothesis P0 : P 0.
  Hypothesis P1 : P 1.
  Hypothesis Pstair : forall vb ac ab t va nb, P vb -> P ac ->
    cabs 64 vb = Val ab -> csub 64 ab 1 = Val t -> csub 64 t ac = Val va -> cneg 64 vb = Val nb -> Q va /\ Q nb.

  Definition cq (m : binds) : Prop := forall n z, b_const m n = Some z -> Q z.
  Definition part (x e : expr) : Prop := subexpr x e \/ exists z, x = EConst z /\ Q z.

  Definition mok (p : pat) (e : expr) (m m' : binds) : Prop :=
    bext m m' /\ (cq m -> cq m') /\
    (forall n x, b_var m' n = Some x -> b_var m n = Some x \/ part x e) /\
    (forall n, In n (pvars p) -> exists x, b_var m' n = Some x) /\
    (forall m'', bext m' m'' -> sim p (S m'' p) (M e)).

  Lemma index_ok p : forall z m m', Q z -> match_index p z m = Some m' ->
    bext m m' /\ (cq m -> cq m') /\ b_var m' = b_var m /\ pvars p = [] /\
    (forall m'', bext m' m'' -> S m'' p = Fin z).
  Proof.
    induction p; cbn [match_index]; intros z0 m m' Qz H; try discriminate.
    - destruct (b_const m n) as [y|] eqn:E.
      + destruct (Z.eqb_spec y z0); [|discriminate]. injection H as <-. subst y.
        repeat split; auto. intros m'' [_ X]. cbn [psem]. unfold bound_const. rewrite (X _ _ E). reflexivity.
      + injection H as <-. split; [|split; [|split; [|split]]]; auto.
        * split; cbn [set_const b_var b_const]; auto. intros k y K. destruct (Nat.eqb_spec k n); auto. congruence.
        * intros C k y; cbn [set_const b_const]. destruct (Nat.eqb_spec k n); [intros K; injection K as <-; auto|apply C].
        * intros m'' [_ X]. cbn [psem]. unfold bound_const. rewrite (X n z0); [reflexivity|]. cbn. rewrite Nat.eqb_refl; reflexivity.
    - destruct (Z.eqb_spec z z0); [|discriminate]. injection H as <-. subst. repeat split; auto.
    - cbn [psem pvars]. apply IHp; auto.
  Qed.

  Lemma index_mok p z m m' : wfp p = true -> P z -> match_index p z m = Some m' -> mok p (EConst z) m m'.
  Proof.
    intros Wp Pz H. destruct (index_ok _ _ _ _ (PQ _ Pz) H) as (A & B & C & D & E).
    split; [exact A|split; [exact B|split; [|split]]].
    - rewrite C; auto.
    - rewrite D; intros n [].
    - intros m'' X. apply E in X. unfold sim. rewrite X. destruct (logic_opt p); reflexivity.
  Qed.

  Lemma consts_sub x e : consts_all P e -> subexpr x e -> consts_all P x.
  Proof.
    intros C S z H. apply C. clear C. induction S; eauto using subexpr.
  Qed.

  Lemma subexpr_trans x y z : subexpr x y -> subexpr y z -> subexpr x z.
  Proof. intros A B. induction B; eauto using subexpr. Qed.
  Lemma part_sub x a e : part x a -> subexpr a e -> part x e.
  Proof. intros [A|A] B; [left; eapply subexpr_trans; eauto|right; auto]. Qed.
  Lemma part_part x a e : part x a -> part a e -> part x e.
  Proof.
    intros A [B|(z & -> & Qz)]; [eapply part_sub; eauto|]. destruct A as [A|A]; [|right; auto]. inversion A; right; eauto.
  Qed.

  (** matching two subpatterns one after the other *)
  Lemma mok_seq p q ep eq e m m1 m2 :
    mok p ep m m1 -> mok q eq m1 m2 -> part ep e -> part eq e ->
    bext m m2 /\ (cq m -> cq m2) /\
    (forall n x, b_var m2 n = Some x -> b_var m n = Some x \/ part x e) /\
    (forall n, In n (pvars p ++ pvars q) -> exists x, b_var m2 n = Some x) /\
    (forall m'', bext m2 m'' -> sim p (S m'' p) (M ep) /\ sim q (S m'' q) (M eq)).
  Proof.
    intros (A1 & A2 & A3 & A4 & A5) (B1 & B2 & B3 & B4 & B5) Pp Pq.
    split; [eapply bext_trans; eauto|]. split; [auto|]. split; [|split].
    - intros n x H. destruct (B3 _ _ H) as [H1|H1]; [destruct (A3 _ _ H1) as [H2|H2]; auto|]; right; eapply part_part; eauto.
    - intros n H. apply in_app_iff in H as [H|H]; auto. destruct (A4 _ H) as [x Hx]. exists x. destruct B1 as [B1 _]; auto.
    - intros m'' X. split; [apply A5; eapply bext_trans; eauto|apply B5; auto].
  Qed.

  Variable variant : Z.

  Definition both (a b : pat) (ea eb : expr) (m : binds) (bits : Z) : res (option binds * Z) :=
    r <- match_pat variant a ea m bits ;;
    match r with
    | (Some m', bits') => match_pat variant b eb m' bits'
    | (None, bits') => Val (None, bits')
    end.
  Lemma both_inv a b ea eb m bits m' bits' : both a b ea eb m bits = Val (Some m', bits') ->
    exists m1 bits1, match_pat variant a ea m bits = Val (Some m1, bits1) /\ match_pat variant b eb m1 bits1 = Val (Some m', bits').
  Proof.
    unfold both. intros H. apply bind_inv in H as ([[m1|] b1] & H1 & H2); [eauto|discriminate].
  Qed.

  Lemma match_bin_eq o a b e m bits : match_pat variant (PBin o a b) e m bits =
    match e with
    | EBin o' ea eb =>
        if binop_eqb o o' then
          if could_commute o a b
          then if Z.testbit variant bits then both a b eb ea m (bits + 1) else both a b ea eb m (bits + 1)
          else both a b ea eb m bits
        else match a, b with
             | POpt _ d, _ => both a b (EConst d) e m bits
             | _, POpt _ d => both a b e (EConst d) m bits
             | _, _ => Val (None, bits)
             end
    | _ => match a, b with
           | POpt _ d, _ => both a b (EConst d) e m bits
           | _, POpt _ d => both a b e (EConst d) m bits
           | _, _ => Val (None, bits)
           end
    end.
  Proof. reflexivity. Qed.

  Lemma logic_opt_sim p x y : logic_opt p = false -> sim p x y -> x = y.
  Proof. unfold sim; intros ->; auto. Qed.

  Definition match_ok (p : pat) : Prop := forall e m bits m' bits', wfp p = true -> consts_all P e ->
    match_pat variant p e m bits = Val (Some m', bits') -> mok p e m m'.

  (** a binary pattern against a node of the same type *)
  Lemma bin_same o a b ea eb e m bits m' bits' : match_ok a -> match_ok b ->
    wfp (PBin o a b) = true -> consts_all P ea -> consts_all P eb ->
    part ea e -> part eb e -> M e = xbin o (M ea) (M eb) ->
    both a b ea eb m bits = Val (Some m', bits') -> mok (PBin o a b) e m m'.
  Proof.
    intros IHa IHb Wf Ca Cb Pa Pb Me H. cbn [wfp] in Wf. rewrite !andb_true_iff in Wf.
    destruct Wf as [[[Wa Wb] Wl] _].
    apply both_inv in H as (m1 & b1 & H1 & H2).
    apply IHa in H1; auto. apply IHb in H2; auto.
    destruct (mok_seq _ _ _ _ e _ _ _ H1 H2 Pa Pb) as (A & B & C & D & E).
    split; [exact A|split; [exact B|split; [exact C|split; [exact D|]]]].
    intros m'' X. destruct (E _ X) as [E1 E2]. cbn [psem].
    assert (K : xbin o (S m'' a) (S m'' b) = M e).
    { rewrite Me. apply orb_true_iff in Wl as [Wl|Wl].
      - apply xbin_logic; auto; eapply sim_truth; eauto.
      - apply andb_true_iff in Wl as [W1 W2]. apply negb_true_iff in W1, W2.
        rewrite (logic_opt_sim _ _ _ W1 E1), (logic_opt_sim _ _ _ W2 E2). reflexivity. }
    unfold sim. rewrite K. destruct (logic_opt (PBin o a b)); reflexivity.
  Qed.

  Lemma part_refl e : part e e. Proof. left; constructor. Qed.
  Lemma part_const z e : Q z -> part (EConst z) e. Proof. right; eauto. Qed.
  Lemma consts_const z : P z -> consts_all P (EConst z).
  Proof. intros Pz w H. inversion H; subst; auto. Qed.
  Lemma xtruth_01 d x : d = 0 \/ d = 1 -> xtruth x = xtruth (Fin d) -> xtruth x = Fin d.
  Proof. intros [->| ->] ->; reflexivity. Qed.

  (** an optional operand that is left out *)
  Lemma opt_l_ok o q d b e m bits m' bits' : match_ok (POpt q d) -> match_ok b ->
    wfp (PBin o (POpt q d) b) = true -> consts_all P e ->
    both (POpt q d) b (EConst d) e m bits = Val (Some m', bits') -> mok (PBin o (POpt q d) b) e m m'.
  Proof.
    intros IHa IHb Wf Ce H. cbn [wfp] in Wf. rewrite !andb_true_iff in Wf.
    destruct Wf as [[[Wa Wb] Wl] Wo].
    apply both_inv in H as (m1 & b1 & H1 & H2).
    apply IHa in H1; auto; [|apply consts_const; destruct (opt_id_01 _ _ _ Wo) as [->| ->]; auto].
    apply IHb in H2; auto.
    destruct (mok_seq _ _ _ _ e _ _ _ H1 H2 (part_const d e ltac:(apply PQ; destruct (opt_id_01 _ _ _ Wo) as [->| ->]; auto)) (part_refl e)) as (A & B & C & D & E).
    split; [exact A|split; [exact B|split; [exact C|split; [exact D|]]]].
    intros m'' X. destruct (E _ X) as [E1 E2]. unfold sim. cbn [logic_opt is_opt orb]. rewrite andb_true_r. cbn [psem].
    destruct (is_logic o) eqn:L.
    - rewrite (xbin_logic o _ _ (Fin d) (M e) L); [rewrite logic_left, xtruth_idem by auto; reflexivity| |].
      + apply sim_truth in E1. cbn [psem] in E1. exact E1.
      + eapply sim_truth; eauto.
    - cbn [orb] in Wl. apply andb_true_iff in Wl as [W1 W2]. apply negb_true_iff in W1, W2.
      cbn [psem] in E1. rewrite (logic_opt_sim _ _ _ W1 E1), (logic_opt_sim _ _ _ W2 E2). apply opt_left; auto.
  Qed.
  Lemma opt_r_ok o a q d e m bits m' bits' : match_ok a -> match_ok (POpt q d) -> is_opt a = false ->
    wfp (PBin o a (POpt q d)) = true -> consts_all P e ->
    both a (POpt q d) e (EConst d) m bits = Val (Some m', bits') -> mok (PBin o a (POpt q d)) e m m'.
  Proof.
    intros IHa IHb Na Wf Ce H. cbn [wfp] in Wf. rewrite !andb_true_iff in Wf.
    destruct Wf as [[[Wa Wb] Wl] Wo].
    assert (Wo' : opt_id o false d = true) by (destruct a; auto; discriminate).
    apply both_inv in H as (m1 & b1 & H1 & H2).
    apply IHa in H1; auto.
    apply IHb in H2; auto; [|apply consts_const; destruct (opt_id_01 _ _ _ Wo') as [->| ->]; auto].
    destruct (mok_seq _ _ _ _ e _ _ _ H1 H2 (part_refl e) (part_const d e ltac:(apply PQ; destruct (opt_id_01 _ _ _ Wo') as [->| ->]; auto))) as (A & B & C & D & E).
    split; [exact A|split; [exact B|split; [exact C|split; [exact D|]]]].
    intros m'' X. destruct (E _ X) as [E1 E2]. unfold sim. cbn [logic_opt is_opt]. rewrite orb_true_r, andb_true_r. cbn [psem].
    destruct (is_logic o) eqn:L.
    - rewrite (xbin_logic o _ _ (M e) (Fin d) L); [rewrite logic_right, xtruth_idem by auto; reflexivity| |].
      + eapply sim_truth; eauto.
      + apply sim_truth in E2. cbn [psem] in E2. exact E2.
    - cbn [orb] in Wl. apply andb_true_iff in Wl as [W1 W2]. apply negb_true_iff in W1, W2.
      cbn [psem] in E2. rewrite (logic_opt_sim _ _ _ W1 E1), (logic_opt_sim _ _ _ W2 E2). apply opt_right; auto.
  Qed.
  Lemma opt_any o a b e m bits m' bits' : match_ok a -> match_ok b ->
    wfp (PBin o a b) = true -> consts_all P e ->
    match a, b with
    | POpt _ d, _ => both a b (EConst d) e m bits
    | _, POpt _ d => both a b e (EConst d) m bits
    | _, _ => Val (None, bits)
    end = Val (Some m', bits') -> mok (PBin o a b) e m m'.
  Proof.
    intros IHa IHb Wf Ce H.
    destruct (is_opt a) eqn:Oa.
    - destruct a; try discriminate. eapply opt_l_ok; eauto.
    - destruct (is_opt b) eqn:Ob.
      + destruct b; try discriminate. destruct a; try discriminate; eapply opt_r_ok; eauto.
      + destruct a, b; try discriminate.
  Qed.

  (** The end of matching a staircase *)
  Lemma stair_end x a b (bv : Z) (ex : expr) (ma : binds -> Z -> res (option binds * Z)) ea ed e m bits m' bits' :
    match_ok x -> wfp x = true -> logic_opt x = false -> logic_opt a = false -> consts_all P ex -> Q bv ->
    (forall m1 b1 m2 b2, ma m1 b1 = Val (Some m2, b2) -> mok a ea m1 m2) ->
    part ex e -> part ea e ->
    xdiv (xadd (M ex) (M ea)) (Fin bv) = M ed ->
    match match_index b bv m with
    | None => Val (None, bits)
    | Some m => r <- match_pat variant x ex m bits ;;
                match r with
                | (Some m, bits) => ma m bits
                | (None, bits) => Val (None, bits)
                end
    end = Val (Some m', bits') ->
    bext m m' /\ (cq m -> cq m') /\
    (forall n y, b_var m' n = Some y -> b_var m n = Some y \/ part y e) /\
    (forall n, In n (pvars x ++ pvars a) -> exists y, b_var m' n = Some y) /\
    (forall m'', bext m' m'' -> xdiv (xadd (S m'' x) (S m'' a)) (S m'' b) = M ed).
  Proof.
    intros IHx Wx Lx La Cx Qb Hma Pex Pea Md H.
    destruct (match_index b bv m) as [m0|] eqn:Hi; [|discriminate].
    destruct (index_ok _ _ _ _ Qb Hi) as (I1 & I2 & I3 & I4 & I5).
    apply bind_inv in H as ([[m1|] b1] & H1 & H2); [|discriminate].
    apply IHx in H1; auto. apply Hma in H2.
    destruct (mok_seq _ _ _ _ e _ _ _ H1 H2 Pex Pea) as (A & B & C & D & E).
    split; [eapply bext_trans; eauto|]. split; [auto|]. split; [rewrite <- I3; exact C|]. split; [exact D|].
    intros m'' X. destruct (E _ X) as [E1 E2].
    rewrite (I5 m'') by (eapply bext_trans; eauto).
    rewrite (logic_opt_sim _ _ _ Lx E1), (logic_opt_sim _ _ _ La E2). exact Md.
  Qed.

  Lemma xadd_0_r x : xadd x (Fin 0) = x. Proof. destruct x; cbn; rewrite ?Z.add_0_r; reflexivity. Qed.
  Lemma xdiv_1_r x : xdiv x (Fin 1) = x.
  Proof. destruct x; cbn [xdiv]; rewrite ?ediv_pos, ?Z.div_1_r by lia; reflexivity. Qed.
  Lemma xmul_1_r x : xmul x (Fin 1) = x. Proof. destruct x; cbn [xmul]; rewrite ?Z.mul_1_r; reflexivity. Qed.

  Lemma match_pat_ok : forall p, match_ok p.
  Proof.
    induction p; intros e m bits m' bits' Wf Ce H.
    - (* wildcard *)
      cbn [match_pat] in H. destruct (b_var m n) as [x|] eqn:E.
      + destruct (match_expr e x) eqn:K; [|discriminate]. injection H as <- <-. apply match_eq in K; subst x.
        split; [apply bext_refl|split; [auto|split; [auto|split]]].
        * intros k [<-|[]]; eauto.
        * intros m'' [X _]. unfold sim; cbn [logic_opt psem]. unfold vals, bound_var. rewrite (X _ _ E). reflexivity.
      + injection H as <- <-. split; [|split; [auto|split; [|split]]].
        * split; cbn [set_var b_var b_const]; auto. intros k y K. destruct (Nat.eqb_spec k n); auto. congruence.
        * intros k y; cbn [set_var b_var]. destruct (Nat.eqb_spec k n); auto. intros K; injection K as <-. right; apply part_refl.
        * intros k [<-|[]]. cbn [set_var b_var]. rewrite Nat.eqb_refl; eauto.
        * intros m'' [X _]. unfold sim; cbn [logic_opt psem]. unfold vals, bound_var. rewrite (X n e); [reflexivity|].
          cbn. rewrite Nat.eqb_refl; reflexivity.
    - (* constant *)
      cbn [match_pat] in H. destruct e; try discriminate. injection H as H <-.
      apply index_mok; auto. apply Ce; constructor.
    - (* literal *)
      cbn [match_pat] in H. destruct (is_const e z) eqn:K; [|discriminate]. injection H as <- <-.
      apply is_const_inv in K; subst. split; [apply bext_refl|split; [auto|split; [auto|split; [intros n []|]]]].
      intros m'' X; reflexivity.
    - (* optional *)
      cbn [match_pat wfp] in *. apply IHp in H; auto.
    - (* binary *)
      rewrite match_bin_eq in H.
      destruct e; try (eapply opt_any; eauto; fail).
      destruct (binop_eqb o op) eqn:Eo; [|eapply opt_any; eauto].
      apply Z.eqb_eq, binop_type_inj in Eo; subst op.
      assert (C1 : consts_all P e1) by (refine (consts_sub _ _ Ce _); repeat constructor).
      assert (C2 : consts_all P e2) by (refine (consts_sub _ _ Ce _); apply sub_r; constructor).
      assert (Q1 : part e1 (EBin o e1 e2)) by (left; repeat constructor).
      assert (Q2 : part e2 (EBin o e1 e2)) by (left; apply sub_r; constructor).
      destruct (could_commute o p1 p2) eqn:Cc; [destruct (Z.testbit variant bits)|].
      + eapply bin_same; [exact IHp1|exact IHp2|exact Wf|exact C2|exact C1|exact Q2|exact Q1| |exact H].
        cbn [meaning]. apply xbin_comm. unfold could_commute in Cc. apply andb_true_iff in Cc as [Cc _].
        destruct o; try discriminate; reflexivity.
      + eapply bin_same; [exact IHp1|exact IHp2|exact Wf|exact C1|exact C2|exact Q1|exact Q2|reflexivity|exact H].
      + eapply bin_same; [exact IHp1|exact IHp2|exact Wf|exact C1|exact C2|exact Q1|exact Q2|reflexivity|exact H].
    - (* not *)
      cbn [match_pat wfp] in *. apply andb_true_iff in Wf as [Wf Wl]. apply negb_true_iff in Wl.
      destruct e; try discriminate. apply IHp in H; auto; [|refine (consts_sub _ _ Ce _); repeat constructor].
      destruct H as (A & B & C & D & E).
      split; [exact A|split; [exact B|split; [|split; [exact D|]]]].
      + intros n x Hx. destruct (C _ _ Hx); auto. right. eapply part_sub; eauto. repeat constructor.
      + intros m'' X. unfold sim; cbn [logic_opt psem meaning]. rewrite (logic_opt_sim _ _ _ Wl (E _ X)). reflexivity.
    - (* select *)
      cbn [match_pat wfp] in *. rewrite !andb_true_iff in Wf. destruct Wf as [[[[[Wa Wb] Wc] La] Lb] Lc].
      apply negb_true_iff in La, Lb, Lc.
      destruct e; try discriminate.
      apply bind_inv in H as ([[m1|] b1] & H1 & H); [|discriminate].
      apply bind_inv in H as ([[m2|] b2] & H2 & H3); [|discriminate].
      apply IHp1 in H1; auto; [|refine (consts_sub _ _ Ce _); repeat constructor].
      apply IHp2 in H2; auto; [|refine (consts_sub _ _ Ce _); apply sub_t; constructor].
      apply IHp3 in H3; auto; [|refine (consts_sub _ _ Ce _); apply sub_f; constructor].
      destruct H1 as (A1 & A2 & A3 & A4 & A5), H2 as (B1 & B2 & B3 & B4 & B5), H3 as (C1 & C2 & C3 & C4 & C5).
      split; [eapply bext_trans; [exact A1|eapply bext_trans; eauto]|]. split; [auto|]. split; [|split].
      + intros n x Hx. destruct (C3 _ _ Hx) as [K|K]; [destruct (B3 _ _ K) as [K1|K1]; [destruct (A3 _ _ K1) as [K2|K2]|]|]; auto;
          right; eapply part_sub; eauto; [apply sub_c|apply sub_t|apply sub_f]; constructor.
      + intros n Hn. cbn [pvars] in Hn. rewrite !in_app_iff in Hn. destruct Hn as [Hn|[Hn|Hn]]; auto.
        * destruct (A4 _ Hn) as [x Hx]. exists x. apply C1, B1; auto.
        * destruct (B4 _ Hn) as [x Hx]. exists x. apply C1; auto.
      + intros m'' X. unfold sim; cbn [logic_opt psem meaning].
        rewrite (logic_opt_sim _ _ _ La (A5 m'' (bext_trans _ _ _ B1 (bext_trans _ _ _ C1 X)))).
        rewrite (logic_opt_sim _ _ _ Lb (B5 m'' (bext_trans _ _ _ C1 X))), (logic_opt_sim _ _ _ Lc (C5 m'' X)). reflexivity.
    - (* calls *)
      cbn [match_pat wfp] in *. destruct e; try discriminate. destruct (intrinsic_eqb fn0 fn) eqn:Ef; [|discriminate].
      destruct args; [|discriminate]. injection H as <- <-.
      assert (fn0 = fn) by (destruct fn0, fn; try discriminate; reflexivity). subst fn0.
      split; [apply bext_refl|split; [auto|split; [auto|split; [intros k []|]]]].
      intros m'' X. unfold sim; cbn [logic_opt psem]. destruct fn; try discriminate; reflexivity.
    - cbn [match_pat wfp] in *. rewrite !andb_true_iff in Wf. destruct Wf as [[Wn Wa] La]. apply negb_true_iff in La.
      destruct e; try discriminate. destruct (intrinsic_eqb fn0 fn) eqn:Ef; [|discriminate].
      destruct args as [|x [|]]; try discriminate.
      assert (fn0 = fn) by (destruct fn0, fn; try discriminate; reflexivity). subst fn0.
      assert (Sx : subexpr x (ECall fn target [x])) by (eapply sub_arg; [left; reflexivity|constructor]).
      apply IHp in H; auto; [|refine (consts_sub _ _ Ce _); auto].
      destruct H as (A & B & C & D & E).
      split; [exact A|split; [exact B|split; [|split; [exact D|]]]].
      + intros n y Hy. destruct (C _ _ Hy); auto. right. eapply part_sub; eauto.
      + intros m'' X. unfold sim; cbn [logic_opt psem]. rewrite (logic_opt_sim _ _ _ La (E _ X)).
        destruct fn; try discriminate. reflexivity.
    - cbn [match_pat wfp] in *. rewrite !andb_true_iff in Wf. destruct Wf as [[[[Wn Wa] Wb] La] Lb]. apply negb_true_iff in La, Lb.
      destruct e; try discriminate. destruct (intrinsic_eqb fn0 fn) eqn:Ef; [|discriminate].
      destruct args as [|x [|y [|]]]; try discriminate.
      assert (fn0 = fn) by (destruct fn0, fn; try discriminate; reflexivity). subst fn0.
      assert (Sx : subexpr x (ECall fn target [x; y])) by (eapply sub_arg; [left; reflexivity|constructor]).
      assert (Sy : subexpr y (ECall fn target [x; y])) by (eapply sub_arg; [right; left; reflexivity|constructor]).
      apply bind_inv in H as ([[m1|] b1] & H1 & H2); [|discriminate].
      apply IHp1 in H1; auto; [|refine (consts_sub _ _ Ce _); auto].
      apply IHp2 in H2; auto; [|refine (consts_sub _ _ Ce _); auto].
      destruct (mok_seq _ _ _ _ _ _ _ _ H1 H2 (or_introl Sx) (or_introl Sy)) as (A & B & C & D & E).
      split; [exact A|split; [exact B|split; [exact C|split; [exact D|]]]].
      intros m'' X. destruct (E _ X) as [E1 E2]. unfold sim; cbn [logic_opt psem].
      rewrite (logic_opt_sim _ _ _ La E1), (logic_opt_sim _ _ _ Lb E2).
      symmetry. destruct fn; try discriminate; cbn [meaning map xcall xcall2 snd xshort]; unfold xshort2;
        destruct (M x) as [zx| | |]; try reflexivity; destruct (Bool.eqb (truthy zx) _); try reflexivity;
        destruct (M y) as [zy| | |]; try reflexivity; cbn [xshort]; destruct (truthy zy); reflexivity.
    - (* staircase *)
      cbn [match_pat wfp] in *. rewrite !andb_true_iff in Wf.
      destruct Wf as [[[[[[[Wx Wa] Wb] Wc] Lx] La] Lb] Lc]. apply negb_true_iff in Lx, La, Lb, Lc.
      apply bind_inv in H as ([[om ed] bits1] & H1 & H).
      destruct om as [m1|]; [|discriminate].
      (* the multiply *)
      assert (Mul_ok : exists ec, mok p4 ec m m1 /\ consts_all P ed /\ part ec e /\ subexpr ed e /\
                M e = xmul (M ed) (M ec)).
      { assert (Dflt : Val (match_index p4 1 m, e, bits) = Val (Some m1, ed, bits1) ->
          exists ec, mok p4 ec m m1 /\ consts_all P ed /\ part ec e /\ subexpr ed e /\ M e = xmul (M ed) (M ec)).
        { intros K. injection K as K <- <-. exists (EConst 1).
          split; [apply index_mok; auto|]. split; [auto|]. split; [apply part_const; auto|]. split; [constructor|].
          cbn [meaning]. rewrite xmul_1_r; reflexivity. }
        destruct e; auto. destruct op; auto.
        apply bind_inv in H1 as ([om2 b2] & H1 & H2). injection H2 as -> <- <-.
        exists e2. split; [eapply IHp4; eauto; refine (consts_sub _ _ Ce _); apply sub_r; constructor|].
        split; [refine (consts_sub _ _ Ce _); repeat constructor|].
        split; [left; apply sub_r; constructor|]. split; [repeat constructor|]. reflexivity. }
      destruct Mul_ok as (ec & Mc & Cd & Pc & Sd & Me). clear H1.
      (* the divide *)
      match type of H with match ?X with _ => _ end = _ => destruct X as [[en vb]|] eqn:Hd; [|discriminate] end.
      assert (Div_ok : consts_all P en /\ P vb /\ subexpr en ed /\ M ed = xdiv (M en) (Fin vb)).
      { assert (Dflt : Some (ed, 1) = Some (en, vb) -> consts_all P en /\ P vb /\ subexpr en ed /\ M ed = xdiv (M en) (Fin vb)).
        { intros K; injection K as <- <-. split; auto. split; auto. split; [constructor|]. rewrite xdiv_1_r; reflexivity. }
        destruct ed; auto. destruct op; auto. destruct ed2; try discriminate. cbn [as_constant] in Hd. injection Hd as <- <-.
        split; [refine (consts_sub _ _ Cd _); repeat constructor|]. split; [apply Cd; apply sub_r; constructor|].
        split; [repeat constructor|reflexivity]. }
      clear Hd. destruct Div_ok as (Cn & Pb & Sn & Md).
      assert (Sne : subexpr en e) by (eapply subexpr_trans; eauto).
      (* the sum *)
      assert (Fin_ok : bext m1 m' /\ (cq m1 -> cq m') /\
        (forall n y, b_var m' n = Some y -> b_var m1 n = Some y \/ part y e) /\
        (forall n, In n (pvars p1 ++ pvars p2) -> exists y, b_var m' n = Some y) /\
        (forall m'', bext m' m'' -> xdiv (xadd (S m'' p1) (S m'' p2)) (S m'' p3) = M ed)).
      { assert (Dflt : match match_index p3 vb m1 with
            | None => Val (None, bits1)
            | Some m => r <- match_pat variant p1 en m bits1 ;;
                        match r with
                        | (Some m, bits) => Val (match_index p2 0 m, bits)
                        | (None, bits) => Val (None, bits)
                        end
            end = Val (Some m', bits') ->
          bext m1 m' /\ (cq m1 -> cq m') /\
          (forall n y, b_var m' n = Some y -> b_var m1 n = Some y \/ part y e) /\
          (forall n, In n (pvars p1 ++ pvars p2) -> exists y, b_var m' n = Some y) /\
          (forall m'', bext m' m'' -> xdiv (xadd (S m'' p1) (S m'' p2)) (S m'' p3) = M ed)).
        { intros K. refine (stair_end p1 p2 p3 vb en (fun m bits => Val (match_index p2 0 m, bits)) (EConst 0) ed e m1 bits1 m' bits'
                  IHp1 Wx Lx La Cn (PQ _ Pb) _ (or_introl Sne) (part_const 0 e (PQ _ P0)) _ K).
          - intros ma ba mb bb K1. injection K1 as K1 _. apply index_mok; auto.
          - cbn [meaning]. rewrite xadd_0_r, Md; reflexivity. }
        destruct en; auto. destruct op; auto.
        - assert (S1 : subexpr en1 e) by (eapply subexpr_trans; [|exact Sne]; repeat constructor).
          assert (S2 : subexpr en2 e) by (eapply subexpr_trans; [|exact Sne]; apply sub_r; constructor).
          refine (stair_end p1 p2 p3 vb en1 (fun m bits => match_pat variant p2 en2 m bits) en2 ed e m1 bits1 m' bits'
                  IHp1 Wx Lx La _ (PQ _ Pb) _ (or_introl S1) (or_introl S2) _ H).
          + refine (consts_sub _ _ Cn _); repeat constructor.
          + intros ma ba mb bb K1. eapply IHp2; eauto. refine (consts_sub _ _ Cn _); apply sub_r; constructor.
          + rewrite Md; reflexivity.
        - assert (S2 : subexpr en2 e) by (eapply subexpr_trans; [|exact Sne]; apply sub_r; constructor).
          destruct en1; try discriminate. cbn [as_constant] in H.
          apply bind_inv in H as (ab & Hab & H). apply bind_inv in H as (t & Ht & H).
          apply bind_inv in H as (va & Hva & H). apply bind_inv in H as (nb & Hnb & H).
          assert (Pac : P c) by (apply Cn; repeat constructor).
          destruct (Pstair _ _ _ _ _ _ Pb Pac Hab Ht Hva Hnb) as [Qva Qnb].
          apply chk_inv in Hab as [-> _]. apply chk_inv in Ht as [-> _]. apply chk_inv in Hva as [-> _]. apply chk_inv in Hnb as [-> _].
          refine (stair_end p1 p2 p3 (- vb) en2 (fun m bits => Val (match_index p2 (Z.abs vb - 1 - c) m, bits)) (EConst (Z.abs vb - 1 - c))
                    ed e m1 bits1 m' bits' IHp1 Wx Lx La _ Qnb _ (or_introl S2) (part_const _ e Qva) _ H).
          + refine (consts_sub _ _ Cn _); apply sub_r; constructor.
          + intros ma ba mb bb K1. injection K1 as K1 _.
            destruct (index_ok _ _ _ _ Qva K1) as (A & B & C & D & E).
            split; [exact A|split; [exact B|split; [|split]]].
            * rewrite C; auto.
            * rewrite D; intros n [].
            * intros m'' X. apply E in X. unfold sim. rewrite X, La. reflexivity.
          + rewrite Md. cbn [meaning xbin]. rewrite stair_flip; reflexivity. }
      clear H. destruct Fin_ok as (F1 & F2 & F3 & F4 & F5), Mc as (A1 & A2 & A3 & A4 & A5).
      split; [eapply bext_trans; eauto|]. split; [auto|]. split; [|split].
      + intros n y Hy. destruct (F3 _ _ Hy) as [K|K]; auto. destruct (A3 _ _ K) as [K1|K1]; auto. right; eapply part_part; eauto.
      + intros n Hn. cbn [pvars] in Hn. rewrite app_assoc in Hn. apply in_app_iff in Hn as [Hn|Hn]; auto.
        destruct (A4 _ Hn) as [y Hy]. exists y. apply F1; auto.
      + intros m'' X. unfold sim; cbn [logic_opt psem]. unfold xstair. rewrite (F5 _ X).
        rewrite (logic_opt_sim _ _ _ Lc (A5 m'' (bext_trans _ _ _ F1 X))). auto.
    - discriminate.
    - discriminate.
    - discriminate.
    - discriminate.
  Qed.
End MatchOk.
