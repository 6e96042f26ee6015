(** Applying a rule (C11): the search over the orders of commutative operands tries
    them all and terminates, and a rule that is valid for values preserves meaning. *)
From Coq Require Import ZArith List Bool Lia.
From Verif Require Import Arith_Model Arith_Spec Arith_Proofs Buf_Model Expr_Model Expr_Spec Expr_Proofs Match_Model
  Match_Proofs Expr_Props Rewrite_Model Rewrite_Proofs RewriteMatch_Proofs.
Import ListNotations.
Open Scope Z_scope.

(** ** variant bits *)

Ltac bits_step :=
  match goal with
  | H : Val _ = Val _ |- _ => injection H; clear H; intros; subst
  | H : UB = Val _ |- _ => discriminate H
  | H : bind _ _ = Val _ |- _ => apply bind_inv in H; destruct H as (? & ? & H)
  | H : (let '(_, _) := ?x in _) = Val _ |- _ => destruct x
  | H : match ?x with _ => _ end = Val _ |- _ => destruct x eqn:?
  end.

Definition bits_ok (variant : Z) (p : pat) : Prop := forall e m bits om bits',
  match_pat variant p e m bits = Val (om, bits') -> bits <= bits' <= bits + Z.of_nat (ncomm p).

Lemma both_bits variant a b ea eb m bits om bits' : bits_ok variant a -> bits_ok variant b ->
  both variant a b ea eb m bits = Val (om, bits') ->
  bits <= bits' <= bits + Z.of_nat (ncomm a + ncomm b).
Proof.
  intros A B H. unfold both in H. apply bind_inv in H as ([[m1|] b1] & H1 & H2).
  - apply A in H1. apply B in H2. lia.
  - apply A in H1. injection H2 as _ <-. lia.
Qed.

Lemma match_bits variant p : bits_ok variant p.
Proof.
  induction p; intros e m bits om bits' H.
  1-4: cbn [match_pat ncomm] in *; repeat bits_step; try lia; apply IHp in H; lia.
  - rewrite match_bin_eq in H. cbn [ncomm].
    assert (K : match p1, p2 with
                | POpt _ d, _ => both variant p1 p2 (EConst d) e m bits
                | _, POpt _ d => both variant p1 p2 e (EConst d) m bits
                | _, _ => Val (None, bits)
                end = Val (om, bits') -> bits <= bits' <= bits + Z.of_nat (ncomm p1 + ncomm p2)).
    { destruct (is_opt p1) eqn:O1.
      - destruct p1; try discriminate. apply both_bits; auto.
      - destruct (is_opt p2) eqn:O2.
        + destruct p2; try discriminate. destruct p1; try discriminate; apply both_bits; auto.
        + destruct p1; try discriminate; destruct p2; try discriminate; intros X; injection X as _ <-; lia. }
    assert (K' : bits <= bits' <= bits + Z.of_nat (ncomm p1 + ncomm p2) ->
      bits <= bits' <= bits + Z.of_nat ((if could_commute o p1 p2 then 1 else 0) + ncomm p1 + ncomm p2))
      by (destruct (could_commute o p1 p2); lia).
    destruct e; auto. destruct (binop_eqb o op); auto.
    destruct (could_commute o p1 p2); [destruct (Z.testbit variant bits)|];
      apply both_bits in H; auto; lia.
  - cbn [match_pat ncomm] in *; repeat bits_step; try lia; apply IHp in H; lia.
  - cbn [match_pat ncomm] in *; repeat bits_step;
      repeat match goal with
      | H : match_pat variant ?q _ _ _ = Val _, A : bits_ok variant ?q |- _ => apply A in H
      end; lia.
  - cbn [match_pat ncomm] in *; repeat bits_step; lia.
  - cbn [match_pat ncomm] in *; repeat bits_step; try lia;
      repeat match goal with
      | H : match_pat variant ?q _ _ _ = Val _, A : bits_ok variant ?q |- _ => apply A in H
      end; lia.
  - cbn [match_pat ncomm] in *; repeat bits_step; try lia;
      repeat match goal with
      | H : match_pat variant ?q _ _ _ = Val _, A : bits_ok variant ?q |- _ => apply A in H
      end; lia.
  - cbn [match_pat ncomm] in *.
    apply bind_inv in H as ([[om1 e1] bits1] & H1 & H).
    assert (B1 : bits <= bits1 <= bits + Z.of_nat (ncomm p4)).
    { repeat bits_step; try lia;
      repeat match goal with
      | H : match_pat variant ?q _ _ _ = Val _, A : bits_ok variant ?q |- _ => apply A in H
      end; lia. }
    clear H1. repeat bits_step; try lia;
      repeat match goal with
      | H : match_pat variant ?q _ _ _ = Val _, A : bits_ok variant ?q |- _ => apply A in H
      end; lia.
  - discriminate H.
  - discriminate H.
  - discriminate H.
  - discriminate H.
Qed.

(** The outcome depends only on the bits that were read. *)
Definition agree (v1 v2 lo hi : Z) : Prop := forall i, lo <= i < hi -> Z.testbit v1 i = Z.testbit v2 i.
Definition agree_ok (v1 v2 : Z) (p : pat) : Prop := forall e m bits om bits',
  match_pat v1 p e m bits = Val (om, bits') -> agree v1 v2 bits bits' -> match_pat v2 p e m bits = Val (om, bits').

Lemma agree_sub v1 v2 a b c d : agree v1 v2 a b -> a <= c -> d <= b -> agree v1 v2 c d.
Proof. intros A H1 H2 i Hi. apply A; lia. Qed.

Lemma bind_val {A B} (x : res A) (k : A -> res B) (a : A) : x = Val a -> bind x k = k a.
Proof. intros ->; reflexivity. Qed.

Lemma both_agree v1 v2 a b ea eb m bits om bits' : agree_ok v1 v2 a -> agree_ok v1 v2 b ->
  both v1 a b ea eb m bits = Val (om, bits') -> agree v1 v2 bits bits' -> both v2 a b ea eb m bits = Val (om, bits').
Proof.
  intros A B H G. unfold both in *. apply bind_inv in H as ([[m1|] b1] & H1 & H2).
  - pose proof (match_bits _ _ _ _ _ _ _ H1). pose proof (match_bits _ _ _ _ _ _ _ H2).
    rewrite (bind_val _ _ _ (A _ _ _ _ _ H1 (agree_sub v1 v2 bits bits' bits b1 G ltac:(lia) ltac:(lia)))).
    apply B; auto. eapply agree_sub; eauto; lia.
  - pose proof (match_bits _ _ _ _ _ _ _ H1). injection H2 as <- <-.
    rewrite (bind_val _ _ _ (A _ _ _ _ _ H1 G)). reflexivity.
Qed.

Ltac agree_step :=
  match goal with
  | IH : agree_ok ?v1 ?v2 ?q, H : match_pat ?v1 ?q _ _ _ = Val _ |- context [match_pat ?v2 ?q _ _ _] =>
      let K := fresh in
      pose proof (fun G => IH _ _ _ _ _ H G) as K;
      rewrite K by (eapply agree_sub; eauto; lia); clear K; cbn [bind]
  end.

Lemma match_agree v1 v2 p : agree_ok v1 v2 p.
Proof.
  induction p; intros e m bits om bits' H G.
  1-3: exact H.
  - cbn [match_pat] in *; auto.
  - rewrite match_bin_eq in *.
    assert (K : match p1, p2 with
                | POpt _ d, _ => both v1 p1 p2 (EConst d) e m bits
                | _, POpt _ d => both v1 p1 p2 e (EConst d) m bits
                | _, _ => Val (None, bits)
                end = Val (om, bits') ->
                match p1, p2 with
                | POpt _ d, _ => both v2 p1 p2 (EConst d) e m bits
                | _, POpt _ d => both v2 p1 p2 e (EConst d) m bits
                | _, _ => Val (None, bits)
                end = Val (om, bits')).
    { destruct (is_opt p1) eqn:O1.
      - destruct p1; try discriminate. intros X; eapply both_agree; eauto.
      - destruct (is_opt p2) eqn:O2.
        + destruct p2; try discriminate. destruct p1; try discriminate; intros X; eapply both_agree; eauto.
        + destruct p1; try discriminate; destruct p2; try discriminate; auto. }
    destruct e; auto. destruct (binop_eqb o op); auto.
    destruct (could_commute o p1 p2).
    + assert (L : bits < bits').
      { destruct (Z.testbit v1 bits); apply both_bits in H; try apply match_bits; lia. }
      rewrite <- (G bits ltac:(lia)).
      destruct (Z.testbit v1 bits); eapply both_agree; eauto; eapply agree_sub; eauto; lia.
    + eapply both_agree; eauto.
  - cbn [match_pat] in *. destruct e; auto.
  - cbn [match_pat] in *. destruct e; auto.
    apply bind_inv in H as ([[m1|] b1] & H1 & H).
    + apply bind_inv in H as ([[m2|] b2] & H2 & H).
      * pose proof (match_bits _ _ _ _ _ _ _ H1). pose proof (match_bits _ _ _ _ _ _ _ H2). pose proof (match_bits _ _ _ _ _ _ _ H).
        repeat agree_step. reflexivity.
      * injection H as <- <-. pose proof (match_bits _ _ _ _ _ _ _ H1). pose proof (match_bits _ _ _ _ _ _ _ H2).
        repeat agree_step. reflexivity.
    + injection H as <- <-. agree_step. reflexivity.
  - exact H.
  - cbn [match_pat] in *. destruct e; auto. destruct (intrinsic_eqb fn0 fn); auto. destruct args as [|x [|]]; auto.
  - cbn [match_pat] in *. destruct e; auto. destruct (intrinsic_eqb fn0 fn); auto. destruct args as [|x [|y [|]]]; auto.
    apply bind_inv in H as ([[m1|] b1] & H1 & H).
    + pose proof (match_bits _ _ _ _ _ _ _ H1). pose proof (match_bits _ _ _ _ _ _ _ H). repeat agree_step. reflexivity.
    + injection H as <- <-. agree_step. reflexivity.
  - cbn [match_pat] in *.
    apply bind_inv in H as ([[om1 e1] bits1] & H1 & H).
    assert (B1 : bits <= bits1 <= bits + Z.of_nat (ncomm p4)).
    { clear G H. destruct e; try (injection H1 as _ _ <-; lia). destruct op; try (injection H1 as _ _ <-; lia).
      apply bind_inv in H1 as ([? ?] & H1 & H2). apply match_bits in H1. injection H2 as _ _ <-. lia. }
    assert (B2 : bits1 <= bits').
    { clear G H1 B1. repeat bits_step; try lia;
      repeat match goal with
      | H : match_pat _ ?q _ _ _ = Val _ |- _ => apply match_bits in H
      end; lia. }
    rewrite (bind_val _ _ (om1, e1, bits1)).
    2:{ destruct e; auto. destruct op; auto. apply bind_inv in H1 as ([? ?] & H1 & H2). injection H2 as <- <- <-.
        agree_step. reflexivity. }
    clear H1. destruct om1 as [m1|]; auto.
    match type of H with match ?X with _ => _ end = _ => destruct X as [[en vb]|]; [|exact H] end.
    assert (K : forall bv ex (ma1 ma2 : binds -> Z -> res (option binds * Z)),
      (forall m2 b2, bits1 <= b2 -> ma1 m2 b2 = Val (om, bits') -> ma2 m2 b2 = Val (om, bits')) ->
      (forall m2 b2, ma1 m2 b2 = Val (om, bits') -> b2 <= bits') ->
      match match_index p3 bv m1 with
      | None => Val (None, bits1)
      | Some m => r <- match_pat v1 p1 ex m bits1 ;;
                  match r with (Some m, bits) => ma1 m bits | (None, bits) => Val (None, bits) end
      end = Val (om, bits') ->
      match match_index p3 bv m1 with
      | None => Val (None, bits1)
      | Some m => r <- match_pat v2 p1 ex m bits1 ;;
                  match r with (Some m, bits) => ma2 m bits | (None, bits) => Val (None, bits) end
      end = Val (om, bits')).
    { intros bv ex ma1 ma2 Hma Hb X. destruct (match_index p3 bv m1) as [m2|]; auto.
      apply bind_inv in X as ([[m3|] b3] & X1 & X2).
      - pose proof (match_bits _ _ _ _ _ _ _ X1). pose proof (Hb _ _ X2). agree_step. apply Hma; auto. lia.
      - injection X2 as <- <-. agree_step. reflexivity. }
    assert (KA : forall eb m2 b2, bits1 <= b2 -> match_pat v1 p2 eb m2 b2 = Val (om, bits') -> match_pat v2 p2 eb m2 b2 = Val (om, bits')).
    { intros eb m2 b2 L X. apply IHp2; auto. eapply agree_sub; eauto; lia. }
    assert (KB : forall eb m2 b2, match_pat v1 p2 eb m2 b2 = Val (om, bits') -> b2 <= bits').
    { intros eb m2 b2 X. apply match_bits in X. lia. }
    assert (KC : forall va (m2 : binds) b2, Val (match_index p2 va m2, b2) = Val (om, bits') -> b2 <= bits').
    { intros va m2 b2 X. injection X as _ <-; lia. }
    destruct en; try (revert H; apply K; [auto|apply KC]; fail).
    destruct op; try (revert H; apply K; [auto|apply KC]; fail).
    + revert H. apply (K vb en1 (fun m b => match_pat v1 p2 en2 m b) (fun m b => match_pat v2 p2 en2 m b)); [apply KA|apply KB].
    + destruct (as_constant en1) as [ac|]; [|exact H].
      apply bind_inv in H as (ab & Hab & H). apply bind_inv in H as (t & Ht & H).
      apply bind_inv in H as (va & Hva & H). apply bind_inv in H as (nb & Hnb & H).
      rewrite (bind_val _ _ _ Hab), (bind_val _ _ _ Ht), (bind_val _ _ _ Hva), (bind_val _ _ _ Hnb).
      revert H. apply (K nb en2 (fun m b => Val (match_index p2 va m, b)) (fun m b => Val (match_index p2 va m, b))); [auto|apply KC].
  - discriminate H.
  - discriminate H.
  - discriminate H.
  - discriminate H.
Qed.

(** ** match_any_variant *)

Lemma any_some fuel p e : forall variant count m, any_variant fuel p e variant count = Val (Some m) ->
  exists variant' bits, match_pat variant' p e no_binds 0 = Val (Some m, bits).
Proof.
  induction fuel; cbn [any_variant]; intros variant count m H; [discriminate|].
  destruct (variant <? count); [|discriminate].
  apply bind_inv in H as ([[m1|] b1] & H1 & H); [injection H as <-; eauto|eauto].
Qed.

(** [fuel] rounds are enough: when nothing is found, every variant was tried *)
Lemma any_none fuel p e : forall variant count k,
  0 <= variant <= count -> 2 ^ Z.of_nat (ncomm p) - variant < Z.of_nat fuel ->
  count = 2 ^ k -> 0 <= k <= Z.of_nat (ncomm p) ->
  (forall v, 0 <= v < variant -> exists bits, match_pat v p e no_binds 0 = Val (None, bits) /\ bits <= k) ->
  any_variant fuel p e variant count = Val None ->
  exists k', k <= k' <= Z.of_nat (ncomm p) /\
    forall v, 0 <= v < 2 ^ k' -> exists bits, match_pat v p e no_binds 0 = Val (None, bits) /\ bits <= k'.
Proof.
  induction fuel; intros variant count k V F -> Hk A H.
  - exfalso. pose proof (Z.pow_le_mono_r 2 k (Z.of_nat (ncomm p)) ltac:(lia) ltac:(lia)).
    change (Z.of_nat 0) with 0 in F. lia.
  - cbn [any_variant] in H. destruct (Z.ltb_spec variant (2 ^ k)).
    + apply bind_inv in H as ([[m1|] b1] & H1 & H); [discriminate|].
      pose proof (match_bits _ _ _ _ _ _ _ H1) as B.
      assert (E : Z.max (2 ^ k) (2 ^ b1) = 2 ^ (Z.max k b1)).
      { destruct (Z.le_ge_cases k b1).
        - rewrite (Z.max_r k b1) by lia. apply Z.max_r. apply Z.pow_le_mono_r; lia.
        - rewrite (Z.max_l k b1) by lia. apply Z.max_l. apply Z.pow_le_mono_r; lia. }
      rewrite E in H. apply (IHfuel _ _ (Z.max k b1)) in H; auto; try lia.
      * destruct H as (k' & Hk' & K). exists k'. split; [lia|exact K].
      * intros v Hv. destruct (Z.eq_dec v variant) as [->|].
        -- exists b1. split; [exact H1|lia].
        -- destruct (A v ltac:(lia)) as (b & Hb & Lb). exists b. split; [exact Hb|lia].
    + exists k. split; [lia|]. intros v Hv. apply A. lia.
Qed.

Lemma testbit_mod v k i : 0 <= i < k -> Z.testbit (v mod 2 ^ k) i = Z.testbit v i.
Proof. intros; apply Z.mod_pow2_bits_low; lia. Qed.

(** If the search finds nothing, no order of the commutative operands matches. *)
Lemma match_any_none p e : match_any_variant p e = Val None ->
  forall v m bits, match_pat v p e no_binds 0 <> Val (Some m, bits).
Proof.
  intros H v m bits Hm. unfold match_any_variant in H.
  destruct (any_none (2 ^ ncomm p + 1) p e 0 1 0) as (k & Hk & K); auto; try lia.
  - rewrite Nat2Z.inj_add, Nat2Z.inj_pow. change (Z.of_nat 2) with 2. lia.
  - pose proof (Z.mod_pos_bound v (2 ^ k) ltac:(apply Z.pow_pos_nonneg; lia)) as B.
    destruct (K _ B) as (b & Hb & Lb).
    assert (Hv : match_pat v p e no_binds 0 = Val (None, b)).
    { apply (match_agree (v mod 2 ^ k)); auto. intros i Hi. apply testbit_mod. lia. }
    congruence.
Qed.

(** ** Soundness of applying a rule *)

(** the direct operands of an expression *)
Definition eoperands (e : expr) : list expr :=
  match e with
  | EBin _ a b => [a; b]
  | ENot a => [a]
  | ESelect c t f => [c; t; f]
  | ECall _ _ args => args
  | _ => []
  end.

Section Apply.
  Variable W : world.
  Variable r : env.
  Notation M := (meaning W r).
  Variables P Q : Z -> Prop.
  Hypothesis PQ : forall z, P z -> Q z.
  Hypothesis Q64 : forall z, Q z -> in64 z.
  Hypothesis P0 : P 0.
  Hypothesis P1 : P 1.
  Hypothesis Q0 : Q 0.
  Hypothesis Pstair : forall vb ac ab t va nb, P vb -> P ac ->
    cabs 64 vb = Val ab -> csub 64 ab 1 = Val t -> csub 64 t ac = Val va -> cneg 64 vb = Val nb -> Q va /\ Q nb.

  Lemma xtruth_in64 o a b : is_logic o = true -> in64x (xbin o a b).
  Proof. destruct o; try discriminate; intros _; destruct a, b; cbn [xbin xbool2 in64x]; auto; apply in64_bool. Qed.
  Lemma logic_opt_in64 v c p : logic_opt p = true -> in64x (psem v c p).
  Proof.
    induction p; cbn [logic_opt psem]; try discriminate; auto.
    intros H. apply andb_true_iff in H as [H _]. apply xtruth_in64; auto.
  Qed.
  Lemma sim_in64 p v c x : sim p (psem v c p) (M x) -> in64x (M x) -> in64x (psem v c p).
  Proof.
    unfold sim. destruct (logic_opt p) eqn:L; [intros; apply logic_opt_in64; auto|]. intros ->; auto.
  Qed.

  Lemma operands_ok variant p e m bits :
    wfp p = true -> consts_all P e ->
    match p with
    | PBin _ a b => negb (is_opt a) && negb (is_opt b)
    | PNot _ | PSel _ _ _ | PCall1 _ _ | PCall2 _ _ _ => true
    | _ => false
    end = true ->
    Forall (fun x => in64x (M x)) (eoperands e) ->
    match_pat variant p e no_binds 0 = Val (Some m, bits) ->
    Forall (fun q => in64x (psem (vals W r m) (bound_const m) q)) (operands p).
  Proof.
    intros Wf Ce Rt Ops H.
    assert (MP : forall q ex mm b mm' b', wfp q = true -> consts_all P ex ->
      match_pat variant q ex mm b = Val (Some mm', b') -> mok W r Q q ex mm mm')
      by (intros q; apply (match_pat_ok W r P Q PQ P0 P1 Pstair variant q)).
    assert (CS : forall x, subexpr x e -> consts_all P x) by (intros x Sx; exact (consts_sub P x e Ce Sx)).
    destruct p; try discriminate.
    - apply andb_true_iff in Rt as [R1 R2]. apply negb_true_iff in R1, R2.
      rewrite match_bin_eq in H.
      assert (N : forall b, match p1, p2 with
             | POpt _ d, _ => both variant p1 p2 (EConst d) e no_binds b
             | _, POpt _ d => both variant p1 p2 e (EConst d) no_binds b
             | _, _ => Val (None, b)
             end <> Val (Some m, bits)).
      { intros b X. destruct p1; try discriminate; destruct p2; discriminate. }
      cbn [wfp] in Wf. rewrite !andb_true_iff in Wf. destruct Wf as [[[Wa Wb] _] _].
      destruct e; try (exfalso; eapply N; exact H).
      destruct (binop_eqb o op); [|exfalso; eapply N; exact H].
      assert (K : forall ea eb b, subexpr ea (EBin op e1 e2) -> subexpr eb (EBin op e1 e2) ->
        in64x (M ea) -> in64x (M eb) -> both variant p1 p2 ea eb no_binds b = Val (Some m, bits) ->
        Forall (fun q => in64x (psem (vals W r m) (bound_const m) q)) [p1; p2]).
      { intros ea eb b Sa Sb Ia Ib X. apply both_inv in X as (m1 & b1 & X1 & X2).
        apply MP in X1; auto. apply MP in X2; auto.
        destruct (mok_seq W r Q _ _ _ _ _ _ _ _ X1 X2 (or_introl Sa) (or_introl Sb)) as (_ & _ & _ & _ & E).
        destruct (E m (bext_refl m)) as [E1 E2].
        constructor; [eapply sim_in64; eauto|]. constructor; [eapply sim_in64; eauto|constructor]. }
      cbn [eoperands] in Ops. inversion Ops as [|? ? O1 O']; subst. inversion O' as [|? ? O2 _]; subst.
      assert (S1 : subexpr e1 (EBin op e1 e2)) by (repeat constructor).
      assert (S2 : subexpr e2 (EBin op e1 e2)) by (apply sub_r; constructor).
      destruct (could_commute o p1 p2); [destruct (Z.testbit variant 0)|]; eapply K; try exact H; auto.
    - cbn [match_pat wfp] in *. apply andb_true_iff in Wf as [Wf _]. destruct e; try discriminate.
      apply MP in H; auto; [|apply CS; repeat constructor]. destruct H as (_ & _ & _ & _ & E).
      inversion Ops; subst. constructor; [|constructor]. eapply sim_in64; eauto. apply E, bext_refl.
    - cbn [match_pat wfp] in *. rewrite !andb_true_iff in Wf. destruct Wf as [[[[[Wa Wb] Wc] _] _] _].
      destruct e; try discriminate.
      apply bind_inv in H as ([[m1|] b1] & H1 & H); [|discriminate].
      apply bind_inv in H as ([[m2|] b2] & H2 & H3); [|discriminate].
      apply MP in H1; auto; [|apply CS; repeat constructor].
      apply MP in H2; auto; [|apply CS; apply sub_t; constructor].
      apply MP in H3; auto; [|apply CS; apply sub_f; constructor].
      destruct H1 as (A1 & _ & _ & _ & A5), H2 as (B1 & _ & _ & _ & B5), H3 as (C1 & _ & _ & _ & C5).
      cbn [eoperands] in Ops. inversion Ops as [|? ? O1 O']; subst. inversion O' as [|? ? O2 O'']; subst.
      inversion O'' as [|? ? O3 _]; subst.
      constructor; [|constructor; [|constructor; [|constructor]]].
      + apply (sim_in64 _ _ _ e1); auto. apply A5. eapply bext_trans; eauto.
      + apply (sim_in64 _ _ _ e2); auto.
      + apply (sim_in64 _ _ _ e3); auto. apply C5, bext_refl.
    - cbn [match_pat wfp] in *. rewrite !andb_true_iff in Wf. destruct Wf as [[_ Wf] _]. destruct e; try discriminate.
      destruct (intrinsic_eqb fn0 fn); [|discriminate]. destruct args as [|x [|]]; try discriminate.
      apply MP in H; auto; [|apply CS; eapply sub_arg; [left; reflexivity|constructor]]. destruct H as (_ & _ & _ & _ & E).
      inversion Ops; subst. constructor; [|constructor]. eapply sim_in64; eauto. apply E, bext_refl.
    - cbn [match_pat wfp] in *. rewrite !andb_true_iff in Wf. destruct Wf as [[[[_ Wa] Wb] _] _]. destruct e; try discriminate.
      destruct (intrinsic_eqb fn0 fn); [|discriminate]. destruct args as [|x [|y [|]]]; try discriminate.
      apply bind_inv in H as ([[m1|] b1] & H1 & H2); [|discriminate].
      apply MP in H1; auto; [|apply CS; eapply sub_arg; [left; reflexivity|constructor]].
      apply MP in H2; auto; [|apply CS; eapply sub_arg; [right; left; reflexivity|constructor]].
      destruct H1 as (A1 & _ & _ & _ & A5), H2 as (B1 & _ & _ & _ & B5).
      cbn [eoperands] in Ops. inversion Ops as [|? ? O1 O']; subst. inversion O' as [|? ? O2 _]; subst.
      constructor; [|constructor; [|constructor]].
      + apply (sim_in64 _ _ _ x); auto.
      + apply (sim_in64 _ _ _ y); auto. apply B5, bext_refl.
  Qed.

  Theorem apply_rule_ok F ru e e' :
    wf_rule ru = true -> rule_ok Q F ru -> consts_all P e ->
    (F = true -> forall x, subexpr x e -> is_fin (M x)) ->
    (F = true -> Forall (fun x => in64x (M x)) (eoperands e)) ->
    apply_rule ru e = Val (Some e') -> refines (M e) (M e').
  Proof.
    unfold wf_rule. intros Wf Ok Ce HF Ops H. rewrite !andb_true_iff in Wf. destruct Wf as [[[Wp Wl] Wr] Wa].
    apply negb_true_iff in Wl.
    unfold apply_rule in H. apply bind_inv in H as ([m|] & Hm & H); [|discriminate].
    unfold match_any_variant in Hm. apply any_some in Hm as (variant & bits & Hm).
    pose proof (match_pat_ok W r P Q PQ P0 P1 Pstair variant (r_lhs ru) _ _ _ _ _ Wp Ce Hm) as (_ & Cq & Vs & Dm & Sm).
    specialize (Sm m (bext_refl m)). apply logic_opt_sim in Sm; auto.
    assert (Cm : forall n, Q (bound_const m n)).
    { intros n. unfold bound_const. destruct (b_const m n) eqn:E; [eapply Cq; eauto; intros ? ?; discriminate|exact Q0]. }
    destruct (find_ok W r (fun k n => test_pred k (bound_var m n)) (bound_const m) (bound_var m) (fun n => Q64 _ (Cm n)) _ Wa _ H)
      as (y & Hy & Ry).
    eapply refines_trans; [|exact Ry]. rewrite <- Sm.
    apply (Ok (vals W r m) (bound_const m) (fun k n => test_pred k (bound_var m n))); auto.
    - intros k n Hk. unfold vals. apply test_pred_ok; auto.
    - intros HFt n Hn. destruct (Dm _ Hn) as [x Hx]. unfold vals, bound_var. rewrite Hx.
      destruct (Vs _ _ Hx) as [K|[K|(z & -> & _)]]; [discriminate| |exact I]. apply HF; auto.
    - intros HFt. exact (operands_ok _ _ _ _ _ Wp Ce Wr (Ops HFt) Hm).
  Qed.
End Apply.
