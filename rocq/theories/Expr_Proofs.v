(** Proofs about expressions: the evaluator against the meaning (C09), constructors
    against the meaning (C08). *)
From Coq Require Import ZArith List Bool Lia.
From Verif Require Import Arith_Model Arith_Spec Arith_Proofs Buf_Model Alloc_Model Expr_Model Expr_Spec.
Import ListNotations.
Open Scope Z_scope.

(** Induction over expressions with the lists of let and call. *)
Section ExprInd.
  Variable P : expr -> Prop.
  Hypothesis Hundef : P EUndef.
  Hypothesis Hvar : forall s f d, P (EVar s f d).
  Hypothesis Hlet : forall l b, Forall (fun p => P (snd p)) l -> P b -> P (ELet l b).
  Hypothesis Hbin : forall o a b, P a -> P b -> P (EBin o a b).
  Hypothesis Hnot : forall a, P a -> P (ENot a).
  Hypothesis Hsel : forall c t f, P c -> P t -> P f -> P (ESelect c t f).
  Hypothesis Hcall : forall fn t l, Forall P l -> P (ECall fn t l).
  Hypothesis Hconst : forall c, P (EConst c).
  Fixpoint expr_ind' (e : expr) : P e :=
    match e with
    | EUndef => Hundef
    | EVar s f d => Hvar s f d
    | ELet l b => Hlet l b
        ((fix go (l : list (nat * expr)) : Forall (fun p => P (snd p)) l :=
            match l with [] => Forall_nil _ | p :: l' => Forall_cons p (expr_ind' (snd p)) (go l') end) l)
        (expr_ind' b)
    | EBin o a b => Hbin o a b (expr_ind' a) (expr_ind' b)
    | ENot a => Hnot a (expr_ind' a)
    | ESelect c t f => Hsel c t f (expr_ind' c) (expr_ind' t) (expr_ind' f)
    | ECall fn t l => Hcall fn t l
        ((fix go (l : list expr) : Forall P l :=
            match l with [] => Forall_nil _ | p :: l' => Forall_cons p (expr_ind' p) (go l') end) l)
    | EConst c => Hconst c
    end.
End ExprInd.

(** every let in [e] binds distinct symbols *)
Fixpoint lets_distinct (e : expr) : Prop :=
  match e with
  | EUndef | EVar _ _ _ | EConst _ => True
  | EBin _ a b => lets_distinct a /\ lets_distinct b
  | ENot a => lets_distinct a
  | ESelect c t f => lets_distinct c /\ lets_distinct t /\ lets_distinct f
  | ELet l b => NoDup (map fst l) /\
      (fix go (l : list (nat * expr)) := match l with [] => True | p :: l' => lets_distinct (snd p) /\ go l' end) l
      /\ lets_distinct b
  | ECall _ _ l => (fix go (l : list expr) := match l with [] => True | p :: l' => lets_distinct p /\ go l' end) l
  end.

Definition ctx_eq (c c' : context) : Prop := forall s, c' s = c s.
Definition env_of (c : context) (r : env) : Prop := forall s, r s = Fin (c s).

Lemma truthy_of_bool b : truthy (of_bool b) = b. Proof. destruct b; reflexivity. Qed.

Lemma eval_bin_mean o a b v : imin 64 <= a <= imax 64 -> imin 64 <= b <= imax 64 ->
  eval_bin o a b = Val v -> xbin o (Fin a) (Fin b) = Fin v.
Proof.
  intros Ha Hb; destruct o; cbn [eval_bin xbin xsub xneg xadd xmul xdiv xmod xmin xmax xcmp xbool2]; intro E;
    try (apply chk_inv in E; destruct E as [-> _]; f_equal; lia);
    try (injection E as <-; reflexivity).
  - apply euclidean_div_inv in E; [|reflexivity|lia|lia]; f_equal; subst; try reflexivity; lia.
  - destruct (Z.eq_dec b 0) as [->|nz].
    + rewrite euclidean_mod_zero in E; injection E as <-; reflexivity.
    + destruct (Z.eq_dec a (imin 64)) as [->|na]; [destruct (Z.eq_dec b (-1)) as [->|nb]|].
      * rewrite euclidean_mod_ub in E by reflexivity; discriminate.
      * rewrite euclidean_mod_ok in E by (try reflexivity; try lia; intuition). injection E as <-; reflexivity.
      * rewrite euclidean_mod_ok in E by (try reflexivity; try lia; intuition). injection E as <-; reflexivity.
Qed.

(** *** Values of index_t *)
Definition in64 (z : Z) : Prop := imin 64 <= z <= imax 64.
Definition ctx_ok (c : context) : Prop := forall s, in64 (c s).
Record world_ok (W : world) : Prop := {
  wk_user : forall n l, in64 (w_user W n l);
  wk_intrinsic : forall f l, in64 (w_intrinsic W f l);
  wk_field : forall p b f d, in64 p -> w_buf W p = Some b -> in64 (field_value b f d p);
  wk_at : forall p b l, w_buf W p = Some b -> in64 (ptr_value (buffer_at b l)) }.
(** the constants of [e] are index_t values *)
Fixpoint consts_ok (e : expr) : Prop :=
  match e with
  | EUndef | EVar _ _ _ => True
  | EConst c => in64 c
  | EBin _ a b => consts_ok a /\ consts_ok b
  | ENot a => consts_ok a
  | ESelect c t f => consts_ok c /\ consts_ok t /\ consts_ok f
  | ELet l b =>
      (fix go (l : list (nat * expr)) := match l with [] => True | p :: l' => consts_ok (snd p) /\ go l' end) l
      /\ consts_ok b
  | ECall _ _ l => (fix go (l : list expr) := match l with [] => True | p :: l' => consts_ok p /\ go l' end) l
  end.

Lemma in64_bool b : in64 (of_bool b). Proof. unfold in64; destruct b; cbn; lia. Qed.

Lemma eval_bin_in64 o a b v : in64 a -> in64 b -> eval_bin o a b = Val v -> in64 v.
Proof.
  unfold in64; intros Ha Hb E; destruct o; cbn [eval_bin] in E;
    try (apply chk_inv in E; lia); try (injection E as <-; try apply in64_bool; lia).
  - unfold euclidean_div in E. destruct (Z.eqb_spec b 0); [injection E as <-; cbn; lia|].
    repeat (apply bind_inv in E; destruct E as (? & ? & E)). apply chk_inv in E; lia.
  - destruct (Z.eq_dec b 0) as [->|nz]; [rewrite euclidean_mod_zero in E; injection E as <-; cbn; lia|].
    assert (H : xbin Mod (Fin a) (Fin b) = Fin v) by (eapply eval_bin_mean; eauto).
    cbn [xbin xmod] in H. injection H as <-.
    destruct (euclid_ediv a b nz) as [_ H]. change (imin 64) with (-9223372036854775808) in *.
    change (imax 64) with 9223372036854775807 in *. lia.
Qed.

Definition sem_ok (W : world) (e : expr) : Prop :=
  lets_distinct e -> consts_ok e ->
  forall c r v c', env_of c r -> ctx_ok c -> eval W c e = Val (v, c') ->
    meaning W r e = Fin v /\ ctx_eq c c' /\ in64 v.

Lemma env_of_set c r s v : env_of c r -> env_of (ctx_set c s v) (env_set r s (Fin v)).
Proof. intros H t; unfold ctx_set, env_set; destruct (t =? s)%nat; auto. Qed.
Lemma ctx_ok_set c s v : ctx_ok c -> in64 v -> ctx_ok (ctx_set c s v).
Proof. intros H Hv t; unfold ctx_set; destruct (t =? s)%nat; auto. Qed.
Lemma env_of_eq c c' r : ctx_eq c c' -> env_of c r -> env_of c' r.
Proof. intros H E s; rewrite E, H; reflexivity. Qed.
Lemma ctx_ok_eq c c' : ctx_eq c c' -> ctx_ok c -> ctx_ok c'.
Proof. intros H E s; rewrite H; apply E. Qed.
Lemma ctx_eq_trans a b c : ctx_eq a b -> ctx_eq b c -> ctx_eq a c.
Proof. intros H1 H2 s; rewrite H2; apply H1. Qed.
Lemma ctx_eq_refl a : ctx_eq a a. Proof. intro; reflexivity. Qed.

Lemma restore_all_notin old : forall c s, ~ In s (map fst old) -> restore_all c old s = c s.
Proof.
  induction old as [|[t v] old IH]; intros c s H; cbn [restore_all]; [reflexivity|].
  cbn [map fst In] in H. rewrite IH by tauto. unfold ctx_set. destruct (Nat.eqb_spec s t); [subst; tauto|reflexivity].
Qed.

Lemma restore_all_in old : NoDup (map fst old) -> forall c s v, In (s, v) old -> restore_all c old s = v.
Proof.
  induction old as [|[t w] old IH]; intros N c s v H; cbn [restore_all]; [destruct H|].
  cbn [map fst] in N. apply NoDup_cons_iff in N; destruct N as [N1 N2].
  destruct H as [H|H].
  - injection H as -> ->. rewrite restore_all_notin by assumption. unfold ctx_set. rewrite Nat.eqb_refl; reflexivity.
  - apply IH; assumption.
Qed.

Section EvalOk.
  Variable W : world.
  Hypothesis HW : world_ok W.
  Notation sok := (sem_ok W).

  Definition all_ok (l : list expr) := Forall sok l /\ Forall lets_distinct l /\ Forall consts_ok l.
  Lemma all_ok_inv x l : all_ok (x :: l) -> sok x /\ lets_distinct x /\ consts_ok x /\ all_ok l.
  Proof. intros (A & B & C); inversion A; inversion B; inversion C; subst; exact (conj H1 (conj H5 (conj H9 (conj H2 (conj H6 H10))))). Qed.

  Lemma lets_ok : forall (l : list (nat * expr)) (k : env -> xval) c r c1 old,
    all_ok (map snd l) -> env_of c r -> ctx_ok c ->
    eval_lets (eval W) l c = Val (c1, old) ->
    exists r1, env_of c1 r1 /\ ctx_ok c1 /\ xlets (meaning W) k l r = k r1 /\
      map fst old = map fst l /\
      (forall s, ~ In s (map fst l) -> c1 s = c s) /\
      (NoDup (map fst l) -> forall s, In s (map fst l) -> In (s, c s) old).
  Proof.
    induction l as [|[s x] l IH]; intros k c r c1 old Ha Er Hc E; cbn [eval_lets] in E.
    - injection E as <- <-. exists r. cbn [xlets map]. repeat split; auto; try apply Hc; tauto.
    - cbn [map snd] in Ha. apply all_ok_inv in Ha. destruct Ha as (H1 & H2 & H3 & H4).
      apply bind_inv in E; destruct E as ([v c0] & E0 & E).
      apply bind_inv in E; destruct E as ([c2 old'] & E1 & E). injection E as <- <-.
      destruct (H1 H2 H3 c r v c0 Er Hc E0) as (M & Q & V).
      destruct (IH k (ctx_set c0 s v) (env_set r s (Fin v)) c2 old' H4) as (r1 & A1 & A2 & A3 & A4 & A5 & A6).
      + apply env_of_set. eapply env_of_eq; eauto.
      + apply ctx_ok_set; auto. eapply ctx_ok_eq; eauto.
      + exact E1.
      + exists r1. split; [assumption|]. split; [assumption|]. split.
        { cbn [xlets]. rewrite M. exact A3. }
        split; [cbn [map fst]; rewrite A4; reflexivity|]. split.
        { intros t Ht. cbn [map fst In] in Ht. rewrite A5 by tauto. unfold ctx_set.
          destruct (Nat.eqb_spec t s); [subst; tauto|apply Q]. }
        { intros N t Ht. cbn [map fst] in N. apply NoDup_cons_iff in N; destruct N as [N1 N2].
          cbn [map fst In] in Ht. destruct Ht as [<-|Ht].
          - left. rewrite Q; reflexivity.
          - right. specialize (A6 N2 t Ht). unfold ctx_set in A6. rewrite Q in A6.
            destruct (Nat.eqb_spec t s); [subst; tauto|exact A6]. }
  Qed.

  Lemma args_ok : forall l c r vs c1,
    all_ok l -> env_of c r -> ctx_ok c -> eval_args (eval W) l c = Val (vs, c1) ->
    xargs (map (fun a => (defined a, meaning W r a)) l) = Some vs /\ ctx_eq c c1.
  Proof.
    induction l as [|x l IH]; intros c r vs c1 Ha Er Hc E; cbn [eval_args] in E.
    - injection E as <- <-. split; [reflexivity|apply ctx_eq_refl].
    - apply all_ok_inv in Ha. destruct Ha as (H1 & H2 & H3 & H4). cbn [map].
      destruct (defined x).
      + apply bind_inv in E; destruct E as ([v c0] & E0 & E).
        apply bind_inv in E; destruct E as ([vs' c2] & E1 & E). injection E as <- <-.
        destruct (H1 H2 H3 c r v c0 Er Hc E0) as (M & Q & V).
        destruct (IH c0 r vs' c2 H4 (env_of_eq _ _ _ Q Er) (ctx_ok_eq _ _ Q Hc) E1) as (A1 & A2).
        split; [|eapply ctx_eq_trans; eauto]. cbn [xargs]. rewrite M, A1. reflexivity.
      + apply bind_inv in E; destruct E as ([vs' c2] & E1 & E). injection E as <- <-.
        destruct (IH c r vs' c2 H4 Er Hc E1) as (A1 & A2).
        split; [|assumption]. cbn [xargs]. rewrite A1. reflexivity.
  Qed.

  Lemma at_ok : forall l n c r vs c1,
    all_ok l -> env_of c r -> ctx_ok c -> eval_at (eval W) n l c = Val (vs, c1) ->
    xargs (firstn n (map (fun a => (defined a, meaning W r a)) l)) = Some vs /\ ctx_eq c c1.
  Proof.
    induction l as [|x l IH]; intros n c r vs c1 Ha Er Hc E; cbn [eval_at] in E.
    - injection E as <- <-. cbn [map]. rewrite firstn_nil. split; [reflexivity|apply ctx_eq_refl].
    - destruct n as [|n]; [injection E as <- <-; split; [reflexivity|apply ctx_eq_refl]|].
      apply all_ok_inv in Ha. destruct Ha as (H1 & H2 & H3 & H4). cbn [map firstn].
      destruct (defined x).
      + apply bind_inv in E; destruct E as ([v c0] & E0 & E).
        apply bind_inv in E; destruct E as ([vs' c2] & E1 & E). injection E as <- <-.
        destruct (H1 H2 H3 c r v c0 Er Hc E0) as (M & Q & V).
        destruct (IH n c0 r vs' c2 H4 (env_of_eq _ _ _ Q Er) (ctx_ok_eq _ _ Q Hc) E1) as (A1 & A2).
        split; [|eapply ctx_eq_trans; eauto]. cbn [xargs]. rewrite M, A1. reflexivity.
      + apply bind_inv in E; destruct E as ([vs' c2] & E1 & E). injection E as <- <-.
        destruct (IH n c r vs' c2 H4 Er Hc E1) as (A1 & A2).
        split; [|assumption]. cbn [xargs]. rewrite A1. reflexivity.
  Qed.

  Lemma short_ok stop : forall l c r v c1,
    all_ok l -> env_of c r -> ctx_ok c -> eval_short (eval W) stop l c = Val (v, c1) ->
    xshort stop (map snd (map (fun a => (defined a, meaning W r a)) l)) = Fin v /\ ctx_eq c c1 /\ in64 v.
  Proof.
    induction l as [|x l IH]; intros c r v c1 Ha Er Hc E; cbn [eval_short] in E.
    - injection E as <- <-. split; [reflexivity|]. split; [apply ctx_eq_refl|apply in64_bool].
    - apply all_ok_inv in Ha. destruct Ha as (H1 & H2 & H3 & H4). cbn [map snd xshort].
      apply bind_inv in E; destruct E as ([w c0] & E0 & E).
      destruct (H1 H2 H3 c r w c0 Er Hc E0) as (M & Q & V). rewrite M.
      destruct (Bool.eqb (truthy w) stop).
      + injection E as <- <-. repeat split; auto; apply in64_bool.
      + destruct (IH c0 r v c1 H4 (env_of_eq _ _ _ Q Er) (ctx_ok_eq _ _ Q Hc) E) as (A1 & A2 & A3).
        repeat split; auto; try apply A3. eapply ctx_eq_trans; eauto.
  Qed.

  Lemma go_Forall {A} (P : A -> Prop) l :
    (fix go (l : list A) := match l with [] => True | p :: l' => P p /\ go l' end) l -> Forall P l.
  Proof. induction l; [constructor|intros [H1 H2]; constructor; auto]. Qed.
  Lemma go_Forall_snd {B} (P : expr -> Prop) (l : list (B * expr)) :
    (fix go (l : list (B * expr)) := match l with [] => True | p :: l' => P (snd p) /\ go l' end) l -> Forall P (map snd l).
  Proof. induction l; [constructor|intros [H1 H2]; constructor; auto]. Qed.
  Lemma Forall_snd {B} (P : expr -> Prop) (l : list (B * expr)) : Forall (fun p => P (snd p)) l -> Forall P (map snd l).
  Proof. induction 1; constructor; auto. Qed.

  Ltac fin := match goal with
    | H : Val _ = Val _ |- _ => injection H as <- <-
    end.

  Lemma eval_ok : forall e, sok e.
  Proof.
    induction e as [|s f d|l b IHl IHb|o a b IHa IHb|a IHa|q t f IHq IHt IHf|fn t l IHl|k] using expr_ind';
      intros D K c r v c' Er Hc E; cbn [eval] in E.
    - discriminate.
    - cbn [meaning]. rewrite (Er s).
      destruct f; [fin; exact (conj eq_refl (conj (ctx_eq_refl _) (Hc s)))|..];
        destruct (w_buf W (c s)) as [b|] eqn:B; try discriminate; fin;
        (split; [reflexivity|split; [apply ctx_eq_refl|]]);
        pose proof (fun f => wk_field W HW (c s) b f d (Hc s) B) as WF; first [exact (WF f_rank)|exact (WF f_elem_size)|exact (WF f_size_bytes)|exact (WF f_min)|exact (WF f_max)|exact (WF f_stride)|exact (WF f_fold_factor)].
    - cbn [lets_distinct consts_ok] in *. destruct D as (D1 & D2 & D3), K as (K1 & K2).
      apply bind_inv in E; destruct E as ([c1 old] & E0 & E).
      apply bind_inv in E; destruct E as ([w c2] & E1 & E). fin.
      destruct (lets_ok l (fun r => meaning W r b) c r c1 old) as (r1 & A1 & A2 & A3 & A4 & A5 & A6); auto.
      { exact (conj (Forall_snd _ _ IHl) (conj (go_Forall_snd _ _ D2) (go_Forall_snd _ _ K1))). }
      destruct (IHb D3 K2 c1 r1 w c2 A1 A2 E1) as (M & Q & V).
      cbn [meaning]. rewrite A3. split; [assumption|]. split; [|assumption].
      intro s. destruct (in_dec Nat.eq_dec s (map fst l)) as [i|n].
      + apply restore_all_in; [rewrite A4; assumption|auto].
      + rewrite restore_all_notin by (rewrite A4; assumption). rewrite Q. apply A5; assumption.
    - cbn [lets_distinct consts_ok] in *. destruct D as (D1 & D2), K as (K1 & K2).
      apply bind_inv in E; destruct E as ([va c1] & E0 & E).
      apply bind_inv in E; destruct E as ([vb c2] & E1 & E).
      apply bind_inv in E; destruct E as (w & E2 & E). fin.
      destruct (IHa D1 K1 c r va c1 Er Hc E0) as (M1 & Q1 & V1).
      destruct (IHb D2 K2 c1 r vb c2 (env_of_eq _ _ _ Q1 Er) (ctx_ok_eq _ _ Q1 Hc) E1) as (M2 & Q2 & V2).
      cbn [meaning]. rewrite M1, M2. split; [exact (eval_bin_mean o va vb w V1 V2 E2)|].
      split; [eapply ctx_eq_trans; eauto|exact (eval_bin_in64 o va vb w V1 V2 E2)].
    - cbn [lets_distinct consts_ok] in *.
      apply bind_inv in E; destruct E as ([va c1] & E0 & E). fin.
      destruct (IHa D K c r va c1 Er Hc E0) as (M1 & Q1 & V1). cbn [meaning]. rewrite M1.
      exact (conj eq_refl (conj Q1 (in64_bool _))).
    - cbn [lets_distinct consts_ok] in *. destruct D as (D1 & D2 & D3), K as (K1 & K2 & K3).
      apply bind_inv in E; destruct E as ([vq c1] & E0 & E).
      destruct (IHq D1 K1 c r vq c1 Er Hc E0) as (M1 & Q1 & V1). cbn [meaning]. rewrite M1. cbn [xselect].
      destruct (truthy vq); [destruct (IHt D2 K2 c1 r v c') as (M2 & Q2 & V2)|destruct (IHf D3 K3 c1 r v c') as (M2 & Q2 & V2)];
        eauto using env_of_eq, ctx_ok_eq, ctx_eq_trans.
    - cbn [lets_distinct consts_ok] in *. apply go_Forall in D, K.
      assert (A : all_ok l) by (exact (conj IHl (conj D K))).
      cbn [meaning].
      assert (AR : forall vs c1, eval_args (eval W) l c = Val (vs, c1) ->
        xargs (map (fun a => (defined a, meaning W r a)) l) = Some vs /\ ctx_eq c c1)
        by (intros; eapply args_ok; eauto).
      destruct fn; try discriminate;
        try (apply bind_inv in E; destruct E as ([vs c1] & E0 & E); fin; destruct (AR _ _ E0) as (M & Q);
             cbn [xcall]; rewrite M; split; [reflexivity|split; [assumption|apply (wk_intrinsic W HW)]]).
      + destruct t as [n|]; [|discriminate].
        apply bind_inv in E; destruct E as ([vs c1] & E0 & E); fin. destruct (AR _ _ E0) as (M & Q).
        cbn [xcall]. rewrite M. split; [reflexivity|split; [assumption|apply (wk_user W HW)]].
      + destruct l as [|x [|]]; try discriminate.
        apply bind_inv in E; destruct E as ([w c1] & E0 & E).
        apply bind_inv in E; destruct E as (u & E1 & E). fin. apply chk_inv in E1.
        apply all_ok_inv in A; destruct A as (H1 & H2 & H3 & _).
        destruct (H1 H2 H3 c r w c1 Er Hc E0) as (M & Q & V). destruct E1 as [-> R].
        cbn [xcall map]. rewrite M. exact (conj eq_refl (conj Q R)).
      + cbn [xcall]. eapply short_ok; eauto.
      + cbn [xcall]. eapply short_ok; eauto.
      + destruct l as [|[] at_]; try discriminate. destruct f; try discriminate.
        apply all_ok_inv in A; destruct A as (_ & _ & _ & A).
        destruct (w_buf W (c sym)) as [b|] eqn:B; [|discriminate].
        apply bind_inv in E; destruct E as ([vs c1] & E0 & E). fin.
        destruct (at_ok at_ (rank b) c r vs c1 A Er Hc E0) as (M & Q).
        cbn [xcall map]. rewrite Er, B, M. split; [reflexivity|split; [assumption|]].
        eapply wk_at; eauto.
    - fin. cbn [meaning lets_distinct consts_ok] in *. exact (conj eq_refl (conj (ctx_eq_refl _) K)).
  Qed.
End EvalOk.

Lemma eval_bin_total o x y : in64 x -> in64 y -> op_fits o x y -> exists v, eval_bin o x y = Val v.
Proof.
  intros Hx Hy F; destruct o; cbn [eval_bin op_fits] in *; try (eexists; reflexivity);
    try (eexists; apply chk_ok; unfold imin, imax; lia).
  - destruct (Z.eq_dec y 0) as [->|n]; [eexists; apply euclidean_div_zero|].
    eexists; apply euclidean_div_ok; try assumption. reflexivity.
  - destruct (Z.eq_dec y 0) as [->|n]; [eexists; apply euclidean_mod_zero|].
    eexists; apply euclidean_mod_ok; try assumption. reflexivity.
Qed.

Section EvalTotal.
  Variable W : world.
  Hypothesis HW : world_ok W.

  Definition tot (e : expr) : Prop :=
    lets_distinct e -> consts_ok e ->
    forall c r, env_of c r -> ctx_ok c -> fits W r e -> exists v c', eval W c e = Val (v, c').

  Definition all_tot (l : list expr) := Forall tot l /\ Forall lets_distinct l /\ Forall consts_ok l.
  Lemma all_tot_inv x l : all_tot (x :: l) -> tot x /\ lets_distinct x /\ consts_ok x /\ all_tot l.
  Proof. intros (A & B & C); inversion A; inversion B; inversion C; subst; exact (conj H1 (conj H5 (conj H9 (conj H2 (conj H6 H10))))). Qed.

  (** evaluation of a subexpression, with everything known about it *)
  Lemma step x c r : tot x -> lets_distinct x -> consts_ok x -> env_of c r -> ctx_ok c -> fits W r x ->
    exists v c', eval W c x = Val (v, c') /\ meaning W r x = Fin v /\ env_of c' r /\ ctx_ok c' /\ ctx_eq c c' /\ in64 v.
  Proof.
    intros H D K Er Hc F. destruct (H D K c r Er Hc F) as (v & c' & E).
    destruct (eval_ok W HW x D K c r v c' Er Hc E) as (M & Q & V).
    exists v, c'. split; [assumption|]. split; [assumption|].
    split; [eapply env_of_eq; eauto|]. split; [eapply ctx_ok_eq; eauto|]. split; assumption.
  Qed.

  Lemma lets_total k : forall (l : list (nat * expr)) c r,
    all_tot (map snd l) -> env_of c r -> ctx_ok c -> fits_lets W (fits W) k l r ->
    exists c1 old r1, eval_lets (eval W) l c = Val (c1, old) /\ env_of c1 r1 /\ ctx_ok c1 /\ k r1.
  Proof.
    induction l as [|[s x] l IH]; intros c r Ha Er Hc F; cbn [fits_lets eval_lets] in *.
    - exists c, [], r; auto.
    - cbn [map snd] in Ha. apply all_tot_inv in Ha. destruct Ha as (H1 & H2 & H3 & H4), F as [F1 F2].
      destruct (step x c r H1 H2 H3 Er Hc F1) as (v & c0 & E & M & Er0 & Hc0 & Q & V). rewrite M in F2.
      destruct (IH (ctx_set c0 s v) (env_set r s (Fin v)) H4 (env_of_set _ _ s v Er0) (ctx_ok_set _ s v Hc0 V) F2)
        as (c1 & old & r1 & E1 & A1 & A2 & A3).
      exists c1, ((s, c0 s) :: old), r1. rewrite E; cbn [bind]. rewrite E1. cbn [bind]. auto.
  Qed.

  Lemma args_total : forall l c r, all_tot l -> env_of c r -> ctx_ok c -> fits_args (fits W) r l ->
    exists vs c1, eval_args (eval W) l c = Val (vs, c1).
  Proof.
    induction l as [|x l IH]; intros c r Ha Er Hc F; cbn [fits_args eval_args] in *; [eauto|].
    apply all_tot_inv in Ha. destruct Ha as (H1 & H2 & H3 & H4), F as [F1 F2].
    destruct (defined x).
    - destruct (step x c r H1 H2 H3 Er Hc (F1 eq_refl)) as (v & c0 & E & M & Er0 & Hc0 & Q & V).
      destruct (IH c0 r H4 Er0 Hc0 F2) as (vs & c1 & E1). rewrite E; cbn [bind]. rewrite E1; cbn [bind]; eauto.
    - destruct (IH c r H4 Er Hc F2) as (vs & c1 & E1). rewrite E1; cbn [bind]; eauto.
  Qed.

  Lemma at_total : forall l n c r, all_tot l -> env_of c r -> ctx_ok c -> fits_at (fits W) r n l ->
    exists vs c1, eval_at (eval W) n l c = Val (vs, c1).
  Proof.
    induction l as [|x l IH]; intros [|n] c r Ha Er Hc F; cbn [fits_at eval_at] in *; eauto.
    apply all_tot_inv in Ha. destruct Ha as (H1 & H2 & H3 & H4), F as [F1 F2].
    destruct (defined x).
    - destruct (step x c r H1 H2 H3 Er Hc (F1 eq_refl)) as (v & c0 & E & M & Er0 & Hc0 & Q & V).
      destruct (IH n c0 r H4 Er0 Hc0 F2) as (vs & c1 & E1). rewrite E; cbn [bind]. rewrite E1; cbn [bind]; eauto.
    - destruct (IH n c r H4 Er Hc F2) as (vs & c1 & E1). rewrite E1; cbn [bind]; eauto.
  Qed.

  Lemma short_total stop : forall l c r, all_tot l -> env_of c r -> ctx_ok c -> fits_short W (fits W) r stop l ->
    exists v c1, eval_short (eval W) stop l c = Val (v, c1).
  Proof.
    induction l as [|x l IH]; intros c r Ha Er Hc F; cbn [fits_short eval_short] in *; [eauto|].
    apply all_tot_inv in Ha. destruct Ha as (H1 & H2 & H3 & H4), F as [F1 F2].
    destruct (step x c r H1 H2 H3 Er Hc F1) as (v & c0 & E & M & Er0 & Hc0 & Q & V).
    rewrite E; cbn [bind]. destruct (Bool.eqb (truthy v) stop) eqn:T; [eauto|].
    apply (IH c0 r H4 Er0 Hc0). apply (F2 v M). intro X. rewrite X, Bool.eqb_reflx in T; discriminate.
  Qed.

  Lemma eval_total : forall e, tot e.
  Proof.
    induction e as [|s f d|l b IHl IHb|o a b IHa IHb|a IHa|q t f IHq IHt IHf|fn t l IHl|k] using expr_ind';
      intros D K c r Er Hc F; cbn [eval fits] in *.
    - destruct F.
    - destruct f; eauto; destruct F as (p & b & E & B); rewrite Er in E; injection E as <-; rewrite B; eauto.
    - cbn [lets_distinct consts_ok] in *. destruct D as (D1 & D2 & D3), K as (K1 & K2).
      destruct (lets_total _ l c r (conj (Forall_snd _ _ IHl) (conj (go_Forall_snd _ _ D2) (go_Forall_snd _ _ K1))) Er Hc F)
        as (c1 & old & r1 & E & A1 & A2 & A3).
      destruct (IHb D3 K2 c1 r1 A1 A2 A3) as (v & c2 & E2). rewrite E; cbn [bind]. rewrite E2; cbn [bind]; eauto.
    - cbn [lets_distinct consts_ok] in *. destruct D as (D1 & D2), K as (K1 & K2), F as (F1 & F2 & F3).
      destruct (step a c r IHa D1 K1 Er Hc F1) as (v & c0 & E & M & Er0 & Hc0 & Q & V).
      destruct (step b c0 r IHb D2 K2 Er0 Hc0 F2) as (v2 & c2 & E2 & M2 & Er2 & Hc2 & Q2 & V2).
      rewrite E; cbn [bind]. rewrite E2; cbn [bind].
      destruct (eval_bin_total o v v2 V V2 (F3 _ _ M M2)) as (w & ->). cbn [bind]; eauto.
    - cbn [lets_distinct consts_ok] in *.
      destruct (step a c r IHa D K Er Hc F) as (v & c0 & E & M & Er0 & Hc0 & Q & V).
      rewrite E; cbn [bind]; eauto.
    - cbn [lets_distinct consts_ok] in *. destruct D as (D1 & D2 & D3), K as (K1 & K2 & K3), F as (F1 & F2).
      destruct (step q c r IHq D1 K1 Er Hc F1) as (v & c0 & E & M & Er0 & Hc0 & Q & V).
      specialize (F2 v M). rewrite E; cbn [bind]. destruct (truthy v); [apply (IHt D2 K2 c0 r)|apply (IHf D3 K3 c0 r)]; assumption.
    - cbn [lets_distinct consts_ok] in *. apply go_Forall in D, K.
      assert (A : all_tot l) by exact (conj IHl (conj D K)).
      destruct fn; try contradiction;
        try (destruct (args_total l c r A Er Hc F) as (vs & c1 & ->); cbn [bind]; eauto; fail).
      + destruct t as [n|]; [|destruct F as [F _]; congruence].
        destruct (args_total l c r A Er Hc (proj2 F)) as (vs & c1 & ->); cbn [bind]; eauto.
      + destruct l as [|x [|]]; try contradiction. destruct F as [F1 F2].
        apply all_tot_inv in A; destruct A as (H1 & H2 & H3 & _).
        destruct (step x c r H1 H2 H3 Er Hc F1) as (v & c0 & E & M & Er0 & Hc0 & Q & V).
        rewrite E; cbn [bind]. unfold cabs. rewrite chk_ok; cbn [bind]; [eauto|].
        unfold in64, imin, imax in *. assert (v <> - 2 ^ 63) by congruence. lia.
      + apply (short_total false l c r A Er Hc F).
      + apply (short_total true l c r A Er Hc F).
      + destruct l as [|[] at_]; try contradiction. destruct f; try contradiction.
        destruct F as (p & b & E & B & F). rewrite Er in E; injection E as <-. rewrite B.
        apply all_tot_inv in A; destruct A as (_ & _ & _ & A).
        destruct (at_total at_ (rank b) c r A Er Hc F) as (vs & c1 & ->); cbn [bind]; eauto.
    - eauto.
  Qed.
End EvalTotal.
