(** C46: substituting the metadata of a buffer; C47: replacing an expression by an equal one. *)
From Coq Require Import ZArith List Bool Lia.
From Verif Require Import Arith_Model Arith_Proofs Buf_Model Alloc_Model Expr_Model Expr_Spec Expr_Proofs Expr_Props Stmt_Model Stmt_Proofs Rewrite_Proofs
  Simplify_Model Simplify_Proofs Match_Model Deps_Model Deps_Spec Deps_Proofs Deps_Props Subst_Model Subst_Spec SubstMean_Proofs SubstEval_Proofs Subst_Props.
Import ListNotations.
Open Scope Z_scope.

(** ** C46 *)
Section Describes.
  Variable W : world.
  Variable elem : expr.
  Variable ds : list dim_expr.
  Variable def : option nat.
  Variable b : buf.
  Lemma free_nth d x y : nth_error ds d = Some x -> free_dim y x -> free_metadata elem ds def y.
  Proof. intros N F. right. left. apply Exists_exists. exists x. split; [eapply nth_error_In; eauto|exact F]. Qed.
  Lemma same_default_env r r' f d : (forall y, free_metadata elem ds def y -> r y = r' y) -> same_as_default W r def b f d -> same_as_default W r' def b f d.
  Proof. intros A. unfold same_as_default. destruct def as [y|] eqn:D; [|tauto]. rewrite (A y); [tauto|]. right. right. reflexivity. Qed.
  Lemma given_env r r' e f d : (forall y, free_metadata elem ds def y -> r y = r' y) -> (forall y, free y e -> free_metadata elem ds def y) ->
    given W r def b e f d -> given W r' def b e f d.
  Proof.
    intros A I. unfold given. assert (M : meaning W r e = meaning W r' e) by (apply meaning_free; auto).
    destruct e; [apply same_default_env; exact A|..]; rewrite M; auto.
  Qed.
  Lemma describes_env r r' A : (forall y, free_metadata elem ds def y -> r y = r' y) -> describes W r elem ds def b A -> describes W r' elem ds def b A.
  Proof.
    intros E D f Af. specialize (D f Af). pose proof (fun f d => same_default_env r r' f d E) as SD. pose proof (fun e f d => given_env r r' e f d E) as GE.
    assert (Q : forall g get, (forall x y, free y (get x) -> free_dim y x) -> describes_dim W r ds def b g get -> describes_dim W r' ds def b g get).
    { intros g get I K d. specialize (K d). destruct (nth_error ds d) as [x|] eqn:N.
      - apply GE; [|exact K]. intros y F. eapply free_nth; eauto.
      - destruct def; [apply SD|]; exact K. }
    destruct f; auto; try (eapply Q; [|exact D]; intros x y F; unfold free_dim, free_interval; tauto).
    - destruct def; [|exact D]. intros d. apply SD, D.
    - intros d. apply GE; [|apply D]. intros y F. left. exact F.
  Qed.
End Describes.
Lemma field_value_ptr b f d p q : f <> f_none -> field_value b f d p = field_value b f d q.
Proof. destruct f; try reflexivity. congruence. Qed.
Lemma same_default_mean W r def b f d y p : f <> f_none -> def = Some y -> same_as_default W r def b f d ->
  Fin (field_value b f d p) = meaning W r (EVar y f d).
Proof.
  intros N -> (q & b0 & Ry & B & E). cbn [meaning]. rewrite Ry, B, E, (field_value_ptr b f d p q N). destruct f; reflexivity || congruence.
Qed.
Lemma given_mean W r def b e f d p : f <> f_none -> given W r def b e f d -> defined e = true -> Fin (field_value b f d p) = meaning W r e.
Proof. intros N G D. rewrite (field_value_ptr b f d p 0 N). destruct e; try discriminate D; symmetry; exact G. Qed.

Lemma metadata_mean W r elem ds def b A f d e p : describes W r elem ds def b A -> A f -> metadata elem ds def f d = Val e ->
  f <> f_none /\ Fin (field_value b f d p) = meaning W r e.
Proof.
  intros D Af E. assert (ND : f_rank <> f_none) by discriminate. assert (ND' : f_elem_size <> f_none) by discriminate. specialize (D f Af).
  assert (Q : forall g, (g = f_min \/ g = f_max \/ g = f_stride \/ g = f_fold_factor) -> describes_dim W r ds def b g (fun x => dim_field x g) ->
    metadata elem ds def g d = Val e -> Fin (field_value b g d p) = meaning W r e).
  { intros g G K M. assert (Ng : g <> f_none) by (intros ->; intuition discriminate).
    assert (M' : (if d <? Z.of_nat (length ds) then
          if d <? 0 then UB
          else match nth_error ds (Z.to_nat d) with
               | None => UB
               | Some x => let sub := dim_field x g in Val (if defined sub then sub else match def with None => sub | Some y => EVar y g d end)
               end
        else Val (match def with Some y => EVar y g d | None => EConst 0 end)) = Val e) by (destruct G as [->|[->|[->| ->]]]; exact M).
    clear M. specialize (K (Z.to_nat d)). destruct (Z.ltb_spec d (Z.of_nat (length ds))).
    - destruct (Z.ltb_spec d 0); [discriminate|]. rewrite Z2Nat.id in K by lia. destruct (nth_error ds (Z.to_nat d)) as [x|] eqn:Nx; [|discriminate].
      injection M' as <-. destruct (defined (dim_field x g)) eqn:Df; [exact (given_mean _ _ _ _ _ _ _ _ Ng K Df)|].
      unfold given in K. destruct (dim_field x g); try discriminate. destruct def as [y|] eqn:Dy; [|destruct K]. exact (same_default_mean _ _ _ _ _ _ y p Ng eq_refl K).
    - destruct (nth_error ds (Z.to_nat d)) as [x|] eqn:Nx; [assert ((Z.to_nat d < length ds)%nat) by (apply nth_error_Some; congruence); lia|]. rewrite Z2Nat.id in K by lia. injection M' as <-.
      destruct def as [y|] eqn:Dy; [exact (same_default_mean _ _ _ _ _ _ y p Ng eq_refl K)|]. rewrite (field_value_ptr b g d p 0 Ng), K. reflexivity. }
  destruct f; try (destruct D; fail); try (split; [discriminate|]; apply Q; [tauto|exact D|exact E]); (split; [discriminate|]).
  - cbn [metadata] in E. injection E as <-. destruct def as [y|].
    + exact (same_default_mean W r _ b f_rank (-1) y p ND eq_refl (D (-1))).
    + cbn [field_value meaning]. rewrite D. reflexivity.
  - cbn [metadata] in E. injection E as <-. specialize (D d). destruct (defined elem) eqn:De; [apply (given_mean _ _ _ _ _ _ _ _ ND' D De)|].
    unfold given in D. destruct elem; try discriminate. unfold default_field. destruct def as [y|]; [|destruct D].
    exact (same_default_mean W r _ b f_elem_size d y p ND' eq_refl D).
Qed.

(** If [b] is a buffer with the given metadata, in the fields that [e] reads of [x], then the
    result has the value of [e] with [x] bound to [b]. *)
Theorem C46_meaning : forall W r e x elem ds def (A : field -> Prop) p b e',
  w_buf W p = Some b -> describes W r elem ds def b A ->
  (forall ro, occurs x ro e -> exists f, A f /\ ro = RField f) ->
  no_capture x (free_metadata elem ds def) e ->
  (takes_address e -> forall p b, w_buf W p = Some b -> based_at_min b) ->
  substitute_buffer x elem ds def e = Val e' ->
  refines (meaning W (env_set r x (Fin p)) e) (meaning W r e').
Proof.
  intros W r e x elem ds def A p b e' Hb D O C Ba E.
  refine (sub_mean W (fun s => negb (s =? x)%nat) (visit_buffer x elem ds def) (buffer_implicit_min x elem ds def) (fun s => if (s =? x)%nat then length ds else 0%nat)
    x (free_metadata elem ds def) (Fin p) (fun r => describes W r elem ds def b A) (fun ro => exists f, A f /\ ro = RField f)
    _ _ _ _ _ _ _ _ e r (env_set r x (Fin p)) e' _ (fun _ => D) (or_introl C) O Ba E).
  - intros s En. apply negb_true_iff, Nat.eqb_neq in En. exact En.
  - intros s En. apply negb_false_iff, Nat.eqb_eq in En. auto.
  - intros r0 s v H Nf. eapply describes_env; [|exact H]. intros y F. unfold env_set. destruct (Nat.eqb_spec y s); [congruence|reflexivity].
  - intros s f d N. unfold visit_buffer. destruct (Nat.eqb_spec s x); [congruence|]. destruct f; reflexivity.
  - intros r0 r0' f d e0 H Hx (g & Ag & Eg) K. injection Eg as <-. right.
    assert (Nf : f <> f_none) by (intros ->; destruct (H f_none Ag)).
    unfold visit_buffer in K. rewrite Nat.eqb_refl in K. assert (K' : metadata elem ds def f d = Val e0) by (destruct f; [congruence|exact K..]).
    destruct (metadata_mean W r0 elem ds def b A f d e0 p H Ag K') as (_ & <-). cbn [meaning]. rewrite Hx, Hb. destruct f; reflexivity || congruence.
  - intros r0 d e0 H (g & _ & Eg). discriminate Eg.
  - intros s d N. unfold buffer_implicit_min. destruct (Nat.eqb_spec s x); [congruence|reflexivity].
  - intros s N. destruct (Nat.eqb_spec s x); [congruence|reflexivity].
  - split; [|unfold env_set; rewrite Nat.eqb_refl; reflexivity]. intros y N. unfold env_set. destruct (Nat.eqb_spec y x); [congruence|reflexivity].
Qed.
(** With can_substitute_buffer (C17), only the dimensions need to be given. *)
Theorem C46_dimensions : forall W r e x elem ds def p b e',
  w_buf W p = Some b ->
  describes W r elem ds def b (fun f => f = f_min \/ f = f_max \/ f = f_stride \/ f = f_fold_factor) ->
  can_substitute_buffer (depends_on e x) = true ->
  no_capture x (free_metadata elem ds def) e ->
  (takes_address e -> forall p b, w_buf W p = Some b -> based_at_min b) ->
  substitute_buffer x elem ds def e = Val e' ->
  refines (meaning W (env_set r x (Fin p)) e) (meaning W r e').
Proof.
  intros W r e x elem ds def p b e' Hb D S C Ba E. eapply C46_meaning; eauto. intros ro O.
  unfold can_substitute_buffer in S. apply negb_true_iff, orb_false_iff in S as (S1 & S2). unfold buffer_data in S1. rewrite !orb_false_iff in S1. destruct S1 as (_ & S1).
  pose proof (expr_reported false e x ro [(x, TTracked 0)] (TTracked 0) O) as R.
  unfold find_deps in R. cbn [find_entry] in R. rewrite Nat.eqb_refl in R. specialize (R eq_refl). apply result_of_in in R.
  fold (depends_on e x) in R. destruct R as (R1 & _ & _ & _ & _ & R6 & R7 & R8).
  destruct ro as [f|]; [|rewrite (R6 eq_refl) in S1; discriminate]. exists f. split; [|reflexivity].
  destruct f; auto; rewrite (R1 eq_refl) in S2; discriminate.
Qed.
(** Where [x] already has this metadata, nothing changes ... provided that no let of [e]
    binds a symbol of the metadata. *)
Corollary C46_known : forall W r e x elem ds def (A : field -> Prop) p b e',
  r x = Fin p -> w_buf W p = Some b -> describes W r elem ds def b A ->
  (forall ro, occurs x ro e -> exists f, A f /\ ro = RField f) ->
  no_capture x (free_metadata elem ds def) e ->
  (takes_address e -> forall p b, w_buf W p = Some b -> based_at_min b) ->
  substitute_buffer x elem ds def e = Val e' ->
  refines (meaning W r e) (meaning W r e').
Proof.
  intros W r e x elem ds def A p b e' Rx Hb D O C Ba E.
  rewrite (meaning_free W e r (env_set r x (Fin p))); [eapply C46_meaning; eauto|]. intros y _. unfold env_set. destruct (Nat.eqb_spec y x); congruence.
Qed.

(** The symbols of the metadata can be captured: substituting buffer_min(x, 0) = y into
    let y = 1 in buffer_min(x, 0) gives let y = 1 in y. *)
Theorem C46_capture_refuted :
  let e := ELet [(1%nat, EConst 1)] (EVar 0 f_min 0) in let ds := [DimE (EVar 1 f_none 0, EUndef) EUndef EUndef] in
  exists e', substitute_buffer 0 EUndef ds None e = Val e' /\
  forall W r p b, w_buf W p = Some b -> r 1%nat = Fin 7 -> dims b = [Dim 7 9 1 0] ->
    describes W r EUndef ds None b (fun f => f = f_min) /\
    meaning W (env_set r 0 (Fin p)) e = Fin 7 /\ meaning W r e' = Fin 1.
Proof.
  cbv zeta. eexists. split; [reflexivity|]. intros W r p b Hb R Hd.
  assert (Dm : forall d, dim_int b (Z.of_nat d) = dim_at b d) by (intros d; unfold dim_int; destruct (Z.ltb_spec (Z.of_nat d) 0); [lia|rewrite Nat2Z.id; reflexivity]).
  split.
  - intros f ->. intros d. cbn [field_value]. rewrite Dm. unfold dim_at. rewrite Hd. destruct d as [|d]; cbn [nth_error given fst de_bounds meaning field_value].
    + rewrite R, (Dm 0%nat). unfold dim_at. rewrite Hd. reflexivity.
    + destruct d; reflexivity.
  - cbn [meaning xlets]. unfold env_set. cbn [Nat.eqb]. rewrite Hb. split; [|reflexivity]. cbn [field_value]. change 0 with (Z.of_nat 0) at 1. rewrite Dm. unfold dim_at. rewrite Hd. reflexivity.
Qed.

(** ** C47 *)
Lemma match_true a b : match_expr a b = true <-> a = b.
Proof. apply C15_match_iff_equal. Qed.
Section Expr.
  Variable target rep : expr.
  Hypothesis Dt : defined target = true.
  Hypothesis Dr : defined rep = true.
  Notation sub := (substitute_expr target rep).
  Lemma sub_unfold e : sub e = if match_expr e target then rep else match e with
    | EUndef | EConst _ | EVar _ _ _ => e
    | ELet l b => ELet (emutate_lets sub l) (sub b)
    | EBin o a b => make_bin o (sub a) (sub b)
    | ENot a => ENot (sub a)
    | ESelect c t f => ESelect (sub c) (sub t) (sub f)
    | ECall fn t args => ECall fn t (map sub args)
    end.
  Proof. destruct e; reflexivity. Qed.
  Lemma sub_defined e : defined (sub e) = defined e.
  Proof.
    rewrite sub_unfold. destruct (match_expr e target) eqn:M; [apply match_true in M as ->; congruence|].
    destruct e; try reflexivity. cbn [defined]. unfold make_bin. destruct (_ && _); reflexivity.
  Qed.
  Definition closed_for (e : expr) : Prop := forall s, binds s e -> ~ free s target /\ ~ free s rep.
  Definition heads_for (e : expr) : Prop := takes_address e -> forall s d, target = EVar s f_none d -> exists s' d', rep = EVar s' f_none d'.
  Lemma any_binds s a l : In a l -> binds s a -> any_of (binds s) l.
  Proof. induction l as [|b l IH]; [intros []|]. intros [->|I] B; cbn [any_of]; auto. Qed.
  Lemma closed_arg fn t l a : In a l -> closed_for (ECall fn t l) -> closed_for a.
  Proof. intros I C s B. apply C. cbn [binds]. eapply any_binds; eauto. Qed.
  Lemma heads_arg fn t l a : In a l -> heads_for (ECall fn t l) -> heads_for a.
  Proof. intros I H T. apply H. destruct fn; cbn [takes_address]; try exact Logic.I; eapply any_takes; eauto. Qed.
  Lemma plain_arg fn t l : plain_heads (ECall fn t l) -> Forall plain_heads l.
  Proof. intros (_ & P). apply plain_all. exact P. Qed.
  (** what happens to the buffer of a buffer_at *)
  Lemma sub_head s d t l : heads_for (ECall i_buffer_at t (EVar s f_none d :: l)) ->
    sub (EVar s f_none d) = EVar s f_none d \/ (target = EVar s f_none d /\ exists s' d', sub (EVar s f_none d) = EVar s' f_none d' /\ rep = EVar s' f_none d').
  Proof.
    intros H. rewrite sub_unfold. destruct (match_expr (EVar s f_none d) target) eqn:M; [|left; reflexivity].
    apply match_true in M. symmetry in M. right. split; [exact M|]. destruct (H Logic.I s d M) as (s' & d' & K). exists s', d'. auto.
  Qed.

  Section Mean.
    Variable W : world.
    Definition eq_at (r : env) : Prop := meaning W r target = meaning W r rep.
    Lemma eq_at_set r s v : eq_at r -> ~ free s target -> ~ free s rep -> eq_at (env_set r s v).
    Proof.
      intros E Ft Fr. unfold eq_at in *. rewrite <- (meaning_free W target r), <- (meaning_free W rep r); [exact E| |];
        (intros y F; unfold env_set; destruct (Nat.eqb_spec y s); [congruence|reflexivity]).
    Qed.
    Definition same_mean (e : expr) : Prop := forall r, eq_at r -> closed_for e -> heads_for e -> plain_heads e -> meaning W r (sub e) = meaning W r e.
    Lemma same_mean_at e : (match_expr e target = false -> same_mean e) -> same_mean e.
    Proof.
      intros H r E. destruct (match_expr e target) eqn:M; [|apply H; auto]. intros _ _ _. rewrite sub_unfold, M. apply match_true in M as ->. symmetry. exact E.
    Qed.
    Lemma same_mean_all e : same_mean e.
    Proof.
      induction e as [|s f d|l b IHl IHb|o a b IHa IHb|a IHa|q t f IHq IHt IHf|fn t l IHl|k] using expr_ind'; apply same_mean_at; intros M r E C H P;
        rewrite sub_unfold, M; try reflexivity.
      - clear M. cbn [meaning]. revert r E C H P. induction IHl as [|(s, v) l Hv Hl IH]; intros r E C H P.
        + cbn [emutate_lets map xlets]. apply IHb; auto.
        + cbn [emutate_lets map xlets fst snd]. cbn [plain_heads] in P. destruct P as (Pv & P). cbn [snd] in Hv.
          rewrite (Hv r E); [|intros s' B; apply C; cbn [binds]; auto|intros T; apply H; cbn [takes_address]; auto|exact Pv].
          destruct (C s) as (Ft & Fr); [cbn [binds]; auto|].
          destruct (meaning W r v) as [z| | |] eqn:Mv; [..|reflexivity];
            (apply IH; [apply eq_at_set; assumption|intros s' B; apply C; cbn [binds]; auto|intros T; apply H; cbn [takes_address]; right; exact T|exact P]).
      - rewrite make_bin_mean. cbn [meaning]. destruct P as (Pa & Pb).
        rewrite IHa, IHb; auto; try (intros s B; apply C; cbn [binds]; auto); try (intros T; apply H; cbn [takes_address]; auto).
      - cbn [meaning]. rewrite IHa; auto.
      - destruct P as (Pq & Pt & Pf). cbn [meaning].
        rewrite IHq, IHt, IHf; auto; try (intros s B; apply C; cbn [binds]; auto); try (intros T; apply H; cbn [takes_address]; auto).
      - assert (Q : map (fun a => (defined a, meaning W r a)) (map sub l) = map (fun a => (defined a, meaning W r a)) l).
        { rewrite map_map. apply map_ext_in. intros a I. rewrite sub_defined. f_equal. rewrite Forall_forall in IHl.
          apply IHl; [exact I|exact E|eapply closed_arg; eauto|eapply heads_arg; eauto|]. apply plain_arg in P. rewrite Forall_forall in P. auto. }
        cbn [meaning]. rewrite Q. destruct fn; try reflexivity. destruct P as (Ph & _). specialize (Ph eq_refl).
        destruct l as [|h l]; [destruct Ph|]. destruct h as [|s f d| | | | | |]; try destruct Ph. destruct f; try destruct Ph.
        cbn [map] in *. destruct (sub_head s d t l H) as [->|(Et & s' & d' & -> & Er)]; [reflexivity|].
        cbn [xcall]. unfold eq_at in E. rewrite Et, Er in E. cbn [meaning] in E. rewrite E. reflexivity.
    Qed.
  End Mean.

  Section Eval.
    Variable W : world.
    Hypothesis Drep : lets_distinct rep.
    Notation V := (value W).
    Definition eq_on (c : context) : Prop := V c target = V c rep.
    Lemma eq_on_set c s v : eq_on c -> ~ free s target -> ~ free s rep -> eq_on (ctx_set c s v).
    Proof.
      intros E Ft Fr. unfold eq_on in *. rewrite <- (value_free W target c), <- (value_free W rep c); [exact E| |];
        (intros y F; unfold ctx_set; destruct (Nat.eqb_spec y s); [congruence|reflexivity]).
    Qed.
    Lemma sub_distinct e : lets_distinct e -> lets_distinct (sub e).
    Proof.
      induction e as [|s f d|l b IHl IHb|o a b IHa IHb|a IHa|q t f IHq IHt IHf|fn t l IHl|k] using expr_ind'; intros D;
        rewrite sub_unfold; destruct (match_expr _ target); auto.
      - destruct D as (N & Dl & Db). cbn [lets_distinct]. split; [|split; [|auto]].
        + unfold emutate_lets. rewrite map_map. cbn [fst]. exact N.
        + clear N. induction IHl as [|(s, v) l Hv Hl IH]; [exact I|]. destruct Dl as (D1 & D2). exact (conj (Hv D1) (IH D2)).
      - destruct D as (Da & Db). unfold make_bin. destruct (_ && _); cbn [lets_distinct]; auto.
      - destruct D as (? & ? & ?). cbn [lets_distinct]. auto.
      - rewrite distinct_call in *. rewrite Forall_map. rewrite Forall_forall in *. intros a I. apply IHl; auto.
    Qed.
    Definition same_val (e : expr) : Prop := forall c, eq_on c -> closed_for e -> heads_for e -> plain_heads e -> lets_distinct e -> V c (sub e) = V c e.
    Lemma same_val_at e : (match_expr e target = false -> same_val e) -> same_val e.
    Proof.
      intros H c E. destruct (match_expr e target) eqn:M; [|apply H; auto]. intros _ _ _ _. rewrite sub_unfold, M. apply match_true in M as ->. symmetry. exact E.
    Qed.
    Lemma same_val_all e : same_val e.
    Proof.
      induction e as [|s f d|l b IHl IHb|o a b IHa IHb|a IHa|q t f IHq IHt IHf|fn t l IHl|k] using expr_ind'; apply same_val_at; intros M c E C H P D;
        rewrite sub_unfold, M; try reflexivity.
      - clear M. revert c E C H P D. induction IHl as [|(s, v) l Hv Hl IH]; intros c E C H P D.
        + cbn [emutate_lets map]. rewrite !value_let_nil. apply IHb; auto. apply D.
        + cbn [emutate_lets map fst snd]. cbn [plain_heads] in P. destruct P as (Pv & P). cbn [snd] in Hv. apply distinct_let in D as (Ds & Dv & D).
          rewrite !value_let by (try apply sub_distinct; assumption).
          rewrite (Hv c E); [|intros s' B; apply C; cbn [binds]; auto|intros T; apply H; cbn [takes_address]; auto|exact Pv|exact Dv].
          destruct (C s) as (Ft & Fr); [cbn [binds]; auto|].
          destruct (V c v) as [z|]; [|reflexivity]. cbn [bind].
          apply IH; [apply eq_on_set; assumption|intros s' B; apply C; cbn [binds]; auto|intros T; apply H; cbn [takes_address]; right; exact T|exact P|exact D].
      - destruct P as (Pa & Pb), D as (Da & Db). rewrite value_make_bin, !value_bin by (try apply sub_distinct; assumption).
        rewrite IHa, IHb; auto; try (intros s B; apply C; cbn [binds]; auto); try (intros T; apply H; cbn [takes_address]; auto).
      - rewrite !value_not, IHa; auto.
      - destruct P as (Pq & Pt & Pf), D as (Dq & Dt' & Df). rewrite !value_select by (try apply sub_distinct; assumption).
        rewrite IHq, IHt, IHf; auto; try (intros s B; apply C; cbn [binds]; auto); try (intros T; apply H; cbn [takes_address]; auto).
      - apply distinct_call in D.
        assert (Dm : Forall lets_distinct (map sub l)) by (rewrite Forall_map; rewrite Forall_forall in *; intros a I; apply sub_distinct; auto).
        rewrite !value_call by assumption.
        assert (Q : forall a, In a l -> V c (sub a) = V c a).
        { intros a I. rewrite Forall_forall in IHl, D. apply IHl; [exact I|exact E|eapply closed_arg; eauto|eapply heads_arg; eauto| |auto].
          apply plain_arg in P. rewrite Forall_forall in P. auto. }
        assert (A1 : forall m, (forall a, In a m -> V c (sub a) = V c a) -> vargs W c (map sub m) = vargs W c m).
        { induction m as [|a m IHm]; intros I; [reflexivity|]. cbn [map vargs]. rewrite sub_defined, (I a), IHm; [reflexivity|intros b Ib; apply I; right; exact Ib|left; reflexivity]. }
        assert (A2 : forall stop m, (forall a, In a m -> V c (sub a) = V c a) -> vshort W stop c (map sub m) = vshort W stop c m).
        { intros stop. induction m as [|a m IHm]; intros I; [reflexivity|]. cbn [map vshort]. rewrite (I a), IHm; [reflexivity|intros b Ib; apply I; right; exact Ib|left; reflexivity]. }
        unfold vcall. destruct fn; rewrite ?A1, ?A2 by exact Q; try reflexivity.
        + destruct l as [|a [|]]; try reflexivity. cbn [map]. rewrite Q by (left; reflexivity). reflexivity.
        + destruct P as (Ph & _). specialize (Ph eq_refl).
          destruct l as [|h l]; [destruct Ph|]. destruct h as [|s f d| | | | | |]; try destruct Ph. destruct f; try destruct Ph.
          cbn [map]. assert (A3 : forall n, vargs W c (firstn n (map sub l)) = vargs W c (firstn n l)).
          { intros n. rewrite firstn_map. apply A1. intros a I. apply Q. right. rewrite <- (firstn_skipn n l). apply in_or_app. auto. }
          destruct (sub_head s d t l H) as [->|(Et & s' & d' & -> & Er)].
          * destruct (w_buf W (c s)); [rewrite A3|]; reflexivity.
          * unfold eq_on in E. rewrite Et, Er in E. unfold value in E. cbn [eval bind fst] in E. injection E as ->.
            destruct (w_buf W (c s')); [rewrite A3|]; reflexivity.
    Qed.
  End Eval.
End Expr.

(** Replacing an expression by one of equal value does not change the value, if no let of [e]
    binds a symbol of either.  A variable that names the buffer of a buffer_at can only be
    replaced by another variable. *)
Theorem C47_meaning : forall W r e target rep,
  defined target = true -> defined rep = true -> plain_heads e ->
  (forall s, binds s e -> ~ free s target /\ ~ free s rep) ->
  (takes_address e -> forall s d, target = EVar s f_none d -> exists s' d', rep = EVar s' f_none d') ->
  meaning W r target = meaning W r rep ->
  meaning W r (substitute_expr target rep e) = meaning W r e.
Proof. intros W r e target rep Dt Dr P C H E. apply same_mean_all; assumption. Qed.
Theorem C47_evaluate : forall W c e target rep,
  defined target = true -> defined rep = true -> plain_heads e -> lets_distinct e -> lets_distinct rep ->
  (forall s, binds s e -> ~ free s target /\ ~ free s rep) ->
  (takes_address e -> forall s d, target = EVar s f_none d -> exists s' d', rep = EVar s' f_none d') ->
  value W c target = value W c rep ->
  value W c (substitute_expr target rep e) = value W c e.
Proof. intros W c e target rep Dt Dr P D D' C H E. apply same_val_all; assumption. Qed.
(** The target itself becomes the replacement, and an expression without it is unchanged. *)
Theorem C47_target : forall target rep, substitute_expr target rep target = rep.
Proof. intros. rewrite sub_unfold. assert (M : match_expr target target = true) by (apply match_true; reflexivity). rewrite M. reflexivity. Qed.
(** Lets are not looked at: replacing x + 2 by 7 in let x = 1 in x + 2 makes it 7, also where
    x + 2 = 7 outside. *)
Theorem C47_shadow_refuted : let x2 := EBin Add (EVar 0 f_none 0) (EConst 2) in let e := ELet [(0%nat, EConst 1)] x2 in
  substitute_expr x2 (EConst 7) e = ELet [(0%nat, EConst 1)] (EConst 7) /\
  forall W r, r 0%nat = Fin 5 -> meaning W r x2 = meaning W r (EConst 7) /\ meaning W r e = Fin 3 /\ meaning W r (substitute_expr x2 (EConst 7) e) = Fin 7.
Proof. cbv zeta. split; [reflexivity|]. intros W r E. cbn. rewrite E. cbn. auto. Qed.

(** Examples. *)
Definition C46_ex_expr : expr := EBin Sub (EVar 0 f_max 1) (ELet [(5%nat, EVar 0 f_min 0)] (EBin Mul (EVar 5 f_none 0) (EVar 0 f_stride 1))).
Definition C46_ex_dims : list dim_expr := [DimE (EVar 1 f_none 0, EUndef) EUndef EUndef; DimE (EUndef, EBin Add (EVar 1 f_none 0) (EConst 3)) (EConst 4) EUndef].
Theorem C46_ex :
  can_substitute_buffer (depends_on C46_ex_expr 0) = true /\ no_capture 0 (free_metadata EUndef C46_ex_dims (Some 2%nat)) C46_ex_expr /\ ~ takes_address C46_ex_expr /\
  substitute_buffer 0 EUndef C46_ex_dims (Some 2%nat) C46_ex_expr =
    Val (EBin Sub (EBin Add (EVar 1 f_none 0) (EConst 3)) (ELet [(5%nat, EVar 1 f_none 0)] (EBin Mul (EVar 5 f_none 0) (EConst 4)))) /\
  forall W r b, w_buf W 100 = Some b -> r 1%nat = Fin 2 -> r 2%nat = Fin 100 ->
    dims b = [Dim 2 9 1 7; Dim 0 5 4 7] -> describes W r EUndef C46_ex_dims (Some 2%nat) b (fun f => f = f_min \/ f = f_max \/ f = f_stride \/ f = f_fold_factor).
Proof.
  split; [reflexivity|]. split; [|split; [|split; [reflexivity|]]].
  - cbn. split; [exact I|]. split; [exact I|]. right. split; [|auto]. intros _.
    unfold free_metadata, C46_ex_dims. intros [(ro & [])|[K|K]]; [|discriminate]. inversion K as [? ? K'|? ? K']; subst.
    + cbv [free_dim free_interval free fst snd de_bounds de_stride de_fold occurs] in K'. decompose [or ex and] K'; try contradiction; discriminate.
    + inversion K' as [? ? K2|? ? K2]; subst; [|inversion K2].
      cbv [free_dim free_interval free fst snd de_bounds de_stride de_fold occurs] in K2. decompose [or ex and] K2; try contradiction; discriminate.
  - cbn. tauto.
  - intros W r b Hb R1 R2 Hd f Hf.
    assert (S : forall g d, same_as_default W r (Some 2%nat) b g d) by (intros g d; exists 100, b; auto).
    assert (Dm : forall d, dim_int b (Z.of_nat d) = dim_at b d) by (intros d; unfold dim_int; destruct (Z.ltb_spec (Z.of_nat d) 0); [lia|rewrite Nat2Z.id; reflexivity]).
    destruct Hf as [->|[->|[->| ->]]]; intros [|[|d]]; cbn [nth_error C46_ex_dims de_bounds de_stride de_fold fst snd]; try apply S;
      try (destruct (nth_error (@nil dim_expr) d) as [|] eqn:Q; [destruct d; discriminate Q|apply S]);
      cbn [given meaning field_value]; rewrite Dm; unfold dim_at; rewrite Hd, ?R1; reflexivity.
Qed.
Theorem C47_ex : let t := EBin Add (EVar 0 f_none 0) (EConst 2) in let rep := EVar 3 f_none 0 in
  let e := ELet [(5%nat, EBin Mul (EVar 1 f_none 0) t)] (EBin Max (EVar 5 f_none 0) t) in
  plain_heads e /\ lets_distinct e /\ (forall s, binds s e -> ~ free s t /\ ~ free s rep) /\
  substitute_expr t rep e = ELet [(5%nat, make_bin Mul (EVar 1 f_none 0) rep)] (make_bin Max (EVar 5 f_none 0) rep) /\
  forall W c, c 0%nat = 8 -> c 3%nat = 10 -> value W c t = value W c rep.
Proof.
  cbv zeta. split; [|split; [|split; [|split]]].
  - cbn. tauto.
  - cbn. split; [constructor; [intros []|constructor]|tauto].
  - intros s. cbn. intros B. assert (s = 5%nat) as -> by (decompose [or] B; try contradiction; auto).
    unfold free; cbn; split; intros (ro & K); decompose [or and] K; try contradiction; discriminate.
  - reflexivity.
  - intros W c E0 E3. unfold value. cbn [eval bind fst]. rewrite E0, E3. reflexivity.
Qed.
