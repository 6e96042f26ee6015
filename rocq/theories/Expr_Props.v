(** Properties C08 (construction preserves value), C09 (evaluation is the mathematical
    semantics) and C15 (structural match is an equivalence consistent with a total
    order).  The specification of values is Expr_Spec.meaning. *)
From Coq Require Import ZArith List Bool Lia.
From Verif Require Import Arith_Model Arith_Spec Arith_Proofs Buf_Model Alloc_Model Expr_Model Expr_Spec Expr_Proofs
  Match_Model Match_Proofs.
Import ListNotations.
Open Scope Z_scope.

(** ** C08 *)
Lemma xbin_comm o a b : commutative o = true -> xbin o b a = xbin o a b.
Proof.
  destruct o; try discriminate; intros _; destruct a as [x| | |], b as [y| | |];
    cbn [xbin xadd xmul xmin xmax xcmp xbool2]; try reflexivity; try (f_equal; lia).
  - rewrite Z.eqb_sym; reflexivity.
  - rewrite Z.eqb_sym; reflexivity.
  - rewrite andb_comm; reflexivity.
  - rewrite orb_comm; reflexivity.
Qed.

(** Every binary operator node, built with operands in the canonical order, has the
    value of the operator on the operands' values. *)
Theorem C08_operator : forall W r o a b,
  meaning W r (make_bin o a b) = xbin o (meaning W r a) (meaning W r b).
Proof.
  intros. unfold make_bin. destruct (commutative o) eqn:C; cbn [andb]; [|reflexivity].
  destruct (should_commute a b); [|reflexivity]. cbn [meaning]. apply xbin_comm; assumption.
Qed.

(** What the operators written in a program mean on finite values. *)
Theorem C08_arithmetic : forall W r a b x y, meaning W r a = Fin x -> meaning W r b = Fin y ->
  meaning W r (e_add a b) = Fin (x + y) /\
  meaning W r (e_sub a b) = Fin (x - y) /\
  meaning W r (e_mul a b) = Fin (x * y) /\
  meaning W r (e_div a b) = Fin (ediv x y) /\
  meaning W r (e_mod a b) = Fin (emod x y) /\
  meaning W r (e_min a b) = Fin (Z.min x y) /\
  meaning W r (e_max a b) = Fin (Z.max x y) /\
  meaning W r (e_neg a) = Fin (- x) /\
  meaning W r (e_abs a) = Fin (Z.abs x) /\
  meaning W r (e_align_down a b) = Fin (ediv x y * y) /\
  meaning W r (e_align_up a b) = Fin (ediv (x + y - 1) y * y).
Proof.
  intros W r a b x y Ha Hb.
  unfold e_add, e_sub, e_mul, e_div, e_mod, e_min, e_max, e_neg, e_abs, e_align_down, e_align_up.
  repeat split; repeat (rewrite C08_operator || (cbn [meaning xcall map e_sub e_add e_mul e_div]; fail));
    unfold e_sub, e_add, e_mul, e_div; rewrite ?C08_operator; cbn [meaning xcall map]; rewrite ?Ha, ?Hb; cbn [xbin xadd xsub xneg xmul xdiv xmod xmin xmax xabs];
    reflexivity.
Qed.

Definition b2z (P : bool) : Z := if P then 1 else 0.
Theorem C08_comparisons : forall W r a b x y, meaning W r a = Fin x -> meaning W r b = Fin y ->
  meaning W r (e_eq a b) = Fin (b2z (x =? y)) /\
  meaning W r (e_ne a b) = Fin (b2z (negb (x =? y))) /\
  meaning W r (e_lt a b) = Fin (b2z (x <? y)) /\
  meaning W r (e_le a b) = Fin (b2z (x <=? y)) /\
  meaning W r (e_gt a b) = Fin (b2z (y <? x)) /\
  meaning W r (e_ge a b) = Fin (b2z (y <=? x)) /\
  meaning W r (e_and a b) = Fin (b2z (negb (x =? 0) && negb (y =? 0))) /\
  meaning W r (e_or a b) = Fin (b2z (negb (x =? 0) || negb (y =? 0))) /\
  meaning W r (e_not a) = Fin (b2z (x =? 0)) /\
  meaning W r (e_and_then a b) = Fin (b2z (negb (x =? 0) && negb (y =? 0))) /\
  meaning W r (e_or_else a b) = Fin (b2z (negb (x =? 0) || negb (y =? 0))).
Proof.
  intros W r a b x y Ha Hb.
  unfold e_eq, e_ne, e_lt, e_le, e_gt, e_ge, e_and, e_or, e_not, e_and_then, e_or_else.
  rewrite !C08_operator. cbn [meaning xcall map snd]. rewrite !Ha, !Hb.
  cbn [xbin xcmp xbool2 xnot xshort]. unfold truthy.
  repeat split; try reflexivity; destruct (x =? 0), (y =? 0); reflexivity.
Qed.

(** clamp: an undefined end does not clamp *)
Theorem C08_clamp : forall W r x a b vx, meaning W r x = Fin vx ->
  (forall va vb, meaning W r a = Fin va -> meaning W r b = Fin vb ->
     meaning W r (e_clamp x a b) = Fin (Z.max (Z.min vx vb) va)) /\
  (forall va, meaning W r a = Fin va -> meaning W r (e_clamp x a EUndef) = Fin (Z.max vx va)) /\
  (forall vb, meaning W r b = Fin vb -> meaning W r (e_clamp x EUndef b) = Fin (Z.min vx vb)) /\
  e_clamp x EUndef EUndef = x.
Proof.
  intros W r x a b vx Hx. unfold e_clamp. cbn [defined].
  assert (D : forall e v, meaning W r e = Fin v -> defined e = true) by (intros [] v E; try reflexivity; discriminate).
  repeat split.
  - intros va vb Ha Hb. rewrite (D _ _ Ha), (D _ _ Hb), !C08_operator, Hx, Ha, Hb. reflexivity.
  - intros va Ha. rewrite (D _ _ Ha), C08_operator, Hx, Ha. reflexivity.
  - intros vb Hb. rewrite (D _ _ Hb), C08_operator, Hx, Hb. reflexivity.
Qed.

(** min and max of a non-empty list of expressions *)
Theorem C08_min_max_of_list : forall W r l vs, l <> [] -> map (meaning W r) l = map Fin vs ->
  (exists m, meaning W r (e_min_span l) = Fin m /\ In m vs /\ forall v, In v vs -> m <= v) /\
  (exists m, meaning W r (e_max_span l) = Fin m /\ In m vs /\ forall v, In v vs -> v <= m).
Proof.
  intros W r l; induction l as [|x l IH]; intros vs N E; [congruence|clear N].
  destruct vs as [|v vs]; [discriminate|]. cbn [map] in E. injection E as Ex El.
  destruct l as [|x2 l].
  - destruct vs; [|discriminate]. cbn [e_min_span e_max_span].
    split; exists v; (split; [assumption|split; [left; reflexivity|intros ? [<-|[]]; lia]]).
  - destruct (IH vs ltac:(congruence) El) as ((m & M1 & M2 & M3) & (n & N1 & N2 & N3)).
    change (e_min_span (x :: x2 :: l)) with (e_min x (e_min_span (x2 :: l))).
    change (e_max_span (x :: x2 :: l)) with (e_max x (e_max_span (x2 :: l))).
    unfold e_min, e_max. rewrite !C08_operator, M1, N1, Ex. cbn [xbin xmin xmax]. split.
    + exists (Z.min v m). split; [reflexivity|]. split.
      * destruct (Z.min_dec v m) as [->| ->]; [left; reflexivity|right; assumption].
      * intros w [<-|H]; [lia|specialize (M3 w H); lia].
    + exists (Z.max v n). split; [reflexivity|]. split.
      * destruct (Z.max_dec v n) as [->| ->]; [left; reflexivity|right; assumption].
      * intros w [<-|H]; [lia|specialize (N3 w H); lia].
Qed.

Lemma of_bool_01 b : of_bool b = 0 \/ of_bool b = 1.
Proof. destruct b; auto. Qed.
Lemma is_boolean_value W r e v : is_boolean e = true -> meaning W r e = Fin v -> v = 0 \/ v = 1.
Proof.
  unfold is_boolean; intros B E. apply orb_prop in B; destruct B as [B|B]; [apply orb_prop in B; destruct B as [B|B]|].
  - destruct e as [| | |o a b|a| | |]; try discriminate.
    + destruct o; try discriminate; cbn [meaning xbin] in E;
        destruct (meaning W r a), (meaning W r b); cbn [xcmp xbool2] in E; try discriminate;
        injection E as <-; first [apply of_bool_01 | apply (of_bool_01 true) | apply (of_bool_01 false)].
    + cbn [meaning] in E. destruct (meaning W r a); try discriminate. cbn [xnot] in E. injection E as <-.
      unfold of_bool; destruct (_ =? 0); auto.
  - destruct e; try discriminate. cbn [is_one is_const] in B. apply Z.eqb_eq in B. cbn [meaning] in E. right; congruence.
  - destruct e; try discriminate. cbn [is_zero is_const] in B. apply Z.eqb_eq in B. cbn [meaning] in E. left; congruence.
Qed.

(** boolean(x) is 1 where x is true (non-zero) and 0 where it is false, and so is every
    expression the library recognises as boolean *)
Theorem C08_boolean : forall W r e v, meaning W r e = Fin v ->
  meaning W r (boolean e) = Fin (b2z (negb (v =? 0))) /\
  (is_boolean e = true -> v = 0 \/ v = 1).
Proof.
  intros W r e v E. split; [|intro B; eapply is_boolean_value; eauto].
  unfold boolean. destruct (defined e) eqn:D; [|destruct e; discriminate]. cbn [negb orb].
  destruct (is_boolean e) eqn:B.
  - rewrite E. destruct (is_boolean_value W r e v B E) as [->| ->]; reflexivity.
  - destruct (as_constant e) as [c|] eqn:A.
    + destruct e; try discriminate. cbn [as_constant meaning] in *. injection A as ->; injection E as ->; reflexivity.
    + rewrite C08_operator, E. reflexivity.
Qed.

(** Folding of two constants: the value is kept, and nothing overflows *)
Theorem C08_constant_fold : forall W r o a b e, in64 a -> in64 b ->
  make_or_eval_binary o a b = Val e -> meaning W r e = xbin o (Fin a) (Fin b).
Proof.
  intros W r o a b e Ha Hb. unfold make_or_eval_binary. destruct (binary_overflows o a b).
  - intro E; injection E as <-. apply C08_operator.
  - intro E. apply bind_inv in E; destruct E as (v & E & X). injection X as <-.
    symmetry. apply eval_bin_mean; assumption.
Qed.
(** ... and folding is always defined, whatever the operands: it does not overflow ... *)
Theorem C08_constant_fold_defined : forall o a b, in64 a -> in64 b ->
  ~ ((o = Div \/ o = Mod) /\ a = - 2 ^ 63 /\ b = -1) -> exists e, make_or_eval_binary o a b = Val e.
Proof.
  intros o a b Ha Hb N. unfold make_or_eval_binary.
  destruct (binary_overflows o a b) eqn:O; [eexists; reflexivity|].
  assert (exists v, eval_bin o a b = Val v) as (v & ->); [|eexists; reflexivity].
  unfold in64 in Ha, Hb.
  destruct o; cbn [eval_bin binary_overflows] in *; try (eexists; reflexivity);
    try (unfold add_overflows, sub_overflows, mul_overflows, builtin_add_overflow, builtin_sub_overflow, builtin_mul_overflow in O; cbn [fst] in O;
         unfold cadd, csub, cmul, chk; apply negb_false_iff in O; rewrite O; eexists; reflexivity);
    destruct (Z.eq_dec b 0) as [->|B]; try (eexists; reflexivity).
  - rewrite euclidean_div_ok; [eexists; reflexivity | reflexivity | exact Ha | exact Hb | exact B |].
    intros (E1 & E2). apply N. split; [left; reflexivity | split; [exact E1 | exact E2]].
  - rewrite euclidean_mod_ok; [eexists; reflexivity | reflexivity | exact Ha | exact Hb | exact B |].
    intros (E1 & E2). apply N. split; [right; reflexivity | split; [exact E1 | exact E2]].
Qed.
(** ... except that dividing the smallest integer by -1 is undefined behaviour: the
    fold has no overflow check for / and % *)
Theorem C08_constant_fold_div_refuted :
  make_or_eval_binary Div (- 2 ^ 63) (-1) = UB /\ make_or_eval_binary Mod (- 2 ^ 63) (-1) = UB /\
  exists e, make_or_eval_binary Add (2 ^ 63 - 1) 1 = Val e.
Proof. repeat split; try reflexivity. eexists; reflexivity. Qed.

Example C08_ex : let W := World (fun _ => None) (fun _ _ => 0) (fun _ _ => 0) in
  let r := fun s => Fin (Z.of_nat s * 10) in
  e_add (EConst 5) (EVar 3 f_none 0) = EBin Add (EVar 3 f_none 0) (EConst 5) /\
  meaning W r (e_add (EConst 5) (EVar 3 f_none 0)) = Fin 35 /\
  meaning W r (e_clamp (EVar 3 f_none 0) (EConst 0) (EVar 2 f_none 0)) = Fin 20 /\
  meaning W r (e_align_up (EVar 3 f_none 0) (EConst 16)) = Fin 32.
Proof. repeat split; reflexivity. Qed.

(** ** C09 *)

(** Soundness: the evaluator's result is the meaning, and the context is as it was.
    Hypotheses: each let binds distinct symbols, and the inputs are index_t values. *)
Theorem C09_evaluate_sound : forall W c e v c',
  world_ok W -> ctx_ok c -> consts_ok e -> lets_distinct e ->
  eval W c e = Val (v, c') ->
  meaning W (of_context c) e = Fin v /\ (forall s, c' s = c s) /\ in64 v.
Proof.
  intros W c e v c' HW Hc K D E.
  exact (eval_ok W HW e D K c (of_context c) v c' (fun s => eq_refl) Hc E).
Qed.

(** Definedness: when every operation performed has a representable result, evaluation
    returns (and then C09_evaluate_sound says what). *)
Theorem C09_evaluate_defined : forall W c e,
  world_ok W -> ctx_ok c -> consts_ok e -> lets_distinct e ->
  fits W (of_context c) e ->
  exists v c', eval W c e = Val (v, c') /\ meaning W (of_context c) e = Fin v /\ (forall s, c' s = c s).
Proof.
  intros W c e HW Hc K D F.
  destruct (eval_total W HW e D K c (of_context c) (fun s => eq_refl) Hc F) as (v & c' & E).
  exists v, c'. split; [assumption|].
  destruct (C09_evaluate_sound W c e v c' HW Hc K D E) as (M & Q & _); auto.
Qed.

(** select evaluates only the branch taken, && does not short-circuit, and_then does *)
Theorem C09_laziness : forall W c t f,
  eval W c (ESelect (EConst 1) t f) = eval W c t /\
  eval W c (ESelect (EConst 0) t f) = eval W c f /\
  eval W c (e_and_then (EConst 0) t) = Val (0, c) /\
  eval W c (e_or_else (EConst 1) t) = Val (1, c) /\
  (eval W c t = UB -> eval W c (EBin And (EConst 0) t) = UB).
Proof. intros. repeat split; try reflexivity. intro E. cbn [eval]. cbn [bind]. rewrite E. reflexivity. Qed.

(** lets: later bindings and the body see the earlier ones, an inner binding shadows,
    and nothing outside sees them *)
Theorem C09_let_scoping : forall W r s x b,
  meaning W r (ELet [(s, x)] b) =
    match meaning W r x with Bad => Bad | v => meaning W (env_set r s v) b end /\
  forall l, meaning W r (ELet ((s, x) :: l) b) =
    match meaning W r x with Bad => Bad | v => meaning W (env_set r s v) (ELet l b) end.
Proof. intros; split; [reflexivity|intro l; reflexivity]. Qed.

Definition ex_world : world := World (fun _ => None) (fun _ _ => 0) (fun _ _ => 0).
(** Finding: a let that binds the same symbol twice leaves the caller's context changed,
    because the old values are restored in the order they were saved. *)
Theorem C09_duplicate_let_refuted :
  let c := fun _ : nat => 7 in
  exists v c', eval ex_world c (ELet [(0%nat, EConst 1); (0%nat, EConst 2)] (EVar 0 f_none 0)) = Val (v, c') /\
    v = 2 /\ c' 0%nat = 1 /\ c 0%nat = 7.
Proof. intro c. eexists; eexists. split; [reflexivity|]. repeat split; reflexivity. Qed.

Lemma ex_world_ok : world_ok ex_world.
Proof. split; cbn; intros; try discriminate; unfold in64; cbn; lia. Qed.

Example C09_ex :
  let e := ELet [(1%nat, EBin Add (EVar 0 f_none 0) (EConst 1)); (2%nat, EBin Mul (EVar 1 f_none 0) (EVar 1 f_none 0))]
             (ESelect (EBin Less (EVar 2 f_none 0) (EConst 50)) (EBin Div (EConst (-7)) (EVar 2 f_none 0)) (EBin Div (EConst 1) (EConst 0))) in
  let c := fun _ : nat => 4 in
  world_ok ex_world /\ ctx_ok c /\ consts_ok e /\ lets_distinct e /\ fits ex_world (of_context c) e /\
  meaning ex_world (of_context c) e = Fin (-1).
Proof.
  cbn zeta. split; [exact ex_world_ok|]. split; [intro; unfold in64; cbn; lia|]. split; [cbn; unfold in64; cbn; lia|].
  split; [cbn; repeat split; repeat constructor; cbn; intuition discriminate|]. split; [|reflexivity].
  cbn; repeat first [ match goal with H : Fin _ = Fin _ |- _ => injection H as H; subst; cbn end
                    | match goal with H : of_context _ _ = Fin _ |- _ => cbv in H; injection H as H; subst; cbn end
                    | exact I | split | progress intros | lia | discriminate ].
Qed.

(** ** C15 *)
Theorem C15_compare_total_order :
  (forall a b, compare a b = Eq <-> a = b) /\
  (forall a b, compare b a = CompOpp (compare a b)) /\
  (forall a b c, compare a b = Lt -> compare b c = Lt -> compare a c = Lt).
Proof.
  split; [apply compare_eq|]. split.
  - intros; rewrite !compare_code; apply lexZ_opp.
  - intros a b c; rewrite !compare_code; apply lexZ_trans.
Qed.

Theorem C15_match_iff_equal : forall a b,
  (match_expr a b = true <-> a = b) /\ (match_expr a b = true <-> compare a b = Eq).
Proof. intros; rewrite match_eq, compare_eq; tauto. Qed.

(** node_less is a strict weak ordering, as std::map and std::sort require *)
Theorem C15_node_less_strict_total : forall a b c,
  node_less a a = false /\
  (node_less a b = true -> node_less b a = false) /\
  (node_less a b = true -> node_less b c = true -> node_less a c = true) /\
  (node_less a b = false -> node_less b a = false -> a = b).
Proof.
  intros a b c. destruct C15_compare_total_order as (E & O & T). unfold node_less.
  split; [rewrite (proj2 (E a a) eq_refl); reflexivity|]. split.
  - rewrite (O a b). destruct (compare a b); cbn; congruence.
  - split.
    + intros H1 H2. rewrite (T a b c); [reflexivity|destruct (compare a b); congruence|destruct (compare b c); congruence].
    + rewrite (O a b). intros H1 H2. apply E. destruct (compare a b); cbn in *; congruence.
Qed.

(** expressions that match evaluate alike everywhere *)
Theorem C15_match_same_value : forall a b, match_expr a b = true ->
  forall W c, eval W c a = eval W c b /\ (forall r, meaning W r a = meaning W r b).
Proof. intros a b H W c. apply match_eq in H; subst; auto. Qed.

(** Intervals: when a node is shared by both ends of both intervals only one end is
    compared, which is enough. *)
Theorem C15_interval_match : forall pa amin amax pb bmin bmax,
  (pa = true -> amin = amax) -> (pb = true -> bmin = bmax) ->
  (compare_interval pa amin amax pb bmin bmax = Eq <-> amin = bmin /\ amax = bmax).
Proof.
  intros pa amin amax pb bmin bmax Ha Hb. unfold compare_interval. rewrite lex_eq, compare_eq.
  destruct pa, pb; cbn [negb orb]; rewrite ?compare_eq; try tauto.
  rewrite <- Ha, <- Hb by reflexivity. tauto.
Qed.

Example C15_ex :
  compare (EBin Add (EVar 1 f_none 0) (EConst 2)) (EBin Add (EVar 1 f_none 0) (EConst 3)) = Lt /\
  compare (EConst 0) (EVar 9 f_none 0) = Gt /\
  compare (ECall i_abs None [EVar 1 f_none 0]) (ECall i_none (Some 4%nat) []) = Gt /\
  compare (ECall i_none (Some 4%nat) []) (ECall i_none None []) = Lt /\
  match_expr (ELet [(1%nat, EConst 2)] EUndef) (ELet [(1%nat, EConst 2)] EUndef) = true.
Proof. repeat split; reflexivity. Qed.
