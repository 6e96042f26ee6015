(** C13: the interval returned by bounds_of contains the value of the operation, for every
    choice of the values of the operands in their intervals.

    [encloses W r i v] (BoundsOf_Spec.v): both ends of [i] have values in the environment
    [r], and [v] is between them; an infinite end is no restriction.  [zop] is the value of
    the operation on integers, written there without reference to the code.

    The side conditions are defined in BoundsOf_Proofs.v:
    - [interval_ok]: is_point, which compares addresses, is only true if the ends are equal;
    - [operands_ok], [ends64], [ends30], [ends_bounds_ok], [..._small]: the constants in the
      operands, and in results of the operations on the ends, are in the range of index_t
      (64) or below 2^30 (30), the side conditions of C10 and C12 under which the rewrites
      are correct ([below30] only where a rule of simplify_min, _max, _less.. is applied);
    - [mul_ok], [div_ok]: 0 times infinity and finite over infinity only occur as literals
      (otherwise the end has no value, see the refuted statements below);
    - [logical_ends]: the ends of operands of and, or, not, select conditions are not negative. *)
From Coq Require Import ZArith List Bool Lia.
From Verif Require Import Arith_Model Arith_Spec Arith_Proofs Expr_Model Expr_Spec Expr_Proofs Expr_Props Match_Model Match_Proofs
  Rewrite_Model Rewrite_Proofs RewriteMatch_Proofs RewriteApply_Proofs RuleTac Rewrite_Props
  Simplify_Model Simplify_Proofs Simplify_Props Const_Model Const_Proofs Const_Props
  Interval_Model Interval_Spec Interval_Props BoundsOf_Model BoundsOf_Spec BoundsOf_Proofs.
Import ListNotations.
Open Scope Z_scope.

(** an enclosing interval contains the value in the sense of C14 *)
Theorem C13_encloses_contains W r i v : encloses W r i v -> contains W r i v.
Proof.
  intros (L & U). split.
  - destruct (meaning W r (i_min i)); cbn in *; tauto.
  - destruct (meaning W r (i_max i)); cbn in *; tauto.
Qed.

Section Theorems.
  Variable W : world.
  Variable r : env.
  (** which pairs of operands are the operands of the node given to bounds_of *)
  Variable reuse : expr -> expr -> bool.
  Notation M := (meaning W r).
  Notation enc := (encloses W r).

  (** bounds_of(op, a, b) for +, with or without the node [op] whose operands are used to
      tighten the result *)
  Theorem C13_add simplify_all op a b va vb i :
    interval_ok a -> interval_ok b -> enc a va -> enc b vb -> ends64 a -> ends64 b ->
    (forall e e', simplify_all e = Val e' -> refines (M e) (M e')) -> (forall e e', simplify_all e = Val e' -> consts_all below30 e') ->
    (forall j, bounds_of_linear reuse Add a b = Val j -> tighten_ok W r j op 1 va vb) ->
    bounds_of_add reuse simplify_all op a b = Val i -> enc i (va + vb).
  Proof.
    intros Ka Kb Ea Eb Ca Cb Sm Sc T H. apply bind_inv in H as (j & Hj & H).
    replace (va + vb) with (va + 1 * vb) by lia.
    refine (tighten_lemma W r reuse simplify_all j op 1 va vb i (or_introl eq_refl) Sm Sc (T _ Hj) _ H).
    replace (va + 1 * vb) with (zop Add va vb) by (cbn [zop]; lia).
    refine (linear_ok W r reuse Add a b va vb j eq_refl Ka Kb Ea Eb _ Hj).
    intros x y Hx Hy. apply ok_plain; auto.
  Qed.
  Theorem C13_sub simplify_all op a b va vb i :
    interval_ok a -> interval_ok b -> enc a va -> enc b vb -> ends64 a -> ends64 b ->
    (forall e e', simplify_all e = Val e' -> refines (M e) (M e')) -> (forall e e', simplify_all e = Val e' -> consts_all below30 e') ->
    (forall j, bounds_of_linear reuse Sub a (swapped b) = Val j -> tighten_ok W r j op (-1) va vb) ->
    bounds_of_sub reuse simplify_all op a b = Val i -> enc i (va - vb).
  Proof.
    intros Ka Kb Ea Eb Ca Cb Sm Sc T H. apply bind_inv in H as (j & Hj & H).
    replace (va - vb) with (va + -1 * vb) by lia.
    refine (tighten_lemma W r reuse simplify_all j op (-1) va vb i (or_intror eq_refl) Sm Sc (T _ Hj) _ H).
    replace (va + -1 * vb) with (va - vb) by lia.
    refine (sub_linear_ok W r reuse a b va vb j Ka Kb Ea Eb _ Hj). intros x y Hx Hy. split; auto.
  Qed.
  Theorem C13_min a b va vb i : interval_ok a -> interval_ok b -> enc a va -> enc b vb ->
    (forall x y, end_of a x -> end_of b y -> operands_ok W r Min x y) ->
    bounds_of_min reuse a b = Val i -> enc i (Z.min va vb).
  Proof. exact (linear_ok W r reuse Min a b va vb i eq_refl). Qed.
  Theorem C13_max a b va vb i : interval_ok a -> interval_ok b -> enc a va -> enc b vb ->
    (forall x y, end_of a x -> end_of b y -> operands_ok W r Max x y) ->
    bounds_of_max reuse a b = Val i -> enc i (Z.max va vb).
  Proof. exact (linear_ok W r reuse Max a b va vb i eq_refl). Qed.
  Theorem C13_mul a b va vb i : interval_ok a -> interval_ok b -> enc a va -> enc b vb ->
    ends_bounds_ok a -> ends_bounds_ok b -> (forall x y, end_of a x -> end_of b y -> mul_ok W r reuse x y) -> mul_small reuse a b ->
    bounds_of_mul reuse a b = Val i -> enc i (va * vb).
  Proof. exact (bounds_of_mul_ok W r reuse a b va vb i). Qed.
  Theorem C13_div a b va vb i : interval_ok a -> interval_ok b -> enc a va -> enc b vb ->
    ends_bounds_ok a -> ends_bounds_ok b -> (forall x y, end_of a x -> end_of b y -> div_ok W r reuse x y) -> ends30 a -> neg_small a ->
    bounds_of_div reuse a b = Val i -> enc i (ediv va vb).
  Proof. exact (bounds_of_div_ok W r reuse a b va vb i). Qed.
  Theorem C13_mod a b va vb i : world_ok W -> interval_ok a -> interval_ok b -> enc a va -> enc b vb ->
    ends64 a -> ends_bounds_ok b -> mod_small W b ->
    bounds_of_mod reuse W a b = Val i -> enc i (emod va vb).
  Proof. intros HW. exact (bounds_of_mod_ok W r reuse HW a b va vb i). Qed.

  Theorem C13_less a b va vb i : interval_ok a -> interval_ok b -> enc a va -> enc b vb ->
    (forall x y, end_of a x -> end_of b y -> operands_ok W r Less x y) ->
    bounds_of_lt reuse a b = Val i -> enc i (if va <? vb then 1 else 0).
  Proof. exact (less_ok W r reuse Less a b va vb i (or_introl eq_refl)). Qed.
  Theorem C13_less_equal a b va vb i : interval_ok a -> interval_ok b -> enc a va -> enc b vb ->
    (forall x y, end_of a x -> end_of b y -> operands_ok W r LessEqual x y) ->
    bounds_of_le reuse a b = Val i -> enc i (if va <=? vb then 1 else 0).
  Proof. exact (less_ok W r reuse LessEqual a b va vb i (or_intror eq_refl)). Qed.
  Theorem C13_equal a b va vb i : interval_ok a -> interval_ok b -> enc a va -> enc b vb ->
    (forall x y, end_of a x -> end_of b y -> operands_ok W r Equal x y) ->
    bounds_of_equal reuse a b = Val i -> enc i (if va =? vb then 1 else 0).
  Proof. exact (equal_ok W r reuse a b va vb i). Qed.
  Theorem C13_not_equal a b va vb i : interval_ok a -> interval_ok b -> enc a va -> enc b vb ->
    (forall x y, end_of a x -> end_of b y -> operands_ok W r NotEqual x y) ->
    bounds_of_not_equal reuse a b = Val i -> enc i (if va =? vb then 0 else 1).
  Proof. exact (not_equal_ok W r reuse a b va vb i). Qed.
  Theorem C13_and a b va vb i : interval_ok a -> interval_ok b -> enc a va -> enc b vb ->
    logical_ends W r a -> logical_ends W r b -> (forall x y, end_of a x -> end_of b y -> consts_all in64 x /\ consts_all in64 y) ->
    bounds_of_and reuse a b = Val i -> enc i (if (va =? 0) || (vb =? 0) then 0 else 1).
  Proof. exact (logic_ok W r reuse And a b va vb i (or_introl eq_refl)). Qed.
  Theorem C13_or a b va vb i : interval_ok a -> interval_ok b -> enc a va -> enc b vb ->
    logical_ends W r a -> logical_ends W r b -> (forall x y, end_of a x -> end_of b y -> consts_all in64 x /\ consts_all in64 y) ->
    bounds_of_or reuse a b = Val i -> enc i (if (va =? 0) && (vb =? 0) then 0 else 1).
  Proof. exact (logic_ok W r reuse Or a b va vb i (or_intror eq_refl)). Qed.
  (** [is_op]: the interval of the operand is the point [op] itself (which is then
      the node [ENot x] whose operand is [x]) *)
  Theorem C13_not op is_op a va i : interval_ok a -> enc a va -> logical_ends W r a ->
    (is_op = true -> forall x, op = Some x -> M x = Fin va /\ i_min a = ENot x /\ i_max a = ENot x) ->
    (forall x, end_of a x -> consts_all in64 x) ->
    bounds_of_not op is_op a = Val i -> enc i (if va =? 0 then 1 else 0).
  Proof. exact (not_ok W r op is_op a va i). Qed.
  Theorem C13_select reuse_select c t f vc vt vf i : interval_ok c -> interval_ok t -> interval_ok f ->
    enc c vc -> enc t vt -> enc f vf -> (exists p, M (i_min c) = Fin p /\ 0 <= p) ->
    (i_point c && i_point t && i_point f = true -> reuse_select = false ->
       ends64 c /\ ends64 t /\ ends64 f /\ all_finite W r (ESelect (i_min c) (i_min t) (i_min f))) ->
    (i_point c = false -> ends30 t /\ ends30 f) ->
    bounds_of_select reuse_select c t f = Val i -> enc i (if vc =? 0 then vf else vt).
  Proof. exact (select_ok W r reuse reuse_select c t f vc vt vf i). Qed.
  (** calls: abs of an interval; for every other intrinsic the interval is the call itself *)
  Theorem C13_abs t args a va i : world_ok W -> interval_ok a -> enc a va -> ends64 a -> (i_point a = false -> abs_small W a) ->
    bounds_of_call W i_abs t args [a] = Val i -> enc i (Z.abs va).
  Proof. intros HW. exact (abs_ok W r HW a va i). Qed.
  Theorem C13_call_other fn t args ivs v i : fn <> i_abs -> M (ECall fn t args) = Fin v ->
    bounds_of_call W fn t args ivs = Val i -> enc i v.
  Proof.
    intros N E H. assert (i = point (ECall fn t args)) as ->.
    { destruct fn; try congruence; cbn in H; injection H as <-; reflexivity. }
    unfold point. split; cbn [i_min i_max]; rewrite E; cbn [lower upper]; lia.
  Qed.
End Theorems.

(** *** concrete cases *)
Definition b_x : expr := EVar 0 f_none 0.
Definition b_y : expr := EVar 1 f_none 0.
Definition no_reuse (x y : expr) : bool := false.
Definition b_a : interval := i_bounds b_x (e_add b_x (EConst 9)).     (* [10, 19] *)
Definition b_b : interval := i_bounds (EConst (-3)) (EConst 4).
Definition b_u : interval := i_bounds (EConst 5) positive_infinity.

Lemma b_ok : interval_ok b_a /\ interval_ok b_b /\ interval_ok b_u /\
  encloses ex_world ex_r b_a 12 /\ encloses ex_world ex_r b_b (-2) /\ encloses ex_world ex_r b_u 100.
Proof. do 3 (split; [intros H; discriminate H|]). repeat split; vm_compute; first [exact I | congruence]. Qed.
Lemma b_ends30 i : small_consts (i_min i) = true -> small_consts (i_max i) = true -> ends30 i.
Proof. intros A B x [-> | ->]; apply small_consts_ok; assumption. Qed.
Lemma b_small : ends30 b_a /\ ends30 b_b /\ ends30 b_u.
Proof. split; [|split]; apply b_ends30; reflexivity. Qed.
Lemma b_bounds_ok i : ends30 i -> logical_ok (i_min i) = true -> logical_ok (i_max i) = true -> ends_bounds_ok i.
Proof. intros C A B x [-> | ->]; (split; [apply c30_c64, C|assumption]); [left|right]; reflexivity. Qed.
(** the product of [x, x + 9] and [-3, 4] *)
Lemma C13_ex_mul : exists i, bounds_of_mul no_reuse (i_bounds (EConst 2) (EConst 9)) b_b = Val i /\
  finite_ends ex_world ex_r i (-27) 36 /\ mul_small no_reuse (i_bounds (EConst 2) (EConst 9)) b_b /\
  ends_bounds_ok (i_bounds (EConst 2) (EConst 9)) /\ ends_bounds_ok b_b /\
  (forall x y, end_of (i_bounds (EConst 2) (EConst 9)) x -> end_of b_b y -> mul_ok ex_world ex_r no_reuse x y).
Proof.
  eexists. split; [vm_compute; reflexivity|]. split; [split; vm_compute; reflexivity|].
  assert (P : forall e, product no_reuse (i_bounds (EConst 2) (EConst 9)) b_b e -> e = EConst (-6) \/ e = EConst 8 \/ e = EConst (-27) \/ e = EConst 36).
  { intros e (x & y & [-> | ->] & [-> | ->] & H); cbn [b_b i_bounds i_min i_max] in H; vm_compute in H; injection H as <-; tauto. }
  split; [split|split; [|split]].
  - intros e He. destruct (P e He) as [->|[->|[->| ->]]]; apply small_consts_ok; reflexivity.
  - intros e (p & q & Hp & Hq & H). destruct (P p Hp) as [->|[->|[->| ->]]], (P q Hq) as [->|[->|[->| ->]]];
      destruct H as [H|H]; vm_compute in H; injection H as <-; apply small_consts_ok; reflexivity.
  - apply b_bounds_ok; [apply b_ends30|..]; reflexivity.
  - apply b_bounds_ok; [apply b_ends30|..]; reflexivity.
  - intros x y [-> | ->] [-> | ->] [(A & [B|B])|([B|B] & A)]; exfalso; vm_compute in A, B; discriminate.
Qed.
Lemma C13_ex_sub_div : exists i j k, bounds_of_sub no_reuse (fun e => Val e) None b_a b_b = Val i /\ finite_ends ex_world ex_r i 6 22 /\
  bounds_of_div no_reuse b_a (i_bounds (EConst 2) (EConst 3)) = Val j /\ encloses ex_world ex_r j (ediv 12 3) /\
  bounds_of_mod no_reuse ex_world b_a b_b = Val k /\ finite_ends ex_world ex_r k 0 3.
Proof.
  eexists _, _, _. split; [vm_compute; reflexivity|]. split; [split; vm_compute; reflexivity|].
  split; [vm_compute; reflexivity|]. split; [split; vm_compute; congruence|]. split; [vm_compute; reflexivity|split; vm_compute; reflexivity].
Qed.
(** tightening by the staircases: 4*(x/4) - x is in [-3, 0], although the intervals of the
    operands overlap in many values *)
Lemma C13_ex_tighten : exists i, bounds_of_sub no_reuse (fun e => Val e) (Some (e_mul (e_div b_x (EConst 4)) (EConst 4), b_x))
    (i_bounds (EConst 0) (EConst 100)) (i_bounds (EConst 0) (EConst 100)) = Val i /\ finite_ends ex_world ex_r i (-3) 0.
Proof. eexists. split; [vm_compute; reflexivity|split; vm_compute; reflexivity]. Qed.
Lemma C13_ex_tighten_ok : exists j, bounds_of_linear no_reuse Sub (i_bounds (EConst 0) (EConst 100)) (swapped (i_bounds (EConst 0) (EConst 100))) = Val j /\
  tighten_ok ex_world ex_r j (Some (e_mul (e_div b_x (EConst 4)) (EConst 4), b_x)) (-1) 8 10.
Proof.
  eexists. split; [vm_compute; reflexivity|]. intros a b E. injection E as <- <-.
  split; [vm_compute; reflexivity|]. split; [vm_compute; reflexivity|].
  split; [apply small_consts_ok; reflexivity|]. split; [apply small_consts_ok; reflexivity|].
  split; [apply b_ends30; reflexivity|]. split.
  - intros a b l rr sb m E Hl Hr Hs Hm. injection E as <- <-. vm_compute in Hl, Hr. injection Hl as <-. injection Hr as <-.
    vm_compute in Hs. injection Hs as <-. vm_compute in Hm. unfold below30. destruct Hm as [Hm|Hm]; injection Hm as <-; lia.
  - intros j Hj. vm_compute in Hj. injection Hj as <-. apply b_ends30; reflexivity.
Qed.
(** min(x, y) - max(x + 1, y) *)
Lemma C13_ex_min_max : exists i, bounds_of_sub no_reuse (fun e => Val e)
    (Some (e_min b_x b_y, e_max (e_add b_x (EConst 1)) b_y)) (i_bounds (EConst (-50)) (EConst 50)) (i_bounds (EConst (-50)) (EConst 50)) = Val i /\
  finite_ends ex_world ex_r i (-100) (-14).
Proof. eexists. split; [vm_compute; reflexivity|split; vm_compute; reflexivity]. Qed.

(** *** findings *)
(** Ends that are not truth values: [-1, 5] contains the value 0, whose negation is 1, but
    the bounds of the negation are [0, 0]. *)
Theorem C13_not_refuted : exists a i v, interval_ok a /\ encloses ex_world ex_r a v /\ bounds_of_not None false a = Val i /\
  ~ encloses ex_world ex_r i (znot v).
Proof.
  exists (i_bounds (EConst (-1)) (EConst 5)). eexists. exists 0. split; [intros H; discriminate H|]. split; [split; vm_compute; congruence|].
  split; [vm_compute; reflexivity|]. intros (A & B). vm_compute in A, B. congruence.
Qed.
(** -1 counts as true in and, or, select, and so an interval [-1, 0] cannot be used in the
    same order. *)
Theorem C13_and_refuted : exists a b i, interval_ok a /\ interval_ok b /\ encloses ex_world ex_r a 0 /\ encloses ex_world ex_r b 1 /\
  bounds_of_and no_reuse a b = Val i /\ ~ encloses ex_world ex_r i (zop And 0 1).
Proof.
  exists (i_bounds (EConst (-1)) (EConst 0)), (i_bounds (EConst 1) (EConst 2)). eexists.
  split; [intros H; discriminate H|]. split; [intros H; discriminate H|]. split; [split; vm_compute; congruence|]. split; [split; vm_compute; congruence|].
  split; [vm_compute; reflexivity|]. intros (A & B). vm_compute in A, B. congruence.
Qed.
Theorem C13_select_refuted : exists c t f i, interval_ok c /\ interval_ok t /\ interval_ok f /\
  encloses ex_world ex_r c 0 /\ encloses ex_world ex_r t 5 /\ encloses ex_world ex_r f 60 /\
  bounds_of_select false c t f = Val i /\ ~ encloses ex_world ex_r i (zselect 0 5 60).
Proof.
  exists (i_bounds (EConst (-1)) (EConst 1)), (i_bounds (EConst 0) (EConst 9)), (i_bounds (EConst 50) (EConst 70)). eexists.
  split; [intros H; discriminate H|]. split; [intros H; discriminate H|]. split; [intros H; discriminate H|].
  split; [split; vm_compute; congruence|]. split; [split; vm_compute; congruence|]. split; [split; vm_compute; congruence|].
  split; [vm_compute; reflexivity|]. intros (A & B). vm_compute in A, B. congruence.
Qed.
(** A symbolic operand that is 0, times infinity: the end has no value (evaluating it is
    undefined), although the product of 0 with anything is 0. *)
Definition zero_r : env := fun _ => Fin 0.
Theorem C13_mul_infinity_refuted : exists a b i, interval_ok a /\ interval_ok b /\ encloses ex_world zero_r a 0 /\
  encloses ex_world zero_r b 7 /\ bounds_of_mul no_reuse a b = Val i /\ meaning ex_world zero_r (i_max i) = Bad.
Proof.
  exists (point (ECall i_abs None [b_x])), b_u. eexists.
  split; [intros _; split; reflexivity|]. split; [intros H; discriminate H|]. split; [split; vm_compute; congruence|]. split; [split; vm_compute; first [exact I | congruence]|].
  split; vm_compute; reflexivity.
Qed.

Print Assumptions C13_add.
Print Assumptions C13_sub.
Print Assumptions C13_mul.
Print Assumptions C13_div.
Print Assumptions C13_mod.
Print Assumptions C13_select.
Print Assumptions C13_abs.
