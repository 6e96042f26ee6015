(** C43: constant bounds are conservative.  C44: adding a constant. *)
From Coq Require Import ZArith List Bool Lia.
From Verif Require Import Arith_Model Arith_Spec Arith_Proofs Buf_Model Expr_Model Expr_Spec Expr_Proofs Expr_Props Match_Model
  Rewrite_Model Rewrite_Proofs RewriteMatch_Proofs Rewrite_Props Simplify_Proofs Const_Model Const_Proofs.
Import ListNotations.
Open Scope Z_scope.

(** [bounds_ok e]: the constants of [e] are index_t values and the operands of logical
    operators are boolean expressions, constants or variables *)
Definition bounds_ok (e : expr) : Prop := consts_all in64 e /\ logical_ok e = true.

Lemma bound_inv s c x : bounds_value s c x -> x <> Bad -> if s =? 0 then x = Fin c else if s <? 0 then xle (Fin c) x else xle x (Fin c).
Proof. intros [H|H] N; [contradiction|exact H]. Qed.

(** If constant_lower_bound gives a constant, the expression is at least that constant
    for all values of its variables. *)
Theorem C43_constant_lower_bound : forall e c, bounds_ok e -> constant_lower_bound e = Val (EConst c) ->
  forall W r, meaning W r e <> Bad -> xle (Fin c) (meaning W r e).
Proof.
  intros e c (C & L) H W r N. destruct (cev_ok W r false e C L (-1) _ H) as (_ & B). destruct (B c eq_refl) as (_ & V).
  exact (bound_inv _ _ _ V N).
Qed.
Theorem C43_constant_upper_bound : forall e c, bounds_ok e -> constant_upper_bound e = Val (EConst c) ->
  forall W r, meaning W r e <> Bad -> xle (meaning W r e) (Fin c).
Proof.
  intros e c (C & L) H W r N. destruct (cev_ok W r false e C L 1 _ H) as (_ & B). destruct (B c eq_refl) as (_ & V).
  exact (bound_inv _ _ _ V N).
Qed.
(** evaluate_constant gives the value, the same for all values of the variables. *)
Theorem C43_evaluate_constant : forall e c, bounds_ok e -> evaluate_constant e = Val (Some c) ->
  forall W r, meaning W r e <> Bad -> meaning W r e = Fin c.
Proof.
  intros e c (C & L) H W r N. unfold evaluate_constant in H. apply bind_inv in H as (q & Hq & H). injection H as H. apply constant_inv in H. subst q.
  destruct (cev_ok W r true e C L 0 _ Hq) as (_ & B). destruct (B c eq_refl) as (_ & V). exact (bound_inv _ _ _ V N).
Qed.
Theorem C43_evaluate_constant_bounds : forall e lo hi, bounds_ok e ->
  evaluate_constant_lower_bound e = Val (Some lo) -> evaluate_constant_upper_bound e = Val (Some hi) ->
  forall W r, meaning W r e <> Bad -> exists v, meaning W r e = Fin v /\ lo <= v <= hi.
Proof.
  intros e lo hi (C & L) H1 H2 W r N.
  apply bind_inv in H1 as (q1 & Hq1 & H1). injection H1 as H1. apply constant_inv in H1. subst q1.
  apply bind_inv in H2 as (q2 & Hq2 & H2). injection H2 as H2. apply constant_inv in H2. subst q2.
  destruct (cev_ok W r true e C L (-1) _ Hq1) as (_ & B1). destruct (B1 lo eq_refl) as (_ & V1).
  destruct (cev_ok W r true e C L 1 _ Hq2) as (_ & B2). destruct (B2 hi eq_refl) as (_ & V2).
  apply bound_inv in V1; auto. apply bound_inv in V2; auto. cbn [Z.eqb Z.ltb Z.compare] in V1, V2.
  destruct (meaning W r e) as [v| | |]; cbn [xle] in *; try contradiction. eauto.
Qed.
(** The bounds hold of what the evaluator computes. *)
Theorem C43_evaluation : forall e lo hi, bounds_ok e -> consts_ok e -> lets_distinct e ->
  evaluate_constant_lower_bound e = Val (Some lo) -> evaluate_constant_upper_bound e = Val (Some hi) ->
  forall W c v c', world_ok W -> ctx_ok c -> eval W c e = Val (v, c') -> lo <= v <= hi.
Proof.
  intros e lo hi B K D H1 H2 W c v c' WK CK E.
  pose proof (eval_ok W WK e D K c (of_context c) v c' (fun _ => eq_refl) CK E) as (M & _).
  destruct (C43_evaluate_constant_bounds e lo hi B H1 H2 W (of_context c)) as (u & U & R).
  - rewrite M. discriminate.
  - rewrite M in U. injection U as <-. exact R.
Qed.

(** add_constant: whenever it gives an expression, that is the sum. *)
Theorem C44_add_constant : forall a c e, consts_ok a -> in64 c -> add_constant a c = Val e -> defined e = true ->
  forall W r, refines (xadd (meaning W r a) (Fin c)) (meaning W r e).
Proof.
  intros a c e K I H D W r. unfold add_constant in H. destruct (Z.eqb_spec c 0) as [->|n].
  - injection H as <-. right. destruct (meaning W r a); cbn [xadd]; try reflexivity. f_equal; lia.
  - apply bind_inv in H as ((e', n') & H & E). injection E as <-. exact (cadder_ok W a K c 0 e' n' I H D r).
Qed.

(** *** examples *)
Definition xv : expr := EVar 0 f_none 0.
Definition yv : expr := EVar 1 f_none 0.
Definition ex_bounded : expr :=
  EBin Add (EBin Mul (EBin Min xv (EConst 5)) (EConst 3)) (EBin Sub (EBin Mod yv (EConst 7)) (ECall i_abs None [xv])).
Example C43_ex : bounds_ok ex_bounded /\ constant_upper_bound ex_bounded = Val (EConst 21) /\
  constant_lower_bound (EBin Div (EBin Max xv (EConst 9)) (EConst 2)) = Val (EConst 4) /\
  evaluate_constant (EBin And (EBin Less xv yv) (EConst 0)) = Val (Some 0) /\
  evaluate_constant_lower_bound (EBin Less (EBin Min xv (EConst 3)) (EBin Max yv (EConst 4))) = Val (Some 1) /\
  evaluate_constant_upper_bound (EBin Less (EBin Min xv (EConst 3)) (EBin Max yv (EConst 4))) = Val (Some 1) /\
  forall W r, meaning W (env_set (env_set r 0%nat (Fin 2)) 1%nat (Fin 5)) ex_bounded = Fin 9.
Proof.
  split; [|split; [vm_compute; reflexivity|split; [vm_compute; reflexivity|split; [vm_compute; reflexivity|split; [vm_compute; reflexivity|split; [vm_compute; reflexivity|]]]]]].
  - split; [|reflexivity]. apply consts_ok_all. cbn. unfold in64; cbn. lia.
  - intros. reflexivity.
Qed.
Example C44_ex : consts_ok (EBin Min (EBin Add xv (EConst 2)) yv) /\
  add_constant (EBin Min (EBin Add xv (EConst 2)) yv) (-2) = Val (EBin Min xv (EBin Add yv (EConst (-2)))) /\
  add_constant (EBin Mul (EBin Sub (EConst 3) xv) (EConst 4)) 8 = Val (EBin Mul (EBin Sub (EConst 5) xv) (EConst 4)) /\
  add_constant (EBin Max xv (EConst 2)) (-2) = Val EUndef.
Proof. split; [cbn; unfold in64; cbn; lia|]. split; [vm_compute; reflexivity|split; vm_compute; reflexivity]. Qed.

(** *** what does not hold *)
(** The operands of && are not restricted to booleans by the API: the lower bound of an
    operand that takes both signs is taken for its truth value. *)
Theorem C43_logical_operand_refuted : exists e W r c v, constant_lower_bound e = Val (EConst c) /\ meaning W r e = Fin v /\ v < c.
Proof.
  exists (EBin And (EBin Add (EBin Mod xv (EConst 5)) (EConst (-3))) (EConst 1)), ex_world, (fun _ => Fin 3), 1, 0.
  split; [vm_compute; reflexivity|]. split; [vm_compute; reflexivity|lia].
Qed.
(** Adding the least index_t to a difference overflows. *)
Theorem C44_least_constant_refuted : exists e, consts_ok e /\ in64 (- 2 ^ 63) /\ add_constant e (- 2 ^ 63) = UB.
Proof. exists (EBin Add xv yv). split; [cbn; auto|]. split; [unfold in64; cbn; lia|]. vm_compute. reflexivity. Qed.
