(** Property C12: simplifying one node preserves its value. *)
From Coq Require Import ZArith List Bool Lia.
From Verif Require Import Arith_Model Arith_Spec Arith_Proofs Buf_Model Expr_Model Expr_Spec Expr_Proofs Expr_Props Match_Model
  Rewrite_Model Rewrite_Proofs RewriteMatch_Proofs RewriteApply_Proofs RuleTac Rules Rewrite_Props Simplify_Model Simplify_Proofs.
Import ListNotations.
Open Scope Z_scope.

(** The operators whose rule tables contain rules that are only right for small
    constants (C10). *)
Definition order_op (o : binop) : bool :=
  match o with Min | Max | Less | LessEqual | Equal | NotEqual => true | _ => false end.
Definition equality_op (o : binop) : bool := match o with Equal | NotEqual => true | _ => false end.

(** simplify(op, a, b) has the value of [op] on the values of [a] and [b], for all
    operands whose constants are index_t values.  For the order operators the constants
    must be below 2^30 in absolute value; for equalities with a select operand the
    operands must have finite values. *)
Theorem C12_binary : forall W r o a b e,
  consts_all in64 a -> consts_all in64 b ->
  (order_op o = true -> consts_all below30 a /\ consts_all below30 b) ->
  (equality_op o = true -> is_select a = true \/ is_select b = true -> all_finite W r a /\ all_finite W r b) ->
  simplify_bin o a b = Val e ->
  refines (xbin o (meaning W r a) (meaning W r b)) (meaning W r e).
Proof.
  intros W r o a b e A B S F H.
  assert (G : good W r (xbin o (meaning W r a) (meaning W r b)) e); [|exact (proj1 G)].
  destruct o; cbn [simplify_bin order_op equality_op] in *.
  - exact (simplify_add_ok W r a b e A B H).
  - exact (simplify_sub_ok W r a b e A B H).
  - exact (simplify_mul_ok W r a b e A B H).
  - exact (simplify_div_ok W r a b e A B H).
  - exact (simplify_mod_ok W r a b e A B H).
  - destruct (S eq_refl); apply simplify_min_ok; auto.
  - destruct (S eq_refl); apply simplify_max_ok; auto.
  - destruct (S eq_refl); apply simplify_equal_ok; auto.
  - destruct (S eq_refl); apply simplify_not_equal_ok; auto.
  - destruct (S eq_refl); apply simplify_less_ok; auto.
  - destruct (S eq_refl); apply simplify_less_equal_ok; auto.
  - exact (simplify_and_ok W r a b e A B H).
  - exact (simplify_or_ok W r a b e A B H).
Qed.

Theorem C12_not : forall W r a e, consts_all in64 a -> simplify_not a = Val e ->
  refines (xnot (meaning W r a)) (meaning W r e).
Proof. intros W r a e A H. exact (proj1 (simplify_not_ok W r a e A H)). Qed.

Theorem C12_select : forall W r c t f e, consts_all in64 c -> consts_all in64 t -> consts_all in64 f ->
  all_finite W r (ESelect c t f) -> simplify_select c t f = Val e ->
  refines (xselect (meaning W r c) (meaning W r t) (meaning W r f)) (meaning W r e).
Proof. intros W r c t f e Cc Ct Cf F H. exact (proj1 (simplify_select_ok W r c t f e Cc Ct Cf F H)). Qed.

(** Calls.  A semaphore call all of whose semaphores are undefined becomes an undefined
    expression; buffer_at keeps its value when the buffer is non-empty and its base is
    the address of its min. *)
Theorem C12_call : forall W r fn t args e,
  world_ok W -> semaphores_return_one W -> Forall (consts_all in64) args ->
  (fn = i_buffer_at -> forall s d l, args = EVar s f_none d :: l ->
     forall p b, r s = Fin p -> w_buf W p = Some b -> based_at_min b) ->
  simplify_call W fn t args = Val e ->
  (is_semaphore_fn fn = true /\ e = EUndef) \/ refines (meaning W r (ECall fn t args)) (meaning W r e).
Proof.
  intros W r fn t args e HW S C P H.
  destruct (simplify_call_ok W r HW fn t args e C S P H) as [K|K]; [auto|right; exact (proj1 K)].
Qed.

(** The constants of a simplified expression are index_t values again, so results can be
    operands. *)
Theorem C12_constants : forall o a b e, consts_all below30 a -> consts_all below30 b -> 
  is_select a = false -> is_select b = false ->
  simplify_bin o a b = Val e -> consts_all in64 e.
Proof.
  intros o a b e A B Sa Sb H. pose proof (c30_c64 a A) as A'. pose proof (c30_c64 b B) as B'.
  assert (N : is_select a = true \/ is_select b = true -> all_finite ex_world (fun _ => Fin 0) a /\ all_finite ex_world (fun _ => Fin 0) b)
    by (intros [K|K]; congruence).
  pose (r := fun _ : nat => Fin 0).
  assert (G : good ex_world r (xbin o (meaning ex_world r a) (meaning ex_world r b)) e); [|exact (proj2 G)].
  destruct o; cbn [simplify_bin] in *;
    [apply simplify_add_ok|apply simplify_sub_ok|apply simplify_mul_ok|apply simplify_div_ok|apply simplify_mod_ok
    |apply simplify_min_ok|apply simplify_max_ok|apply simplify_equal_ok|apply simplify_not_equal_ok|apply simplify_less_ok
    |apply simplify_less_equal_ok|apply simplify_and_ok|apply simplify_or_ok]; assumption.
Qed.

(** The hypotheses are met by non-trivial operands, and simplification does something. *)
Example C12_ex :
  let x := EVar 0 f_none 0 in let y := EVar 1 f_none 0 in
  simplify_bin Min (EBin Add x (EConst 3)) (EBin Add x (EConst 5)) = Val (EBin Add x (EBin Min (EConst 3) (EConst 5))) /\
  simplify_bin Less (EBin Add x (EConst 4)) (EBin Add y (EConst 4)) = Val (EBin Less x y) /\
  simplify_bin Sub (EBin Add x (EConst 7)) (EBin Add y (EConst 2)) = Val (EBin Add (EBin Sub x y) (EConst 5)) /\
  simplify_call ex_world i_abs None [EConst (-4)] = Val (EConst 4) /\
  simplify_bin Add (EConst (2 ^ 63 - 1)) (EConst 1) = Val (EBin Add (EConst (2 ^ 63 - 1)) (EConst 1)).
Proof. repeat split; vm_compute; reflexivity. Qed.
Example C12_ex_hypotheses :
  let x := EVar 0 f_none 0 in let r := fun _ : nat => Fin 6 in
  let a := EBin Add x (EConst 3) in let b := EBin Add x (EConst 5) in
  consts_all below30 a /\ consts_all below30 b /\ all_finite ex_world r (ESelect (EBin Less x (EConst 9)) a b) /\
  semaphores_return_one (World (fun _ => None) (fun _ _ => 0) (fun _ _ => 1)) /\
  based_at_min (Buf (Some 100) 4 [Dim 2 9 4 unfolded; Dim 0 5 32 unfolded]).
Proof.
  intros x r a b. split; [|split; [|split; [|split]]].
  - intros z H. repeat match goal with H : subexpr _ _ |- _ => inversion H; subst; clear H end. vm_compute; split; reflexivity.
  - intros z H. repeat match goal with H : subexpr _ _ |- _ => inversion H; subst; clear H end. vm_compute; split; reflexivity.
  - assert (K : forall z, in64 z <-> imin 64 <= z <= imax 64) by (intros; reflexivity).
    intros e H. repeat match goal with H : subexpr _ _ |- _ => inversion H; subst; clear H end;
      (eexists; split; [reflexivity|apply K; vm_compute; split; discriminate]).
  - intros fn l _; reflexivity.
  - intros d [<-|[<-|[]]]; vm_compute; auto.
Qed.

(** Without the restrictions: INT64_MAX is not infinity ... *)
Theorem C12_min_infinity_refuted : exists a b e,
  simplify_bin Min a b = Val e /\ consts_all in64 a /\ consts_all in64 b /\
  forall W r, xbin Min (meaning W r a) (meaning W r b) = Fin 9223372036854775807 /\ meaning W r e = PInf.
Proof.
  exists (ECall i_positive_infinity None []), (EConst 9223372036854775807), (ECall i_positive_infinity None []).
  split; [vm_compute; reflexivity|]. split; [apply c64_call; constructor|]. split; [apply c64_const; unfold in64; vm_compute; split; discriminate|].
  split; reflexivity.
Qed.
(** ... buffer_at(b, buffer_min(b, 0)) is not the base of a folded buffer, nor is it
    non-null for an empty one ... *)
Definition folded_buf : buf := Buf (Some 1000) 1 [Dim 1 4 1 4].
Definition empty_buf : buf := Buf (Some 1000) 1 [Dim 1 0 1 unfolded].
Definition buf_world (b : buf) : world := World (fun _ => Some b) (fun _ _ => 0) (fun _ _ => 1).
Theorem C12_buffer_at_refuted :
  let args := [EVar 0 f_none 0; EVar 0 f_min 0] in let r := fun _ : nat => Fin 8 in
  let result := ECall i_buffer_at None [EVar 0 f_none 0] in
  (forall W, simplify_call W i_buffer_at None args = Val result) /\
  meaning (buf_world folded_buf) r (ECall i_buffer_at None args) = Fin 1001 /\
  meaning (buf_world folded_buf) r result = Fin 1000 /\
  meaning (buf_world empty_buf) r (ECall i_buffer_at None args) = Fin 0 /\
  meaning (buf_world empty_buf) r result = Fin 1000.
Proof. repeat split; try (intros W); vm_compute; reflexivity. Qed.
(** ... and dividing the constants INT64_MIN and -1 is undefined behaviour. *)
Theorem C12_constant_division_refuted :
  simplify_bin Div (EConst (- 2 ^ 63)) (EConst (-1)) = UB /\ simplify_bin Mod (EConst (- 2 ^ 63)) (EConst (-1)) = UB.
Proof. split; vm_compute; reflexivity. Qed.
