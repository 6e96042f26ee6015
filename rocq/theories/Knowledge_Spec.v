(** What it means that the simplifier's knowledge holds for given values of the variables. *)
From Coq Require Import ZArith List Bool.
From Verif Require Import Arith_Model ModRem_Model ModRem_Proofs Expr_Model Expr_Spec Interval_Model Interval_Spec
  BoundsOf_Spec Knowledge_Model.
Import ListNotations.
Open Scope Z_scope.

Section Holds.
  Variable W : world.
  Variable r : env.
  Notation M := (meaning W r).

  (** The value of [v], if it is an integer, is between the bounds that are there, in the
      residue class, and equal to the known value if there is one. *)
  Definition info_holds (v : expr) (i : expr_info) : Prop :=
    forall z, M v = Fin z ->
      (defined (i_min (x_bounds i)) = true -> lower (M (i_min (x_bounds i))) z) /\
      (defined (i_max (x_bounds i)) = true -> upper (M (i_max (x_bounds i))) z) /\
      mr_in (x_align i) z /\
      (defined (x_known i) = true -> M (x_known i) = Fin z).
  Definition is_dim_field (f : field) : bool :=
    match f with f_min | f_max | f_stride | f_fold_factor => true | _ => false end.
  Definition buffer_holds (s : nat) (b : buffer_info) : Prop :=
    info_holds (EVar s f_elem_size (-1)) (b_elem_size b) /\
    (forall d f, is_dim_field f = true -> (d < length (b_dims b))%nat ->
       info_holds (EVar s f (Z.of_nat d)) (dim_field (nth d (b_dims b) dim_empty) f)) /\
    (0 <= b_rank b -> forall z, M (EVar s f_rank (-1)) = Fin z -> z = b_rank b).
  (** a fact (a, b): the value of a is that of b *)
  Definition fact_holds (p : expr * expr) : Prop := M (fst p) = M (snd p).

  Definition vars_hold (m : nat -> option expr_info) : Prop :=
    forall s i, m s = Some i -> info_holds (EVar s f_none 0) i.
  Definition buffers_hold (m : nat -> option buffer_info) : Prop :=
    forall s b, m s = Some b -> buffer_holds s b.

  (** The conditions from which learning is correct, [pos] when they are assumed to be
      true.  Three things are excluded, each of which is wrong (see the refuted theorems):
      a < max(x, y) and min(x, y) < b (also <=), from which a < x and a < y, resp. x < b and
      y < b are learned; x % 0 == 0, from which x == 0 is learned; and a condition which is
      true but not 1, from which it is learned that it is 1. *)
  Definition is_op (o : binop) (e : expr) : bool :=
    match e with EBin p _ _ => binop_type p =? binop_type o | _ => false end.
  Definition plain_order (a b : expr) : Prop := is_op Min a = false /\ is_op Max b = false.
  Definition plain_equal (a : expr) : Prop := forall x, a <> EBin Mod x (EConst 0).
  Fixpoint learnable (pos : bool) (c : expr) {struct c} : Prop :=
    match pos, c with
    | true, EBin And a b => learnable true a /\ learnable true b
    | false, EBin Or a b => learnable false a /\ learnable false b
    | _, ENot a => learnable (negb pos) a
    | true, EBin Less a b | true, EBin LessEqual a b => plain_order a b
    | false, EBin Less a b | false, EBin LessEqual a b => plain_order b a
    | true, EBin Equal a b | false, EBin NotEqual a b => plain_equal a
    | true, EBin _ _ _ | true, ESelect _ _ _ | true, ECall _ _ _ | true, ELet _ _ | true, EUndef => M c = Fin 0 \/ M c = Fin 1
    | true, EVar _ f _ => match f with f_none => True | _ => M c = Fin 0 \/ M c = Fin 1 end
    | _, _ => True
    end.

  (** the condition is true (false) *)
  Definition holds_as (pos : bool) (c : expr) : Prop :=
    exists z, M c = Fin z /\ (if pos then z <> 0 else z = 0).
End Holds.

(** is_point is only true of two equal ends; the residue class is one of index_t, with a
    reduced remainder *)
Definition info_wf (i : expr_info) : Prop :=
  interval_ok (x_bounds i) /\ mr_repr 64 (x_align i) /\ mr_reduced (x_align i).
Definition buffer_wf (b : buffer_info) : Prop :=
  info_wf (b_elem_size b) /\
  Forall (fun d => info_wf (di_min d) /\ info_wf (di_max d) /\ info_wf (di_stride d) /\ info_wf (di_fold d)) (b_dims b).
Definition vars_wf (m : nat -> option expr_info) : Prop := forall s i, m s = Some i -> info_wf i.
Definition buffers_wf (m : nat -> option buffer_info) : Prop := forall s b, m s = Some b -> buffer_wf b.
