(** What is asked of the functions the simplifier calls, at given values of the variables. *)
From Coq Require Import ZArith List Bool.
From Verif Require Import Arith_Model Arith_Spec ModRem_Model ModRem_Proofs Buf_Model Expr_Model Expr_Spec Match_Model Rewrite_Model
  Interval_Model BoundsOf_Model BoundsOf_Spec Knowledge_Model Knowledge_Spec Knowledge_Proofs Simplifier_Model.
Import ListNotations.
Open Scope Z_scope.

Section Spec.
  Variable W : world.
  Variable r : env.
  Notation M := (meaning W r).
  Notation enc := (encloses W r).

  (** The ends of an interval for a truth value: if the lower end is true, so is the value,
      and if the value is true, so is the upper end. *)
  Definition truth_ends (i : interval) (v : Z) : Prop :=
    exists p q, M (i_min i) = Fin p /\ M (i_max i) = Fin q /\ (p <> 0 -> v <> 0) /\ (v <> 0 -> q <> 0).

  (** The maps of the simplifier: everything recorded in them is true. *)
  Definition state_ok (st : state) : Prop :=
    vars_wf (s_vars st) /\ vars_hold W r (s_vars st) /\ buffers_wf (s_bufs st) /\ buffers_hold W r (s_bufs st).

  Definition logic_op (o : binop) : bool := match o with And | Or => true | _ => false end.
  Definition compare_op (o : binop) : bool := match o with Equal | NotEqual | Less | LessEqual => true | _ => false end.
  Definition arith_op (o : binop) : bool := match o with Add | Sub | Mul | Div | Mod => true | _ => false end.

  (** The value of an undefined expression is [Bad], of which [refines] says nothing. *)
  Record prims_sound (P : prims) : Prop := {
    ok_visit : forall o a b z, p_visit P (EBin o a b) = true -> M (EBin o a b) = Fin z -> exists x y, M a = Fin x /\ M b = Fin y;
    ok_bin : forall o a b e, p_bin P o a b = Val e -> refines (xbin o (M a) (M b)) (M e);
    ok_not : forall a e, p_not P a = Val e -> refines (xnot (M a)) (M e);
    ok_select : forall c t f e, p_select P c t f = Val e -> refines (xselect (M c) (M t) (M f)) (M e);
    ok_call : forall fn t args e z, p_call P fn t args = Val e -> M (ECall fn t args) = Fin z -> M e = Fin z;
    ok_add_constant : forall a c e, p_add_constant P a c = Val e -> defined e = true -> refines (xadd (M a) (Fin c)) (M e);
    ok_true : forall e, p_true P e = Val true -> M e <> Bad /\ M e <> Fin 0;
    ok_false : forall e, p_false P e = Val true -> M e = Fin 0;
    (** nothing is proved about an expression without bounds *)
    ok_undefined : forall p f i b, p_bounds_bin P p f NotEqual None i_undef (point (EConst 0)) = Val i -> p_true P (i_min i) = Val b -> b = false;
    (** [f]: simplify *)
    ok_bounds_bin : forall p f o op a b i va vb, logic_op o = false -> p_bounds_bin P p f o op a b = Val i ->
      (forall e e' z, f e = Val e' -> M e = Fin z -> M e' = Fin z) ->
      (arith_op o = true -> forall ea eb, op = Some (ea, eb) -> M ea = Fin va /\ M eb = Fin vb) ->
      enc a va -> enc b vb -> enc i (zop o va vb) /\ (compare_op o = true -> truth_ends i (zop o va vb));
    ok_bounds_logic : forall p f o op a b i va vb, logic_op o = true -> p_bounds_bin P p f o op a b = Val i ->
      truth_ends a va -> truth_ends b vb -> enc i (zop o va vb) /\ truth_ends i (zop o va vb);
    ok_bounds_not : forall p x a i vx va, p_bounds_not P p (Some x) a = Val i -> M x = Fin vx -> (vx = 0 <-> va = 0) ->
      truth_ends a va -> enc i (znot va) /\ truth_ends i (znot va);
    ok_bounds_select : forall p c t f i vc v, p_bounds_select P p c t f = Val i -> truth_ends c vc ->
      (vc <> 0 -> enc t v) -> (vc = 0 -> enc f v) -> enc i v;
    ok_bounds_call : forall fn t args bs i v, p_bounds_call P fn t args bs = Val i -> M (ECall fn t args) = Fin v ->
      (fn = i_abs -> exists b va, bs = [b] /\ enc b va /\ v = Z.abs va) -> enc i v;
    ok_align : forall o a b c x y, arith_op o = true -> p_align P o a b = Val c -> mr_in a x -> mr_in b y -> mr_in c (zop o x y);
    ok_union : forall o a b c x, arith_op o = false -> p_align P o a b = Val c -> mr_in a x \/ mr_in b x -> mr_in c x;
    ok_aligned : forall o al a b e x y, p_aligned P o al a b = Val (Some e) -> M a = Fin x -> M b = Fin y -> mr_in al x ->
      M e = Fin (zop o x y);
    ok_learn : forall pos v b c k, p_learn P pos v b c = Val k -> state_ok (State v b false) -> holds_as W r pos c -> knows W r k;
    ok_subst : forall a b x y z, p_subst P a b x = Val y -> M a = M b -> M x = Fin z -> M y = Fin z;
    ok_at : forall s n low p b d, p_at P s n low = true -> r s = Fin p -> w_buf W p = Some b -> nth_error (dims b) n = Some d ->
      let x := if low then d_min d else 0 in d_contains d x = true /\ d_offset d x = 0 }.

  (** elem_size is a std::size_t *)
  Definition buffers_sane : Prop := forall p b, w_buf W p = Some b -> 0 <= elem_size b.

  (** What mutate gives for an expression whose value is [z]. *)
  Definition sound_result (e : expr) (i : expr_info) (z : Z) : Prop :=
    M e = Fin z /\ enc (x_bounds i) z /\ mr_in (x_align i) z /\ (is_boolean e = true -> truth_ends (x_bounds i) z).
End Spec.
