(** What an interval or a box of expressions means: the set of integers it contains when
    its ends are given values. *)
From Coq Require Import ZArith List Bool.
From Verif Require Import Expr_Model Expr_Spec Interval_Model.
Import ListNotations.
Open Scope Z_scope.

(** [x] is a lower (upper) bound of [v]; an end without a value is no bound *)
Definition bounds_below (x : xval) (v : Z) : Prop :=
  match x with Bad | NInf => True | Fin z => z <= v | PInf => False end.
Definition bounds_above (x : xval) (v : Z) : Prop :=
  match x with Bad | PInf => True | Fin z => v <= z | NInf => False end.
Definition contains (W : world) (r : env) (i : interval) (v : Z) : Prop :=
  bounds_below (meaning W r (i_min i)) v /\ bounds_above (meaning W r (i_max i)) v.

(** a point of a box; a box says nothing about dimensions it does not have *)
Definition dim_of (b : list interval) (d : nat) : interval := nth d b i_undef.
Definition box_contains (W : world) (r : env) (b : list interval) (p : nat -> Z) : Prop :=
  forall d, contains W r (dim_of b d) (p d).

(** the answer of is_point, which compares addresses, implies that the ends are equal *)
Definition interval_ok (i : interval) : Prop := i_point i = true -> i_max i = i_min i /\ defined (i_min i) = true.
(** the ends that are there have values *)
Definition has_value (W : world) (r : env) (e : expr) : Prop := defined e = true -> meaning W r e <> Bad.
Definition ends_have_values (W : world) (r : env) (i : interval) : Prop := has_value W r (i_min i) /\ has_value W r (i_max i).
Definition finite_ends (W : world) (r : env) (i : interval) (lo hi : Z) : Prop :=
  meaning W r (i_min i) = Fin lo /\ meaning W r (i_max i) = Fin hi.
