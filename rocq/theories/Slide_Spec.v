(** A buffer that is produced and consumed in a loop.

    The loop runs for the values start, start + step, ... of its variable.  In each iteration
    the producer writes a box of the buffer, and then the consumer reads the part of the box it
    requires.  With a fold factor F in a dimension, the elements z and z + F of that dimension
    are in the same place.  A read finds the element it is to read if that element was written
    in this or an earlier iteration, and since then nothing else was written to its place. *)
From Coq Require Import ZArith List Bool.
From Verif Require Import Arith_Model ModRem_Model Buf_Model Expr_Model Expr_Spec Interval_Model Interval_Spec Match_Model Const_Model Const_Props
  Rewrite_Model Simplifier_Model Subst_Model Slide_Model.
Import ListNotations.
Open Scope Z_scope.

(** a position of an element: a coordinate for each dimension *)
Definition position := nat -> Z.

(** the elements [z] and [z'] of a dimension with the given fold factor are in the same place *)
Definition same_place (fold : option Z) (z z' : Z) : Prop := match fold with Some f => z mod f = z' mod f | None => z = z' end.
(** what is read is what was written: one dimension, and positions *)
Definition finds (fold : option Z) (writes : nat -> Z -> Prop) (k : nat) (z : Z) : Prop :=
  exists j, (j <= k)%nat /\ writes j z /\ forall j' z', (j <= j' <= k)%nat -> writes j' z' -> same_place fold z' z -> z' = z.
Definition finds_element (rank : nat) (folds : nat -> option Z) (writes : nat -> position -> Prop) (k : nat) (p : position) : Prop :=
  exists j, (j <= k)%nat /\ writes j p /\
    forall j' p', (j <= j' <= k)%nat -> writes j' p' -> (forall d, (d < rank)%nat -> same_place (folds d) (p' d) (p d)) -> forall d, (d < rank)%nat -> p' d = p d.

Section Spec.
  Variable W : world.
  Variable r : env.
  Variable x : nat.          (* the loop variable *)
  Definition at_ (v : Z) : env := env_set r x (Fin v).
  (** iteration [k] of a loop from [start] in steps of [s] *)
  Definition iteration (start s : Z) (k : nat) : Z := start + Z.of_nat k * s.
  (** [m], and the iterations up to the [n]-th that are not before [m] *)
  Definition original (m s start : Z) (n : nat) (u : Z) : Prop := u = m \/ (m <= u /\ exists k, (k <= n)%nat /\ u = iteration start s k).

  (** the box [l] at the value [v] of the loop variable *)
  Definition in_box (l : list interval) (v : Z) (p : position) : Prop :=
    forall d b, nth_error l d = Some b -> exists lo hi, finite_ends W (at_ v) b lo hi /\ lo <= p d <= hi.
  (** what is read at [v]: the required region, from its beginning at the first value [m] of
      the original loop on (the consumer is not asked for more in the iterations before [m]) *)
  Definition reads (required : list interval) (m v : Z) (p : position) : Prop :=
    in_box required v p /\
    forall d b lo, nth_error required d = Some b -> meaning W (at_ m) (i_min b) = Fin lo -> lo <= p d.

  (** the fold factors of the dimensions *)
  Definition fold_of (l : list fold_info) (d : nat) : option Z := as_constant (fi_factor (nth d l no_fold)).
End Spec.

(** [plain]: no declarations and no addresses of elements *)
Fixpoint plain (e : expr) : bool :=
  match e with
  | EUndef | EConst _ | EVar _ _ _ => true
  | ELet _ _ => false
  | EBin _ a b => plain a && plain b
  | ENot a => plain a
  | ESelect c t f => plain c && plain t && plain f
  | ECall fn _ args => match fn with i_buffer_at => false | _ => forallb plain args end
  end.

(** Conditions on the expressions that the code finds on its way. *)
Section Conditions.
  Variable P : prims.
  Variable bounds : nat -> option interval.
  Variable alignment : nat -> option modrem.
  Variable fuel : nat.
  Variable W : world.
  Variable r : env.
  Variable x : nat.
  Variable step : expr.
  Variable b : interval.
  (** [nm] is the minimum of the part of [b] that is new in an iteration (after simplification
      of [b] to [cur]) *)
  Definition finds_new_min (cur : interval) (nm : expr) : Prop :=
    simplify_interval P bounds alignment fuel b = Val cur /\
    exists e, substitute (i_max cur) x (e_sub (EVar x f_none 0) step) = Val e /\ simplify P bounds alignment fuel (e_add e (EConst 1)) = Val nm.
  Definition plain_results : Prop :=
    (forall cur, simplify_interval P bounds alignment fuel b = Val cur -> plain (i_min cur) = true /\ plain (i_max cur) = true) /\
    (forall cur nm, finds_new_min cur nm -> plain nm = true).
  (** [b] is [lo u], [hi u] at [u].  The simplified expressions are still right at [u] *)
  Definition right_at (lo hi : Z -> Z) (s u : Z) : Prop :=
    forall cur nm, finds_new_min cur nm -> finite_ends W (at_ r x u) cur (lo u) (hi u) /\ meaning W (at_ r x u) nm = Fin (hi (u - s) + 1).
  (** the upper bound of the extent of [b] has a value, and it simplifies to an expression
      (with constants in range) of which constant_upper_bound is a constant *)
  Definition bounded_at (v : Z) : Prop :=
    forall cur al i e, simplify_interval P bounds alignment fuel b = Val cur -> al = alignment \/ al = (fun _ => None) ->
      bounds_of P bounds al fuel (i_extent cur) = Val i -> simplify P bounds alignment fuel (i_max i) = Val e ->
      (exists z, meaning W (at_ r x v) (i_max i) = Fin z) /\ bounds_ok e /\ forall u, constant_upper_bound e = Val u -> exists c, u = EConst c.
End Conditions.
