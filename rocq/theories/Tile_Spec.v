(** What the loops of a function compute: the calls, each with the buffers of its outputs. *)
From Coq Require Import ZArith List Bool.
From Verif Require Import Arith_Model Buf_Model Buf_Spec Expr_Model Expr_Spec Match_Model Rewrite_Model Interval_Model Simplifier_Model Tile_Model.
From Verif Require Import Stmt_Model VSem_Spec.
Import ListNotations.
Open Scope Z_scope.

(** a position of an element, inside a buffer *)
Definition position := nat -> Z.
Definition inside (b : buf) (p : position) : bool :=
  forallb (fun d => (d_min (dim_at b d) <=? p d) && (p d <=? d_max (dim_at b d))) (seq 0 (rank b)).

(** A call, as the list of the buffers of its outputs.  How many calls compute the element [p]
    of output [k]. *)
Definition computes (k : nat) (p : position) (call : list buf) : bool :=
  match nth_error call k with Some b => inside b p | None => false end.
Definition times (k : nat) (p : position) (calls : list (list buf)) : nat := length (filter (computes k p) calls).
(** the outside world is the list of the calls so far *)
Definition record_call (_ : nat) (_ outs : list buf) (_ : list Z) (calls : list (list buf)) : Z * list (list buf) := (0, calls ++ [outs]).

(** [c] is a part of [b], with each element at its address *)
Definition part_of (c b : buf) : Prop :=
  rank c = rank b /\ forall p, inside c p = true -> inside b p = true /\ locate c p = locate b p.

Section Values.
  Variable H : host (list (list buf)).
  (** the mathematical value of an expression, for symbols that stand for numbers and buffers *)
  Definition world_of (E : venv) : world :=
    World (fun a => match E (Z.to_nat a) with Buffer _ b => Some b | _ => None end) (h_user _ H) (h_intrinsic _ H).
  Definition env_of (E : venv) : env := fun x => match E x with Num z => Fin z | Buffer _ _ => Fin (Z.of_nat x) | Undef => Bad end.
  Definition value_of (E : venv) (e : expr) : xval := meaning (world_of E) (env_of E) e.
  (** [e'] has the value of [e], if it is evaluated successfully *)
  Definition same_value (E : venv) (e e' : expr) : Prop := forall z, veval _ H E e' = Val z -> value_of E e = Fin z.

  Variable P : prims.
  Variable fuel : nat.
  (** For the loops [ls] of [f], when the symbols other than the outputs and the loop variables
      are as in [E]: the workers are at most 1, the steps are positive and the same everywhere,
      and the simplified expressions have the values of the expressions (C48). *)
  Definition elsewhere (f : func) (ls : list loop) (x : nat) : Prop := ~ In x (map o_sym (f_outputs f)) /\ ~ In x (map lp_var ls).
  Definition loops_ok (f : func) (ls : list loop) (E : venv) : Prop :=
    forall l, In l ls -> exists s, 0 < s /\ forall E', (forall x, elsewhere f ls x -> E' x = E x) ->
      (forall z, veval _ H E' (lp_workers l) = Val z -> z <= 1) /\
      (forall z, veval_def _ H E' (lp_step l) 1 = Val z -> z = s) /\ value_of E' (lp_step l) = Fin s /\
      (forall last, simplify P (fun _ => None) (fun _ => None) fuel (last_of l) = Val last -> defined last = true /\ same_value E' (last_of l) last) /\
      (forall b, get_loop_bounds P fuel f l = Val b -> same_value E' (i_min (loop_bounds_of f (lp_var l))) (i_min b) /\ same_value E' (i_max (loop_bounds_of f (lp_var l))) (i_max b)).
End Values.
