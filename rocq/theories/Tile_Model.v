(** The loops of a function (slinky/builder/pipeline.cc: crop_for_loop, get_loop_bounds, and
    the part of make_loop that makes the loops).

    Simplifications:
    - Only the function itself: no crops of the buffers it reads, and no other functions are
      computed inside of its loops (these are Build_Model, Layout_Model and Infer_Model).
    - The loop variable is the dimension variable; make_loop replaces it by a new symbol
      (pipeline.cc:1395-1400; substitution in statements is Subst_Model.v, C54).
    - The steps are taken after sanitize_user_exprs.
    - [None]-like results of the simplifier are [UB]. *)
From Coq Require Import ZArith List Bool.
From Verif Require Import Arith_Model Buf_Model Alloc_Model Expr_Model Match_Model Rewrite_Model Interval_Model Simplifier_Model.
From Verif Require Import Stmt_Model.
Import ListNotations.
Open Scope Z_scope.

(** pipeline.h:173-185 loop_info *)
Record loop := Loop { lp_var : nat; lp_step : expr; lp_workers : expr }.
(** pipeline.h:100-150, 187-200: an output (its buffer, its dimension variables), and a
    function: its call, inputs, outputs and scalars *)
Record output := Output { o_sym : nat; o_dims : list nat }.
Record func := Func { f_target : nat; f_inputs : list nat; f_outputs : list output; f_scalars : list expr }.

Section Loops.
  Variable P : prims.
  Variable fuel : nat.
  Notation simp := (simplify P (fun _ => None) (fun _ => None) fuel).
  Notation simp_i := (simplify_interval P (fun _ => None) (fun _ => None) fuel).

  (** 737 loop.var + loop_step - 1 *)
  Definition last_of (l : loop) : expr := e_sub (e_add (EVar (lp_var l) f_none 0) (lp_step l)) (EConst 1).
  (** 734-740: the dimensions of an output from [d] on.  The crop of the last is outermost. *)
  Fixpoint crop_dims (v o : nat) (last : expr) (d : nat) (dims : list nat) (body : stmt) : stmt :=
    match dims with
    | [] => body
    | x :: dims' =>
        crop_dims v o last (S d) dims' (if (x =? v)%nat then SCropDim o o d (EVar v f_none 0, last) body else body)
    end.
  Fixpoint crop_outputs (v : nat) (last : expr) (os : list output) (body : stmt) : stmt :=
    match os with
    | [] => body
    | o :: os' => crop_outputs v last os' (crop_dims v (o_sym o) last 0 (o_dims o) body)
    end.
  (** 731-743 crop_for_loop *)
  Definition crop_for_loop (body : stmt) (f : func) (l : loop) : res stmt :=
    last <- simp (last_of l) ;; Val (crop_outputs (lp_var l) last (f_outputs f) body).

  (** 745-756 get_loop_bounds *)
  Fixpoint add_dims (v o : nat) (d : nat) (dims : list nat) (bounds : Interval_Model.interval) : Interval_Model.interval :=
    match dims with
    | [] => bounds
    | x :: dims' =>
        add_dims v o (S d) dims' (if (x =? v)%nat then i_union bounds (i_bounds (buffer_min o (Z.of_nat d)) (buffer_max o (Z.of_nat d))) else bounds)
    end.
  Definition loop_bounds_of (f : func) (v : nat) : Interval_Model.interval :=
    fold_left (fun bounds o => add_dims v (o_sym o) 0 (o_dims o) bounds) (f_outputs f) union_identity.
  Definition get_loop_bounds (f : func) (l : loop) : res Interval_Model.interval := simp_i (loop_bounds_of f (lp_var l)).

  (** 789-790 (produce), and 1387-1401 (make_loop): the loops [ls], outermost first, around
      the call *)
  Definition call_of (f : func) : stmt := SCall (f_target f) (f_inputs f) (map o_sym (f_outputs f)) (f_scalars f).
  Fixpoint make_loops (f : func) (ls : list loop) : res stmt :=
    match ls with
    | [] => Val (call_of f)
    | l :: ls' =>
        body <- make_loops f ls' ;;
        body <- crop_for_loop body f l ;;
        b <- get_loop_bounds f l ;;
        Val (SLoop (lp_var l) (lp_workers l) (i_min b, i_max b) (lp_step l) body)
    end.
End Loops.
