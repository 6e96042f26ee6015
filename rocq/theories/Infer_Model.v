(** Bounds inference (slinky/builder/pipeline.cc): the part of each buffer that a pipeline
    needs, and the checks that every buffer has it.

    Simplifications:
    - Buffers are known by their symbols; the functions come in the order of
      pipeline_builder::order_ (Sched_Model.v).
    - The expressions of the user are taken as they are after sanitize_user_exprs
      (pipeline.cc:254-313), which replaces buffer metadata by variables: the symbols of the
      dimensions and of the buffers are all that the inferred bounds add to them.
    - bounds_of is the model of Simplifier_Model.v, with its primitives [P] and its fuel.
    - The dimensions of a pipeline input are those of its buffer_expr, and of an intermediate
      buffer those in inferred_dims_ (pipeline.cc:695-721), after their substitution. *)
From Coq Require Import ZArith List Bool.
From Verif Require Import Arith_Model Buf_Model Expr_Model Rewrite_Model Interval_Model Simplifier_Model.
Import ListNotations.
Open Scope Z_scope.

(** pipeline.h:165-170 func::output, 147-163 func::input *)
Record output := Output { o_sym : nat; o_dims : list nat }.
Record input := Input {
  in_sym : nat;
  in_rank : nat;
  in_bounds : list interval;
  in_crop : list interval;
  in_slice : list expr }.
Record func := Func { f_outputs : list output; f_inputs : list input }.

(** pipeline.cc:319-325: the dimension of the buffer that is dimension [d] of the output when
    the dimensions of [slices] are sliced.
    [skip slices od] runs the loop from slice_d = length of what is already seen. *)
Fixpoint skip (slices : list expr) (slice_d od : nat) : nat :=
  match slices with
  | [] => od
  | s :: rest => if (slice_d <=? od)%nat then skip rest (S slice_d) (if defined s then S od else od) else od
  end.
Definition unsliced_dim (slices : list expr) (d : nat) : nat := skip slices 0 d.

(** expr_stmt.cc buffer_bounds *)
Definition bounds_of_dim (b d : nat) : interval := i_bounds (buffer_min b (Z.of_nat d)) (buffer_max b (Z.of_nat d)).

(** pipeline.cc:326-331: one dimension of one output; a bounds_map is a symbol_map *)
Definition bounds_map := nat -> option interval.
Definition set_bounds (m : bounds_map) (s : nat) (i : interval) : bounds_map := fun t => if (t =? s)%nat then Some i else m t.
Definition add_dim (slices : list expr) (b : nat) (m : bounds_map) (dv : nat * nat) : bounds_map :=
  let '(d, v) := dv in
  let i := bounds_of_dim b (unsliced_dim slices d) in
  set_bounds m v (match m v with None => i | Some old => i_union old i end).
(** pipeline.cc:315-335 get_output_bounds *)
Definition dims_of_output (o : output) : list (nat * nat) := combine (seq 0 (length (o_dims o))) (o_dims o).
Definition add_output (slices : list expr) (m : bounds_map) (o : output) : bounds_map :=
  fold_left (add_dim slices (o_sym o)) (dims_of_output o) m.
Definition get_output_bounds (os : list output) (slices : list expr) : bounds_map :=
  fold_left (add_output slices) os (fun _ => None).

Section Infer.
  Variable P : prims.
  Variable fuel : nat.

  (** pipeline.cc:341-348: dimension [d] of the input *)
  Definition input_dim (ob : bounds_map) (x : interval) (crop : option interval) : res interval :=
    b <- bounds_of_interval P ob (fun _ => None) fuel x ;;
    Val (match crop with Some c => i_intersection b c | None => b end).
  Fixpoint input_dims (ob : bounds_map) (crops : list interval) (d : nat) (l : list interval) : res (list interval) :=
    match l with
    | [] => Val []
    | x :: l' => i <- input_dim ob x (nth_error crops d) ;; r <- input_dims ob crops (S d) l' ;; Val (i :: r)
    end.
  (** pipeline.cc:337-352 compute_input_bounds: a box of the rank of the buffer; the
      dimensions for which the user gave no bounds stay undefined *)
  Definition compute_input_bounds (ob : bounds_map) (i : input) : res (list interval) :=
    l <- input_dims ob (in_crop i) 0 (firstn (in_rank i) (in_bounds i)) ;;
    Val (l ++ repeat i_undef (in_rank i - length l)).

  (** pipeline.cc:758-773: the first loop of compute_allocation_bounds *)
  Definition box_map := nat -> option (list interval).
  Definition set_box (m : box_map) (s : nat) (b : list interval) : box_map := fun t => if (t =? s)%nat then Some b else m t.
  Definition add_input (f : func) (m : box_map) (i : input) : res box_map :=
    crop <- compute_input_bounds (get_output_bounds (f_outputs f) (in_slice i)) i ;;
    Val (set_box m (in_sym i) (match m (in_sym i) with Some b => box_union b crop | None => crop end)).
  Fixpoint add_inputs (f : func) (m : box_map) (l : list input) : res box_map :=
    match l with [] => Val m | i :: l' => m' <- add_input f m i ;; add_inputs f m' l' end.
  Fixpoint add_funcs (m : box_map) (l : list func) : res box_map :=
    match l with [] => Val m | f :: l' => m' <- add_inputs f m (f_inputs f) ;; add_funcs m' l' end.
  (** pipeline.cc:775-786: intermediate buffers that nobody reads *)
  Variable rank_of : nat -> nat.
  Definition add_empty (outputs : list nat) (m : box_map) (o : output) : box_map :=
    if existsb (Nat.eqb (o_sym o)) outputs then m
    else match m (o_sym o) with
         | Some _ => m
         | None => set_box m (o_sym o) (repeat (i_bounds (EConst 1) (EConst 0)) (rank_of (o_sym o)))
         end.
  (** pipeline.cc:758-786 compute_allocation_bounds *)
  Definition compute_allocation_bounds (order : list func) (outputs : list nat) : res box_map :=
    m <- add_funcs (fun _ => None) order ;;
    Val (fold_left (add_empty outputs) (flat_map f_outputs order) m).
End Infer.

(** expr.h:544-567 dim_expr, without the fold factor *)
Record dimx := Dimx { dx_bounds : interval; dx_stride : expr }.
Definition is_broadcast_expr (d : dimx) : expr :=
  e_and (e_and (e_eq (i_min (dx_bounds d)) (EConst 0)) (e_eq (i_max (dx_bounds d)) (EConst 0))) (e_eq (dx_stride d) (EConst 0)).

(** pipeline.cc:1409-1423 add_input_checks: the checks of one pipeline input *)
Definition input_checks (ds : list dimx) (bounds : list interval) : list expr :=
  flat_map (fun db => [e_le (i_min (dx_bounds (fst db))) (i_min (snd db)); e_ge (i_max (dx_bounds (fst db))) (i_max (snd db))]) (combine ds bounds).
(** pipeline.cc:853-857: the checks of one allocation *)
Definition allocation_checks (ds : list dimx) (bounds : list interval) : list expr :=
  flat_map (fun db => [e_or (is_broadcast_expr (fst db)) (e_le (i_min (dx_bounds (fst db))) (i_min (snd db)));
                       e_or (is_broadcast_expr (fst db)) (e_ge (i_max (dx_bounds (fst db))) (i_max (snd db)))]) (combine ds bounds).
(** expr.cc buffer_expr: the dimensions of a buffer_expr of which the user changed nothing,
    and what they become in inferred_dims_ (pipeline.cc:695-710): bounds that are its own
    metadata are replaced by the inferred bounds, and the strides are taken away *)
Definition default_dims (b rank : nat) : list dimx :=
  map (fun d => Dimx (bounds_of_dim b d) (EVar b f_stride (Z.of_nat d))) (seq 0 rank).
Definition inferred_default (bounds : list interval) : list dimx := map (fun i => Dimx i EUndef) bounds.
