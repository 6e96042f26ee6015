(** Model of copies, concatenations and stacks as functions of a pipeline (slinky/builder/pipeline.cc:134-250), and of the
    statements that they become.

    Conventions and simplifications.
    - A buffer_expr is its symbol and its rank.
    - [UB]: an assert fails, or a vector is indexed out of its bounds.
    - The callable that implements the copy is not part of the statement. *)
From Coq Require Import ZArith List Bool Arith.
From Verif Require Import Arith_Model Buf_Model Expr_Model Rewrite_Model Const_Model Stmt_Model.
Import ListNotations.
Open Scope Z_scope.

(** pipeline.h:143-163, func::input; pipeline.h:165-171, func::output *)
Record copy_input := CInput {
  ci_sym : nat;
  ci_bounds : list interval;
  ci_input_crop : list interval;
  ci_output_crop : list interval;
  ci_output_slice : list expr }.
Record copy_output := COutput { co_sym : nat; co_dims : list nat }.

(** expr(var): variable::make(sym) *)
Definition e_var (x : nat) : expr := EVar x f_none (-1).
(** expr.h:304, the interval of one point; expr_stmt.cc:379, range *)
Definition p_point (x : expr) : interval := (x, x).
Definition p_range (b e : expr) : interval := (b, e_sub e (EConst 1)).
Definition undef_interval : interval := (EUndef, EUndef).
(** expr_stmt.cc:309-317, operator-=, of a point *)
Definition point_sub (i : interval) (o : expr) : interval := (e_sub (fst i) o, e_sub (fst i) o).

(** pipeline.cc:136-160, make_copy_func *)
Definition make_copy_func (src : copy_input) (dst : copy_output) (pad : option nat) : res stmt :=
  if forallb (fun i => same (fst i) (snd i)) (ci_bounds src) then
    let copy := SCopy (ci_sym src) (map fst (ci_bounds src)) (co_sym dst) (co_dims dst) pad in
    let copy := match ci_input_crop src with [] => copy | l => SCropBuffer (ci_sym src) (ci_sym src) l copy end in
    let copy := match ci_output_crop src with [] => copy | l => SCropBuffer (co_sym dst) (co_sym dst) l copy end in
    let copy := match ci_output_slice src with [] => copy | l => SSliceBuffer (co_sym dst) (co_sym dst) l copy end in
    Val copy
  else UB.

(** pipeline.cc:164-188, make_call, for a func that is a copy *)
Fixpoint make_copies (ins : list copy_input) (dst : copy_output) : res (list stmt) :=
  match ins with
  | [] => Val []
  | i :: ins' => s <- make_copy_func i dst None ;; l <- make_copies ins' dst ;; Val (s :: l)
  end.
Definition make_call (is_padded_copy : bool) (ins : list copy_input) (dst : copy_output) : res stmt :=
  if is_padded_copy then match ins with [src; pad] => make_copy_func src dst (Some (ci_sym pad)) | _ => UB end
  else l <- make_copies ins dst ;; Val (block_make l).

(** pipeline.cc:190-220, make_concat: the inputs; [src] are the symbols and ranks of the sources, [rank_] is the rank of the
    destination *)
Fixpoint concat_inputs (src : list (nat * nat)) (dims : list nat) (rank_ dim : nat) (bounds : list expr) : res (list copy_input) :=
  match src, bounds with
  | [], [_] => Val []
  | (s, r) :: src', b :: (b' :: _) as bounds' =>
      if (r =? rank_)%nat && (dim <? rank_)%nat && (rank_ <=? length dims)%nat then
        let points := map (fun x => p_point (e_var x)) (firstn rank_ dims) in
        let input := CInput s
          (set_nth points dim (point_sub (nth dim points undef_interval) b))
          (repeat undef_interval dim ++ [p_range (EConst 0) (e_sub b' b)])
          (repeat undef_interval dim ++ [p_range b b'])
          [] in
        l <- concat_inputs src' dims rank_ dim bounds' ;; Val (input :: l)
      else UB
  | _, _ => UB
  end.
Definition make_concat (src : list (nat * nat)) (dst : copy_output) (rank_ dim : nat) (bounds : list expr) : res (list copy_input * copy_output) :=
  l <- concat_inputs src (co_dims dst) rank_ dim bounds ;; Val (l, dst).

(** pipeline.cc:222-250, make_stack *)
Fixpoint stack_inputs (src : list (nat * nat)) (dims : list nat) (dim : nat) (i : nat) : list copy_input :=
  match src with
  | [] => []
  | (s, r) :: src' =>
      CInput s (firstn r (remove_nth (map (fun x => p_point (e_var x)) dims) dim)) [] [] (repeat EUndef dim ++ [EConst (Z.of_nat i)])
      :: stack_inputs src' dims dim (S i)
  end.
Definition make_stack (src : list (nat * nat)) (dst : copy_output) (rank_ dim : nat) : res (list copy_input * copy_output) :=
  if (length (co_dims dst) =? rank_)%nat && (0 <? rank_)%nat then
    let dim := Nat.min (rank_ - 1) dim in
    Val (stack_inputs src (co_dims dst) dim 0, COutput (co_sym dst) (remove_nth (co_dims dst) dim))
  else UB.
