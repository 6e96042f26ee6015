(** Sliding windows and folded storage (slinky/builder/slide_and_fold_storage.cc): what is
    done to the crop of a buffer that is produced in a loop.

    Simplifications:
    - The model is slide_and_fold_buffer for one buffer and the loop it is produced in, called
      with two loops or more on the stack of loops (the first is a dummy) and a body that
      produces the buffer (line 344); the traversal of the pipeline and the synchronization of
      pipelined loops are not modelled.
    - simplify, bounds_of and prove_true are the models of Simplifier_Model.v, with their
      primitives [P] and their fuel.
    - The identity of the loop in dim_fold_info (loop_id) is left out.
    - Lines 421 (an unused expression) and 439-442 (a branch without effects) are left out. *)
From Coq Require Import ZArith List Bool.
From Verif Require Import Arith_Model ModRem_Model Expr_Model Match_Model Rewrite_Model Deps_Model Subst_Model Const_Model Interval_Model Simplifier_Model.
Import ListNotations.
Open Scope Z_scope.

(** depends_on.cc: depends_on of an interval *)
Definition depends_on_ends (i : interval) (x : nat) : bool := any_flag (depends_on (i_min i) x) || any_flag (depends_on (i_max i) x).

(** slide_and_fold_storage.cc:177-186 dim_fold_info *)
Record fold_info := FoldInfo { fi_factor : expr; fi_overlap : expr }.
Definition no_fold : fold_info := FoldInfo positive_infinity EUndef.
(** 22-36 vector_at: assign to element [n], after making the vector long enough *)
Definition set_at (l : list fold_info) (n : nat) (x : fold_info) : list fold_info :=
  let l := l ++ repeat no_fold (S n - length l) in firstn n l ++ x :: skipn (S n) l.

(** 200-228 loop_info: the members that slide_and_fold_buffer uses *)
Record loop_info := LoopInfo { l_sym : nat; l_orig_min : expr; l_min : expr; l_step : expr; l_data_parallel : bool }.

Section Slide.
  Variable P : prims.
  Variable fuel : nat.
  Variable bounds : nat -> option interval.
  Variable alignment : nat -> option modrem.
  Notation simp := (simplify P bounds alignment fuel).
  Notation proves := (api_prove_true P bounds alignment fuel).

  (** 149-167 where_true_upper_bound *)
  Fixpoint search (condition : expr) (x : nat) (guess : expr) (ix : Z) (n : nat) : res expr :=
    match n with
    | O => Val negative_infinity
    | S n' =>
        let e := e_sub guess (EConst ix) in
        shifted <- substitute condition x e ;;
        ok <- proves shifted ;;
        if ok : bool then simp e else search condition x guess (ix + 1) n'
    end.
  Definition where_true_upper_bound (condition : expr) (x : nat) (guess : expr) : res expr := search condition x guess 0 10.

  (** 329-337 constant_fold_factor; None: undefined *)
  Definition constant_fold_factor (extent_bound : expr) (x : nat) : res (option expr) :=
    e <- simp extent_bound ;;
    u <- constant_upper_bound e ;;
    f <- simp u ;;
    Val (if is_finite f && negb (any_flag (depends_on f x)) then Some f else None).

  (** 348-358: whether a dimension was already folded with an overlap *)
  Definition overlapped (folds : list fold_info) : bool :=
    existsb (fun i => is_finite (fi_factor i) && negb (match_expr (fi_factor i) (fi_overlap i))) folds.

  (** What the loop over the dimensions changes. *)
  Record slid := Slid { s_did : bool; s_loop : loop_info; s_folds : list fold_info }.

  (** 364-446: dimension [d] of the bounds of the buffer, and what becomes of it *)
  Definition slide_dim (st : slid) (d : nat) (b : interval) : res (slid * interval) :=
    let loop := s_loop st in
    let x := l_sym loop in
    let loop_var := EVar x f_none 0 in
    if is_finite (fi_factor (nth d (s_folds st) no_fold)) then Val (st, b) else
    if negb (depends_on_ends b x) then Val (st, b) else
    cur <- simplify_interval P bounds alignment fuel b ;;
    prev_min <- substitute (i_min cur) x (e_sub loop_var (l_step loop)) ;;
    prev_max <- substitute (i_max cur) x (e_sub loop_var (l_step loop)) ;;
    let prev := i_bounds prev_min prev_max in
    apart <- proves (i_empty (i_intersection prev cur)) ;;
    if apart : bool then
      i <- bounds_of P bounds (fun _ => None) fuel (i_extent cur) ;;
      f <- constant_fold_factor (i_max i) x ;;
      match f with
      | Some f => Val (Slid (s_did st) loop (set_at (s_folds st) d (FoldInfo f f)), b)
      | None => Val (st, b)
      end
    else
    increasing <- proves (e_and (e_le prev_min (i_min cur)) (e_le prev_max (i_max cur))) ;;
    if increasing : bool then
      let old_min := i_min cur in
      new_min <- simp (e_add prev_max (EConst 1)) ;;
      st' <- (if s_did st then Val st else
              i <- bounds_of P bounds alignment fuel (i_extent cur) ;;
              f <- constant_fold_factor (i_max i) x ;;
              match f with
              | Some f =>
                  j <- bounds_of P bounds alignment fuel (e_add (e_sub (i_max cur) new_min) (EConst 1)) ;;
                  u <- constant_upper_bound (i_max j) ;;
                  overlap <- simplify P bounds (fun _ => None) fuel u ;;
                  Val (Slid true loop (set_at (s_folds st) d (FoldInfo f overlap)))
              | None => Val st
              end) ;;
      old_min_at_loop_min <- substitute old_min x (l_min loop) ;;
      new_loop_min <- where_true_upper_bound (e_le new_min old_min_at_loop_min) x (l_min loop) ;;
      if is_negative_infinity new_loop_min
      then Val (Slid (s_did st') (LoopInfo x (l_orig_min loop) (l_min loop) (l_step loop) false) (s_folds st'),
                i_bounds (ESelect (e_le loop_var (l_orig_min loop)) old_min new_min) (i_max b))
      else Val (Slid (s_did st') (LoopInfo x (l_orig_min loop) new_loop_min (l_step loop) false) (s_folds st'),
                i_bounds new_min (i_max b))
    else Val (st, b).

  (** 363: the loop over the dimensions *)
  Fixpoint slide_dims (st : slid) (d : nat) (l : list interval) : res (slid * list interval) :=
    match l with
    | [] => Val (st, [])
    | b :: l' => r <- slide_dim st d b ;; let '(st', b') := r in
                 r' <- slide_dims st' (S d) l' ;; let '(st'', l'') := r' in Val (st'', b' :: l'')
    end.
  (** 339-447 slide_and_fold_buffer *)
  Definition slide_and_fold_buffer (loop : loop_info) (folds : list fold_info) (l : list interval) : res (slid * list interval) :=
    slide_dims (Slid (overlapped folds) loop folds) 0 l.
End Slide.

(** 716-724 (visit of a loop): what is recorded about the loop variable *)
Definition loop_var_bounds (lo hi step : expr) : interval :=
  i_bounds lo (e_add lo (e_align_down (e_sub (i_extent (i_bounds lo hi)) (EConst 1)) step)).
(** 720-724.  The % of C++. *)
Definition loop_var_alignment (lo step : expr) : modrem :=
  MR (match as_constant step with Some s => s | None => 1 end)
     (match as_constant lo, as_constant step with Some m, Some s => Z.rem m s | _, _ => 0 end).
