(** Dependencies of expressions and statements (slinky/runtime/depends_on.cc).

    The visitor class [dependencies] (18-288) sets flags of depends_on_result objects, to
    which the entries of var_deps point.  The model lists the settings of flags in order: a
    pair of the object and the flags that are set, possibly none (looking a symbol up in
    unknown_deps makes an entry).  Accepting a null expr is undefined behaviour in the code;
    here it sets nothing. *)
From Coq Require Import ZArith List Bool.
From Verif Require Import Arith_Model Buf_Model Expr_Model Stmt_Model.
Import ListNotations.
Open Scope Z_scope.

(** depends_on.h:11-37 *)
Record flags := Flags {
  d_var : bool; d_input : bool; d_output : bool; d_src : bool; d_dst : bool;
  d_base : bool; d_dims : bool; d_bounds : bool }.
Definition no_flags : flags := Flags false false false false false false false false.
Definition or_flags (a b : flags) : flags :=
  Flags (d_var a || d_var b) (d_input a || d_input b) (d_output a || d_output b) (d_src a || d_src b)
        (d_dst a || d_dst b) (d_base a || d_base b) (d_dims a || d_dims b) (d_bounds a || d_bounds b).
Definition buffer_data (f : flags) : bool := d_input f || d_output f || d_src f || d_dst f || d_base f.
Definition any_flag (f : flags) : bool := d_var f || (buffer_data f || d_dims f || d_bounds f).

(** what a depends_on_result pointer points to: the result of the symbol tracked under a
    number, dummy_deps, or the entry of a symbol in unknown_deps *)
Inductive target := TTracked (k : nat) | TDummy | TUnknown (s : nat).
Definition is_dummy (t : target) : bool := match t with TDummy => true | _ => false end.
(** var_deps, the last entry first *)
Definition var_deps := list (nat * target).
Definition writes := list (target * flags).

Section Visitor.
  (** unknown_deps is not null *)
  Variable unknown : bool.

  Fixpoint find_entry (vd : var_deps) (s : nat) : option target :=
    match vd with
    | [] => None
    | (t, d) :: vd' => if (t =? s)%nat then Some d else find_entry vd' s
    end.
  (** depends_on.cc:42-55 *)
  Definition find_deps (vd : var_deps) (s : nat) : option target :=
    match find_entry vd s with
    | Some d => Some d
    | None => if unknown then Some (TUnknown s) else None
    end.
  (** 57-65 *)
  Definition decl_needs_shadow (vd : var_deps) (s : nat) : bool :=
    match find_entry vd s with Some d => negb (is_dummy d) | None => unknown end.
  Definition shadow (vd : var_deps) (s : nat) : var_deps := if decl_needs_shadow vd s then (s, TDummy) :: vd else vd.
  (** if (depends_on_result* deps = find_deps(s)) ... *)
  Definition set_flags (vd : var_deps) (s : nat) (f : flags) : writes :=
    match find_deps vd s with Some d => [(d, f)] | None => [] end.

  (** 68-85 *)
  Definition field_flags (f : field) : flags :=
    match f with
    | f_none | f_rank | f_elem_size | f_size_bytes => Flags true false false false false false false false
    | f_min | f_max => Flags false false false false false false true true
    | f_stride | f_fold_factor => Flags false false false false false false true false
    end.
  Definition at_flags : flags := Flags false false false false false true true true.

  (** 106-120: the values of lets, each with the symbols before it shadowed *)
  Section Lists.
    Variable visit : var_deps -> expr -> writes.
    Fixpoint visit_lets (vd : var_deps) (l : list (nat * expr)) {struct l} : writes * var_deps :=
      match l with
      | [] => ([], vd)
      | (s, x) :: l' =>
          let w := visit vd x in
          let '(ws, vd1) := visit_lets (shadow vd s) l' in (w ++ ws, vd1)
      end.
    Fixpoint visit_all (vd : var_deps) (l : list expr) {struct l} : writes :=
      match l with [] => [] | x :: l' => visit vd x ++ visit_all vd l' end.
  End Lists.

  (** 68-119, expr_stmt.cc:835-879 *)
  Fixpoint visit_expr (vd : var_deps) (e : expr) {struct e} : writes :=
    match e with
    | EUndef | EConst _ => []
    | EVar s f _ => set_flags vd s (field_flags f)
    | ELet l b => let '(w, vd1) := visit_lets visit_expr vd l in w ++ visit_expr vd1 b
    | EBin _ a b => visit_expr vd a ++ visit_expr vd b
    | ENot a => visit_expr vd a
    | ESelect c t f => visit_expr vd c ++ visit_expr vd t ++ visit_expr vd f
    | ECall i_buffer_at _ (x :: args) =>
        match x with EVar s f_none _ => set_flags vd s at_flags | _ => [] end ++ visit_all visit_expr vd args
    | ECall i_buffer_at _ [] => []
    | ECall _ _ args => visit_all visit_expr vd args
    end.

  Definition visit_interval (vd : var_deps) (x : interval) : writes := visit_expr vd (fst x) ++ visit_expr vd (snd x).
  Definition visit_dim (vd : var_deps) (d : dim_expr) : writes :=
    visit_interval vd (de_bounds d) ++ visit_expr vd (de_stride d) ++ visit_expr vd (de_fold d).

  (** 122-139.  [src]: the deps of the source, if the statement has one. *)
  Definition visit_sym_body (vd : var_deps) (sym : nat) (src : option target) (body : var_deps -> writes) : writes :=
    match match src with Some d => if is_dummy d then None else Some d | None => None end with
    | Some d => body ((sym, d) :: vd)
    | None =>
        if decl_needs_shadow vd sym then
          if negb unknown && (length vd =? 1)%nat then [] else body ((sym, TDummy) :: vd)
        else body vd
    end.
  (** 141-148 *)
  Definition visit_src_body (vd : var_deps) (sym src : nat) (body : var_deps -> writes) : writes :=
    if (sym =? src)%nat then body vd else visit_sym_body vd sym (find_deps vd src) body.
  Definition input_flags : flags := Flags true true false false false false true false.
  Definition output_flags : flags := Flags true false true false false false true true.
  Definition copy_src_flags (padded : bool) : flags := Flags true false false true false false true padded.
  Definition copy_dst_flags : flags := Flags true false false false true false true true.
  Definition meta_flags : flags := Flags false false false false false false true true.
  Fixpoint set_all (vd : var_deps) (l : list nat) (f : flags) : writes :=
    match l with [] => [] | s :: l' => set_flags vd s f ++ set_all vd l' f end.
  Fixpoint shadow_all (vd : var_deps) (l : list nat) : var_deps :=
    match l with [] => vd | s :: l' => shadow_all (shadow vd s) l' end.

  (** 150-287, expr_stmt.cc:881-963 *)
  Fixpoint visit_stmt (vd : var_deps) (s : stmt) {struct s} : writes :=
    match s with
    | SUndef => []
    | SCall _ ins outs sc => set_all vd ins input_flags ++ set_all vd outs output_flags ++ visit_all visit_expr vd sc
    | SCopy src src_x dst dst_x pad =>
        set_flags vd src (copy_src_flags (match pad with Some _ => true | None => false end)) ++
        match pad with Some p => set_flags vd p (copy_src_flags false) | None => [] end ++
        set_flags vd dst copy_dst_flags ++
        visit_all visit_expr (shadow_all vd dst_x) src_x
    | SLet l b _ => let '(w, vd1) := visit_lets visit_expr vd l in w ++ visit_stmt vd1 b
    | SBlock l => (fix go (l : list stmt) : writes := match l with [] => [] | x :: l' => visit_stmt vd x ++ go l' end) l
    | SLoop sym w x st b =>
        visit_interval vd x ++ visit_expr vd st ++ visit_expr vd w ++ visit_sym_body vd sym None (fun vd => visit_stmt vd b)
    | SAllocate sym _ e ds b =>
        visit_expr vd e ++ flat_map (visit_dim vd) ds ++ visit_sym_body vd sym None (fun vd => visit_stmt vd b)
    | SMake sym p e ds b =>
        visit_expr vd p ++ visit_expr vd e ++ flat_map (visit_dim vd) ds ++ visit_sym_body vd sym None (fun vd => visit_stmt vd b)
    | SConst sym _ b => visit_sym_body vd sym None (fun vd => visit_stmt vd b)
    | SClone sym src b => set_flags vd src no_flags ++ visit_src_body vd sym src (fun vd => visit_stmt vd b)
    | SCropBuffer sym src l b =>
        flat_map (visit_interval vd) l ++ set_flags vd src meta_flags ++ visit_src_body vd sym src (fun vd => visit_stmt vd b)
    | SCropDim sym src _ x b =>
        visit_interval vd x ++ set_flags vd src meta_flags ++ visit_src_body vd sym src (fun vd => visit_stmt vd b)
    | SSliceBuffer sym src at_ b =>
        visit_all visit_expr vd at_ ++ set_flags vd src meta_flags ++ visit_src_body vd sym src (fun vd => visit_stmt vd b)
    | SSliceDim sym src _ x b =>
        visit_expr vd x ++ set_flags vd src meta_flags ++ visit_src_body vd sym src (fun vd => visit_stmt vd b)
    | STranspose sym src _ b => set_flags vd src meta_flags ++ visit_src_body vd sym src (fun vd => visit_stmt vd b)
    | SAsync _ t b => visit_stmt vd t ++ visit_stmt vd b
    | SCheck c => visit_expr vd c
    end.
End Visitor.

Definition target_eqb (a b : target) : bool :=
  match a, b with
  | TTracked m, TTracked n | TUnknown m, TUnknown n => (m =? n)%nat
  | TDummy, TDummy => true
  | _, _ => false
  end.
(** the flags of an object after all settings *)
Fixpoint result_of (w : writes) (t : target) : flags :=
  match w with
  | [] => no_flags
  | (u, f) :: w' => if target_eqb u t then or_flags f (result_of w' t) else result_of w' t
  end.

(** depends_on.cc:292-352: one symbol, or several that share a result *)
Definition depends_on (e : expr) (x : nat) : flags := result_of (visit_expr false [(x, TTracked 0)] e) (TTracked 0).
Definition depends_on_stmt (s : stmt) (x : nat) : flags := result_of (visit_stmt false [(x, TTracked 0)] s) (TTracked 0).
Definition depends_on_interval (i : interval) (x : nat) : flags := or_flags (depends_on (fst i) x) (depends_on (snd i) x).
(** xs is empty: nothing is visited *)
Definition depends_on_any (e : expr) (xs : list nat) : flags :=
  match xs with [] => no_flags | _ => result_of (visit_expr false (rev (map (fun x => (x, TTracked 0)) xs)) e) (TTracked 0) end.
Definition depends_on_any_stmt (s : stmt) (xs : list nat) : flags :=
  match xs with [] => no_flags | _ => result_of (visit_stmt false (rev (map (fun x => (x, TTracked 0)) xs)) s) (TTracked 0) end.

(** 354 *)
Definition can_substitute_buffer (f : flags) : bool := negb (buffer_data f || d_var f).

(** std::map: the keys in order.  [insert_key] adds a key that is not there. *)
Fixpoint insert_key (s : nat) (l : list nat) : list nat :=
  match l with
  | [] => [s]
  | t :: l' => if (s <? t)%nat then s :: l else if (s =? t)%nat then l else t :: insert_key s l'
  end.
Fixpoint keys (w : writes) : list nat :=
  match w with
  | [] => []
  | (TUnknown s, _) :: w' => insert_key s (keys w')
  | _ :: w' => keys w'
  end.
(** 375-386 *)
Definition find_dependencies (e : expr) : list nat := keys (visit_expr true [] e).
Definition find_dependencies_stmt (s : stmt) : list nat := keys (visit_stmt true [] s).
(** 388-408 *)
Definition wanted (input src output dst : bool) (f : flags) : bool :=
  input && d_input f || src && d_src f || output && d_output f || dst && d_dst f.
Definition find_buffer_dependencies (s : stmt) (input src output dst : bool) : list nat :=
  let w := visit_stmt true [] s in filter (fun x => wanted input src output dst (result_of w (TUnknown x))) (keys w).
(** 410-428: None is var() *)
Definition find_buffer_data_dependency (e : expr) : option nat :=
  let w := visit_expr true [] e in
  match filter (fun x => d_base (result_of w (TUnknown x))) (keys w) with [x] => Some x | _ => None end.

(** 356-360: is_pure is cleared by a field of a buffer (69) or a buffer_at (88) *)
Fixpoint is_pure (e : expr) : bool :=
  match e with
  | EUndef | EConst _ => true
  | EVar _ f _ => match f with f_none => true | _ => false end
  | ELet l b => forallb (fun p => is_pure (snd p)) l && is_pure b
  | EBin _ a b => is_pure a && is_pure b
  | ENot a => is_pure a
  | ESelect c t f => is_pure c && is_pure t && is_pure f
  | ECall i_buffer_at _ _ => false
  | ECall _ _ args => forallb is_pure args
  end.
(** 430-465 *)
Definition has_effect (fn : intrinsic) : bool :=
  match fn with
  | i_none | i_semaphore_init | i_semaphore_signal | i_semaphore_wait | i_wait_for | i_trace_begin | i_trace_end | i_free => true
  | _ => false
  end.
Fixpoint has_side_effects (e : expr) : bool :=
  match e with
  | EUndef | EConst _ | EVar _ _ _ => false
  | ELet l b => existsb (fun p => has_side_effects (snd p)) l || has_side_effects b
  | EBin _ a b => has_side_effects a || has_side_effects b
  | ENot a => has_side_effects a
  | ESelect c t f => has_side_effects c || has_side_effects t || has_side_effects f
  | ECall fn _ args => has_effect fn || existsb has_side_effects args
  end.
