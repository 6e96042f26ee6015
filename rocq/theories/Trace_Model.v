(** Model of inject_traces (slinky/builder/pipeline.cc:1472-1530).

    Simplifications: blocks and lets are not flattened (block::make, let_stmt::make); the fresh symbols [__trace_token] and [__trace_names] are
    given; the constant buffer of the names is given by its address, and its contents are the characters of the final state. *)
From Coq Require Import ZArith List Bool Arith String Ascii.
From Verif Require Import Arith_Model Buf_Model Expr_Model Stmt_Model.
Import ListNotations.
Open Scope Z_scope.

(** pipeline.cc:1478-1479: the names, and the map from names to offsets *)
Record trace_state := TraceState { t_names : list ascii; t_offsets : list (string * Z) }.

Section Inject.
  Variable name_of : nat -> string.        (* ctx.name *)
  Variable call_name : nat -> string.      (* the name in the attributes of a call, by its target *)
  Variable token names_buf : nat.

  (** pipeline.cc:1484-1493: get_trace_arg *)
  Definition trace_arg (off : Z) : expr := ECall i_buffer_at None [EVar names_buf f_none (-1); EConst off].
  Definition get_trace_arg (arg : string) (st : trace_state) : expr * trace_state :=
    match find (fun p => String.eqb (fst p) arg) (t_offsets st) with
    | Some p => (trace_arg (snd p), st)
    | None => let off := Z.of_nat (List.length (t_names st)) in
              (trace_arg off, TraceState (t_names st ++ list_ascii_of_string arg ++ [zero]) ((arg, off) :: t_offsets st))
    end.
  (** pipeline.cc:1495-1501 *)
  Definition name_of_call (t : nat) : string := if String.eqb (call_name t) "" then "call"%string else call_name t.
  (** pipeline.cc:1503-1507 *)
  Definition add_trace (s : stmt) (arg : expr) : stmt :=
    SLet [(token, ECall i_trace_begin None [arg])] (SBlock [s; SCheck (ECall i_trace_end None [EVar token f_none (-1)])]) false.

  (** pipeline.cc:1509-1522, and node_mutator.cc:91-143, stmt_mutator *)
  Fixpoint inject (s : stmt) (st : trace_state) {struct s} : stmt * trace_state :=
    match s with
    | SUndef => (SUndef, st)
    | SCall t ins outs sc => let '(a, st1) := get_trace_arg (name_of_call t) st in (add_trace (SCall t ins outs sc) a, st1)
    | SCopy src src_x dst dst_x pad => (SCopy src src_x dst dst_x pad, st)
    | SLet l b c => let '(b', st1) := inject b st in (SLet l b' c, st1)
    | SBlock l =>
        let '(l', st1) := (fix go (l : list stmt) (st : trace_state) {struct l} : list stmt * trace_state :=
           match l with
           | [] => ([], st)
           | x :: l0 => let '(x', st1) := inject x st in let '(l', st2) := go l0 st1 in (x' :: l', st2)
           end) l st in (SBlock l', st1)
    | SLoop sym w i step b =>
        let '(iter_name, st1) := get_trace_arg ("loop " ++ name_of sym ++ " iteration")%string st in
        let '(loop_name, st2) := get_trace_arg ("loop " ++ name_of sym)%string st1 in
        let '(b', st3) := inject b st2 in
        (add_trace (SLoop sym w i step (add_trace b' iter_name)) loop_name, st3)
    | SAllocate sym w e ds b => let '(b', st1) := inject b st in (SAllocate sym w e ds b', st1)
    | SMake sym p e ds b => let '(b', st1) := inject b st in (SMake sym p e ds b', st1)
    | SConst sym p b => let '(b', st1) := inject b st in (SConst sym p b', st1)
    | SClone sym src b => let '(b', st1) := inject b st in (SClone sym src b', st1)
    | SCropBuffer sym src l b => let '(b', st1) := inject b st in (SCropBuffer sym src l b', st1)
    | SCropDim sym src d i b => let '(b', st1) := inject b st in (SCropDim sym src d i b', st1)
    | SSliceBuffer sym src l b => let '(b', st1) := inject b st in (SSliceBuffer sym src l b', st1)
    | SSliceDim sym src d x b => let '(b', st1) := inject b st in (SSliceDim sym src d x b', st1)
    | STranspose sym src p b => let '(b', st1) := inject b st in (STranspose sym src p b', st1)
    | SAsync sym task b =>
        let '(task_name, st1) := get_trace_arg ("task " ++ match sym with Some x => name_of x | None => "" end)%string st in
        let '(task', st2) := inject task st1 in
        let '(b', st3) := inject b st2 in
        (SAsync sym (add_trace task' task_name) b', st3)
    | SCheck c => (SCheck c, st)
    end.

  (** pipeline.cc:1524-1529; [p] is the address of the constant buffer *)
  Definition inject_traces (p : Z) (s : stmt) : stmt * list ascii :=
    let '(s', st1) := inject s (TraceState [] []) in
    let '(a, st2) := get_trace_arg "pipeline"%string st1 in
    (SConst names_buf p (add_trace s' a), t_names st2).
End Inject.
