(** How a pipeline is built: loops, calls, and where buffers and constants are allocated (slinky/builder/pipeline.cc: pipeline_builder::produce, compute_deps_count, build, make_loop).

    The statements are those of Layout_Model: of the statements around the calls the loops, allocations and constants are modelled, not crops, make_buffers and checks.  [None]: an assert fails, or out of fuel,
    or a loop without a call. *)
From Coq Require Import ZArith List Bool Arith.
From Verif Require Import Arith_Model Sched_Model Layout_Model.
Import ListNotations.
Open Scope nat_scope.

(** pipeline.h:18-27: a loop_id without a variable is the innermost loop of its func *)
Inductive stored := Innermost_of (f : nat) | At (l : loop_id).
(** pipeline.h:44-180, 187-300: the graph of the funcs (Sched_Model), their outputs and inputs (symbols of buffers), whether a func has an impl, and whether it is a padded copy;
    of a buffer whether it is a constant, whether it has a producer, and store_at; and the outputs of the pipeline (output_syms_, pipeline.cc:1222) *)
Record pipe := Pipe { gr : graph; outs : nat -> list nat; ins : nat -> list nat; has_impl : nat -> bool; is_padded_copy : nat -> bool;
  constant : nat -> bool; produced : nat -> bool; store_at : nat -> option stored; pipe_outs : list nat }.

Section Build.
  Variable p : pipe.
  (** order_ and the levels (pipeline.cc:1217, 1231) *)
  Variable ord : list nat.
  Variable loc : locations.
  Definition is_output (b : nat) : bool := member b (pipe_outs p).
  (** pipeline.cc:866-874: allocation_info_ *)
  Definition has_info (b : nat) : bool := existsb (fun f => member b (outs p f)) ord && negb (is_output b).
  (** pipeline.cc:864-912: copy_inputs_ *)
  Definition copy_inputs (b : nat) : bool :=
    existsb (fun f => member b (outs p f) && negb (is_output b) && (negb (has_impl p f) && is_padded_copy p f)) ord ||
    existsb (fun f => member b (ins p f) && ((negb (has_impl p f) && negb (is_padded_copy p f)) || constant p b)) ord.
  (** copy_deps_ *)
  Definition copy_deps (b : nat) : list nat :=
    flat_map (fun f => if member b (outs p f) && negb (is_output b) && (negb (has_impl p f) && is_padded_copy p f) then filter (produced p) (ins p f) else []) ord ++
    flat_map (fun f => if member b (ins p f) && ((negb (has_impl p f) && negb (is_padded_copy p f)) || constant p b) then filter (fun o => constant p b || negb (is_output o)) (outs p f) else []) ord.
  (** deps_count, for the buffers with allocation_info_ *)
  Definition deps_count (b : nat) : nat := count_occ Nat.eq_dec (flat_map (ins p) ord) b.

  (** functions_produced_, candidates_for_allocation_, lifetime_start, lifetime_end and consumers_produced of allocation_info_, the keys of constants_, and loops_ *)
  Record state := State { made : Z; candidates : loop_id -> list nat; from_of : nat -> Z; to_of : nat -> Z; used : nat -> nat; constants : list nat; loops_seen : list loop_id }.
  (** pipeline.cc:613-621 *)
  Definition initial : state := State 0 (fun _ => []) (fun _ => -1)%Z (fun _ => -1)%Z (fun _ => 0) [] [].
  (** std::set<var>::insert, and of std::map<var, ...> *)
  Fixpoint set_insert (x : nat) (l : list nat) : list nat :=
    match l with
    | [] => [x]
    | y :: l' => if x <? y then x :: l else if x =? y then l else y :: set_insert x l'
    end.
  Definition set_loop {A} (m : loop_id -> A) (l : loop_id) (a : A) : loop_id -> A := fun x => if loop_eqb x l then a else m x.
  (** pipeline.cc:798-808: where [b], an output of [f], is stored *)
  Definition store_level (seen : list loop_id) (f b : nat) : option loop_id :=
    match store_at p b with
    | None => Some None
    | Some (Innermost_of g) => if g =? f then Some (at_level loc f) else None
    | Some (At l) => if existsb (loop_eqb l) seen then Some l else None
    end.
  (** pipeline.cc:794-816 *)
  Definition produce_output (f : nat) (s : state) (b : nat) : option state :=
    if is_output b then Some s
    else
      match store_level (loops_seen s) f b with
      | None => None
      | Some l =>
          Some (State (made s) (set_loop (candidates s) l (set_insert b (candidates s l))) (set_at (from_of s) b (made s))
                  (if used s b =? deps_count b then set_at (to_of s) b (made s) else to_of s) (used s) (constants s) (loops_seen s))
      end.
  Fixpoint produce_outputs (f : nat) (s : state) (l : list nat) : option state :=
    match l with
    | [] => Some s
    | b :: l' => match produce_output f s b with Some s' => produce_outputs f s' l' | None => None end
    end.
  (** pipeline.cc:818-834 *)
  Definition produce_input (s : state) (i : nat) : state :=
    let s := if constant p i then State (made s) (candidates s) (from_of s) (to_of s) (used s) (if member i (constants s) then constants s else set_insert i (constants s)) (loops_seen s) else s in
    if negb (produced p i) then s
    else if negb (has_info i) then s
    else
      State (made s) (candidates s) (from_of s) (if S (used s i) =? deps_count i then set_at (to_of s) i (made s) else to_of s) (set_at (used s) i (S (used s i))) (constants s) (loops_seen s).
  (** pipeline.cc:789-839 *)
  Definition produce (f : nat) (s : state) : option (range * state) :=
    match produce_outputs f s (outs p f) with
    | None => None
    | Some s =>
        let s := fold_left produce_input (ins p f) s in
        Some (Range [Leaf (made s)] (made s) (made s) [], State (made s + 1) (candidates s) (from_of s) (to_of s) (used s) (constants s) (loops_seen s))
    end.

  (** the candidates of a level, as lay_out_allocations finds them (pipeline.cc:984-991) *)
  Definition lay_out (l : loop_id) (results : list range) (s : state) : option (range * state) :=
    let cs := map (fun b => Candidate b (from_of s b) (to_of s b)) (filter (fun b => negb (is_output b)) (candidates s l)) in
    match lay_out_allocations copy_deps (S (length cs)) (filter (fun b => negb (is_output b)) (flat_map (outs p) ord)) copy_inputs cs results (constants s) with
    | Some (Some r, kept, consts) => Some (r, State (made s) (set_loop (candidates s) l kept) (from_of s) (to_of s) (used s) consts (loops_seen s))
    | _ => None
    end.
  (** pipeline.cc:1140-1157, with [old] for old_candidates *)
  Definition wrap_loop (l : loop_id) (old : list nat) (r : range) (s : state) : range * state :=
    if length old + 1 <? length (candidates s l) then
      let new := filter (fun b => negb (member b old) && negb (copy_inputs b) && (used s b =? deps_count b)) (candidates s l) in
      (fold_left (fun r b => produce_allocation b r) new r,
       State (made s) (set_loop (candidates s) l (fold_left (fun c b => erase b c) new (candidates s l))) (from_of s) (to_of s) (used s) (constants s) (loops_seen s))
    else (r, s).
  (** pipeline.cc:1124-1165, with [make] for make_loop(f, f->loops().size() - 1) *)
  Definition build (make : nat -> state -> option (range * state)) (l : loop_id) (s : state) : option (list range * state) :=
    fold_left (fun a f =>
      match a with
      | None => None
      | Some (results, s) =>
          if loop_eqb (at_level loc f) l && negb (match loops (gr p) f with [] => true | _ => false end)
          then match make f s with
               | None => None
               | Some (r, s') => let '(r', s'') := wrap_loop l (candidates s l) r s' in Some (results ++ [r'], s'')
               end
          else if loop_eqb (call_level loc f) l then match produce f s with Some (r, s') => Some (results ++ [r], s') | None => None end
          else Some (results, s)
      end) (rev ord) (Some ([], s)).
  (** pipeline.cc:1274: loops_.insert(here) *)
  Definition enter (l : loop_id) (s : state) : state := State (made s) (candidates s) (from_of s) (to_of s) (used s) (constants s) (l :: loops_seen s).
  (** pipeline.cc:1401: the loop is made around the body, which keeps its range *)
  Definition loop_around (f v : nat) (r : range) : range := Range [Nest (f, v) (body r)] (start r) (stop r) (allocations r).
  (** pipeline.cc:1266-1404: the loops of [f] that are left to make, [vars], outermost first *)
  Fixpoint make_loop (fuel : nat) (f : nat) (vars : list nat) (s : state) : option (range * state) :=
    match fuel, vars with
    | S n, v :: inner =>
        match build (fun h => make_loop n h (rev (loops (gr p) h))) (Some (f, v)) (enter (Some (f, v)) s) with
        | None => None
        | Some (results, s1) =>
            match
              match inner with
              | [] => Some (results, s1)
              | _ => match make_loop n f inner s1 with Some (r, s2) => Some (results ++ [r], s2) | None => None end
              end
            with
            | None => None
            | Some (results, s2) => match lay_out (Some (f, v)) results s2 with Some (r, s3) => Some (loop_around f v r, s3) | None => None end
            end
        end
    | _, _ => None
    end.
  (** pipeline.cc:1540 and 1426-1430: make_loop(nullptr, 0), and make_buffers with the constants that are left *)
  Definition make_root (fuel : nat) : option (list code) :=
    match build (fun h => make_loop fuel h (rev (loops (gr p) h))) None (enter None initial) with
    | None => None
    | Some (results, s) => match lay_out None results s with Some (r, s') => Some (fold_left (fun c b => [Const b c]) (constants s') (body r)) | None => None end
    end.
End Build.
