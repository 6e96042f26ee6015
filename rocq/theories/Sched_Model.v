(** Ordering the functions of a pipeline, and the loops they are computed in (slinky/builder/pipeline.cc:354-512: topological_sort_impl, topological_sort, find_path_from_root,
    compare_paths_up_to, lca, compute_innermost_locations; 1124-1165 and 1266-1282: the calls and loops that pipeline_builder::build and make_loop make).

    A function (const func* ) is a number.  [UB]: an assert fails. *)
From Coq Require Import ZArith List Bool Arith.
From Verif Require Import Arith_Model.
Import ListNotations.
Open Scope nat_scope.

(** pipeline.h:18-38: [None] is the root; otherwise the variable is defined *)
Definition loop_id := option (nat * nat).
Definition loop_eqb (a b : loop_id) : bool :=
  match a, b with
  | None, None => true
  | Some (f, v), Some (g, w) => (f =? g) && (v =? w)
  | _, _ => false
  end.
(** pipeline.h:187-240: of a func the producers of its inputs, in order, for the inputs that have one; the variables of its loops, innermost first; and compute_at. *)
Record graph := Graph { producers : nat -> list nat; loops : nat -> list nat; compute_at : nat -> option loop_id }.
Definition mem (x : nat) (l : list nat) : bool := existsb (Nat.eqb x) l.

Section Sched.
  Variable g : graph.

  (** pipeline.cc:354-355: visited, order, and deps: a consumer of a producer is added at the end of its vector; here as pairs (producer, consumer) in the order in which they are added *)
  Record sorted := Sorted { visited : list nat; order : list nat; deps : list (nat * nat) }.
  (** std::map<const func*, std::vector<const func*>>: the function is not in the map if there is no consumer *)
  Definition consumers (ds : list (nat * nat)) (p : nat) : list nat := map snd (filter (fun d => fst d =? p) ds).
  (** pipeline.cc:354-373.  [None]: out of fuel.  processing is a parameter, since each call leaves it as it was. *)
  Fixpoint sort_impl (fuel : nat) (processing : list nat) (f : nat) (st : sorted) : option (res sorted) :=
    if mem f (visited st) then Some (Val st)
    else
      match fuel with
      | O => None
      | S n =>
          if mem f processing then Some UB
          else
            match
              (fix go (l : list nat) (st : sorted) : option (res sorted) :=
                 match l with
                 | [] => Some (Val st)
                 | p :: l' =>
                     match sort_impl n (f :: processing) p (Sorted (visited st) (order st) (deps st ++ [(p, f)])) with
                     | Some (Val st') => go l' st'
                     | r => r
                     end
                 end) (producers g f) st
            with
            | Some (Val st') => Some (Val (Sorted (f :: visited st') (order st' ++ [f]) (deps st')))
            | r => r
            end
      end.
  (** pipeline.cc:375-386: [outputs] are the producers of the output buffers that have one *)
  Fixpoint sort_all (fuel : nat) (outputs : list nat) (st : sorted) : option (res sorted) :=
    match outputs with
    | [] => Some (Val st)
    | f :: l => match sort_impl fuel [] f st with Some (Val st') => sort_all fuel l st' | r => r end
    end.
  Definition topological_sort (fuel : nat) (outputs : list nat) : option (res (list nat * list (nat * nat))) :=
    match sort_all fuel outputs (Sorted [] [] []) with
    | Some (Val st) => Some (Val (rev (order st), deps st))
    | Some UB => Some UB
    | None => None
    end.

  (** pipeline.cc:388-392: the parent of the root (-1) is never used *)
  Record node := Node { parent : nat; loop : loop_id }.
  Definition root_node := Node 0 None.
  Definition at_node (t : list node) (n : nat) : node := nth n t root_node.
  (** pipeline.cc:395-403, before it is reversed.  Parents have smaller numbers, so that the fuel is enough. *)
  Fixpoint path_up (fuel : nat) (t : list node) (n : nat) : list nat :=
    match n, fuel with
    | O, _ => [O]
    | _, O => [n]
    | _, S k => n :: path_up k t (parent (at_node t n))
    end.
  Definition find_path_from_root (t : list node) (n : nat) : list nat := rev (path_up n t n).
  (** pipeline.cc:406-416: the loop from [iy] on, with [n] iterations to go *)
  Fixpoint first_diff (iy : Z) (n : nat) (base other : list nat) : Z :=
    match n with
    | O => iy - 1
    | S n' =>
        match base, other with
        | b :: base', o :: other' => if Nat.eqb o b then first_diff (iy + 1) n' base' other' else iy - 1
        | _, _ => iy - 1
        end
    end%Z.
  Definition compare_paths_up_to (base other : list nat) (max_match : Z) : Z :=
    first_diff 0 (Z.to_nat (Z.min max_match (Z.of_nat (length other) - 1) + 1)) base other.
  (** pipeline.cc:419-438 *)
  Definition lca (t : list node) (ids : list nat) : nat :=
    let paths := map (find_path_from_root t) ids in
    let p0 := hd [] paths in
    nth (Z.to_nat (fold_left (fun m p => compare_paths_up_to p0 p m) paths (Z.of_nat (length p0) - 1)%Z)) p0 O.

  (** pipeline.cc:440-446: the tree, func_to_loop_tree, compute_at_levels and realization_levels *)
  Record locations := Locations { tree : list node; node_of : nat -> option nat; at_level : nat -> loop_id; call_level : nat -> loop_id }.
  Definition set_at {A} (m : nat -> A) (f : nat) (a : A) : nat -> A := fun x => if x =? f then a else m x.
  (** pipeline.cc:500-503 *)
  Fixpoint add_loops (t : list node) (f : nat) (vars : list nat) (p : nat) : list node * nat :=
    match vars with
    | [] => (t, p)
    | v :: l => add_loops (t ++ [Node p (Some (f, v))]) f l (length t)
    end.
  Fixpoint find_all (m : nat -> option nat) (l : list nat) : res (list nat) :=
    match l with
    | [] => Val []
    | x :: l' => match m x with Some n => bind (find_all m l') (fun r => Val (n :: r)) | None => UB end
    end.
  (** pipeline.cc:480-486: the last one of the path whose loop it is *)
  Definition last_at (t : list node) (path : list nat) (l : loop_id) : option nat :=
    fold_left (fun r p => if loop_eqb (loop (at_node t p)) l then Some p else r) path None.
  (** pipeline.cc:451-497: the node that is the parent of the loops of [f], and compute_at_levels[f] *)
  Definition place (ds : list (nat * nat)) (st : locations) (f : nat) : res (nat * loop_id) :=
    match consumers ds f with
    | [] => match compute_at g f with None | Some None => Val (O, None) | _ => UB end
    | cs =>
        bind (find_all (node_of st) cs) (fun ids =>
        let p := match ids with [n] => n | _ => lca (tree st) ids end in
        match compute_at g f with
        | Some l => match last_at (tree st) (find_path_from_root (tree st) p) l with Some q => Val (q, l) | None => UB end
        | None => Val (p, loop (at_node (tree st) p))
        end)
    end.
  (** pipeline.cc:498-511 *)
  Definition locate (ds : list (nat * nat)) (st : locations) (f : nat) : res locations :=
    bind (place ds st f) (fun r =>
    let '(p, l) := r in
    let '(t, n) := add_loops (tree st) f (rev (loops g f)) p in
    Val (Locations t (set_at (node_of st) f (Some n)) (set_at (at_level st) f l)
           (set_at (call_level st) f (match loops g f with [] => l | v :: _ => Some (f, v) end)))).
  Fixpoint locate_all (ds : list (nat * nat)) (st : locations) (l : list nat) : res locations :=
    match l with
    | [] => Val st
    | f :: l' => bind (locate ds st f) (fun st' => locate_all ds st' l')
    end.
  Definition compute_innermost_locations (order : list nat) (ds : list (nat * nat)) : res locations :=
    locate_all ds (Locations [root_node] (fun _ => None) (fun _ => None) (fun _ => None)) order.

  (** The calls and loops that are made: not the crops, allocations and copies of buffers around them. *)
  Inductive item := Call (f : nat) | Loop (f v : nat) (body : list item).
  Section Build.
    Variable ord : list nat.
    Variable loc : locations.
    (** pipeline.cc:1124-1165, with [make] for the recursive call make_loop(f, f->loops().size() - 1) *)
    Definition build (make : nat -> option (list item)) (at_ : loop_id) : option (list item) :=
      fold_left (fun r f =>
        match r with
        | None => None
        | Some items =>
            if loop_eqb (at_level loc f) at_ && negb (match loops g f with [] => true | _ => false end)
            then match make f with Some i => Some (items ++ i) | None => None end
            else if loop_eqb (call_level loc f) at_ then Some (items ++ [Call f]) else Some items
        end) (rev ord) (Some []).
    (** pipeline.cc:1266-1282 and 1392: the loops of [f] that are left to make, [vars], outermost first.  [None]: out of fuel. *)
    Fixpoint make_loop (fuel : nat) (f : nat) (vars : list nat) : option (list item) :=
      match fuel with
      | O => None
      | S n =>
          match vars with
          | [] => Some []
          | v :: inner =>
              match build (fun h => make_loop n h (rev (loops g h))) (Some (f, v)) with
              | None => None
              | Some results =>
                  match inner with
                  | [] => Some [Loop f v results]
                  | _ => match make_loop n f inner with Some i => Some [Loop f v (results ++ i)] | None => None end
                  end
              end
          end
      end.
    (** pipeline.cc:1540: make_loop(nullptr, 0) *)
    Definition make_root (fuel : nat) : option (list item) := build (fun h => make_loop fuel h (rev (loops g h))) None.
  End Build.
End Sched.
