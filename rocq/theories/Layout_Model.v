(** Where the allocations of a loop level are placed (slinky/builder/pipeline.cc: statement_with_range, produce_allocation, has_all_allocations, place_constrained_buffers, place_constant_buffers,
    lay_out_allocations).

    Of the statements the calls (by number, in the order in which they are produced), allocations and constants are modelled: the checks and the clone_buffer around and inside of an allocation
    (pipeline.cc:844-857) are not. *)
From Coq Require Import ZArith List Bool.
Import ListNotations.
Open Scope Z_scope.

(** The statement of a loop carries its function and variable. *)
Inductive code := Leaf (k : Z) | Nest (v : nat * nat) (l : list code) | Alloc (b : nat) (l : list code) | Const (c : nat) (l : list code).
(** pipeline.cc:623-640: body, start, end and allocations.  A block is the list of its statements, and the set of the allocations a list (of which only the elements matter). *)
Record range := Range { body : list code; start : Z; stop : Z; allocations : list nat }.
(** pipeline.cc:630-639; [None]: the assert (631) *)
Definition merge (a b : range) : option range := if stop a + 1 =? start b then Some (Range (body a ++ body b) (start a) (stop b) (allocations a ++ allocations b)) else None.
(** pipeline.cc:1086-1090 *)
Fixpoint merge_all (a : range) (l : list range) : option range :=
  match l with
  | [] => Some a
  | b :: l' => match merge a b with Some c => merge_all c l' | None => None end
  end.
(** pipeline.cc:613-621: the symbol and the lifetime of a buffer *)
Record candidate := Candidate { sym : nat; from_ : Z; to_ : Z }.
(** pipeline.cc:842-861 *)
Definition produce_allocation (b : nat) (s : range) : range := Range [Alloc b (body s)] (start s) (stop s) (b :: allocations s).
(** std::set::count, erase *)
Definition member (x : nat) (l : list nat) : bool := existsb (Nat.eqb x) l.
Definition erase (x : nat) (l : list nat) : list nat := filter (fun y => negb (Nat.eqb y x)) l.

Section Layout.
  (** pipeline.cc:655 *)
  Variable copy_deps : nat -> list nat.
  (** pipeline.cc:914-920 *)
  Definition has_all_allocations (b : nat) (allocs : list nat) : bool := forallb (fun d => member d allocs) (copy_deps b).

  (** pipeline.cc:922-945: the first of [results] that has all allocations and covers the lifetime is wrapped *)
  Fixpoint place_one (c : candidate) (results : list range) : option (list range) :=
    match results with
    | [] => None
    | r :: rs =>
        if has_all_allocations (sym c) (allocations r) && ((start r <=? from_ c) && (to_ c <=? stop r)) then Some (produce_allocation (sym c) r :: rs)
        else match place_one c rs with Some rs' => Some (r :: rs') | None => None end
    end.
  (** the results, the candidates that are left (at this level), and new_special *)
  Fixpoint place_constrained_buffers (results : list range) (cands : list nat) (special : list candidate) : list range * list nat * list candidate :=
    match special with
    | [] => (results, cands, [])
    | c :: cs =>
        match place_one c results with
        | Some results' => place_constrained_buffers results' (erase (sym c) cands) cs
        | None => let '(rs, cands', sp) := place_constrained_buffers results cands cs in (rs, cands', c :: sp)
        end
    end.
  (** pipeline.cc:947-965: the results, and the constants that are left *)
  Fixpoint place_constant_buffers (results : list range) (constants : list nat) : list range * list nat :=
    match results with
    | [] => ([], constants)
    | r :: rs =>
        let here := filter (fun c => has_all_allocations c (allocations r)) constants in
        let kept := filter (fun c => negb (has_all_allocations c (allocations r))) constants in
        let r' := fold_left (fun r c => Range [Const c (body r)] (start r) (stop r) (allocations r)) here r in
        let '(rs', kept') := place_constant_buffers rs kept in (r' :: rs', kept')
    end.

  (** the longest prefix of which all satisfy [p], and the rest *)
  Fixpoint span {A} (p : A -> bool) (l : list A) : list A * list A :=
    match l with
    | [] => ([], [])
    | x :: l' => if p x then let '(a, b) := span p l' in (x :: a, b) else ([], l)
    end.
  (** pipeline.cc:1017-1063: the loop over the lifetimes that are left, with the results from result_index on; new_results, candidates_for_allocation_[at] and new_lifetimes.
      [new_max] is None (std::numeric_limits<int>::min()) if nothing overlaps.  [fuel]: one iteration for each lifetime. *)
  Fixpoint pass (fuel : nat) (lifetimes : list candidate) (results : list range) (cands : list nat) : list range * list nat * list candidate :=
    match fuel, lifetimes, results with
    | S n, c :: cs, _ :: _ =>
        let '(before_, rest) := span (fun r => stop r <? from_ c) results in
        let '(over, rest') := span (fun r => (start r <=? to_ c) && (from_ c <=? stop r)) rest in
        let '(new, cands', new_max) :=
          match over with
          | [] => ([], cands, None)
          | r :: rs => ([produce_allocation (sym c) (Range (flat_map body over) (fold_left Z.min (map start rs) (start r)) (fold_left Z.max (map stop rs) (stop r)) (flat_map allocations over))], erase (sym c) cands, Some (fold_left Z.max (map stop rs) (stop r)))
          end in
        let '(later, cs') := span (fun d => match new_max with Some m => from_ d <=? m | None => false end) cs in
        let '(rs, cands'', lt) := pass n cs' rest' cands' in
        (before_ ++ new ++ rs, cands'', later ++ lt)
    | _, _, _ => (results, cands, [])
    end.
  (** pipeline.cc:1009-1082; [None]: out of fuel *)
  Fixpoint iterate (fuel : nat) (lifetimes special : list candidate) (results : list range) (cands constants : list nat) : option (list range * list nat * list nat) :=
    match fuel with
    | O => None
    | S n =>
        let '(results1, cands1, lifetimes1) := pass (length lifetimes) lifetimes results cands in
        let '(results2, cands2, special1) := place_constrained_buffers results1 cands1 special in
        let '(results3, constants1) := place_constant_buffers results2 constants in
        if Nat.eqb (length lifetimes) (length lifetimes1) && Nat.eqb (length special) (length special1) then Some (results3, cands2, constants1)
        else iterate n lifetimes1 special1 results3 cands2 constants1
    end.
  (** pipeline.cc:994-1003: lifetime_less *)
  Definition lifetime_less (a b : candidate) : bool :=
    if to_ a - from_ a =? to_ b - from_ b then if from_ a =? from_ b then Nat.ltb (sym a) (sym b) else from_ a <? from_ b else to_ a - from_ a <? to_ b - from_ b.
  (** pipeline.cc:1005-1006, std::sort: the order is total, so that it does not matter how *)
  Fixpoint insert (c : candidate) (l : list candidate) : list candidate :=
    match l with
    | [] => [c]
    | d :: l' => if lifetime_less d c then d :: insert c l' else c :: l
    end.
  Definition sort (l : list candidate) : list candidate := fold_right insert [] l.
  (** pipeline.cc:1092-1103: [outputs] are the symbols of all outputs of the functions of order_ *)
  Fixpoint allocate_rest (outputs : list nat) (r : range) (cands : list nat) : range * list nat :=
    match outputs with
    | [] => (r, cands)
    | b :: l => if member b cands then allocate_rest l (produce_allocation b r) (erase b cands) else allocate_rest l r cands
    end.
  (** pipeline.cc:977-1109, for the candidates of this level, [copy_inputs] (654), and the constants that are not placed yet.  An output of the pipeline is never a candidate (796). *)
  Definition lay_out_allocations (fuel : nat) (outputs : list nat) (copy_inputs : nat -> bool) (cands : list candidate) (results : list range) (constants : list nat) : option (option range * list nat * list nat) :=
    let special := sort (filter (fun c => copy_inputs (sym c)) cands) in
    let lifetimes := sort (filter (fun c => negb (copy_inputs (sym c))) cands) in
    match iterate fuel lifetimes special results (map sym cands) constants with
    | None => None
    | Some (rs, kept, consts) =>
        match rs with
        | [] => Some (None, kept, consts)
        | r :: rs' =>
            match merge_all r rs' with
            | None => None
            | Some whole =>
                let '(r1, kept1) := allocate_rest outputs whole kept in
                let '(rs2, consts1) := place_constant_buffers [r1] consts in
                Some (hd_error rs2, kept1, consts1)
            end
        end
    end.
End Layout.
