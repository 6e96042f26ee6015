(** Small self-contained pieces of slinky: the sorted-set intersection test,
    node_context (symbol names), symbol_map with scoped values, and the counting
    semaphores of the evaluator. *)
From Coq Require Import ZArith List String DecimalString DecimalNat Bool Lia.
Import ListNotations.
Open Scope Z_scope.

(** ** slinky/base/set.h:10-25, empty_intersection.
    A std::set is visited in increasing order: the model takes the two visit
    sequences.  The iterators are the remaining suffixes; each turn of the while
    loop advances one of them, so the recursion is on the two suffixes. *)
Fixpoint empty_intersection (a : list Z) : list Z -> bool :=
  fix inner (b : list Z) : bool :=
    match a, b with
    | [], _ => true                                   (* a == a_end *)
    | _, [] => true                                   (* b == b_end *)
    | x :: a', y :: b' =>
        if x =? y then false                          (* set.h:15-16 *)
        else if x <? y then empty_intersection a' b   (* ++a, set.h:17-18 *)
        else inner b'                                 (* ++b, set.h:19-20 *)
    end.

(** ** slinky/runtime/expr.h:47-62 and expr_stmt.cc:23-53, node_context.
    sym_to_name is a vector; name_to_sym is a std::map, modelled by an association
    list in which operator[] overwrites. *)
Record node_context := { sym_to_name : list string; name_to_sym : list (string * nat) }.
Definition nc_empty : node_context := {| sym_to_name := []; name_to_sym := [] |}.

(** std::map::find (expr_stmt.cc:51) *)
Fixpoint find_name (m : list (string * nat)) (n : string) : option nat :=
  match m with
  | [] => None
  | (k, v) :: m' => if String.eqb k n then Some v else find_name m' n
  end.
(** expr_stmt.cc:50-53 *)
Definition nc_lookup (c : node_context) (n : string) : option nat := find_name (name_to_sym c) n.

(** std::to_string of a std::size_t *)
Definition to_string (n : nat) : string := NilEmpty.string_of_uint (Nat.to_uint n).

(** expr_stmt.cc:23-31.  The invalid id (size_t(-1)) is [None]. *)
Definition nc_name (c : node_context) (v : option nat) : string :=
  match v with
  | None => "<>"
  | Some i => match nth_error (sym_to_name c) i with
              | Some n => n
              | None => "<" ++ to_string i ++ ">"
              end
  end%string.

(** expr_stmt.cc:33-41 *)
Definition nc_insert (c : node_context) (n : string) : node_context * nat :=
  match nc_lookup c n with
  | Some v => (c, v)
  | None => let v := List.length (sym_to_name c) in
            ({| sym_to_name := sym_to_name c ++ [n];
                name_to_sym := (n, v) :: name_to_sym c |}, v)
  end.

(** The for loop of expr_stmt.cc:44-47; [k] is the number of turns left. *)
Fixpoint unique_loop (c : node_context) (prefix : string) (k : nat) (i : nat) (name : string) : string :=
  match k with
  | O => name
  | S k' => match nc_lookup c name with
            | None => name
            | Some _ => unique_loop c prefix k' (S i) (prefix ++ "#" ++ to_string i)%string
            end
  end.
(** expr_stmt.cc:42-49 *)
Definition nc_insert_unique (c : node_context) (prefix : string) : node_context * nat :=
  nc_insert c (unique_loop c prefix (List.length (sym_to_name c)) 0 prefix).

(** ** slinky/runtime/expr.h:740-812, symbol_map<T> *)
Section SymbolMap.
  Variable T : Type.
  Definition symbol_map := list (option T).

  (** expr.h:744-748, grow: resize to max(2 * size, id + 1) when id is outside. *)
  Definition sm_grow (m : symbol_map) (id : nat) : symbol_map :=
    if (List.length m <=? id)%nat
    then m ++ repeat None (Nat.max (List.length m * 2) (id + 1) - List.length m)%nat
    else m.
  (** expr.h:763-768, lookup *)
  Definition sm_lookup (m : symbol_map) (id : nat) : option T :=
    match nth_error m id with Some v => v | None => None end.
  (** assignment through a reference into the vector: the element must exist *)
  Fixpoint sm_put (m : symbol_map) (id : nat) (v : option T) : symbol_map :=
    match m, id with
    | [], _ => []
    | _ :: m', O => v :: m'
    | x :: m', S id' => x :: sm_put m' id' v
    end.
  (** expr.h:778-781, [m[v] = x] *)
  Definition sm_set (m : symbol_map) (id : nat) (v : option T) : symbol_map :=
    sm_put (sm_grow m id) id v.
  (** expr.h:783-788, contains *)
  Definition sm_contains (m : symbol_map) (id : nat) : bool :=
    match sm_lookup m id with Some _ => true | None => false end.
  (** expr.h:799-803, erase *)
  Definition sm_erase (m : symbol_map) (id : nat) : symbol_map :=
    if (id <? List.length m)%nat then sm_put m id None else m.

  (** expr.h:826-835: the constructors that take a value read the old value
      through operator[] (which grows the vector) and write the new one. *)
  Definition scope_enter (m : symbol_map) (id : nat) (v : option T) : symbol_map * option T :=
    let m' := sm_grow m id in (sm_put m' id v, sm_lookup m' id).
  (** expr.h:854-860, exit_scope: writes the saved value without growing. *)
  Definition scope_exit (m : symbol_map) (id : nat) (old : option T) : symbol_map :=
    sm_put m id old.

  (** What a client does with a map: it reads, writes and opens scopes, in any
      nesting.  Reads are observable. *)
  Inductive prog :=
  | PLookup (id : nat)
  | PContains (id : nat)
  | PSet (id : nat) (v : option T)
  | PErase (id : nat)
  | PScope (id : nat) (v : option T) (body : list prog).
  Inductive obs := OValue (v : option T) | OBool (b : bool).

  Fixpoint run_prog (p : prog) (m : symbol_map) : symbol_map * list obs :=
    match p with
    | PLookup id => (m, [OValue (sm_lookup m id)])
    | PContains id => (m, [OBool (sm_contains m id)])
    | PSet id v => (sm_set m id v, [])
    | PErase id => (sm_erase m id, [])
    | PScope id v body =>
        let '(m1, old) := scope_enter m id v in
        let '(m2, o) :=
          (fix go (ps : list prog) (m : symbol_map) : symbol_map * list obs :=
             match ps with
             | [] => (m, [])
             | q :: ps' => let '(m', o) := run_prog q m in
                           let '(m'', o') := go ps' m' in (m'', o ++ o')
             end) body m1 in
        (scope_exit m2 id old, o)
    end.
  Fixpoint run_progs (ps : list prog) (m : symbol_map) : symbol_map * list obs :=
    match ps with
    | [] => (m, [])
    | q :: ps' => let '(m', o) := run_prog q m in
                  let '(m'', o') := run_progs ps' m' in (m'', o ++ o')
    end.
End SymbolMap.
Arguments sm_lookup {T}. Arguments sm_set {T}. Arguments sm_put {T}. Arguments sm_grow {T}.
Arguments sm_contains {T}. Arguments sm_erase {T}. Arguments scope_enter {T}. Arguments scope_exit {T}.
Arguments run_prog {T}. Arguments run_progs {T}.
Arguments PLookup {T}. Arguments PContains {T}. Arguments PSet {T}. Arguments PErase {T}. Arguments PScope {T}.
Arguments OValue {T}. Arguments OBool {T}.

(** ** Counting semaphores, slinky/runtime/evaluate.cc:225-274.
    A semaphore is an index_t in memory; the memory is a function from addresses
    to integers.  The bodies of semaphore_init and semaphore_signal run inside
    thread_pool::atomic_call (thread_pool_impl.cc:209-214), the body of
    semaphore_wait is a predicate that thread_pool_impl::wait_for evaluates while
    holding the mutex, so each is one atomic step; wait is a no-op step when the
    predicate is false (the thread sleeps, or helps, and tries again). *)
Definition mem := Z -> Z.
Definition store (m : mem) (p v : Z) : mem := fun q => if q =? p then v else m q.

(** evaluate.cc:241-245, the loop of eval_semaphore_signal *)
Fixpoint signal_all (m : mem) (l : list (Z * Z)) : mem :=
  match l with
  | [] => m
  | (p, c) :: l' => signal_all (store m p (m p + c)) l'
  end.
(** evaluate.cc:262-265: the check *)
Fixpoint can_acquire (m : mem) (l : list (Z * Z)) : bool :=
  match l with
  | [] => true
  | (p, c) :: l' => if m p <? c then false else can_acquire m l'
  end.
(** evaluate.cc:266-269: the update *)
Fixpoint acquire_all (m : mem) (l : list (Z * Z)) : mem :=
  match l with
  | [] => m
  | (p, c) :: l' => acquire_all (store m p (m p - c)) l'
  end.

(** evaluate.cc:225-231 is [SInit]; a wait that succeeds is [SWait]. *)
Inductive sem_op :=
| SInit (p c : Z)
| SSignal (l : list (Z * Z))
| SWait (l : list (Z * Z)).

(** One atomic step, with the verdict of a wait (true: all permits acquired). *)
Definition sem_step (m : mem) (o : sem_op) : mem * bool :=
  match o with
  | SInit p c => (store m p c, true)
  | SSignal l => (signal_all m l, true)
  | SWait l => if can_acquire m l then (acquire_all m l, true) else (m, false)
  end.

(** Any interleaving of the threads' atomic steps is a list of steps. *)
Fixpoint sem_run (m : mem) (os : list sem_op) : mem * list bool :=
  match os with
  | [] => (m, [])
  | o :: os' => let '(m1, b) := sem_step m o in
                let '(m2, bs) := sem_run m1 os' in (m2, b :: bs)
  end.
