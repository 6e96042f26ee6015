(** Running independent statements at the same time (slinky/builder/optimizations.cc
    1889-2183: task_parallelizer, the public pass parallelize_tasks).

    Simplifications:
    - Statements are trees that keep only what the pass looks at: which symbols a call or a
      copy reads and writes, which symbols a check mentions, declarations, loops, blocks and
      asyncs.  Statements without an effect on the pass ([let_stmt], other expressions) are left
      out, except that a [check] mentions fields of buffers and buffer_at.
    - Every node of the original that does something has a number [id], which the pass does
      not look at: it says which statement an action of the result comes from.
    - A set of symbols is a list.  A set of pointers to stages is a list of their indices
      (the stages are in a vector, so the order of the pointers is that of the indices).
    - [block::make] removes nesting and blocks of one statement; the model keeps them.
      An undefined statement is the empty block. *)
From Coq Require Import List Bool Arith.
Import ListNotations.

Definition sym := nat.

(** runtime/stmt.h (the statements), runtime/expr.h 170-200 (intrinsics) *)
Inductive tree :=
  | TCall (id : nat) (inputs outputs : list sym)
  | TCopy (id : nat) (src dst : sym) (pad : option sym)
  (* the buffers whose fields are mentioned; those in a buffer_at; a semaphore_* intrinsic *)
  | TCheck (id : nat) (fields ats : list sym) (semaphore : bool)
  (* clone, crop, slice, transpose, make_buffer of the data of another buffer *)
  | TAlias (x src : sym) (body : tree)
  (* allocate, constant_buffer, make_buffer of other data *)
  | TAlloc (id : nat) (x : sym) (body : tree)
  | TLoop (id : nat) (parallel : bool) (body : tree)
  | TBlock (stmts : list tree)
  | TAsync (task body : tree).

Definition mem (x : nat) (l : list nat) : bool := existsb (Nat.eqb x) l.
(** std::set::insert *)
Definition add (x : nat) (l : list nat) : list nat := if mem x l then l else x :: l.
Definition adds (xs l : list nat) : list nat := fold_right add l xs.
(** 1902-1906 remove_from_set *)
Definition remove (x : nat) (l : list nat) : list nat := filter (fun y => negb (y =? x)) l.
(** util.h empty_intersection, negated *)
Definition meets (a b : list nat) : bool := existsb (fun x => mem x b) a.
(** base/.. set_value_in_scope *)
Definition bind {A} (f : nat -> A) (x : nat) (v : A) : nat -> A := fun y => if y =? x then v else f y.

(** 1908-1919 should_async *)
Fixpoint should_async (t : tree) : bool :=
  match t with
  | TBlock ts => existsb should_async ts
  | TCheck _ _ _ _ => false
  | _ => true
  end.

(** 1922-1930 stage *)
Record stage := Stage {
  body : tree;
  consumed : list sym;
  produced : list sym;
  consumers : list nat;
  producers : list nat }.
Definition stages := nat -> stage.

Definition set_consumers (f : list nat -> list nat) (s : stage) : stage :=
  Stage (body s) (consumed s) (produced s) (f (consumers s)) (producers s).
Definition set_producers (f : list nat -> list nat) (s : stage) : stage :=
  Stage (body s) (consumed s) (produced s) (consumers s) (f (producers s)).
(** for (stage* i : l) f(i) *)
Definition each (l : list nat) (f : stage -> stage) (g : stages) : stages :=
  fun i => if mem i l then f (g i) else g i.

(** 1933-1952 stage::fuse: the stage p becomes the beginning of c *)
Definition fuse (g : stages) (c p : nat) : stages :=
  let pb := g p in
  let cb := g c in
  let g := each (consumers pb) (set_producers (fun l => add c (remove p l))) g in
  let g := each (producers pb) (set_consumers (fun l => add c (remove p l))) g in
  bind g c
    (Stage (TBlock [body pb; body cb])
       (adds (consumed pb) (consumed cb)) (adds (produced pb) (produced cb))
       (remove p (remove c (adds (consumers pb) (consumers (g c)))))
       (remove p (remove c (adds (producers pb) (producers (g c)))))).

(** 1975-1984: the second of two stages consumes or produces what the first one does *)
Definition dependent (a b : stage) : bool :=
  meets (produced a) (consumed b) || meets (produced a) (produced b) || meets (consumed a) (produced b).

(** 1967-1986 the stages of a block and their edges; [l]: their bodies and sets *)
Definition stages_of (l : list (tree * list sym * list sym)) : stages :=
  let s i := let '(t, c, p) := nth i l (TBlock [], [], []) in Stage t c p [] [] in
  let n := length l in
  fun i =>
    let si := s i in
    Stage (body si) (consumed si) (produced si)
      (filter (fun j => (i <? j) && dependent si (s j)) (seq 0 n))
      (filter (fun j => (j <? i) && dependent (s j) si) (seq 0 n)).

(** 2010-2017 produce *)
Definition produce (s : nat) (gd : stages * list nat) : stages * list nat :=
  (each (producers (fst gd s)) (set_consumers (remove s)) (fst gd), add s (snd gd)).

(** 2019-2031 fuse the stages that have one consumer, of which they are the one producer *)
Definition fuse_one (p : nat) (gd : stages * list nat) : stages * list nat :=
  let '(g, done) := gd in
  match consumers (g p) with
  | [c] => if (length (producers (g c)) =? 1) then (fuse g c p, add p done) else (g, done)
  | _ => (g, done)
  end.

(** 2042-2056: the stages that are ready: those which are not worth a task, and are run first,
    and the others, in their order *)
Fixpoint ready (ss : list nat) (gd : stages * list nat) : list tree * list nat * (stages * list nat) :=
  match ss with
  | [] => ([], [], gd)
  | s :: ss =>
    if mem s (snd gd) then ready ss gd else
    match consumers (fst gd s) with
    | [] =>
      if should_async (body (fst gd s)) then
        let '(sy, tp, gd') := ready ss gd in (sy, s :: tp, gd')
      else
        let '(sy, tp, gd') := ready ss (produce s gd) in (body (fst gd s) :: sy, tp, gd')
    | _ => ready ss gd
    end
  end.

(** 2067-2073 the rest of the tasks *)
Fixpoint asyncs (ss : list nat) (tasks : tree) (gd : stages * list nat) : tree * (stages * list nat) :=
  match ss with
  | [] => (tasks, gd)
  | s :: ss => asyncs ss (TAsync (body (fst gd s)) tasks) (produce s gd)
  end.

(** 2057-2073 one group of tasks; [to_produce] in the order of std::greater *)
Definition group (sync : list tree) (to_produce : list nat) (gd : stages * list nat) : tree * (stages * list nat) :=
  match to_produce with
  | [] => (TBlock sync, gd)
  | s :: rest => asyncs rest (TBlock (sync ++ [body (fst gd s)])) (produce s gd)
  end.

(** 2033-2078 from the end to the beginning *)
Fixpoint groups (fuel n : nat) (gd : stages * list nat) (result : tree) : tree :=
  match fuel with
  | O => result
  | S fuel =>
    let '(sync, tp, gd) := ready (seq 0 n) gd in
    match sync, tp with
    | [], [] => result
    | _, _ =>
      let '(tasks, gd) := group sync (rev tp) gd in
      groups fuel n gd (TBlock [tasks; result])
    end
  end.

(** 1961-2082 visit(const block* ), from the stages *)
Definition schedule (l : list (tree * list sym * list sym)) : tree :=
  let n := length l in
  groups (S n) n (fold_left (fun gd p => fuse_one p gd) (seq 0 n) (stages_of l, [])) (TBlock []).

(** 1889-1893 the members of task_parallelizer *)
Record state := State { st_consumed : list sym; st_produced : list sym; st_barrier : bool }.

(** 2142-2153: what is known of a symbol after its declaration is what was known before *)
Definition restore (x : sym) (before after : list sym) : list sym :=
  if mem x before then add x after else remove x after.

Fixpoint mutate (al : sym -> sym) (t : tree) (s : state) : tree * state :=
  match t with
  (* 2084-2092 *)
  | TCall _ ins outs =>
    (t, State (adds (map al ins) (st_consumed s)) (adds (map al outs) (st_produced s)) (st_barrier s))
  (* 2094-2098 *)
  | TCopy _ src dst _ =>
    (t, State (add (al src) (st_consumed s)) (add (al dst) (st_produced s)) (st_barrier s))
  (* 2102-2140 *)
  | TCheck _ fields ats sem =>
    (t, State (adds (map al ats) (st_consumed s)) (adds (map al fields) (adds (map al ats) (st_produced s)))
          (st_barrier s || sem))
  (* 2142-2147 *)
  | TAlias x src b => let '(b, s) := mutate (bind al x (al src)) b s in (TAlias x src b, s)
  (* 2148-2170 *)
  | TAlloc id x b =>
    let '(b, s') := mutate al b (State (remove x (st_consumed s)) (remove x (st_produced s)) (st_barrier s)) in
    (TAlloc id x b,
     State (restore x (st_consumed s) (st_consumed s')) (restore x (st_produced s) (st_produced s')) (st_barrier s'))
  | TLoop id par b => let '(b, s) := mutate al b s in (TLoop id par b, s)
  | TAsync a b => let '(a, s) := mutate al a s in let '(b, s) := mutate al b s in (TAsync a b, s)
  (* 1961-2082; 1954-1961 mutate_stage *)
  | TBlock ts =>
    let '(l, bar) :=
      (fix go (ts : list tree) (bar : bool) : list (tree * list sym * list sym) * bool :=
        match ts with
        | [] => ([], bar)
        | t :: ts =>
          let '(t, s) := mutate al t (State [] [] bar) in
          let '(l, bar) := go ts (st_barrier s) in
          ((t, st_consumed s, st_produced s) :: l, bar)
        end) ts (st_barrier s) in
    let st := State (fold_right (fun x => adds (snd (fst x))) [] l) (fold_right (fun x => adds (snd x)) [] l) bar in
    if bar then (TBlock (map (fun x => fst (fst x)) l), st)
    else (schedule l, st)
  end.

(** 2180-2183 *)
Definition parallelize_tasks (t : tree) : tree := fst (mutate (fun x => x) t (State [] [] false)).
