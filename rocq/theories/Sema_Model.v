(** Model of the pipelined loops of slide_and_fold_storage (builder/slide_and_fold_storage.cc)
    and of the way such a loop runs (runtime/evaluate.cc, base/thread_pool_impl.cc). *)
From Coq Require Import ZArith List Bool.
Import ListNotations.
Local Open Scope Z_scope.

(** The body of the loop under consideration, as far as the synchronization goes: calls and
    copies ([folds]: one of the outputs has a finite fold factor that belongs to this loop, the
    condition of slide_and_fold_storage.cc:467-480), blocks, statements with a body that are no
    loops (crops, allocations, slices, clones, lets), and nested loops.
    Simplified: a block of more than two statements is nested. *)
Inductive body :=
| Call (id : nat) (folds : bool)
| Block (a b : body)
| Scope (b : body)
| Nested (b : body).

(** The result: [Staged k s] is block{check(wait(k)), s, check(signal(k))}. *)
Inductive staged :=
| SCall (id : nat) (folds : bool)
| SBlock (a b : staged)
| SScope (s : staged)
| SNested (s : staged)
| Staged (k : nat) (s : staged).

(** loop_info::sync_stages and loop_info::stage, slide_and_fold_storage.cc:217-221. *)
Record sync := Sync { sync_stages : nat; stage : option nat }.

(** loop_info::add_synchronization, slide_and_fold_storage.cc:226-238, for a constant max_workers. *)
Definition add_synchronization (maxw : Z) (s : sync) : sync :=
  if Z.of_nat (sync_stages s) + 1 >=? maxw then s
  else match stage s with
       | Some _ => s
       | None => Sync (S (sync_stages s)) (Some (sync_stages s))
       end.

(** The end of slide_and_fold::mutate, slide_and_fold_storage.cc:258-276. [innermost]: this loop
    is loops.back(). *)
Definition finish (innermost : bool) (r : staged) (s : sync) : staged * sync :=
  match innermost, stage s with
  | true, Some k => (Staged k r, Sync (sync_stages s) None)
  | _, _ => (r, s)
  end.

(** slide_and_fold::mutate with the visitors, slide_and_fold_storage.cc:254-279 and 450-509.
    Simplified: only the synchronization of this loop; a nested loop synchronizes its own calls
    in its own run of the same function. *)
Fixpoint mutate (maxw : Z) (innermost : bool) (b : body) (s : sync) : staged * sync :=
  match b with
  | Call id folds => finish innermost (SCall id folds) (if folds then add_synchronization maxw s else s)
  | Block x y =>
      let (x', s1) := mutate maxw innermost x s in
      let (y', s2) := mutate maxw innermost y s1 in
      finish innermost (SBlock x' y') s2
  | Scope x => let (x', s1) := mutate maxw innermost x s in finish innermost (SScope x') s1
  | Nested x => let (x', s1) := mutate maxw false x s in finish innermost (SNested x') s1
  end.

(** What one iteration runs, in order: the parts between synchronizations. Simplified: a nested
    loop is one part, whatever it does inside. *)
Record part := Part { p_stage : option nat; p_calls : list (nat * bool) }.

Fixpoint calls (s : staged) : list (nat * bool) :=
  match s with
  | SCall id f => [(id, f)]
  | SBlock a b => calls a ++ calls b
  | SScope s | SNested s | Staged _ s => calls s
  end.

Fixpoint parts (s : staged) : list part :=
  match s with
  | SCall id f => [Part None [(id, f)]]
  | SBlock a b => parts a ++ parts b
  | SScope s => parts s
  | SNested s => [Part None (calls s)]
  | Staged k s => [Part (Some k) (calls s)]
  end.

(** What an iteration does, step by step. *)
Inductive op := Wait (k : nat) | Begin (u : nat) | End (u : nat) | Signal (k : nat).

Definition part_ops (sems : bool) (u : nat) (p : part) : list op :=
  match p_stage p with
  | Some k => if sems then [Wait k; Begin u; End u; Signal k] else [Begin u; End u]
  | None => [Begin u; End u]
  end.
Fixpoint ops_from (sems : bool) (u : nat) (l : list part) : list op :=
  match l with
  | [] => []
  | p :: l => part_ops sems u p ++ ops_from sems (S u) l
  end.

(** The loop that runs. *)
Record loop := Loop { l_min : Z; l_max : Z; l_step : Z; l_workers : nat; l_stages : nat; l_ops : list op }.

(** slide_and_fold::visit(const loop* ), slide_and_fold_storage.cc:740-747, with
    add_synchronization_buffers, 678-686: the number of workers is the number of stages, and no
    semaphores for one stage (the substitution of the symbol of the semaphores by undefined takes
    the checks away). For a loop that is not data parallel. *)
Definition pipelined (maxw : Z) (min max step : Z) (b : body) : loop :=
  let (r, s) := mutate maxw true b (Sync 0 None) in
  let n := sync_stages s in
  Loop min max step (Nat.max 1 n) n (ops_from (Nat.ltb 1 n) 0 (parts r)).
Definition loop_parts (maxw : Z) (b : body) : list part := parts (fst (mutate maxw true b (Sync 0 None))).

(** slide_and_fold_storage.cc:503 with resolve_worker_count: the fold factor of a buffer of a
    pipelined loop. *)
Definition fold_factor (factor overlap : Z) (workers : nat) : Z := factor + (Z.of_nat workers - 1) * overlap.

(** eval_loop_parallel, evaluate.cc:453-456: ceil_div(max - min + 1, step). *)
Definition iterations (l : loop) : nat := Z.to_nat (- (- (l_max l - l_min l + 1) / l_step l)).

(** What happened: iteration j began or ended part u. *)
Inductive event := Began (j u : nat) | Ended (j u : nat).

(** The iterations that were handed out, with the number of steps each one did; the semaphores,
    by stage and place in the folded dimension; what happened, in order. *)
Record state := State { pcs : list nat; sems : nat -> Z -> Z; log : list event }.

(** The place of the index i of the dimension 1 of the semaphores, that is folded by the number
    of stages: dim::flat_offset_bytes, runtime/buffer.h:124-130. *)
Definition place (l : loop) (i : Z) : Z := i mod Z.of_nat (l_stages l).

(** The semaphores at the start: init_semaphores, slide_and_fold_storage.cc:690-706. The
    min of dimension 1 is floor_div(loop_bounds.min, step) - 1, line 713. *)
Definition init (l : loop) : state :=
  State [] (fun k c => if Nat.ltb k (l_stages l) then if c =? place l (l_min l / l_step l - 1) then 1 else 0 else 0) [].

(** The symbol of the loop in iteration j, evaluate.cc:483. *)
Definition sym (l : loop) (j : nat) : Z := Z.of_nat j * l_step l + l_min l.

Definition running (l : loop) (s : state) : nat := length (filter (fun p => Nat.ltb p (length (l_ops l))) (pcs s)).

Definition set_sem (f : nat -> Z -> Z) (k : nat) (c v : Z) : nat -> Z -> Z :=
  fun k' c' => if Nat.eqb k k' && (c =? c') then v else f k' c'.

Fixpoint set_pc (l : list nat) (j v : nat) : list nat :=
  match l, j with
  | [], _ => []
  | _ :: l, O => v :: l
  | p :: l, S j => p :: set_pc l j v
  end.

(** The two things that can happen: a worker takes the next iteration, or one of the iterations
    that are running does its next step. *)
Inductive action := Start | Step (j : nat).

(** One step. A worker takes iterations from one counter (thread_pool_impl.cc:46-57 and 217-222: a loop
    with a number of workers has one shard), and there are at most max_workers workers.
    eval_semaphore_wait and eval_semaphore_signal: evaluate.cc:235-273, each in one step (they
    hold the mutex of the pool). [None]: this cannot happen now. *)
Definition step (l : loop) (s : state) (a : action) : option state :=
  match a with
  | Start =>
      if Nat.ltb (length (pcs s)) (iterations l) && Nat.ltb (running l s) (l_workers l)
      then Some (State (pcs s ++ [0%nat]) (sems s) (log s)) else None
  | Step j =>
      match nth_error (pcs s) j with
      | None => None
      | Some p =>
          let next := set_pc (pcs s) j (S p) in
          match nth_error (l_ops l) p with
          | None => None
          | Some (Begin u) => Some (State next (sems s) (log s ++ [Began j u]))
          | Some (End u) => Some (State next (sems s) (log s ++ [Ended j u]))
          | Some (Wait k) =>
              let c := place l (sym l j / l_step l - 1) in
              if sems s k c <? 1 then None
              else Some (State next (set_sem (sems s) k c (sems s k c - 1)) (log s))
          | Some (Signal k) =>
              let c := place l (sym l j / l_step l) in
              Some (State next (set_sem (sems s) k c (sems s k c + 1)) (log s))
          end
      end
  end.

Fixpoint run (l : loop) (s : state) (acts : list action) : option state :=
  match acts with
  | [] => Some s
  | a :: acts => match step l s a with None => None | Some s' => run l s' acts end
  end.
