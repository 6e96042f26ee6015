(** Model of the thread pool: slinky/base/thread_pool.h, thread_pool.cc,
    thread_pool_impl.h and thread_pool_impl.cc.

    The model is a transition system.  One action is one atomic operation of one
    thread: a read-modify-write of an atomic, a critical section of [mutex_], the
    start or the end of a body.  Any thread may act at any time, so a list of
    actions is a schedule.

    Simplifications (all of them recorded in DESIGN.md):
    - atomics are sequentially consistent;
    - the counters [shard::i] and [max_workers_] are unbounded integers: they do
      not wrap after 2^31 allocate_worker calls or 2^64 increments;
    - [dequeue] runs in one step: it holds [mutex_], and what it reads outside
      the protection of [mutex_] (shard counters, todo_) is monotone;
    - the body of a work item is arbitrary code that may use the pool; it is
      represented by the fact that a thread that is inside an item may perform
      every API action. *)
From Coq Require Import ZArith List Bool Lia.
Import ListNotations.
Local Open Scope Z_scope.

Definition size_max := 2 ^ 64.
Definition int_max := 2 ^ 31 - 1.
(** conversion of a [size_t] to [int] (two's complement), thread_pool_impl.cc:226 *)
Definition to_int (z : Z) : Z := (z + 2 ^ 31) mod 2 ^ 32 - 2 ^ 31.

(** task_impl::shard, thread_pool_impl.h:37-46.  [s_begin] is the initial value of
    [i]; it is kept for the specification only, no step reads it. *)
Record shard := Shard { s_begin : Z; s_i : Z; s_end : Z }.

(** task_impl, thread_pool_impl.h:28-72.  [t_limit] is the initial value of
    [max_workers_] and [t_n] the initial value of [todo_]; both are kept for the
    specification only. *)
Record task := Task { t_n : Z; t_limit : Z; t_maxw : Z; t_todo : Z; t_shards : list shard }.

(** task_impl::task_impl, thread_pool_impl.cc:13-23: the loop over shards, with
    the wrap of the unsigned multiplication. *)
Fixpoint mk_shards (begin n count : Z) (k : nat) (i : Z) : list shard :=
  match k with
  | O => []
  | S k' =>
      let e := (((i + 1) * n) mod size_max) / count in
      Shard begin begin e :: mk_shards e n count k' (i + 1)
  end.

Definition max_shards := 8.  (* thread_pool_impl.cc:219 *)

(** thread_pool_impl::enqueue, thread_pool_impl.cc:217-229.  [n] is a size_t,
    [maxw] an int. *)
Definition ordered (maxw : Z) : bool := maxw <? int_max.
Definition eff_workers (n maxw : Z) : Z := to_int (Z.min n (maxw mod size_max)).
Definition shard_count (n maxw : Z) : Z :=
  if ordered maxw then 1 else Z.min max_shards (eff_workers n maxw) mod size_max.
Definition make_task (n maxw : Z) : task :=
  Task n (eff_workers n maxw) (eff_workers n maxw) n
       (mk_shards 0 n (shard_count n maxw) (Z.to_nat (shard_count n maxw)) 0).

(** task_impl::done, thread_pool_impl.h:71 *)
Definition done (k : task) : bool := t_todo k =? 0.
(** task_impl::all_work_started, thread_pool_impl.cc:82-89 *)
Definition all_work_started (k : task) : bool :=
  done k || forallb (fun s => negb (s_i s <? s_end s)) (t_shards k).

(** Which condition variable: thread_pool_impl.h:87-88 *)
Inductive cvid := CvHelper | CvWorker.
(** The condition of wait_for(predicate_ref): either [task->done()]
    (thread_pool_impl.cc:254) or some flag that only [atomic_call] changes. *)
Inductive cond := CDone (t : nat) | CPred (p : nat).

(** One activation record of a pool function on a thread's stack. *)
Inductive frame :=
| FWork (t : nat) (worker : Z) (rem : list nat) (cur : option Z) (dn : Z) (helper : bool)
    (** inside work_on_task / task_impl::work(worker) (cc:44-80, 120-127).
        [rem]: shards still to visit, head first; [cur]: the item whose body is
        running; [dn]: the local [done]; [helper]: called from the loop of
        wait_for(condition, cv) (true) or from wait_for(task) (false). *)
| FSpin (t : nat)
    (** wait_for(task ptr) after its own work, spinning (cc:245-251) *)
| FLoop (c : cond) (cv : cvid) (asleep : bool)
    (** the loop of wait_for(condition, cv) (cc:159-190), at its head or in cv.wait *)
| FIdle
    (** the loop of work_until_idle (cc:192-208) *)
| FNotify
    (** the loop of wait_for(condition, cv) after work returned true, before the
        lock and cv_helper_.notify_all() (cc:176-181) *).

Record state := St {
  tasks : list task;                 (* every task ever enqueued; the id is the position *)
  queue : list nat;                  (* task_queue_ *)
  threads : list (list frame);       (* stacks, innermost frame first *)
  flags : nat -> bool;               (* state protected by atomic_call *)
  started : list (nat * Z);          (* history: bodies entered *)
  finished : list (nat * Z);         (* history: bodies left *)
  completed : list nat;              (* history: tasks for which work() returned true *)
  returned : list nat                (* history: tasks whose wait_for(task) returned *)
}.

Definition init (nthreads : nat) : state :=
  St [] [] (repeat [] nthreads) (fun _ => false) [] [] [] [].

Fixpoint upd {A} (l : list A) (i : nat) (x : A) : list A :=
  match l, i with
  | [], _ => []
  | _ :: l', O => x :: l'
  | y :: l', S i' => y :: upd l' i' x
  end.

(** thread_local task_stack, thread_pool_impl.cc:118, 121-127 *)
Definition task_stack (stk : list frame) : list nat :=
  flat_map (fun f => match f with FWork t _ _ _ _ _ => [t] | _ => [] end) stk.

Definition mem (t : nat) (l : list nat) : bool := existsb (Nat.eqb t) l.

(** allocate_worker, thread_pool_impl.h:61 *)
Definition alloc_worker (k : task) : task :=
  Task (t_n k) (t_limit k) (t_maxw k - 1) (t_todo k) (t_shards k).

(** thread_pool_impl::dequeue, thread_pool_impl.cc:131-157 *)
Fixpoint dequeue (stk : list nat) (ts : list task) (q : list nat)
  : list nat * list task * option (nat * Z) :=
  match q with
  | [] => ([], ts, None)
  | t :: q' =>
      match nth_error ts t with
      | None => (q, ts, None)       (* no such task: cannot happen *)
      | Some k =>
          if all_work_started k then dequeue stk ts q'
          else if mem t stk then
            let '(q'', ts', r) := dequeue stk ts q' in (t :: q'', ts', r)
          else
            let k' := alloc_worker k in
            let ts' := upd ts t k' in
            if t_maxw k' <? 0 then dequeue stk ts' q'
            else if t_maxw k' =? 0 then (q', ts', Some (t, t_maxw k'))
            else (t :: q', ts', Some (t, t_maxw k'))
      end
  end.

(** order in which work(worker) visits the shards, thread_pool_impl.cc:61-69 *)
Definition shard_order (k : task) (worker : Z) : list nat :=
  let sc := length (t_shards k) in
  let i0 := Z.to_nat (worker mod Z.of_nat sc) in
  seq i0 (sc - i0) ++ seq 0 i0.

Definition wake_frame (h w : bool) (f : frame) : frame :=
  match f with
  | FLoop c CvHelper true => if h then FLoop c CvHelper false else f
  | FLoop c CvWorker true => if w then FLoop c CvWorker false else f
  | _ => f
  end.
(** notify_all on cv_helper_ ([h]) and on cv_worker_ ([w]) *)
Definition wake_all (h w : bool) (ths : list (list frame)) : list (list frame) :=
  map (map (wake_frame h w)) ths.
(** notify_one: wakes the innermost sleeper of the chosen thread *)
Definition wake_one (h w : bool) (tid : nat) (ths : list (list frame)) : list (list frame) :=
  match nth_error ths tid with
  | Some stk => upd ths tid (map (wake_frame h w) stk)
  | None => ths
  end.

(** A thread runs user code when its stack is empty or it is inside an item. *)
Definition user_code (stk : list frame) : bool :=
  match stk with
  | [] => true
  | FWork _ _ _ (Some _) _ _ :: _ => true
  | _ => false
  end.

Inductive action :=
| AEnqueue (n maxw : Z) (whelper wworker : nat)
| AWaitTask (t : nat)
| AWaitPred (p : nat) (cv : cvid)
| AAtomicSet (p : nat) (b : bool)
| AFetch
| AFinish
| AReport
| ASpinDone
| ASpinGiveUp
| ACheck (sleep : bool)
| ASpurious
| ANotify
| AEnterIdle
| AIdle.

Definition set_thread (s : state) (tid : nat) (stk : list frame) : state :=
  St (tasks s) (queue s) (upd (threads s) tid stk) (flags s)
     (started s) (finished s) (completed s) (returned s).

Definition cond_holds (s : state) (c : cond) : bool :=
  match c with
  | CDone t => match nth_error (tasks s) t with Some k => done k | None => false end
  | CPred p => flags s p
  end.

(** wait_for(condition, cv) leaves its loop; if it was called by
    wait_for(task ptr) that call returns as well (cc:254). *)
Definition ret_of (c : cond) : list nat :=
  match c with CDone t => [t] | CPred _ => [] end.

Definition step (s : state) (tid : nat) (a : action) : option state :=
  match nth_error (threads s) tid with
  | None => None
  | Some stk =>
      match a with
      | AEnqueue n maxw h w =>
          (* cc:217-239; the caller must pass 0 < n (assert), n is a size_t *)
          if user_code stk && (0 <? n) && (n <? size_max) then
            let k := make_task n maxw in
            let ths :=
              if t_limit k =? 1 then wake_one true false h (wake_one false true w (threads s))
              else wake_all true true (threads s) in
            Some (St (tasks s ++ [k]) (queue s ++ [length (tasks s)]) ths (flags s)
                     (started s) (finished s) (completed s) (returned s))
          else None
      | AWaitTask t =>
          (* cc:241-243, 73-80; the assert of work_on_task is a precondition *)
          if user_code stk && negb (mem t (task_stack stk)) then
            match nth_error (tasks s) t with
            | None => None
            | Some k =>
                let k' := alloc_worker k in
                let f := if t_maxw k' <? 0 then FSpin t
                         else FWork t (t_maxw k') (shard_order k (t_maxw k')) None 0 false in
                Some (St (upd (tasks s) t k') (queue s) (upd (threads s) tid (f :: stk)) (flags s)
                         (started s) (finished s) (completed s) (returned s))
            end
          else None
      | AWaitPred p cv =>
          (* wait_for(predicate), run_worker: h:117, cc:110-114 *)
          if user_code stk then Some (set_thread s tid (FLoop (CPred p) cv false :: stk)) else None
      | AAtomicSet p b =>
          (* atomic_call, cc:210-215 *)
          if user_code stk then
            Some (St (tasks s) (queue s) (wake_all true true (threads s))
                     (fun q => if Nat.eqb q p then b else flags s q)
                     (started s) (finished s) (completed s) (returned s))
          else None
      | AFetch =>
          (* shard::work, cc:44-56: i = this->i++; if (i >= end) break; body(i) *)
          match stk with
          | FWork t w (j :: rem) None dn h :: below =>
              match nth_error (tasks s) t with
              | None => None
              | Some k =>
                  match nth_error (t_shards k) j with
                  | None => None
                  | Some sh =>
                      let k' := Task (t_n k) (t_limit k) (t_maxw k) (t_todo k)
                                     (upd (t_shards k) j (Shard (s_begin sh) (s_i sh + 1) (s_end sh))) in
                      if s_end sh <=? s_i sh then
                        Some (St (upd (tasks s) t k') (queue s)
                                 (upd (threads s) tid (FWork t w rem None dn h :: below)) (flags s)
                                 (started s) (finished s) (completed s) (returned s))
                      else
                        Some (St (upd (tasks s) t k') (queue s)
                                 (upd (threads s) tid (FWork t w (j :: rem) (Some (s_i sh)) dn h :: below)) (flags s)
                                 ((t, s_i sh) :: started s) (finished s) (completed s) (returned s))
                  end
              end
          | _ => None
          end
      | AFinish =>
          (* the body returns; ++done (cc:52-53) *)
          match stk with
          | FWork t w rem (Some i) dn h :: below =>
              Some (St (tasks s) (queue s)
                       (upd (threads s) tid (FWork t w rem None (dn + 1) h :: below)) (flags s)
                       (started s) ((t, i) :: finished s) (completed s) (returned s))
          | _ => None
          end
      | AReport =>
          (* return done > 0 && (todo_ -= done) == 0 (cc:70), and what the caller does *)
          match stk with
          | FWork t w [] None dn h :: below =>
              match nth_error (tasks s) t with
              | None => None
              | Some k =>
                  let k' := if 0 <? dn
                            then Task (t_n k) (t_limit k) (t_maxw k) (t_todo k - dn) (t_shards k)
                            else k in
                  let compl := (0 <? dn) && (t_todo k' =? 0) in
                  let cs := if compl then t :: completed s else completed s in
                  if h then
                    (* cc:176-181 *)
                    Some (St (upd (tasks s) t k') (queue s)
                             (upd (threads s) tid (if compl then FNotify :: below else below)) (flags s)
                             (started s) (finished s) cs (returned s))
                  else if compl && done k' then
                    (* wait_for(task ptr) returns, cc:244 *)
                    Some (St (upd (tasks s) t k') (queue s) (upd (threads s) tid below) (flags s)
                             (started s) (finished s) cs (t :: returned s))
                  else
                    Some (St (upd (tasks s) t k') (queue s) (upd (threads s) tid (FSpin t :: below)) (flags s)
                             (started s) (finished s) cs (returned s))
              end
          | _ => None
          end
      | ASpinDone =>
          (* cc:250: if (task->done()) return; *)
          match stk with
          | FSpin t :: below =>
              match nth_error (tasks s) t with
              | Some k => if done k then
                  Some (St (tasks s) (queue s) (upd (threads s) tid below) (flags s)
                           (started s) (finished s) (completed s) (t :: returned s))
                  else None
              | None => None
              end
          | _ => None
          end
      | ASpinGiveUp =>
          (* cc:254 *)
          match stk with
          | FSpin t :: below => Some (set_thread s tid (FLoop (CDone t) CvHelper false :: below))
          | _ => None
          end
      | ACheck sleep =>
          (* one turn of the loop of wait_for(condition, cv), cc:165-189 *)
          match stk with
          | FLoop c cv false :: below =>
              if cond_holds s c then
                Some (St (tasks s) (queue s) (upd (threads s) tid below) (flags s)
                         (started s) (finished s) (completed s) (ret_of c ++ returned s))
              else
                let '(q', ts', r) := dequeue (task_stack stk) (tasks s) (queue s) in
                let stk' :=
                  match r with
                  | Some (t, w) =>
                      match nth_error ts' t with
                      | Some k => FWork t w (shard_order k w) None 0 true :: stk
                      | None => stk
                      end
                  | None => FLoop c cv sleep :: below
                  end in
                Some (St ts' q' (upd (threads s) tid stk') (flags s)
                         (started s) (finished s) (completed s) (returned s))
          | _ => None
          end
      | ASpurious =>
          match stk with
          | FLoop c cv true :: below => Some (set_thread s tid (FLoop c cv false :: below))
          | _ => None
          end
      | ANotify =>
          (* cc:176-181, 203-206 *)
          match stk with
          | FNotify :: below =>
              Some (St (tasks s) (queue s) (wake_all true false (upd (threads s) tid below)) (flags s)
                       (started s) (finished s) (completed s) (returned s))
          | _ => None
          end
      | AEnterIdle =>
          (* work_until_idle is called, cc:192 *)
          if user_code stk then Some (set_thread s tid (FIdle :: stk)) else None
      | AIdle =>
          (* one turn of its loop, cc:195-207 *)
          match stk with
          | FIdle :: below =>
              let '(q', ts', r) := dequeue (task_stack stk) (tasks s) (queue s) in
              let stk' :=
                match r with
                | Some (t, w) =>
                    match nth_error ts' t with
                    | Some k => FWork t w (shard_order k w) None 0 true :: stk
                    | None => stk
                    end
                | None => below
                end in
              Some (St ts' q' (upd (threads s) tid stk') (flags s)
                       (started s) (finished s) (completed s) (returned s))
          | _ => None
          end
      end
  end.

Fixpoint run (s : state) (sched : list (nat * action)) : option state :=
  match sched with
  | [] => Some s
  | (tid, a) :: rest =>
      match step s tid a with
      | Some s' => run s' rest
      | None => None
      end
  end.

(** thread_pool::parallel_for, thread_pool.cc:5-23, as seen by its caller: which
    items run in the calling thread, or which task is enqueued and waited for. *)
Inductive pf_plan := PfSerial (items : list Z) | PfTask (n maxw : Z).
Definition range (n : Z) : list Z := map Z.of_nat (seq 0 (Z.to_nat n)).
Definition parallel_for (thread_count n maxw : Z) : pf_plan :=
  if n =? 0 then PfSerial []
  else if n =? 1 then PfSerial [0]
  else if (maxw =? 1) || (thread_count =? 0) then PfSerial (range n)
  else PfTask n maxw.

(** ** Programs that use the pool only through parallel_for

    A thread that enqueues a loop (thread_pool.cc:17) waits for that loop next
    (thread_pool.cc:20), and nobody else waits for it.  [owed] records, per thread,
    the task it has enqueued and not begun to wait for.  Threads enter the pool as
    workers (run_worker, work_until_idle) only from outside a task. *)
Definition fj_step (s : state) (owed : list (option nat)) (tid : nat) (a : action)
  : option (state * list (option nat)) :=
  match nth_error owed tid, nth_error (threads s) tid with
  | Some o, Some stk =>
      let go o' := match step s tid a with Some s' => Some (s', upd owed tid o') | None => None end in
      match a, o with
      | AEnqueue n maxw _ _, None => if 1 <=? maxw then go (Some (length (tasks s))) else None
      | AWaitTask t, Some t' => if Nat.eqb t t' then go None else None
      | AWaitTask _, None => None
      | AWaitPred _ _, None | AEnterIdle, None =>
          match stk with [] => go None | _ => None end
      | _, None => go None
      | _, Some _ => None
      end
  | _, _ => None
  end.

Fixpoint fj_run (s : state) (owed : list (option nat)) (sched : list (nat * action))
  : option (state * list (option nat)) :=
  match sched with
  | [] => Some (s, owed)
  | (tid, a) :: rest =>
      match fj_step s owed tid a with
      | Some (s', owed') => fj_run s' owed' rest
      | None => None
      end
  end.
