(** atomic_wait.h: Condition variables, 226-253.  See AtomicWait_Model.v. *)
From Coq Require Import ZArith List Bool.
From Verif Require Import AtomicWait_Model.
Import ListNotations.
Open Scope Z_scope.

Section Condvar.
  Variable slot : Z -> nat.

  Inductive pc :=
  | Idle
  | Owe (p : Z)                (* 232: about to load credit *)
  | Exch (p : Z)               (* 234: about to clear credit *)
  | Lock (p : Z)               (* 235 *)
  | Unlock (p : Z)             (* 236 *)
  | Bcast (p : Z)              (* 237 *)
  | Wait (p v : Z)             (* 349 *)
  | WLock (p v : Z)            (* 247 *)
  | WMark (p v : Z)            (* 248: about to set credit *)
  | WCheck (p v : Z)           (* 250: about to load the value *)
  | WSleep (p v : Z)           (* 251: about to call pthread_cond_wait *)
  | Asleep (p v : Z)
  | WRelock (p v : Z)          (* 251: woken, about to lock the mutex again *)
  | WUnlock (p v : Z).         (* 252 *)
  Record state := State { mem : Z -> Z; credit : nat -> Z; owner : nat -> option nat; threads : list pc }.
  Definition start (c : call) : pc :=
    match c with CallWait p v => Wait p v | CallNotify p _ | CallPublish p _ _ => Owe p end.
  Definition woken (e : nat) (c : pc) : pc := match c with Asleep q v => if Nat.eqb (slot q) e then WRelock q v else c | _ => c end.
  Inductive begin (s : state) (i : nat) (c : call) : state -> Prop :=
  | begin_call : nth_error (threads s) i = Some Idle ->
      begin s i c (State (written (mem s) c) (credit s) (owner s) (upd (threads s) i (start c))).
  Inductive step (s : state) (i : nat) : state -> Prop :=
  | step_return p v : nth_error (threads s) i = Some (Wait p v) -> mem s p <> v ->
      step s i (State (mem s) (credit s) (owner s) (upd (threads s) i Idle))
  | step_slow p v : nth_error (threads s) i = Some (Wait p v) -> mem s p = v ->
      step s i (State (mem s) (credit s) (owner s) (upd (threads s) i (WLock p v)))
  | step_wlock p v : nth_error (threads s) i = Some (WLock p v) -> owner s (slot p) = None ->
      step s i (State (mem s) (credit s) (put_slot (owner s) (slot p) (Some i)) (upd (threads s) i (WMark p v)))
  | step_mark p v : nth_error (threads s) i = Some (WMark p v) ->
      step s i (State (mem s) (put_slot (credit s) (slot p) 1) (owner s) (upd (threads s) i (WCheck p v)))
  | step_changed p v : nth_error (threads s) i = Some (WCheck p v) -> mem s p <> v ->
      step s i (State (mem s) (credit s) (owner s) (upd (threads s) i (WUnlock p v)))
  | step_same p v : nth_error (threads s) i = Some (WCheck p v) -> mem s p = v ->
      step s i (State (mem s) (credit s) (owner s) (upd (threads s) i (WSleep p v)))
  | step_sleep p v : nth_error (threads s) i = Some (WSleep p v) ->
      step s i (State (mem s) (credit s) (put_slot (owner s) (slot p) None) (upd (threads s) i (Asleep p v)))
  | step_relock p v : nth_error (threads s) i = Some (WRelock p v) -> owner s (slot p) = None ->
      step s i (State (mem s) (credit s) (put_slot (owner s) (slot p) (Some i)) (upd (threads s) i (WUnlock p v)))
  | step_wunlock p v : nth_error (threads s) i = Some (WUnlock p v) ->
      step s i (State (mem s) (credit s) (put_slot (owner s) (slot p) None) (upd (threads s) i (Wait p v)))
  | step_no_credit p : nth_error (threads s) i = Some (Owe p) -> credit s (slot p) = 0 ->
      step s i (State (mem s) (credit s) (owner s) (upd (threads s) i Idle))
  | step_credit p : nth_error (threads s) i = Some (Owe p) -> credit s (slot p) <> 0 ->
      step s i (State (mem s) (credit s) (owner s) (upd (threads s) i (Exch p)))
  | step_nobody p : nth_error (threads s) i = Some (Exch p) -> credit s (slot p) = 0 ->
      step s i (State (mem s) (put_slot (credit s) (slot p) 0) (owner s) (upd (threads s) i Idle))
  | step_somebody p : nth_error (threads s) i = Some (Exch p) -> credit s (slot p) <> 0 ->
      step s i (State (mem s) (put_slot (credit s) (slot p) 0) (owner s) (upd (threads s) i (Lock p)))
  | step_lock p : nth_error (threads s) i = Some (Lock p) -> owner s (slot p) = None ->
      step s i (State (mem s) (credit s) (put_slot (owner s) (slot p) (Some i)) (upd (threads s) i (Unlock p)))
  | step_unlock p : nth_error (threads s) i = Some (Unlock p) ->
      step s i (State (mem s) (credit s) (put_slot (owner s) (slot p) None) (upd (threads s) i (Bcast p)))
  | step_bcast p : nth_error (threads s) i = Some (Bcast p) ->
      step s i (State (mem s) (credit s) (owner s) (map (woken (slot p)) (upd (threads s) i Idle))).
  Inductive nudge (s : state) (i : nat) : state -> Prop :=
  | Nudge p v : nth_error (threads s) i = Some (Asleep p v) ->
      nudge s i (State (mem s) (credit s) (owner s) (upd (threads s) i (WRelock p v))).
  Definition initial (m : Z -> Z) (n : nat) : state := State m (fun _ => 0) (fun _ => None) (repeat Idle n).
End Condvar.
