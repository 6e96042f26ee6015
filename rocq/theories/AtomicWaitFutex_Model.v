(** atomic_wait.h: futexes, 255-320.  See AtomicWait_Model.v.  An atomic of type int32_t is
    waited for directly (291-320), one of another type by way of a version in the table (257-289).
    Both use the field [waiters] of the same table. *)
From Coq Require Import ZArith List Bool.
From Verif Require Import AtomicWait_Model.
Import ListNotations.
Open Scope Z_scope.

Section Futex.
  Variable slot : Z -> nat.
  Variable direct : Z -> bool.      (* there is an int32_t at the address *)

  Inductive pc :=
  | Idle
  | Wait (p v : Z)              (* 349: top of the loop *)
  (* int32_t *)
  | Owe (p : Z) (all : bool)    (* 308, 317: about to load waiters *)
  | Wake (p : Z) (all : bool)   (* 310, 319: about to call futex_wake *)
  | Slow (p v : Z)              (* 295: about to increment waiters *)
  | Enter (p v : Z)             (* 298: about to call futex_wait *)
  | Asleep (p v : Z)
  | Leave (p v : Z)             (* 300: about to decrement waiters *)
  (* other types.  [raced] is not in the code: it records that a notify cleared waiters, or was
     about to do so, between the store to waiters and the load of version. *)
  | TOwe (p : Z)                (* 261: about to increment version *)
  | TExch (p : Z)               (* 263: about to clear waiters *)
  | TWake (p : Z)               (* 264: about to call futex_wake *)
  | TSlow (p v : Z)             (* 275: about to set waiters *)
  | TVersion (p v : Z) (raced : bool)      (* 277: about to load version *)
  | TCheck (p v ver : Z) (raced : bool)    (* 278: about to load the value *)
  | TEnter (p v ver : Z) (raced : bool)    (* 282: about to call futex_wait *)
  | TAsleep (p v : Z) (raced : bool).
  (** version is an unbounded integer here, and an int32_t in the code *)
  Record state := State { mem : Z -> Z; waiters : nat -> Z; version : nat -> Z; threads : list pc }.
  (** 242, 267-270: for other types notify_one is notify_all *)
  Definition start (c : call) : pc :=
    match c with
    | CallWait p v => Wait p v
    | CallNotify p all | CallPublish p _ all => if direct p then Owe p all else TOwe p
    end.
  (** futex_wake(ptr, INT_MAX) and futex_wake(&version, INT_MAX) *)
  Definition woken (p : Z) (c : pc) : pc := match c with Asleep q v => if q =? p then Leave q v else c | _ => c end.
  Definition twoken (e : nat) (c : pc) : pc := match c with TAsleep q v _ => if Nat.eqb (slot q) e then Wait q v else c | _ => c end.
  Definition cleared (e : nat) (c : pc) : pc := match c with TVersion q v _ => if Nat.eqb (slot q) e then TVersion q v true else c | _ => c end.
  Definition clearing (e : nat) (c : pc) : bool := match c with TExch q => Nat.eqb (slot q) e | _ => false end.

  (** a new call, a step of a call, and a thread that wakes up for no reason *)
  Inductive begin (s : state) (i : nat) (c : call) : state -> Prop :=
  | begin_call : nth_error (threads s) i = Some Idle ->
      begin s i c (State (written (mem s) c) (waiters s) (version s) (upd (threads s) i (start c))).
  Inductive step (s : state) (i : nat) : state -> Prop :=
  | step_return p v : nth_error (threads s) i = Some (Wait p v) -> mem s p <> v ->
      step s i (State (mem s) (waiters s) (version s) (upd (threads s) i Idle))
  | step_slow p v : nth_error (threads s) i = Some (Wait p v) -> mem s p = v ->
      step s i (State (mem s) (waiters s) (version s) (upd (threads s) i (if direct p then Slow p v else TSlow p v)))
  (* int32_t *)
  | step_count p v : nth_error (threads s) i = Some (Slow p v) ->
      step s i (State (mem s) (put_slot (waiters s) (slot p) (waiters s (slot p) + 1)) (version s) (upd (threads s) i (Enter p v)))
  | step_sleep p v : nth_error (threads s) i = Some (Enter p v) -> mem s p = v ->
      step s i (State (mem s) (waiters s) (version s) (upd (threads s) i (Asleep p v)))
  | step_nosleep p v : nth_error (threads s) i = Some (Enter p v) -> mem s p <> v ->
      step s i (State (mem s) (waiters s) (version s) (upd (threads s) i (Leave p v)))
  | step_leave p v : nth_error (threads s) i = Some (Leave p v) ->
      step s i (State (mem s) (put_slot (waiters s) (slot p) (waiters s (slot p) - 1)) (version s) (upd (threads s) i (Wait p v)))
  | step_nobody p all : nth_error (threads s) i = Some (Owe p all) -> waiters s (slot p) = 0 ->
      step s i (State (mem s) (waiters s) (version s) (upd (threads s) i Idle))
  | step_somebody p all : nth_error (threads s) i = Some (Owe p all) -> waiters s (slot p) <> 0 ->
      step s i (State (mem s) (waiters s) (version s) (upd (threads s) i (Wake p all)))
  | step_wake_all p : nth_error (threads s) i = Some (Wake p true) ->
      step s i (State (mem s) (waiters s) (version s) (map (woken p) (upd (threads s) i Idle)))
  | step_wake_none p : nth_error (threads s) i = Some (Wake p false) -> (forall v, ~ In (Asleep p v) (threads s)) ->
      step s i (State (mem s) (waiters s) (version s) (upd (threads s) i Idle))
  | step_wake_one p j v : nth_error (threads s) i = Some (Wake p false) -> nth_error (threads s) j = Some (Asleep p v) ->
      step s i (State (mem s) (waiters s) (version s) (upd (upd (threads s) i Idle) j (Leave p v)))
  (* other types *)
  | step_mark p v : nth_error (threads s) i = Some (TSlow p v) ->
      step s i (State (mem s) (put_slot (waiters s) (slot p) 1) (version s) (upd (threads s) i (TVersion p v false)))
  | step_version p v r : nth_error (threads s) i = Some (TVersion p v r) ->
      step s i (State (mem s) (waiters s) (version s)
        (upd (threads s) i (TCheck p v (version s (slot p)) (r || existsb (clearing (slot p)) (threads s)))))
  | step_changed p v ver r : nth_error (threads s) i = Some (TCheck p v ver r) -> mem s p <> v ->
      step s i (State (mem s) (waiters s) (version s) (upd (threads s) i (Wait p v)))
  | step_same p v ver r : nth_error (threads s) i = Some (TCheck p v ver r) -> mem s p = v ->
      step s i (State (mem s) (waiters s) (version s) (upd (threads s) i (TEnter p v ver r)))
  | step_tsleep p v ver r : nth_error (threads s) i = Some (TEnter p v ver r) -> version s (slot p) = ver ->
      step s i (State (mem s) (waiters s) (version s) (upd (threads s) i (TAsleep p v r)))
  | step_tnosleep p v ver r : nth_error (threads s) i = Some (TEnter p v ver r) -> version s (slot p) <> ver ->
      step s i (State (mem s) (waiters s) (version s) (upd (threads s) i (Wait p v)))
  | step_bump p : nth_error (threads s) i = Some (TOwe p) ->
      step s i (State (mem s) (waiters s) (put_slot (version s) (slot p) (version s (slot p) + 1)) (upd (threads s) i (TExch p)))
  | step_tnobody p : nth_error (threads s) i = Some (TExch p) -> waiters s (slot p) = 0 ->
      step s i (State (mem s) (put_slot (waiters s) (slot p) 0) (version s) (map (cleared (slot p)) (upd (threads s) i Idle)))
  | step_tsomebody p : nth_error (threads s) i = Some (TExch p) -> waiters s (slot p) <> 0 ->
      step s i (State (mem s) (put_slot (waiters s) (slot p) 0) (version s) (map (cleared (slot p)) (upd (threads s) i (TWake p))))
  | step_twake p : nth_error (threads s) i = Some (TWake p) ->
      step s i (State (mem s) (waiters s) (version s) (map (twoken (slot p)) (upd (threads s) i Idle))).
  Inductive nudge (s : state) (i : nat) : state -> Prop :=
  | nudge_direct p v : nth_error (threads s) i = Some (Asleep p v) ->
      nudge s i (State (mem s) (waiters s) (version s) (upd (threads s) i (Leave p v)))
  | nudge_table p v r : nth_error (threads s) i = Some (TAsleep p v r) ->
      nudge s i (State (mem s) (waiters s) (version s) (upd (threads s) i (Wait p v))).
  Definition initial (m : Z -> Z) (n : nat) : state := State m (fun _ => 0) (fun _ => 0) (repeat Idle n).
End Futex.
