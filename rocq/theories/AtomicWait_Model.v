(** slinky::atomic_wait, atomic_notify_one and atomic_notify_all where the standard library
    does not have them (slinky/base/atomic_wait.h).

    Condition variables (226-253, Mac) are in AtomicWaitCondvar_Model.v, futexes (255-320, Linux) in
    AtomicWaitFutex_Model.v.  Each is a transition system: a step is one atomic operation, lock
    operation or system call of one thread.

    - Memory is sequentially consistent: every store and load whose order matters are
      separated by a fence of order seq_cst in the code.
    - [slot] is __contention (380-385): any function from addresses to the entries of the table,
      so that unrelated addresses may share an entry.
    - The loads of the spin loop (337-348) have the same effect as the load at the top of the
      while loop (349) and are not modelled.
    - The clients: any number of threads, which call wait, notify, or store a value and then notify,
      at any time.
    - Threads may also wake up from futex and condition variable waits for no reason, or
      after the time limit of 2 seconds (281); these steps are [nudge]. *)
From Coq Require Import ZArith List Bool.
Import ListNotations.
Open Scope Z_scope.

Definition put {A} (f : Z -> A) (k : Z) (v : A) : Z -> A := fun x => if x =? k then v else f x.
Definition put_slot {A} (f : nat -> A) (k : nat) (v : A) : nat -> A := fun x => if Nat.eqb x k then v else f x.
Fixpoint upd {A} (l : list A) (i : nat) (x : A) : list A :=
  match l, i with
  | [], _ => []
  | _ :: l', O => x :: l'
  | y :: l', S n => y :: upd l' n x
  end.

(** what a client may call *)
Inductive call :=
| CallWait (p v : Z)             (* atomic_wait(p, v) *)
| CallNotify (p : Z) (all : bool) (* atomic_notify_all(p), or atomic_notify_one(p) *)
| CallPublish (p v : Z) (all : bool).  (* p->store(v), then notify *)
Definition written (m : Z -> Z) (c : call) : Z -> Z := match c with CallPublish p v _ => put m p v | _ => m end.
