(** Use of atomic_wait: [may i p] says that thread i may wait for the atomic at p. *)
From Coq Require Import ZArith List Bool.
From Verif Require Import AtomicWait_Model.
Open Scope Z_scope.

(** Threads call wait for the atomics they may wait for, and notify at any time.  After a store a thread calls
    notify_all, or notify_one if there is only one other thread that may wait for the atomic. *)
Definition polite (may : nat -> Z -> Prop) (i : nat) (c : call) : Prop :=
  match c with
  | CallWait p v => may i p
  | CallNotify p all => True
  | CallPublish p v all => all = true \/ exists j, forall k, may k p -> k = i \/ k = j
  end.
