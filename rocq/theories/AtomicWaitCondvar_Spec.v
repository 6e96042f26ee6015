From Coq Require Import ZArith List Bool.
From Verif Require Import AtomicWait_Model AtomicWaitCondvar_Model.
Import ListNotations.
Open Scope Z_scope.

Section Spec.
  Variable slot : Z -> nat.

  (** something happens to thread i *)
  Inductive trans (s : state) (i : nat) : state -> Prop :=
  | trans_begin c s' : begin s i c s' -> trans s i s'
  | trans_step s' : step slot s i s' -> trans s i s'
  | trans_nudge s' : nudge s i s' -> trans s i s'.
  Inductive reachable (m : Z -> Z) (n : nat) : state -> Prop :=
  | reach_initial : reachable m n (initial m n)
  | reach_trans s i s' : reachable m n s -> trans s i s' -> reachable m n s'.
  (** no call can go on *)
  Definition quiet (s : state) : Prop := forall i s', ~ step slot s i s'.
  (** the thread is in a call of atomic_wait(p, v) *)
  Definition waits (c : pc) : option (Z * Z) :=
    match c with
    | Wait p v | WLock p v | WMark p v | WCheck p v | WSleep p v | Asleep p v | WRelock p v | WUnlock p v => Some (p, v)
    | _ => None
    end.
End Spec.
