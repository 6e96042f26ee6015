From Coq Require Import ZArith List Bool.
From Verif Require Import AtomicWait_Model AtomicWait_Spec AtomicWaitFutex_Model.
Import ListNotations.
Open Scope Z_scope.

Section Spec.
  Variable slot : Z -> nat.
  Variable direct : Z -> bool.
  Variable may : nat -> Z -> Prop.

  (** something happens to thread i *)
  Inductive trans (s : state) (i : nat) : state -> Prop :=
  | trans_begin c s' : polite may i c -> begin direct s i c s' -> trans s i s'
  | trans_step s' : step slot direct s i s' -> trans s i s'
  | trans_nudge s' : nudge s i s' -> trans s i s'.
  Inductive reachable (m : Z -> Z) (n : nat) : state -> Prop :=
  | reach_initial : reachable m n (initial m n)
  | reach_trans s i s' : reachable m n s -> trans s i s' -> reachable m n s'.
  (** no call can go on *)
  Definition quiet (s : state) : Prop := forall i s', ~ step slot direct s i s'.
  (** thread i is in a call of atomic_wait(p, v) *)
  Definition waits (c : pc) : option (Z * Z) :=
    match c with
    | Wait p v | Slow p v | Enter p v | Asleep p v | Leave p v | TSlow p v | TVersion p v _ | TCheck p v _ _ | TEnter p v _ _ | TAsleep p v _ => Some (p, v)
    | _ => None
    end.
  (** the table has no entry that is used for an int32_t and for another type *)
  Definition separate : Prop := forall p q, slot p = slot q -> direct p = direct q.
End Spec.
