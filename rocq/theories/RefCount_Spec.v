(** What is observed of reference counted handles. *)
From Coq Require Import ZArith List.
From Verif Require Import RefCount_Model.
Import ListNotations.

(** handle [h] refers to object [o] *)
Definition refers (st : state) (h o : nat) : Prop := exists x, nth_error (slots st) h = Some x /\ s_value x = Some o.
(** object [o] was made *)
Definition made (st : state) (o : nat) : Prop := o < length (objects st).
(** nothing of any call remains to be done *)
Definition quiescent (st : state) : Prop := Forall (fun stk => stk = []) (threads st).
(** a call in some thread has yet to count the reference it made or dropped *)
Definition pending (st : state) (o : nat) : Prop :=
  exists stk m, In stk (threads st) /\ In m stk /\ (m = MRel o \/ exists h g, m = MAdd o h g).
