(** C49 for condition variables. *)
From Coq Require Import ZArith List Bool Lia.
From Verif Require Import AtomicWait_Model AtomicWait_Proofs AtomicWaitCondvar_Model AtomicWaitCondvar_Spec AtomicWaitCondvar_Proofs.
Import ListNotations.
Open Scope Z_scope.

(** When no call can go on, every notify has returned, and whoever is still in wait(p, v) waits because the
    value is still v.  (No deadlock, no lost wakeup.) *)
Theorem C49_condvar : forall slot m n s i c,
  reachable slot m n s ->
  quiet slot s ->
  nth_error (threads s) i = Some c ->
  c = Idle \/ exists p v, waits c = Some (p, v) /\ mem s p = v.
Proof.
  intros slot m n s i c R Q N. destruct (quiet_ok slot m n s R Q i c N) as [E|(p & v & E & M)]; [auto|].
  right. exists p, v. subst c. auto.
Qed.
(** Whatever the schedule, the calls that are there come to a stop. *)
Theorem C49_condvar_stops : forall slot (f : nat -> state), ~ forall k, exists i, step slot (f k) i (f (S k)).
Proof. intros slot f. apply steps_end. Qed.
(** A call of wait(p, v) does not return before p has another value. *)
Theorem C49_condvar_waits : forall slot s i s' j c p v,
  trans slot s i s' ->
  nth_error (threads s) j = Some c -> waits c = Some (p, v) ->
  exists c', nth_error (threads s') j = Some c' /\ (waits c' = Some (p, v) \/ c' = Idle /\ mem s p <> v).
Proof. intros slot s i s' j c p v. apply wait_goes_on. Qed.

Definition entry (p : Z) : nat := Z.to_nat (p mod 256).
Ltac go t := match goal with R : reachable _ _ _ _ |- _ => eapply reach_trans in R; [|t]; cbn in R end.
(** Two threads wait for atomics with the same entry; a store to one of the atomics wakes both, and one of them goes
    back to sleep. *)
Theorem C49_condvar_ex : exists s,
  reachable entry (fun _ => 0) 3 s /\ quiet entry s /\ mem s 8 = 1 /\ threads s = [Idle; Asleep 264 0; Idle].
Proof.
  assert (R := reach_initial entry (fun _ => 0) 3). cbn in R.
  go ltac:(apply (trans_begin _ _ 0%nat (CallWait 8 0)); apply begin_call; reflexivity).
  go ltac:(apply (trans_begin _ _ 1%nat (CallWait 264 0)); apply begin_call; reflexivity).
  go ltac:(apply (trans_step _ _ 0%nat); eapply step_slow; reflexivity).
  go ltac:(apply (trans_step _ _ 0%nat); eapply step_wlock; reflexivity).
  go ltac:(apply (trans_step _ _ 0%nat); eapply step_mark; reflexivity).
  go ltac:(apply (trans_step _ _ 0%nat); eapply step_same; reflexivity).
  go ltac:(apply (trans_step _ _ 1%nat); eapply step_slow; reflexivity).
  go ltac:(apply (trans_begin _ _ 2%nat (CallPublish 8 1 false)); apply begin_call; reflexivity).
  go ltac:(apply (trans_step _ _ 2%nat); eapply step_credit; [reflexivity|vm_compute; discriminate]).
  go ltac:(apply (trans_step _ _ 2%nat); eapply step_somebody; [reflexivity|vm_compute; discriminate]).
  go ltac:(apply (trans_step _ _ 0%nat); eapply step_sleep; reflexivity).
  go ltac:(apply (trans_step _ _ 1%nat); eapply step_wlock; reflexivity).
  go ltac:(apply (trans_step _ _ 1%nat); eapply step_mark; reflexivity).
  go ltac:(apply (trans_step _ _ 1%nat); eapply step_same; reflexivity).
  go ltac:(apply (trans_step _ _ 1%nat); eapply step_sleep; reflexivity).
  go ltac:(apply (trans_step _ _ 2%nat); eapply step_lock; reflexivity).
  go ltac:(apply (trans_step _ _ 2%nat); eapply step_unlock; reflexivity).
  go ltac:(apply (trans_step _ _ 2%nat); eapply step_bcast; reflexivity).
  go ltac:(apply (trans_step _ _ 1%nat); eapply step_relock; reflexivity).
  go ltac:(apply (trans_step _ _ 1%nat); eapply step_wunlock; reflexivity).
  go ltac:(apply (trans_step _ _ 0%nat); eapply step_relock; reflexivity).
  go ltac:(apply (trans_step _ _ 0%nat); eapply step_wunlock; reflexivity).
  go ltac:(apply (trans_step _ _ 0%nat); eapply step_return; [reflexivity|vm_compute; discriminate]).
  go ltac:(apply (trans_step _ _ 1%nat); eapply step_slow; reflexivity).
  go ltac:(apply (trans_step _ _ 1%nat); eapply step_wlock; reflexivity).
  go ltac:(apply (trans_step _ _ 1%nat); eapply step_mark; reflexivity).
  go ltac:(apply (trans_step _ _ 1%nat); eapply step_same; reflexivity).
  go ltac:(apply (trans_step _ _ 1%nat); eapply step_sleep; reflexivity).
  eexists. split; [exact R|]. split; [|split; reflexivity].
  intros i s' T. destruct T; cbn [threads] in *; destruct i as [|[|[|i]]]; cbn in *; try discriminate; destruct i; discriminate.
Qed.
