(** C49 for futexes.  Somebody who waits for an atomic until it has another value is not left
    asleep when the value has changed. *)
From Coq Require Import ZArith List Bool Lia.
From Verif Require Import AtomicWait_Model AtomicWait_Spec AtomicWait_Proofs AtomicWaitFutex_Model AtomicWaitFutex_Spec AtomicWaitFutex_Proofs.
Import ListNotations.
Open Scope Z_scope.

(** When no call can go on, every notify has returned, and whoever is still in wait(p, v) waits because
    the value is still v, or (other types than int32_t) because it was overtaken by a notify. *)
Theorem C49_futex : forall slot direct may m n s i c,
  separate slot direct ->
  reachable slot direct may m n s ->
  quiet slot direct s ->
  nth_error (threads s) i = Some c ->
  c = Idle \/ exists p v, waits c = Some (p, v) /\ (mem s p = v \/ direct p = false /\ c = TAsleep p v true).
Proof.
  intros slot direct may m n s i c SE R Q N.
  destruct (quiet_ok slot direct may SE m n s R Q i c N) as [E|[(p & v & E & M)|(p & v & r & E & M)]]; [auto| |].
  - right. exists p, v. subst c. auto.
  - right. exists p, v. split; [subst c; reflexivity|]. destruct M as [M| ->]; [auto|]. right. split; [|exact E].
    subst c. exact (i_kind slot direct may s (inv_reach slot direct may SE m n s R) _ (nth_In _ _ _ N)).
Qed.
(** so for int32_t no wakeup is lost *)
Theorem C49_int32 : forall slot direct may m n s i c p v,
  separate slot direct ->
  reachable slot direct may m n s ->
  quiet slot direct s ->
  nth_error (threads s) i = Some c -> waits c = Some (p, v) -> direct p = true ->
  mem s p = v.
Proof.
  intros slot direct may m n s i c p v SE R Q N W D.
  destruct (C49_futex slot direct may m n s i c SE R Q N) as [E|(q & w & W' & [M|(D' & E)])]; [subst c; discriminate|congruence|].
  rewrite W in W'. injection W' as -> ->. congruence.
Qed.
(** Whatever the schedule, the calls that are there come to a stop. *)
Theorem C49_futex_stops : forall slot direct (f : nat -> state), ~ forall k, exists i, step slot direct (f k) i (f (S k)).
Proof. intros slot direct f. apply steps_end. Qed.
(** A call of wait(p, v) does not return before p has another value. *)
Theorem C49_futex_waits : forall slot direct may s i s' j c p v,
  trans slot direct may s i s' ->
  nth_error (threads s) j = Some c -> waits c = Some (p, v) ->
  exists c', nth_error (threads s') j = Some c' /\ (waits c' = Some (p, v) \/ c' = Idle /\ mem s p <> v).
Proof. intros slot direct may s i s' j c p v. apply wait_goes_on. Qed.
(** A call that was overtaken returns when the time is up. *)
Theorem C49_time_limit : forall slot direct s i p v r,
  nth_error (threads s) i = Some (TAsleep p v r) -> mem s p <> v ->
  exists s1 s2, nudge s i s1 /\ step slot direct s1 i s2 /\ nth_error (threads s2) i = Some Idle.
Proof.
  intros slot direct s i p v r N M.
  exists (State (mem s) (waiters s) (version s) (upd (threads s) i (Wait p v))).
  exists (State (mem s) (waiters s) (version s) (upd (upd (threads s) i (Wait p v)) i Idle)).
  assert (N1 := nth_upd_same _ _ _ (Wait p v) N). split; [eapply nudge_table; exact N|]. split.
  - apply (step_return slot direct (State (mem s) (waiters s) (version s) (upd (threads s) i (Wait p v))) i p v); [exact N1|exact M].
  - cbn [threads]. eapply nth_upd_same. exact N1.
Qed.

(** the table has 256 entries (380-385) *)
Definition entry (p : Z) : nat := Z.to_nat (p mod 256).
Ltac go t := match goal with R : reachable _ _ _ _ _ _ |- _ => eapply reach_trans in R; [|t]; cbn in R end.

(** int32_t at even addresses, two threads; the first waits, the second publishes with notify_one, and the first returns *)
Theorem C49_futex_ex : exists s,
  separate entry Z.even /\ reachable entry Z.even (fun k _ => (k < 2)%nat) (fun _ => 0) 2 s /\ quiet entry Z.even s /\ mem s 8 = 1 /\ threads s = [Idle; Asleep 8 1].
Proof.
  assert (R := reach_initial entry Z.even (fun k _ => (k < 2)%nat) (fun _ => 0) 2). cbn in R.
  go ltac:(apply (trans_begin _ _ _ _ 0%nat (CallWait 8 0)); [cbn; lia|apply begin_call; reflexivity]).
  go ltac:(apply (trans_step _ _ _ _ 0%nat); eapply step_slow; reflexivity).
  go ltac:(apply (trans_step _ _ _ _ 0%nat); eapply step_count; reflexivity).
  go ltac:(apply (trans_step _ _ _ _ 0%nat); eapply step_sleep; reflexivity).
  go ltac:(apply (trans_begin _ _ _ _ 1%nat (CallPublish 8 1 false)); [right; exists 0%nat; intros k K; lia|apply begin_call; reflexivity]).
  go ltac:(apply (trans_step _ _ _ _ 1%nat); eapply step_somebody; [reflexivity|vm_compute; discriminate]).
  go ltac:(apply (trans_step _ _ _ _ 1%nat); eapply (step_wake_one _ _ _ _ 8 0%nat 0); reflexivity).
  go ltac:(apply (trans_step _ _ _ _ 0%nat); eapply step_leave; reflexivity).
  go ltac:(apply (trans_step _ _ _ _ 0%nat); eapply step_return; [reflexivity|vm_compute; discriminate]).
  go ltac:(apply (trans_begin _ _ _ _ 1%nat (CallWait 8 1)); [cbn; lia|apply begin_call; reflexivity]).
  go ltac:(apply (trans_step _ _ _ _ 1%nat); eapply step_slow; reflexivity).
  go ltac:(apply (trans_step _ _ _ _ 1%nat); eapply step_count; reflexivity).
  go ltac:(apply (trans_step _ _ _ _ 1%nat); eapply step_sleep; reflexivity).
  eexists. split; [|split; [exact R|]].
  - intros p q E. unfold entry in E. apply Z2Nat.inj in E; try (apply Z.mod_pos_bound; lia).
    rewrite (Z.div_mod p 256), (Z.div_mod q 256), E by lia.
    rewrite !Z.even_add, !Z.even_mul. reflexivity.
  - split; [|split; reflexivity]. intros i s' T. destruct T; cbn [threads] in *; destruct i as [|[|i]]; cbn in *; try discriminate; destruct i; discriminate.
Qed.

(** Other types than int32_t: a notify that sees the mark of a waiter, but increments the version before the waiter
    has read it, uses up the mark without waking the waiter.  The next notify wakes nobody. *)
Theorem C49_table_refuted : exists s,
  reachable (fun p => Z.to_nat p) (fun _ => false) (fun _ _ => True) (fun _ => 0) 2 s /\ quiet (fun p => Z.to_nat p) (fun _ => false) s /\
  threads s = [TAsleep 8 0 true; Idle] /\ mem s 8 = 1.
Proof.
  assert (R := reach_initial (fun p => Z.to_nat p) (fun _ => false) (fun _ _ => True) (fun _ => 0) 2). cbn in R.
  go ltac:(apply (trans_begin _ _ _ _ 0%nat (CallWait 8 0)); [exact I|apply begin_call; reflexivity]).
  go ltac:(apply (trans_step _ _ _ _ 0%nat); eapply step_slow; reflexivity).
  go ltac:(apply (trans_step _ _ _ _ 0%nat); eapply step_mark; reflexivity).
  go ltac:(apply (trans_begin _ _ _ _ 1%nat (CallNotify 8 true)); [exact I|apply begin_call; reflexivity]).
  go ltac:(apply (trans_step _ _ _ _ 1%nat); eapply step_bump; reflexivity).
  go ltac:(apply (trans_step _ _ _ _ 0%nat); eapply step_version; reflexivity).
  go ltac:(apply (trans_step _ _ _ _ 0%nat); eapply step_same; reflexivity).
  go ltac:(apply (trans_step _ _ _ _ 1%nat); eapply step_tsomebody; [reflexivity|vm_compute; discriminate]).
  go ltac:(apply (trans_step _ _ _ _ 1%nat); eapply step_twake; reflexivity).
  go ltac:(apply (trans_step _ _ _ _ 0%nat); eapply step_tsleep; reflexivity).
  go ltac:(apply (trans_begin _ _ _ _ 1%nat (CallPublish 8 1 true)); [left; reflexivity|apply begin_call; reflexivity]).
  go ltac:(apply (trans_step _ _ _ _ 1%nat); eapply step_bump; reflexivity).
  go ltac:(apply (trans_step _ _ _ _ 1%nat); eapply step_tnobody; reflexivity).
  eexists. split; [exact R|]. split; [|split; reflexivity].
  intros i s' T. destruct T; cbn [threads] in *; destruct i as [|[|i]]; cbn in *; try discriminate; destruct i; discriminate.
Qed.
(** An int32_t at 0 and another type at 256 have the same entry.  A notify for the other type clears the count of
    waiters; a waiter for the int32_t then sleeps on, and there is no time limit. *)
Theorem C49_shared_entry_refuted : exists s,
  let direct := fun p => p =? 0 in
  reachable entry direct (fun _ _ => True) (fun _ => 0) 2 s /\ quiet entry direct s /\
  threads s = [Asleep 0 0; Idle] /\ mem s 0 = 1.
Proof.
  assert (R := reach_initial entry (fun p => p =? 0) (fun _ _ => True) (fun _ => 0) 2). cbn in R.
  go ltac:(apply (trans_begin _ _ _ _ 0%nat (CallWait 0 0)); [exact I|apply begin_call; reflexivity]).
  go ltac:(apply (trans_step _ _ _ _ 0%nat); eapply step_slow; reflexivity).
  go ltac:(apply (trans_step _ _ _ _ 0%nat); eapply step_count; reflexivity).
  go ltac:(apply (trans_step _ _ _ _ 0%nat); eapply step_sleep; reflexivity).
  go ltac:(apply (trans_begin _ _ _ _ 1%nat (CallNotify 256 true)); [exact I|apply begin_call; reflexivity]).
  go ltac:(apply (trans_step _ _ _ _ 1%nat); eapply step_bump; reflexivity).
  go ltac:(apply (trans_step _ _ _ _ 1%nat); eapply step_tsomebody; [reflexivity|vm_compute; discriminate]).
  go ltac:(apply (trans_step _ _ _ _ 1%nat); eapply step_twake; reflexivity).
  go ltac:(apply (trans_begin _ _ _ _ 1%nat (CallPublish 0 1 true)); [left; reflexivity|apply begin_call; reflexivity]).
  go ltac:(apply (trans_step _ _ _ _ 1%nat); eapply step_nobody; reflexivity).
  eexists. cbv zeta. split; [exact R|]. split; [|split; reflexivity].
  intros i s' T. destruct T; cbn [threads] in *; destruct i as [|[|i]]; cbn in *; try discriminate; destruct i; discriminate.
Qed.
(** two threads wait for the same atomic and the store is followed by notify_one: the second is not woken *)
Theorem C49_notify_one_refuted : exists s s',
  reachable entry Z.even (fun _ _ => True) (fun _ => 0) 3 s /\
  begin Z.even s 2 (CallPublish 8 1 false) s' /\
  exists s'', step entry Z.even s' 2 s'' /\ exists s3, step entry Z.even s'' 2 s3 /\ exists s4, step entry Z.even s3 0 s4 /\ exists s5, step entry Z.even s4 0 s5 /\
  quiet entry Z.even s5 /\ threads s5 = [Idle; Asleep 8 0; Idle] /\ mem s5 8 = 1.
Proof.
  assert (R := reach_initial entry Z.even (fun _ _ => True) (fun _ => 0) 3). cbn in R.
  go ltac:(apply (trans_begin _ _ _ _ 0%nat (CallWait 8 0)); [exact I|apply begin_call; reflexivity]).
  go ltac:(apply (trans_step _ _ _ _ 0%nat); eapply step_slow; reflexivity).
  go ltac:(apply (trans_step _ _ _ _ 0%nat); eapply step_count; reflexivity).
  go ltac:(apply (trans_step _ _ _ _ 0%nat); eapply step_sleep; reflexivity).
  go ltac:(apply (trans_begin _ _ _ _ 1%nat (CallWait 8 0)); [exact I|apply begin_call; reflexivity]).
  go ltac:(apply (trans_step _ _ _ _ 1%nat); eapply step_slow; reflexivity).
  go ltac:(apply (trans_step _ _ _ _ 1%nat); eapply step_count; reflexivity).
  go ltac:(apply (trans_step _ _ _ _ 1%nat); eapply step_sleep; reflexivity).
  eexists _, _. split; [exact R|]. split; [apply begin_call; reflexivity|]. cbn.
  eexists. split; [eapply step_somebody; [reflexivity|vm_compute; discriminate]|]. cbn.
  eexists. split; [eapply (step_wake_one _ _ _ _ 8 0%nat 0); reflexivity|]. cbn.
  eexists. split; [eapply step_leave; reflexivity|]. cbn.
  eexists. split; [eapply step_return; [reflexivity|vm_compute; discriminate]|]. cbn.
  split; [|split; reflexivity].
  intros i s' T. destruct T; cbn [threads] in *; destruct i as [|[|[|i]]]; cbn in *; try discriminate; destruct i; discriminate.
Qed.
