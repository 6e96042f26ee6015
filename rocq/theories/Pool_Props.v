(** Property theorems for the thread pool (C31, C32).

    Reading guide.  [run (init nt) sched = Some s]: [nt] threads performed the
    atomic actions [sched], in any order, and reached [s].  [started s] and
    [finished s] list, for every body call made so far, (task, item).
    [enqueues sched] lists the (n, max_workers) pairs passed to enqueue; task [t]
    is the [t]-th of them.  [returned s] lists the tasks whose wait_for returned. *)
From Coq Require Import ZArith List Bool Lia Permutation.
From Verif Require Import Pool_Model Pool_Proofs Pool_Live.
Import ListNotations.
Local Open Scope Z_scope.

(** Calls of the body of task [t]: the items, in reverse order of time. *)
Definition calls_started (t : nat) (s : state) : list Z := items t (started s).
Definition calls_finished (t : nat) (s : state) : list Z := items t (finished s).

(** enqueue is called with a size_t [n] such that [8 * n] does not wrap, and an int. *)
Definition reasonable (sched : list (nat * action)) : Prop :=
  Forall (fun p => match snd p with
                   | AEnqueue n m _ _ => n * 8 < 2 ^ 64 /\ - 2 ^ 31 <= m <= 2 ^ 31 - 1
                   | _ => True end) sched.

Lemma reasonable_ok sched : reasonable sched -> sched_ok sched.
Proof.
  apply Forall_impl. intros [tid a]. destruct a; cbn; auto.
Qed.

Lemma spec_nth sched nt s t n m :
  run (init nt) sched = Some s -> nth_error (enqueues sched) t = Some (n, m) ->
  exists k, nth_error (tasks s) t = Some k /\ t_n k = n /\ t_limit k = eff_workers n m.
Proof.
  intros R H. pose proof (run_spec _ _ _ R) as E. cbn in E.
  apply (map_nth_error (fun p => (fst p, eff_workers (fst p) (snd p)))) in H. rewrite <- E in H.
  destruct (nth_error (tasks s) t) as [k|] eqn:Hk.
  - apply (map_nth_error spec_of) in Hk. rewrite H in Hk. injection Hk as E1 E2. exists k. auto.
  - exfalso. apply nth_error_None in Hk. apply nth_error_lt in H. rewrite map_length in H. lia.
Qed.

(** C31: whatever the interleaving and however many workers, an item index is
    handed out at most once and only if it is one of 0..n-1. *)
Lemma c31_once : forall nt sched s t n m,
  reasonable sched -> run (init nt) sched = Some s ->
  nth_error (enqueues sched) t = Some (n, m) ->
  NoDup (calls_started t s) /\ (forall i, In i (calls_started t s) -> 0 <= i < n).
Proof.
  intros nt sched s t n m OK R H. destruct (spec_nth _ _ _ _ _ _ R H) as (k & Hk & <- & _).
  pose proof (run_inv _ _ _ (reasonable_ok _ OK) R (init_inv nt)) as [I1 _ _ _ _].
  destruct (task_inv_facts _ _ _ _ _ _ (I1 _ _ Hk)) as (A & B & _). auto.
Qed.
Theorem C31_items_at_most_once : forall nt sched s t n m,
  reasonable sched -> run (init nt) sched = Some s ->
  nth_error (enqueues sched) t = Some (n, m) ->
  NoDup (calls_started t s) /\ (forall i, In i (calls_started t s) -> 0 <= i < n).
Proof. exact c31_once. Qed.
Print Assumptions C31_items_at_most_once.

(** C31: when a task reports done, each of 0..n-1 was called exactly once, and
    every one of these calls has finished; nothing else was called. *)
Lemma c31_done : forall nt sched s t n m,
  reasonable sched -> run (init nt) sched = Some s ->
  nth_error (enqueues sched) t = Some (n, m) ->
  cond_holds s (CDone t) = true ->
  Permutation (calls_finished t s) (range n) /\ Permutation (calls_started t s) (range n).
Proof.
  intros nt sched s t n m OK R H D. destruct (spec_nth _ _ _ _ _ _ R H) as (k & Hk & <- & _).
  pose proof (run_inv _ _ _ (reasonable_ok _ OK) R (init_inv nt)) as [I1 F _ _ _].
  cbn in D. rewrite Hk in D. unfold done in D. apply Z.eqb_eq in D.
  destruct (task_inv_done _ _ _ _ _ _ _ F (I1 _ _ Hk) D) as (A & B & _ & _).
  rewrite range_zrange. split; [exact A|]. etransitivity; [exact B|exact A].
Qed.
Theorem C31_done_means_each_item_once : forall nt sched s t n m,
  reasonable sched -> run (init nt) sched = Some s ->
  nth_error (enqueues sched) t = Some (n, m) ->
  cond_holds s (CDone t) = true ->
  Permutation (calls_finished t s) (range n) /\ Permutation (calls_started t s) (range n).
Proof. exact c31_done. Qed.
Print Assumptions C31_done_means_each_item_once.

(** C31: a worker of task [t] that has gone through its shards leaves no item
    behind: all n items were handed out. *)
Lemma c31_nothing_left : forall nt sched s t n m tid w dn h below,
  reasonable sched -> run (init nt) sched = Some s ->
  nth_error (enqueues sched) t = Some (n, m) ->
  nth_error (threads s) tid = Some (FWork t w [] None dn h :: below) ->
  Permutation (calls_started t s) (range n).
Proof.
  intros nt sched s t n m tid w dn h below OK R H Ht.
  destruct (spec_nth _ _ _ _ _ _ R H) as (k & Hk & <- & _).
  pose proof (run_inv _ _ _ (reasonable_ok _ OK) R (init_inv nt)) as [I1 F _ _ _].
  destruct (I1 _ _ Hk) as [A1 A2 A3 A4 A5 A6 A7 A8 A9].
  rewrite Forall_forall in F.
  assert (frame_ok (tasks s) (FWork t w [] None dn h)) as FO.
  { apply F. unfold frames. apply in_concat. eexists. split; [eapply nth_error_In; exact Ht|now left]. }
  destruct (frame_done_exhausted _ _ _ _ _ _ Hk FO) as [EX _].
  unfold calls_started. rewrite A3, range_zrange.
  rewrite (chain_handed_all _ _ _ A2); [reflexivity|].
  intros sh Hs. apply In_nth_error in Hs as (j & Hj). exact (EX _ _ Hj).
Qed.
Theorem C31_worker_leaves_nothing_behind : forall nt sched s t n m tid w dn h below,
  reasonable sched -> run (init nt) sched = Some s ->
  nth_error (enqueues sched) t = Some (n, m) ->
  nth_error (threads s) tid = Some (FWork t w [] None dn h :: below) ->
  Permutation (calls_started t s) (range n).
Proof. exact c31_nothing_left. Qed.
Print Assumptions C31_worker_leaves_nothing_behind.

(** C31: parallel_for covers 0..n-1 in order when it does not use the pool, and
    otherwise enqueues exactly the task of n items (at least two). *)
Lemma c31_pf : forall tc n m, 0 <= n ->
  match parallel_for tc n m with
  | PfSerial l => l = range n
  | PfTask n' m' => n' = n /\ m' = m /\ 2 <= n /\ m <> 1 /\ tc <> 0
  end.
Proof.
  intros tc n m Hn. unfold parallel_for.
  destruct (Z.eqb_spec n 0) as [->|N0]; [reflexivity|].
  destruct (Z.eqb_spec n 1) as [->|N1]; [reflexivity|].
  destruct (Z.eqb_spec m 1) as [->|M1]; [reflexivity|].
  destruct (Z.eqb_spec tc 0) as [->|T0]; cbn; [reflexivity|]. repeat split; auto. lia.
Qed.
Theorem C31_parallel_for_plan : forall tc n m, 0 <= n ->
  match parallel_for tc n m with
  | PfSerial l => l = range n
  | PfTask n' m' => n' = n /\ m' = m /\ 2 <= n /\ m <> 1 /\ tc <> 0
  end.
Proof. exact c31_pf. Qed.
Print Assumptions C31_parallel_for_plan.

(** C31 fails for absurd sizes: with n = 2^62 the product (i+1)*n wraps, shards
    overlap and item 0 is called twice. *)
Definition wrap_sched : list (nat * action) :=
  (0%nat, AEnqueue (2 ^ 62) (2 ^ 31 - 1) 0 0)
  :: map (fun t => (t, AWaitTask 0)) (seq 0 7) ++ [(2%nat, AFetch); (6%nat, AFetch)].
Theorem C31_size_wrap_refuted : exists sched s,
  run (init 7) sched = Some s /\ nth_error (enqueues sched) 0 = Some (2 ^ 62, 2 ^ 31 - 1) /\
  ~ NoDup (calls_started 0 s).
Proof.
  exists wrap_sched.
  destruct (run (init 7) wrap_sched) as [s|] eqn:E; [|exfalso; vm_compute in E; discriminate].
  exists s. split; [reflexivity|]. split; [reflexivity|].
  assert (calls_started 0 s = [0; 0]) as ->.
  { assert (option_map (calls_started 0) (run (init 7) wrap_sched) = Some [0; 0]) as X by (vm_compute; reflexivity).
    rewrite E in X. cbn in X. congruence. }
  intros N. inversion N as [|? ? X _]. apply X. now left.
Qed.
Print Assumptions C31_size_wrap_refuted.

(** C32: wait_for returns only when every item of the task has finished. *)
Lemma c32_wait : forall nt sched s t n m,
  reasonable sched -> run (init nt) sched = Some s ->
  nth_error (enqueues sched) t = Some (n, m) ->
  In t (returned s) -> Permutation (calls_finished t s) (range n).
Proof.
  intros nt sched s t n m OK R H Hr.
  pose proof (run_inv _ _ _ (reasonable_ok _ OK) R (init_inv nt)) as [_ _ _ _ I5].
  destruct (I5 _ Hr) as (k & Hk & Z0).
  eapply c31_done; eauto. cbn. rewrite Hk. unfold done. now apply Z.eqb_eq.
Qed.
Theorem C32_wait_returns_after_all_finished : forall nt sched s t n m,
  reasonable sched -> run (init nt) sched = Some s ->
  nth_error (enqueues sched) t = Some (n, m) ->
  In t (returned s) -> Permutation (calls_finished t s) (range n).
Proof. exact c32_wait. Qed.
Print Assumptions C32_wait_returns_after_all_finished.

(** C32: exactly one participant is told that it completed the task, and only
    once all items are finished. *)
Lemma c32_one : forall nt sched s t n m,
  reasonable sched -> run (init nt) sched = Some s ->
  nth_error (enqueues sched) t = Some (n, m) ->
  count_occ Nat.eq_dec (completed s) t = if cond_holds s (CDone t) then 1%nat else 0%nat.
Proof.
  intros nt sched s t n m OK R H. destruct (spec_nth _ _ _ _ _ _ R H) as (k & Hk & <- & _).
  pose proof (run_inv _ _ _ (reasonable_ok _ OK) R (init_inv nt)) as [I1 F _ _ _].
  destruct (I1 _ _ Hk) as [_ _ _ _ _ _ _ _ A9]. cbn. rewrite Hk. exact A9.
Qed.
Theorem C32_one_completion : forall nt sched s t n m,
  reasonable sched -> run (init nt) sched = Some s ->
  nth_error (enqueues sched) t = Some (n, m) ->
  count_occ Nat.eq_dec (completed s) t = if cond_holds s (CDone t) then 1%nat else 0%nat.
Proof. exact c32_one. Qed.
Print Assumptions C32_one_completion.

(** C32: at any moment at most max_workers threads work on the task (and never
    more than it has items). *)
Lemma c32_limit : forall nt sched s t n m,
  reasonable sched -> run (init nt) sched = Some s ->
  nth_error (enqueues sched) t = Some (n, m) -> 0 < n -> 0 <= m ->
  Z.of_nat (length (filter (works_on t) (frames s))) <= Z.min n m.
Proof.
  intros nt sched s t n m OK R H Hn Hm. destruct (spec_nth _ _ _ _ _ _ R H) as (k & Hk & <- & EL).
  pose proof (run_inv _ _ _ (reasonable_ok _ OK) R (init_inv nt)) as [I1 F _ _ _].
  destruct (I1 _ _ Hk) as [A1 A2 A3 A4 A5 A6 A7 A8 A9].
  assert (t_n k * 8 < 2 ^ 64 /\ - 2 ^ 31 <= m <= 2 ^ 31 - 1) as B.
  { clear - OK H. unfold reasonable in OK. rewrite Forall_forall in OK.
    apply nth_error_In in H. unfold enqueues in H. apply in_flat_map in H as (p & Hp & Hi).
    specialize (OK _ Hp). destruct (snd p); try easy. destruct Hi as [E|[]]. injection E as -> ->. exact OK. }
  rewrite eff_workers_le in EL by (unfold size_max, int_max; lia). rewrite <- EL.
  assert (length (wids t (frames s)) = length (filter (works_on t) (frames s))) as <-.
  { unfold wids. clear. induction (frames s) as [|f fs IH]; cbn; [reflexivity|].
    rewrite app_length, IH. destruct f as [t' w rem cur d h| | | |]; cbn; auto.
    destruct (Nat.eqb t t'); reflexivity. }
  pose proof (sub_range_length (wids t (frames s)) (t_limit k) A6) as L.
  rewrite Z.max_r in L by lia. apply L. intros x Hx. rewrite Forall_forall in A7. specialize (A7 _ Hx). lia.
Qed.
Theorem C32_worker_limit : forall nt sched s t n m,
  reasonable sched -> run (init nt) sched = Some s ->
  nth_error (enqueues sched) t = Some (n, m) -> 0 < n -> 0 <= m ->
  Z.of_nat (length (filter (works_on t) (frames s))) <= Z.min n m.
Proof. exact c32_limit. Qed.
Print Assumptions C32_worker_limit.

(** C32, liveness: for programs that use the pool through parallel_for (nested to
    any depth, any number of workers), as long as some wait is outstanding some
    thread is able to take a step that is not a spurious wake-up, and it is not
    merely spinning: it works on an item, delivers a notification, or returns from
    a wait.  So no schedule ends in a deadlock. *)
Lemma c32_live : forall nt sched s owed tid stk f t,
  reasonable sched -> fj_run (init nt) (repeat None nt) sched = Some (s, owed) ->
  nth_error (threads s) tid = Some stk -> In f stk -> waitsb t f = true ->
  exists tid' stk' a s' owed', nth_error (threads s) tid' = Some stk' /\ advancing s stk' /\
    a <> ASpurious /\ fj_step s owed tid' a = Some (s', owed').
Proof.
  intros nt sched s owed tid stk f t OK R Ht Hf W.
  pose proof (fj_run_inv _ _ _ _ _ (reasonable_ok _ OK) R (fj_init nt)) as FI.
  assert (length owed = length (threads s)) as EL.
  { eapply fj_run_length; [exact R|]. cbn. now rewrite !repeat_length. }
  destruct (wait_advances _ _ _ _ _ _ FI Ht Hf W) as (tid' & stk' & Ht' & Ad).
  destruct (advancing_enabled _ _ _ _ FI EL Ht' Ad) as (a & s' & owed' & _ & Na & E).
  exists tid', stk', a, s', owed'. auto.
Qed.
Theorem C32_parallel_for_no_deadlock : forall nt sched s owed tid stk f t,
  reasonable sched -> fj_run (init nt) (repeat None nt) sched = Some (s, owed) ->
  nth_error (threads s) tid = Some stk -> In f stk -> waitsb t f = true ->
  exists tid' stk' a s' owed', nth_error (threads s) tid' = Some stk' /\ advancing s stk' /\
    a <> ASpurious /\ fj_step s owed tid' a = Some (s', owed').
Proof. exact c32_live. Qed.
Print Assumptions C32_parallel_for_no_deadlock.

(** C32, liveness: a thread asleep in wait_for(task) on a task that is already
    done is about to be notified by some other thread (no lost wake-up). *)
Lemma c32_wake : forall nt sched s owed t,
  reasonable sched -> fj_run (init nt) (repeat None nt) sched = Some (s, owed) ->
  In (FLoop (CDone t) CvHelper true) (frames s) -> cond_holds s (CDone t) = true ->
  exists tid below, nth_error (threads s) tid = Some (FNotify :: below).
Proof.
  intros nt sched s owed t OK R Hi D.
  pose proof (fj_run_inv _ _ _ _ _ (reasonable_ok _ OK) R (fj_init nt)) as (I & L & T).
  cbn in D. destruct (nth_error (tasks s) t) as [k|] eqn:Hk; [|discriminate].
  unfold done in D. apply Z.eqb_eq in D.
  pose proof (l_wake _ _ _ L _ _ _ Hi Hk D) as N. destruct (frames_in _ _ N) as (tid & stk & Ht & Hn).
  destruct T as (A & _). rewrite Forall_forall in A. specialize (A _ (nth_error_In _ _ Ht)).
  destruct stk as [|g stk]; [easy|]. cbn in A. destruct A as (_ & NB & _).
  destruct Hn as [->|Hn]; [eauto|contradiction].
Qed.
Theorem C32_no_lost_wakeup : forall nt sched s owed t,
  reasonable sched -> fj_run (init nt) (repeat None nt) sched = Some (s, owed) ->
  In (FLoop (CDone t) CvHelper true) (frames s) -> cond_holds s (CDone t) = true ->
  exists tid below, nth_error (threads s) tid = Some (FNotify :: below).
Proof. exact c32_wake. Qed.
Print Assumptions C32_no_lost_wakeup.

(** C32 fails when two threads wait for the same task (an async handle waited for
    from two places): the one that finishes the task inside wait_for does not
    notify, and the other one sleeps although the task is done and nobody is left
    to wake it. *)
Definition two_waiters : list (nat * action) :=
  [(0%nat, AEnqueue 1 (2 ^ 31 - 1) 0 0);
   (0%nat, AWaitTask 0); (1%nat, AWaitTask 0);
   (1%nat, ASpinGiveUp); (1%nat, ACheck true);
   (0%nat, AFetch); (0%nat, AFinish); (0%nat, AFetch); (0%nat, AReport)].
Theorem C32_two_waiters_lost_wakeup_refuted : exists sched s,
  reasonable sched /\ run (init 2) sched = Some s /\
  cond_holds s (CDone 0) = true /\
  threads s = [[]; [FLoop (CDone 0) CvHelper true]].
Proof.
  exists two_waiters.
  destruct (run (init 2) two_waiters) as [s|] eqn:E; [|exfalso; vm_compute in E; discriminate].
  assert (option_map (fun s => (cond_holds s (CDone 0), threads s)) (run (init 2) two_waiters)
          = Some (true, [[]; [FLoop (CDone 0) CvHelper true]])) as X by (vm_compute; reflexivity).
  rewrite E in X. cbn [option_map] in X. injection X as X1 X2.
  exists s. split.
  { unfold reasonable, two_waiters. repeat (apply Forall_cons || apply Forall_nil); cbn; auto; lia. }
  auto.
Qed.
Print Assumptions C32_two_waiters_lost_wakeup_refuted.

(** ** Non-vacuity: a concrete run of a nested parallel_for with two threads *)
Definition demo : list (nat * action) :=
  [(1%nat, AWaitPred 0 CvWorker); (1%nat, ACheck true);
   (0%nat, AEnqueue 3 2 1 1); (0%nat, AWaitTask 0);
   (1%nat, ACheck false);
   (0%nat, AFetch); (1%nat, AFetch);
   (1%nat, AEnqueue 2 (2 ^ 31 - 1) 0 0); (1%nat, AWaitTask 1);
   (0%nat, AFinish); (0%nat, AFetch); (0%nat, AFinish); (0%nat, AFetch); (0%nat, AReport);
   (0%nat, ASpinGiveUp); (0%nat, ACheck false);
   (0%nat, AFetch); (1%nat, AFetch); (1%nat, AFinish); (1%nat, AFetch); (1%nat, AFetch); (1%nat, AReport);
   (0%nat, AFinish); (0%nat, AFetch); (0%nat, AFetch); (0%nat, AReport)].

(** The demo run is reasonable and permitted; it ends with an outer loop of three
    items and a nested one of two items all started, and four of five finished:
    both the caller and the worker took part. *)
Example demo_run : exists s owed,
  reasonable demo /\ fj_run (init 2) (repeat None 2) demo = Some (s, owed) /\
  calls_started 0 s = [2; 1; 0] /\ calls_finished 0 s = [2; 0] /\
  calls_started 1 s = [1; 0] /\ calls_finished 1 s = [0; 1].
Proof.
  destruct (fj_run (init 2) (repeat None 2) demo) as [[s o]|] eqn:E; [|exfalso; vm_compute in E; discriminate].
  assert (option_map (fun so => (calls_started 0 (fst so), calls_finished 0 (fst so),
                                 calls_started 1 (fst so), calls_finished 1 (fst so)))
            (fj_run (init 2) (repeat None 2) demo)
          = Some ([2; 1; 0], [2; 0], [1; 0], [0; 1])) as X by (vm_compute; reflexivity).
  rewrite E in X. cbn [option_map fst] in X. injection X as X1 X2 X3 X4.
  exists s, o. split.
  { unfold reasonable, demo. repeat (apply Forall_cons || apply Forall_nil); cbn; auto; lia. }
  auto.
Qed.
