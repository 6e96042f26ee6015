(** C67: pipelined loops. *)
From Coq Require Import ZArith List Bool Lia Arith.
From Verif Require Import Sema_Model Sema_Spec Sema_Proofs Sema2_Proofs Sema3_Proofs Sema4_Proofs Sema5_Proofs.
Import ListNotations.
Local Open Scope Z_scope.

(** The synchronization takes nothing away and adds nothing; the stages are numbered in the
    order of the program, and there are never more workers than the schedule asks for. *)
Theorem C67_stages : forall maxw mn mx st b, let l := pipelined maxw mn mx st b in
  flat_map p_calls (loop_parts maxw b) = body_calls b /\
  stages_of (loop_parts maxw b) = seq 0 (l_stages l) /\
  l_workers l = Nat.max 1 (l_stages l) /\
  (1 <= maxw -> Z.of_nat (l_workers l) <= maxw).
Proof.
  intros maxw mn mx st b. unfold pipelined, loop_parts. pose proof (mutate_outer maxw b (Sync 0 None) eq_refl) as M.
  pose proof (mutate_calls maxw b true (Sync 0 None)) as C. destruct (mutate maxw true b (Sync 0 None)) as [r s']. cbn [fst] in *. cbn zeta. cbn [l_stages l_workers].
  destruct M as (_ & _ & M & W & _). cbn [sync_stages] in *. rewrite Nat.sub_0_r in M. split; [rewrite parts_calls; auto|]. split; auto. split; auto.
  intros H. destruct W as [W| -> ]; cbn [sync_stages] in *; lia.
Qed.

(** If the schedule allows enough workers, everything that computes a folded buffer is synchronized. *)
Theorem C67_synchronized : forall maxw b c p, Z.of_nat (folding (body_calls b)) < maxw ->
  nth_error (loop_parts maxw b) c = Some p -> existsb snd (p_calls p) = true -> synchronized maxw b c.
Proof.
  intros maxw b c p L Hc E. unfold synchronized. exists p. destruct (p_stage p) as [k|] eqn:K; [eauto|]. exfalso. unfold loop_parts in Hc.
  pose proof (mutate_outer maxw b (Sync 0 None) eq_refl) as M. destruct (mutate maxw true b (Sync 0 None)) as [r s']. cbn [fst] in *.
  destruct M as (_ & _ & _ & _ & M). apply nth_error_In in Hc. specialize (M p Hc K E). cbn [sync_stages] in M. lia.
Qed.

(** A synchronized part begins in an iteration after it ended in all the ones before: it
    appears to run serially. *)
Theorem C67_in_order : forall maxw mn mx st b c s, 0 < st -> synchronized maxw b c -> reaches (pipelined maxw mn mx st b) s ->
  forall i j l1 l2, (i < j)%nat -> log s = l1 ++ Began j c :: l2 -> In (Ended i c) l1.
Proof. intros maxw mn mx st b c s Hst C R. exact (in_order _ _ c (pipelined_shape _ _ _ _ _ Hst) C s R). Qed.

(** Each iteration does the parts of the body once each, in the order of the program, and
    there is nothing else. *)
Theorem C67_program : forall maxw mn mx st b s, 0 < st -> let l := pipelined maxw mn mx st b in reaches l s -> forall j,
  (exists n, filter (of_iteration j) (log s) = firstn n (flat_map (fun u => [Began j u; Ended j u]) (seq 0 (length (loop_parts maxw b))))) /\
  (all_done l s -> filter (of_iteration j) (log s) = if Nat.ltb j (iterations l) then flat_map (fun u => [Began j u; Ended j u]) (seq 0 (length (loop_parts maxw b))) else []).
Proof.
  intros maxw mn mx st b s Hst l R j. pose proof (pipelined_shape maxw mn mx st b Hst) as H. fold l in H. rewrite (own_log l s R).
  rewrite <- (events_of (Nat.ltb 1 (l_stages l)) j), <- (sh_ops _ _ H). split.
  - assert (X : forall (os : list op) q, exists n, flat_map (op_events j) (firstn q os) = firstn n (flat_map (op_events j) os)).
    { intros os q. exists (length (flat_map (op_events j) (firstn q os))). rewrite <- (firstn_skipn q os) at 3. rewrite flat_map_app, firstn_app, firstn_all, Nat.sub_diag, app_nil_r. reflexivity. }
    destruct (nth_error (pcs s) j); [apply X|]. exists 0%nat. reflexivity.
  - intros (L & D). destruct (Nat.ltb_spec j (iterations l)) as [K|K].
    + destruct (nth_error (pcs s) j) as [q|] eqn:Q; [|apply nth_error_None in Q; lia]. rewrite (D q) by (eapply nth_error_In; eauto). unfold did. rewrite firstn_all. reflexivity.
    + destruct (nth_error (pcs s) j) eqn:Q; auto. exfalso. assert (j < length (pcs s))%nat by (apply nth_error_Some; congruence). lia.
Qed.

(** The iterations are those of the loop: the k-th is at min + k * step, as long as this is not
    above max. *)
Theorem C67_iterations : forall maxw mn mx st b k, 0 < st -> (k < iterations (pipelined maxw mn mx st b))%nat <-> mn + Z.of_nat k * st <= mx.
Proof.
  intros maxw mn mx st b k Hst. unfold iterations, pipelined. destruct (mutate maxw true b (Sync 0 None)) as [r s]. cbn [l_min l_max l_step].
  pose proof (Z.div_mod (- (mx - mn + 1)) st ltac:(lia)) as D. pose proof (Z.mod_pos_bound (- (mx - mn + 1)) st Hst) as B.
  set (q := - (mx - mn + 1) / st) in *. split; intros L; nia.
Qed.

(** No deadlock: as long as not everything is done something can happen; the first iteration
    that is not done can always go on (so one worker that stays with it is enough); and every
    run is finite. *)
Theorem C67_no_deadlock : forall maxw mn mx st b s, 0 < st -> let l := pipelined maxw mn mx st b in reaches l s ->
  (all_done l s \/ exists a s', step l s a = Some s') /\
  (forall j q, nth_error (pcs s) j = Some q -> (q < length (l_ops l))%nat ->
     (forall i, (i < j)%nat -> nth_error (pcs s) i = Some (length (l_ops l))) -> exists s', step l s (Step j) = Some s').
Proof.
  intros maxw mn mx st b s Hst l R. pose proof (pipelined_shape maxw mn mx st b Hst) as H. fold l in H. pose proof (reach_inv l _ s H R) as I. split.
  - apply (no_deadlock l _ s H I).
  - intros j q E Q F. apply (progress l _ s j q H I E Q F).
Qed.
Theorem C67_ends : forall maxw mn mx st b acts s, 0 < st -> let l := pipelined maxw mn mx st b in
  run l (init l) acts = Some s -> (length acts <= iterations l * S (length (l_ops l)))%nat.
Proof. intros maxw mn mx st b acts s Hst l R. apply (ends l _ acts s (pipelined_shape maxw mn mx st b Hst) R). Qed.

(** While part d of iteration i runs, the folded buffer that part c computes holds all the rows
    iteration i needs, whatever the other iterations do: the fold factor of the pass is enough. *)
Theorem C67_data : forall maxw mn mx st b r factor overlap c d s i x, 0 < st -> let l := pipelined maxw mn mx st b in
  good_rows r factor overlap -> synchronized maxw b c -> synchronized maxw b d -> (c < d)%nat -> reaches l s -> busy s i d ->
  first r <= x -> low r i <= x <= top r i ->
  let fold := fold_factor factor overlap (l_workers l) in memory_after fold r c (log s) (x mod fold) = Some x.
Proof.
  intros maxw mn mx st b r f o c d s i x Hst l G C D L R B F1 F2. exact (data l _ r f o c d s i x (pipelined_shape maxw mn mx st b Hst) G C D L R B F1 F2).
Qed.

(** ** Examples. A stencil: c computes the row i + 1, d needs i - 1 .. i + 1. *)
Definition stencil : rows := Rows (-1) (fun j => Z.of_nat j - 1) (fun j => Z.of_nat j + 1).
Lemma stencil_good : good_rows stencil 3 1.
Proof. constructor; intros; cbn [stencil first low top]; lia. Qed.
Definition chain : body := Scope (Block (Call 0 true) (Block (Nested (Block (Call 1 true) (Call 7 false))) (Scope (Call 2 true)))).

(** Schedules: the steps an iteration does. *)
Fixpoint times (n : nat) (a : action) : list action := match n with O => [] | S n => a :: times n a end.

Definition chain_run : list action :=
  Start :: times 10 (Step 0) ++ Start :: times 6 (Step 1) ++ Start :: times 2 (Step 2).
Theorem C67_ex : let l := pipelined (2 ^ 31 - 1) (-3) 40 2 chain in
  l_stages l = 3%nat /\ iterations l = 22%nat /\ fold_factor 3 1 (l_workers l) = 5 /\
  (forall c, (c < 3)%nat -> synchronized (2 ^ 31 - 1) chain c) /\
  exists s, run l (init l) chain_run = Some s /\ busy s 0 2 /\ busy s 1 1 /\ busy s 2 0 /\ ~ all_done l s /\
    step l s (Step 1) <> None /\ step l s Start = None /\
    map (memory_after 5 stencil 1 (log s)) [0; 1; 2; 3; 4] = [Some 0; Some 1; None; None; Some (-1)].
Proof.
  split; [reflexivity|]. split; [vm_compute; reflexivity|]. split; [reflexivity|]. split.
  - intros c L. unfold synchronized. destruct c as [|[|[|c]]]; [| | |lia]; (eexists; eexists; split; vm_compute; reflexivity).
  - eexists. split; [vm_compute; reflexivity|].
    split; [split; cbn; intuition discriminate|]. split; [split; cbn; intuition discriminate|]. split; [split; cbn; intuition discriminate|].
    split; [intros (A & _); vm_compute in A; discriminate|]. split; [vm_compute; discriminate|]. split; vm_compute; reflexivity.
Qed.

(** If the schedule allows fewer workers than there are folded buffers and outputs, the last
    stages are not synchronized, and the fold factor is not enough: while iteration 0 still reads
    row -1, iteration 2 overwrites it. *)
Definition three : body := Block (Call 0 true) (Block (Call 1 true) (Call 2 true)).
Definition declined_run : list action :=
  Start :: times 9 (Step 0) ++ Start :: times 10 (Step 1) ++ Start :: times 6 (Step 2).
Theorem C67_declined_refuted : let l := pipelined 3 0 9 1 three in let fold := fold_factor 3 1 (l_workers l) in
  l_workers l = 2%nat /\ good_rows stencil 3 1 /\
  exists s, reaches l s /\ busy s 0 2 /\ low stencil 0 <= -1 <= top stencil 0 /\ memory_after fold stencil 1 (log s) ((-1) mod fold) <> Some (-1).
Proof.
  split; [reflexivity|]. split; [apply stencil_good|]. eexists. split; [exists declined_run; vm_compute; reflexivity|].
  split; [split; cbn; intuition discriminate|]. split; [cbn; lia|]. vm_compute. discriminate.
Qed.
(** And an iteration can read what the one before has not computed yet. *)
Definition four : body := Block (Call 0 true) (Block (Call 1 true) (Block (Call 2 true) (Call 3 true))).
Definition early_run : list action := Start :: times 9 (Step 0) ++ Start :: times 11 (Step 1).
Theorem C67_early_refuted : let l := pipelined 3 0 9 1 four in let fold := fold_factor 3 1 (l_workers l) in
  l_workers l = 2%nat /\ good_rows stencil 3 1 /\
  exists s, reaches l s /\ busy s 1 3 /\ low stencil 1 <= 1 <= top stencil 1 /\ memory_after fold stencil 2 (log s) (1 mod fold) <> Some 1 /\ ~ In (Ended 0 2) (log s).
Proof.
  split; [reflexivity|]. split; [apply stencil_good|]. eexists. split; [exists early_run; vm_compute; reflexivity|].
  split; [split; cbn; intuition discriminate|]. split; [cbn; lia|]. split; [vm_compute; discriminate|]. cbn; intuition discriminate.
Qed.

(** If the iterations need every other row, one each, the fold factor of the pass (1 for the
    first worker and 1 for each other one) is not enough with four stages: the rows 0 and 4 have the
    same place. *)
Definition strided : rows := Rows 0 (fun j => 2 * Z.of_nat j) (fun j => 2 * Z.of_nat j).
Definition strided_run : list action :=
  Start :: times 14 (Step 0) ++ Start :: times 4 (Step 1) ++ Start :: times 3 (Step 2).
Theorem C67_gaps_refuted : let l := pipelined (2 ^ 31 - 1) 0 9 1 four in let fold := fold_factor 1 1 (l_workers l) in
  l_workers l = 4%nat /\ fold = 4 /\ (forall j, low strided j = 2 * Z.of_nat j /\ top strided j = low strided j) /\ synchronized (2 ^ 31 - 1) four 0 /\ synchronized (2 ^ 31 - 1) four 3 /\
  exists s, reaches l s /\ busy s 0 3 /\ memory_after fold strided 0 (log s) (0 mod fold) = Some 4.
Proof.
  split; [reflexivity|]. split; [reflexivity|]. split; [intros j; split; reflexivity|].
  split; [eexists; eexists; split; vm_compute; reflexivity|]. split; [eexists; eexists; split; vm_compute; reflexivity|].
  eexists. split; [exists strided_run; vm_compute; reflexivity|]. split; [split; cbn; intuition discriminate|]. vm_compute. reflexivity.
Qed.

Print Assumptions C67_data.
Print Assumptions C67_in_order.
