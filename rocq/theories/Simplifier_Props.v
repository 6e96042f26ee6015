(** C48: the simplifier on whole expressions preserves values, its bounds enclose them, and
    what it proves is true.

    The theorems are about runs with checks (SimplifierGuard_Model.v).  A run with checks is
    a run of the code, with the same result (the first conclusion of each theorem): the checks
    only decide for which runs the other conclusion is claimed.  [C48_checks] gives checks
    that can be computed; they accept the runs in which constants stay below 2^30 and that do
    not meet one of the bugs shown below. *)
From Coq Require Import ZArith List Bool Lia.
From Verif Require Import Arith_Model Arith_Spec Arith_Proofs ModRem_Model ModRem_Proofs Buf_Model Alloc_Model Expr_Model Expr_Spec Expr_Proofs Expr_Props Match_Model
  Rewrite_Model Simplify_Model Simplify_Proofs Const_Model Interval_Model Interval_Spec Interval_Props BoundsOf_Model BoundsOf_Spec BoundsOf_Proofs
  Knowledge_Model Knowledge_Spec Simplifier_Model Simplifier_Spec Simplifier_Proofs SimplifierMono_Proofs SimplifierGuard_Model SimplifierGuard_Spec
  SimplifierGuard_Proofs SimplifierSound_Proofs SimplifierApi_Proofs SimplifierCheck_Model SimplifierCheck_Proofs.
Import ListNotations.
Open Scope Z_scope.

(** What is assumed of the buffers and the functions: index_t values, semaphore intrinsics
    that return 1 (evaluate.cc:232, 249, 272), element sizes that are not negative and ranks
    that fit in an int. *)
Record sensible (W : world) : Prop := {
  se_world : world_ok W;
  se_semaphores : semaphores_return_one W;
  se_elem_size : buffers_sane W;
  se_rank : forall p b, w_buf W p = Some b -> Z.of_nat (rank b) < 2 ^ 31 }.

Section C48.
  Variable W : world.
  Variable r : env.
  Variable same : path -> expr -> expr -> bool.
  Variable reuse : path -> expr -> expr -> bool.
  Variable reuse_select : path -> bool.
  Variable bounds : nat -> option interval.
  Variable alignment : nat -> option modrem.
  Variable fuel : nat.
  Variable G : guards.
  Hypothesis HW : sensible W.
  Hypothesis GS : guards_sound W r reuse reuse_select G.
  Hypothesis given : given_ok W r bounds alignment.
  Notation M := (meaning W r).
  (** the code, and the code with checks *)
  Notation code := (code_prims W same reuse reuse_select).
  Notation checked := (guarded_prims G W same reuse reuse_select).

  Let le_code := guarded_code G W same reuse reuse_select.
  Let OK : prims_sound W r checked := guarded_sound W r same reuse reuse_select G GS (se_world W HW) (se_semaphores W HW) (se_rank W HW).
  Let sane := se_elem_size W HW.
  Let run p e e' i z := run_ok W r checked OK sane bounds alignment given fuel p e e' i z.

  Theorem C48_simplify e e' z : simplify checked bounds alignment fuel e = Val e' -> M e = Fin z ->
    simplify code bounds alignment fuel e = Val e' /\ M e' = Fin z.
  Proof.
    intros H E. apply bind_inv in H as ((y & i) & H & Q). injection Q as <-. split.
    - unfold simplify. rewrite (le_mutate _ _ le_code _ _ _ _ _ H). reflexivity.
    - exact (proj1 (run _ _ _ _ _ H E)).
  Qed.

  Theorem C48_bounds_of e i z : bounds_of checked bounds alignment fuel e = Val i -> M e = Fin z ->
    bounds_of code bounds alignment fuel e = Val i /\ encloses W r i z.
  Proof.
    intros H E. apply bind_inv in H as ((y & j) & H & Q). injection Q as <-. split.
    - unfold bounds_of. rewrite (le_mutate _ _ le_code _ _ _ _ _ H). reflexivity.
    - exact (proj1 (proj2 (run _ _ _ _ _ H E))).
  Qed.

  Let mut_ok p st e e' i z := mutate_ok W r checked OK sane fuel p st e e' i z.
  Theorem C48_prove_true e z : api_prove_true checked bounds alignment fuel e = Val true -> M e = Fin z ->
    api_prove_true code bounds alignment fuel e = Val true /\ z <> 0.
  Proof.
    intros H E. split.
    - exact (le_prove_true _ _ le_code _ _ (le_mutate _ _ le_code fuel) _ _ _ _ H).
    - exact (prove_true_ok W r checked OK _ mut_ok _ _ _ _ (initial_ok W r _ _ given) H E).
  Qed.
  Theorem C48_prove_false e z : api_prove_false checked bounds alignment fuel e = Val true -> M e = Fin z ->
    api_prove_false code bounds alignment fuel e = Val true /\ z = 0.
  Proof.
    intros H E. split.
    - exact (le_prove_false _ _ le_code _ _ (le_mutate _ _ le_code fuel) _ _ _ _ H).
    - exact (prove_false_ok W r checked OK _ mut_ok _ _ _ _ (initial_ok W r _ _ given) H E).
  Qed.
  Theorem C48_attempt_to_prove e z q : api_attempt_to_prove checked bounds alignment fuel e = Val (Some q) -> M e = Fin z ->
    api_attempt_to_prove code bounds alignment fuel e = Val (Some q) /\ (if q then z <> 0 else z = 0).
  Proof.
    intros H E. split.
    - exact (le_attempt_to_prove _ _ le_code _ _ (le_mutate _ _ le_code fuel) _ _ _ _ H).
    - exact (attempt_to_prove_ok W r checked OK _ mut_ok _ _ _ _ _ (initial_ok W r _ _ given) H E).
  Qed.

  (** *** intervals *)
  Lemma le_interval x : le (mutate_interval checked bounds alignment fuel x) (mutate_interval code bounds alignment fuel x).
  Proof.
    unfold mutate_interval. destruct (deep_is_point x).
    - apply le_bind; [apply le_mutate, le_code|]. intros y. apply le_refl.
    - apply le_bind; [apply le_mutate, le_code|]. intros (lo & li). apply le_bind; [apply le_mutate, le_code|]. intros y. apply le_refl.
  Qed.
  (** simplify of an interval keeps the set of values *)
  Theorem C48_simplify_interval x i a b : interval_ok x -> simplify_interval checked bounds alignment fuel x = Val i -> M (i_min x) = Fin a -> M (i_max x) = Fin b ->
    simplify_interval code bounds alignment fuel x = Val i /\ forall v, encloses W r i v <-> a <= v <= b.
  Proof.
    intros K H A B. apply bind_inv in H as (((j & li) & hi) & H & Q). injection Q as <-. split.
    - unfold simplify_interval. rewrite (le_interval x _ H). reflexivity.
    - exact (proj1 (interval_run_ok W r checked OK sane bounds alignment given fuel x j li hi a b K H A B)).
  Qed.
  (** bounds_of an interval has all values of the interval *)
  Theorem C48_bounds_of_interval x i a b v : interval_ok x -> bounds_of_interval checked bounds alignment fuel x = Val i -> M (i_min x) = Fin a -> M (i_max x) = Fin b ->
    a <= v <= b -> bounds_of_interval code bounds alignment fuel x = Val i /\ encloses W r i v.
  Proof.
    intros K H A B V. unfold bounds_of_interval in *. destruct (deep_is_point x) eqn:D.
    - pose proof (deep_point W r x a b K A B D) as E. assert (v = a) as -> by lia. apply bind_inv in H as ((y & j) & H & Q). injection Q as <-. split.
      + rewrite (le_mutate _ _ le_code _ _ _ _ _ H). reflexivity.
      + assert (G0 : given_ok W r bounds (fun _ => None)) by (split; [exact (proj1 given)|intros s m X; discriminate X]).
        exact (proj1 (proj2 (mutate_ok W r checked OK sane fuel _ _ _ _ _ _ (initial_ok W r _ _ G0) H A))).
    - apply bind_inv in H as (((j & li) & hi) & H & Q). injection Q as <-. split.
      + rewrite (le_interval x _ H). reflexivity.
      + destruct (interval_run_ok W r checked OK sane bounds alignment given fuel x j li hi a b K H A B) as (_ & (L & _) & (_ & U)).
        unfold encloses in *. cbn [i_bounds i_min i_max]. split.
        * destruct (M (i_min (x_bounds li))); cbn [lower] in *; try tauto; lia.
        * destruct (M (i_max (x_bounds hi))); cbn [upper] in *; try tauto; lia.
  Qed.
End C48.

(** The checks of SimplifierCheck_Model.v are enough. *)
Theorem C48_checks W r reuse reuse_select : guards_sound W r reuse reuse_select (checks W r reuse reuse_select).
Proof. exact (checks_sound W r reuse reuse_select). Qed.

(** ** Examples *)
Definition c48_v (n : nat) := EVar n f_none 0.
(** the third variable is a buffer *)
Definition c48_buf : buf := Buf (Some 1000) 1 [Dim 0 9 1 unfolded].
Definition c48_world : world := World (fun p => if p =? 50 then Some c48_buf else None) (fun _ _ => 0) (fun _ _ => 1).
Lemma c48_sensible : sensible c48_world.
Proof.
  split.
  - split; cbn [c48_world w_user w_intrinsic w_buf]; try (intros; unfold in64; cbn; lia); intros p b.
    + intros f d Hp. destruct (p =? 50); [|discriminate]. intros E. injection E as <-. unfold in64 in *. cbn in Hp.
      assert (N : dim_int c48_buf d = Dim 0 9 1 unfolded \/ dim_int c48_buf d = broadcast).
      { unfold dim_int. destruct (d <? 0); [auto|]. destruct (Z.to_nat d) as [|n]; [auto|]. right. unfold dim_at. destruct n; reflexivity. }
      assert (V : d_min (dim_int c48_buf d) = 0 /\ (d_max (dim_int c48_buf d) = 9 \/ d_max (dim_int c48_buf d) = 0) /\
        (d_stride (dim_int c48_buf d) = 1 \/ d_stride (dim_int c48_buf d) = 0) /\ (d_fold (dim_int c48_buf d) = unfolded \/ d_fold (dim_int c48_buf d) = 0)).
      { destruct N as [-> | ->]; cbn [d_min d_max d_stride d_fold broadcast]; auto. }
      destruct V as (V1 & V2 & V3 & V4). destruct f; cbn [field_value]; [exact Hp|vm_compute; split; discriminate|vm_compute; split; discriminate| |rewrite V1; vm_compute; split; discriminate| | |].
      * replace (Alloc_Model.size_bytes c48_buf) with 10 by (vm_compute; reflexivity). vm_compute; split; discriminate.
      * destruct V2 as [-> | ->]; vm_compute; split; discriminate.
      * destruct V3 as [-> | ->]; vm_compute; split; discriminate.
      * destruct V4 as [-> | ->]; vm_compute; split; discriminate.
    + intros l. destruct (p =? 50); [|discriminate]. intros E. injection E as <-. unfold in64, buffer_at. cbn [c48_buf base dims].
      assert (N : forall q args, buffer_at_loop q [] args = q) by (intros q [|[?|] ?]; reflexivity).
      destruct l as [|[x|] l]; cbn [buffer_at_loop]; rewrite ?N; [vm_compute; split; discriminate| |vm_compute; split; discriminate].
      destruct (d_contains (Dim 0 9 1 unfolded) x) eqn:C; [|vm_compute; split; discriminate].
      unfold d_contains, d_contains2 in C. cbn [d_stride d_min d_max] in C. change (1 =? 0) with false in C. cbn [orb] in C.
      unfold d_offset. cbn [d_stride d_fold d_min ptr_value]. rewrite Z.eqb_refl, orb_true_r. change (imin 64) with (- 2 ^ 63). change (imax 64) with (2 ^ 63 - 1). apply andb_true_iff in C as (A & B). apply Z.leb_le in A, B. lia.
  - intros f l _. reflexivity.
  - intros p b. cbn. destruct (p =? 50); [|discriminate]. intros E. injection E as <-. vm_compute. discriminate.
  - intros p b. cbn. destruct (p =? 50); [|discriminate]. intros E. injection E as <-. reflexivity.
Qed.
Definition c48_r : env := fun s => Fin (match s with 0%nat => 12 | 1%nat => 7 | _ => 50 end).
Definition c48_never (p : path) (a b : expr) := false.
Definition c48_one (p : path) := false.
Definition c48_code := code_prims c48_world (fun _ => match_expr) c48_never c48_one.
Definition c48_checked := guarded_prims (checks c48_world c48_r c48_never c48_one) c48_world (fun _ => match_expr) c48_never c48_one.
(** x (= 12) is known to be between 0 and 50 and to be a multiple of 4 *)
Definition c48_bounds (s : nat) := match s with 0%nat => Some (i_bounds (EConst 0) (EConst 50)) | _ => None end.
Definition c48_align (s : nat) := match s with 0%nat => Some (MR 4 0) | _ => None end.
(** max((x + 3)/4*4, x - 5) + select(y < 9, min(y, 10), buffer_min(b, 0)) *)
Definition c48_e : expr :=
  EBin Add (EBin Max (EBin Mul (EBin Div (EBin Add (c48_v 0) (EConst 3)) (EConst 4)) (EConst 4)) (EBin Add (c48_v 0) (EConst (-5))))
    (ESelect (EBin Less (c48_v 1) (EConst 9)) (EBin Min (c48_v 1) (EConst 10)) (EVar 2 f_min 0)).
Definition c48_e' : expr := EBin Add (c48_v 0) (ESelect (EBin Less (c48_v 1) (EConst 9)) (c48_v 1) (EVar 2 f_min 0)).
Lemma C48_ex : sensible c48_world /\ simplify c48_checked c48_bounds c48_align 40 c48_e = Val c48_e' /\ meaning c48_world c48_r c48_e = Fin 19 /\
  given_ok c48_world c48_r c48_bounds c48_align /\
  api_prove_true c48_checked c48_bounds c48_align 40 (EBin LessEqual (EBin Min (EBin Mul (c48_v 0) (EConst 2)) (c48_v 1)) (EConst 100)) = Val true /\
  api_prove_false c48_checked c48_bounds c48_align 40 (EBin Less (c48_v 0) (EConst 0)) = Val true.
Proof.
  split; [exact c48_sensible|]. split; [vm_compute; reflexivity|]. split; [reflexivity|]. split; [|split; vm_compute; reflexivity]. split.
  - intros [|s] i H; [|discriminate H]. injection H as <-. split; [intros K; discriminate K|]. intros z Z0. injection Z0 as <-. split; intros _; cbn; lia.
  - intros [|s] m H; [|discriminate H]. injection H as <-. split; [split; vm_compute; split; discriminate|]. split; [exact (red_zero 4)|].
    intros z Z0. injection Z0 as <-. exists 3. reflexivity.
Qed.

(** ** Without the checks, values change *)
Definition c48_none {A} (s : nat) : option A := None.
(** From a < max(y, 5) it is learned that a < 5. *)
Theorem C48_max_refuted : exists e e', simplify c48_code c48_none c48_none 40 e = Val e' /\
  meaning c48_world c48_r e = Fin 6 /\ meaning c48_world c48_r e' = Fin 12.
Proof.
  exists (ESelect (EBin Less (c48_v 0) (EBin Max (c48_v 2) (EConst 5))) (EBin Min (c48_v 0) (EConst 6)) (EConst 3)).
  exists (ESelect (EBin Less (c48_v 0) (EBin Max (c48_v 2) (EConst 5))) (c48_v 0) (EConst 3)). vm_compute. auto.
Qed.
(** From a condition x + y it is learned that x + y == 1. *)
Theorem C48_condition_refuted : exists e e', simplify c48_code c48_none c48_none 40 e = Val e' /\
  meaning c48_world c48_r e = Fin 684 /\ meaning c48_world c48_r e' = Fin 12.
Proof.
  exists (ESelect (EBin Add (c48_v 1) (c48_v 2)) (EBin Mul (EBin Add (c48_v 1) (c48_v 2)) (c48_v 0)) (EConst 3)).
  exists (ESelect (EBin Add (c48_v 1) (c48_v 2)) (c48_v 0) (EConst 3)). vm_compute. auto.
Qed.
