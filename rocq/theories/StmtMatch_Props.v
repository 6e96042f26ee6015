(** C50: two statements match exactly when they are the same up to the number of workers, the place of allocations and the
    kind of lets; compare is a total order of the classes of matching statements; canonicalize_nodes gives a statement that
    matches the one it is given, and the same one if no two of its statements differ only in what is not compared. *)
From Coq Require Import ZArith List Bool Lia.
From Verif Require Import Arith_Model Buf_Model Alloc_Model Expr_Model Expr_Proofs Match_Model Match_Proofs Stmt_Model Stmt_Proofs
  Stmt_Props StmtMatch_Model StmtMatch_Spec StmtMatch_Proofs.
Import ListNotations.
Open Scope Z_scope.

Theorem C50_match : forall a b, match_stmt a b = true <-> forget a = forget b.
Proof. exact match_stmt_eq. Qed.
(** compare gives one of -1, 0 and 1, 0 for the statements that match *)
Theorem C50_compare_match : forall a b, compare_stmt a b = Eq <-> forget a = forget b.
Proof. exact compare_stmt_eq. Qed.
Theorem C50_compare_opposite : forall a b, compare_stmt b a = CompOpp (compare_stmt a b).
Proof. intros a b. rewrite !compare_stmt_code. apply lexZ_opp. Qed.
Theorem C50_compare_transitive : forall a b c, compare_stmt a b = Lt -> compare_stmt b c = Lt -> compare_stmt a c = Lt.
Proof. intros a b c. rewrite !compare_stmt_code. apply lexZ_trans. Qed.
(** what matches is not told apart by comparing it with something else *)
Theorem C50_compare_congruent : forall a b c, forget a = forget b -> compare_stmt a c = compare_stmt b c.
Proof. intros a b c H. rewrite !compare_stmt_code, <- (scode_forget a), <- (scode_forget b), H. reflexivity. Qed.
(** statements of different kinds do not match; an undefined one is before all others *)
Theorem C50_compare_undefined : forall s, s <> SUndef -> compare_stmt SUndef s = Lt.
Proof. intros s H. destruct s; [contradiction|..]; reflexivity. Qed.

Theorem C50_canonicalize_expr : forall e, made e -> canonicalize_expr e = e.
Proof. exact canon_expr_same. Qed.
Theorem C50_canonicalize : forall s, built s -> match_stmt (canonicalize_stmt s) s = true.
Proof. intros s B. apply match_stmt_eq. apply canon_forget. exact B. Qed.
Theorem C50_canonicalize_same : forall s, built s -> told_apart s -> canonicalize_stmt s = s.
Proof. exact canon_exact. Qed.

(** A statement that meets the hypotheses, with an expression and a statement that occur twice. *)
Definition c50_e := EBin Add (v_ 1) (EConst 2).
Definition c50_body := SCropDim 0 0 0 (c50_e, c50_e) (SCall 3 [0%nat] [0%nat] [c50_e]).
Definition c50_s := SBlock [SLoop 1 (EConst 1) (EConst 0, c50_e) (EConst 1) c50_body;
                            SAllocate 2 heap (EConst 4) ex_dims (SBlock [c50_body; SCheck (EBin Less (v_ 1) c50_e)])].
Example C50_ex : built c50_s /\ told_apart c50_s /\ compare_stmt c50_s (SBlock [c50_body; c50_body]) = Lt /\ canonicalize_stmt c50_s = c50_s.
Proof.
  assert (B : built c50_s).
  { cbn. unfold made_interval, made_dim. cbn. repeat split; repeat constructor; cbn; unfold made_interval; cbn; repeat split; intros; lia. }
  assert (T : told_apart c50_s).
  { intros x y Hx Hy.
    repeat match goal with
    | H : within ?x ?s |- _ => progress unfold c50_s, c50_body in H
    | H : within _ (_ _) |- _ => inversion H; subst; clear H
    | H : within _ (_ _ _) |- _ => inversion H; subst; clear H
    | H : In _ (_ :: _) |- _ => destruct H as [<-|H]
    | H : In _ [] |- _ => destruct H
    end; cbn [forget map]; intro E; try discriminate E; try reflexivity. }
  split; [exact B|]. split; [exact T|]. split; [vm_compute; reflexivity|exact (canon_exact _ B T)].
Qed.

(** Finding: the place of an allocation is not compared (substitute.cc:303-311), so canonicalize_nodes turns the second of
    two allocations that differ in it into the first: a program that allocates on the stack then allocates on the heap. *)
Definition c50_alloc (w : storage) := SAllocate 2 w (EConst 4) ex_dims (SCheck (EConst 1)).
Theorem C50_storage_refuted : exists s, built s /\ canonicalize_stmt s <> s /\
  (exists z st, exec Z ex_host s ex_state = Val (z, st) /\ s_log Z st = [EvAlloc 2 1000; EvFree 2 1000]) /\
  (exists z st, exec Z ex_host (canonicalize_stmt s) ex_state = Val (z, st) /\
     s_log Z st = [EvAlloc 2 1000; EvFree 2 1000; EvAlloc 2 2000; EvFree 2 2000]).
Proof.
  exists (SBlock [c50_alloc heap; c50_alloc stack]). split; [|split; [|split]].
  - cbn. unfold made_interval, made_dim. cbn. repeat split; repeat constructor; cbn; unfold made_interval; cbn; repeat split; intros; lia.
  - vm_compute. intro H. discriminate H.
  - do 2 eexists. split; [vm_compute; reflexivity|vm_compute; reflexivity].
  - do 2 eexists. split; [vm_compute; reflexivity|vm_compute; reflexivity].
Qed.
(** The number of workers is not compared either: a loop that was to run serially becomes parallel. *)
Definition c50_loop (w : expr) := SLoop 2 w (EConst 0, EConst 9) (EConst 1) (SCall 3 [] [] []).
Theorem C50_workers_refuted : exists a b, a <> b /\ canonicalize_stmt (SBlock [a; b]) = SBlock [a; a] /\ built (SBlock [a; b]) /\
  a = c50_loop (ECall i_positive_infinity None []) /\ b = c50_loop (EConst 1).
Proof.
  do 2 eexists. split; [|split; [|split; [|split; reflexivity]]].
  - intro H. discriminate H.
  - vm_compute. reflexivity.
  - cbn. unfold made_interval. cbn. repeat split; repeat constructor; cbn; tauto.
Qed.
