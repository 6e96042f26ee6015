(** C57: fuse_siblings keeps what a statement does. *)
From Coq Require Import ZArith List Bool Lia.
From Verif Require Import Arith_Model Arith_Proofs Buf_Model Alloc_Model Expr_Model Expr_Spec Expr_Proofs Stmt_Model Stmt_Spec Stmt_Proofs Stmt_Props Deps_Model Deps_Spec Deps_Props StmtSubst_Spec
  VSem_Spec VExec_Proofs VSem_Props StmtSubst_Props OptSym_Model Deshadow_Spec FuseSib_Model FuseSib_Spec FuseSib_Proofs FuseSib2_Proofs.
Import ListNotations.
Open Scope Z_scope.

(** What the statement does from values, the result does. *)
Theorem C57_fuse : forall X (H : host X) call_v copy_v consts s s', plain_stmt s -> every_block fusable s -> fuse_siblings s = Val s' ->
  forall E v r, vexec X H call_v copy_v consts s E v = Val r -> vexec X H call_v copy_v consts s' E v = Val r.
Proof. intros X H call_v copy_v consts s s' P F M. exact (g_exec _ _ _ _ _ _ _ (fuser_good X H call_v copy_v consts _ s s' P F M)). Qed.
(** So the evaluator returns the same code, and leaves the outside in the same state, the same blocks allocated, and the same log. *)
Theorem C57_evaluate : forall X (H : host X) call_v copy_v consts s s' E v st z v',
  plain_stmt s -> every_block fusable s -> distinct s -> by_value s -> fuse_siblings s = Val s' ->
  calls_by_value X H call_v -> represents X consts E v st -> inv st -> vexec X H call_v copy_v consts s E v = Val (z, v') ->
  exists st1 st2, exec X H s st = Val (z, st1) /\ exec X H s' st = Val (z, st2) /\
    s_ext X st1 = s_ext X st2 /\ map snd (s_alloc X st1) = map snd (s_alloc X st2) /\ map unnamed (s_log X st1) = map unnamed (s_log X st2).
Proof.
  intros X H call_v copy_v consts s s' E v st z v' P F D V M Hc R I G. destruct (fuser_good X H call_v copy_v consts _ s s' P F M) as [_ _ _ V' D' _ G'].
  destruct (C53_by_value _ _ _ _ _ _ _ _ _ _ _ Hc (D' D) (V' V) R I (G' _ _ _ G)) as (st2 & E2 & P1 & P2 & P3). destruct (C53_by_value _ _ _ _ _ _ _ _ _ _ _ Hc D V R I G) as (st1 & E1 & O1 & O2 & O3).
  exists st1, st2. split; [exact E1|]. split; [exact E2|]. split; [congruence|]. split; congruence.
Qed.
(** It does not fail, whatever the statement. *)
Theorem C57_defined : forall s, exists s', fuse_siblings s = Val s'.
Proof. intro s. apply fuser_able, weight_size. Qed.
(** In no block of the result are two adjacent statements the same declaration, and the result depends on nothing that the statement does not depend on. *)
Theorem C57_done : forall s s', plain_stmt s -> every_block fusable s -> fuse_siblings s = Val s' -> every_block no_siblings s' /\ forall x, free_stmt x s' -> free_stmt x s.
Proof.
  intros s s' P F M. destruct (fuser_good Z v53_host v53_call (fun _ _ _ _ x => x) (fun _ => None) _ s s' P F M) as [_ _ A _ _ B _]. auto.
Qed.
(** After deshadow (C56) siblings are apart: if no declaration shadows a symbol of [D], and the statement depends only on symbols of [D], only the allocations are asked about. *)
Theorem C57_unshadowed : forall (D : nat -> Prop) s, unshadowed D s -> (forall x, free_stmt x s -> D x) ->
  every_block (adjacent (fun s t => allocates s = true -> ~ same_decl s t)) s -> every_block fusable s.
Proof. intros D s U F A. exact (unshadowed_blocks s A D U F). Qed.

(** ** Example *)
(** for 4 = 0..2, 4 workers: { crop 1 = 0 to [4, 7]: call(0; 1); crop 2 = 0 to [4, 7]: { slice 5 = 2 at 5: call(2; 5); slice 6 = 2 at 5: call(2; 6) }; crop 1 = 0 to [4, 7]: call(0; 1); crop 3 = 0 to [4, 8]: call(0; 3) } *)
Definition s57_crop (x : nat) (hi : Z) (b : stmt) : stmt := SCropDim x 0 0 (v_ 4, EConst hi) b.
Definition s57_prog : stmt :=
  SLoop 4 (EConst 4) (EConst 0, EConst 2) (EConst 1) (SBlock [
    s57_crop 1 7 (SCall 5 [0%nat] [1%nat] []);
    s57_crop 2 7 (SBlock [SSliceDim 5 2 1 (EConst 3) (SCall 5 [2%nat] [5%nat] []); SSliceDim 6 2 1 (EConst 3) (SCall 5 [2%nat] [6%nat] [v_ 4])]);
    s57_crop 1 7 (SCall 5 [0%nat] [1%nat] [EVar 1 f_max 0]);
    s57_crop 3 8 (SCall 5 [0%nat] [3%nat] [])]).
Definition s57_out : stmt :=
  SLoop 4 (EConst 4) (EConst 0, EConst 2) (EConst 1) (SBlock [
    s57_crop 1 7 (SBlock [
      SCall 5 [0%nat] [1%nat] [];
      SClone 2 1 (SSliceDim 5 2 1 (EConst 3) (SBlock [SCall 5 [2%nat] [5%nat] []; SClone 6 5 (SCall 5 [2%nat] [6%nat] [v_ 4])]));
      SClone 1 1 (SCall 5 [0%nat] [1%nat] [EVar 1 f_max 0])]);
    s57_crop 3 8 (SCall 5 [0%nat] [3%nat] [])]).
Example C57_ex : plain_stmt s57_prog /\ unshadowed (fun x => x = 0%nat) s57_prog /\ every_block fusable s57_prog /\ distinct s57_prog /\ by_value s57_prog /\ fuse_siblings s57_prog = Val s57_out /\
  calls_by_value Z v53_host v53_call /\ represents Z (fun _ => None) v53_env v53_start ex_state /\ inv ex_state /\ exists v', s54_v s57_prog = Val (0, v') /\ v_ext Z v' <> 0.
Proof.
  assert (U : unshadowed (fun x => x = 0%nat) s57_prog) by (cbn; unfold OptSym_Spec.also; repeat split; auto; repeat constructor; lia).
  split; [cbn; repeat split; auto; lia|]. split; [exact U|]. split; [|split; [|split; [|split; [vm_compute; reflexivity|split; [exact v53_calls|split; [exact (v53_rep 1 ltac:(lia))|split; [exact ex_inv|]]]]]]].
  - apply (C57_unshadowed _ _ U).
    + intros x Fx. apply C17_find_dependencies_stmt in Fx. vm_compute in Fx. destruct Fx as [Fx|[]]. auto.
    + cbn. repeat split; discriminate.
  - cbn. repeat split; auto; repeat constructor; cbn; auto.
  - cbn. repeat split; auto; repeat constructor; cbn; auto.
  - eexists. split; [vm_compute; reflexivity|vm_compute; discriminate].
Qed.

(** ** Findings *)
(** the result for a statement, and what the two return *)
Definition s57_findings (s s' : stmt) : Prop := fuse_siblings s = Val s' /\ s54_run s <> None /\ s54_run s' <> None /\ s54_run s' <> s54_run s.
(** Finding: the body of the second declaration is put in the scope of the first: if it uses an outer symbol of that name, it is captured. *)
Theorem C57_capture_refuted :
  let two A B := SCropDim 1 0 0 (EConst 5, EUndef) (SBlock [SCropDim 1 0 0 (EConst 2, EConst 7) A; SCropDim 2 0 0 (EConst 2, EConst 7) B]) in
  let A := SCall 5 [] [1%nat] [] in
  s57_findings (two A A) (SCropDim 1 0 0 (EConst 5, EUndef) (SCropDim 1 0 0 (EConst 2, EConst 7) (SBlock [A; SClone 2 1 A]))).
Proof. cbv zeta. split; [vm_compute; reflexivity|]. repeat split; vm_compute; discriminate. Qed.
(** Finding: a declaration in place hides the buffer from the body of the second. *)
Theorem C57_in_place_refuted :
  let A := SCall 5 [] [0%nat] [] in
  s57_findings (SBlock [SCropDim 0 0 0 (EConst 2, EConst 7) A; SCropDim 1 0 0 (EConst 2, EConst 7) A]) (SCropDim 0 0 0 (EConst 2, EConst 7) (SBlock [A; SClone 1 0 A])).
Proof. cbv zeta. split; [vm_compute; reflexivity|]. repeat split; vm_compute; discriminate. Qed.
(** Finding: an in-place transpose that just truncates keeps the dimensions that are broadcasts; one that is not in place drops them.  Fused they are one. *)
Theorem C57_truncate_refuted :
  let prog b := SMake 1 (EConst 64) (EConst 4) [DimE (EConst 0, EConst 9) (EConst 4) EUndef; DimE (EConst 0, EConst 0) (EConst 0) EUndef; DimE (EConst 0, EConst 4) (EConst 40) EUndef] b in
  let A := SCheck (EConst 1) in let B := SCheck (EBin Equal (EVar 2 f_rank 0) (EConst 1)) in
  s57_findings (prog (SBlock [STranspose 1 1 [0; 1]%nat A; STranspose 2 1 [0; 1]%nat B])) (prog (STranspose 1 1 [0; 1]%nat (SBlock [A; SClone 2 1 B]))).
Proof. cbv zeta. split; [vm_compute; reflexivity|]. repeat split; vm_compute; discriminate. Qed.
(** Finding (by design): two allocations become one, so the second body is given the memory that the first has used, and there is one allocation less. *)
Theorem C57_allocations_refuted :
  let al x b := SAllocate x heap (EConst 4) ex_dims b in let A x := SCall 5 [] [x] [] in
  let allocs s := match exec Z v53_host s ex_state with Val (_, st) => length (filter (fun e => match e with EvAlloc _ _ => true | _ => false end) (s_log Z st)) | UB => O end in
  let s := SBlock [al 1%nat (A 1%nat); al 2%nat (A 2%nat)] in let s' := al 1%nat (SBlock [A 1%nat; SClone 2 1 (A 2%nat)]) in
  fuse_siblings s = Val s' /\ allocs s = 2%nat /\ allocs s' = 1%nat.
Proof. cbv zeta. split; [vm_compute; reflexivity|]. split; vm_compute; reflexivity. Qed.
