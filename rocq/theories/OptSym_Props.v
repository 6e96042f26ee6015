(** C55: optimize_symbols keeps what a statement does. *)
From Coq Require Import ZArith List Bool Lia.
From Verif Require Import Arith_Model Arith_Proofs Buf_Model Alloc_Model Expr_Model Expr_Spec Expr_Proofs Stmt_Model Stmt_Spec Stmt_Proofs Stmt_Props Deps_Model Deps_Spec Deps_Props Subst_Spec StmtSubst_Model StmtSubst_Spec
  VSem_Spec VExec_Proofs VRef_Proofs VSem_Props StmtSubst3_Proofs StmtSubst_Props OptSym_Model OptSym_Spec OptSym_Proofs OptSym2_Proofs.
Import ListNotations.
Open Scope Z_scope.

(** [B]: the buffers that the statement declares; [P]: the symbols in scope around it *)
Record optimizable (B P : nat -> Prop) (s : stmt) : Prop := {
  op_plain : plain_stmt s;
  op_fresh : fresh_decls B P s;
  op_free : forall y, free_stmt y s -> P y;
  op_lets : every_expr (lets_out B) s;
  op_neat : every_expr neat s;
  op_heads : every_expr plain_heads s }.
(** a number of workers that is proved to be serial is at most one *)
Definition serial_sound (X : Type) (H : host X) (proves_serial : expr -> bool) : Prop :=
  forall w, proves_serial w = true -> forall E k, veval X H E w = Val k -> k <= 1.

Lemma optimizable_sound B P s : optimizable B P s -> distinct s -> by_value s -> sound B P s.
Proof.
  intros [O1 O2 O3 O4 O5 O6] D V. split; auto. exact (every_and _ _ s O4 (every_and _ _ s O5 O6)).
Qed.

(** It does not fail, and what the statement does from values, the result does. *)
Theorem C55_optimize : forall X (H : host X) call_v copy_v consts proves B P s,
  optimizable B P s -> distinct s -> by_value s -> serial_sound X H proves ->
  exists s', optimize_symbols proves s = Val s' /\
    forall E v r, vexec X H call_v copy_v consts s E v = Val r -> vexec X H call_v copy_v consts s' E v = Val r.
Proof.
  intros X H call_v copy_v consts proves B P s O D V S. destruct (optimize_ok X H call_v copy_v consts B proves S P s (optimizable_sound B P s O D V)) as (s' & Q & _ & _ & R). eauto.
Qed.
(** So the evaluator returns the same code, and leaves the outside in the same state, the same blocks allocated, and the same log. *)
Theorem C55_evaluate : forall X (H : host X) call_v copy_v consts proves B P s s' E v st z v',
  optimizable B P s -> distinct s -> by_value s -> serial_sound X H proves -> optimize_symbols proves s = Val s' ->
  calls_by_value X H call_v -> represents X consts E v st -> inv st -> vexec X H call_v copy_v consts s E v = Val (z, v') ->
  exists st1 st2, exec X H s st = Val (z, st1) /\ exec X H s' st = Val (z, st2) /\
    s_ext X st1 = s_ext X st2 /\ map snd (s_alloc X st1) = map snd (s_alloc X st2) /\ map unnamed (s_log X st1) = map unnamed (s_log X st2).
Proof.
  intros X H call_v copy_v consts proves B P s s' E v st z v' O D V S M Hc R I G. destruct (optimize_ok X H call_v copy_v consts B proves S P s (optimizable_sound B P s O D V)) as (s2 & Q & D' & V' & R').
  rewrite M in Q. injection Q as <-. specialize (R' _ _ _ G).
  destruct (C53_by_value _ _ _ _ _ _ _ _ _ _ _ Hc D' V' R I R') as (st2 & E2 & P1 & P2 & P3). destruct (C53_by_value _ _ _ _ _ _ _ _ _ _ _ Hc D V R I G) as (st1 & E1 & O1 & O2 & O3).
  exists st1, st2. split; [exact E1|]. split; [exact E2|]. split; [congruence|]. split; congruence.
Qed.

(** ** Example *)
(** allocate 1: crop 2 = 1 to [2, 7] in dimension 0: { slice 3 = 2 at 1 in dimension 1: call(0; 3); for 4 = 0..2, 4 workers: crop 5 = 2 to [4 + 2, 4 + 2]: crop 6 = 5 to [0, 3] in dimension 1: call(0; 6) } *)
Definition s55_prog : stmt :=
  SAllocate 1 heap (EConst 4) ex_dims
    (SCropDim 2 1 0 (EConst 2, EBin Sub (EVar 1 f_max 0) (EConst 2)) (SBlock [
       SSliceDim 3 2 0 (EConst 3) (SCall 5 [0%nat] [3%nat] [EVar 2 f_min 0]);
       SSliceDim 3 2 0 (EConst 3) (SCall 5 [0%nat] [3%nat] []);
       SLoop 4 (EConst 4) (EConst 0, EConst 2) (EConst 1)
         (SCropDim 5 2 0 (EBin Add (v_ 4) (EConst 2), EBin Add (v_ 4) (EConst 2)) (SCropDim 6 5 0 (EUndef, EBin Add (v_ 4) (EConst 2)) (SCall 5 [0%nat] [6%nat] [v_ 4])))])).
Definition s55_proves (w : expr) : bool := match w with EConst 1 => true | _ => false end.
Definition s55_B (x : nat) : Prop := In x [1; 2; 3; 5; 6]%nat.
Definition s55_out : stmt :=
  SAllocate 1 heap (EConst 4) ex_dims
    (SCropDim 1 1 0 (EConst 2, EBin Sub (EVar 1 f_max 0) (EConst 2)) (SBlock [
       SSliceDim 3 1 0 (EConst 3) (SCall 5 [0%nat] [3%nat] [EVar 1 f_min 0]);
       SSliceDim 1 1 0 (EConst 3) (SCall 5 [0%nat] [1%nat] []);
       SLoop 4 (EConst 4) (EConst 0, EConst 2) (EConst 1)
         (SLet [(0%nat, v_ 0); (1%nat, v_ 1); (4%nat, v_ 4)]
           (SCropDim 5 1 0 (EBin Add (v_ 4) (EConst 2), EBin Add (v_ 4) (EConst 2)) (SCropDim 5 5 0 (EUndef, EBin Add (v_ 4) (EConst 2)) (SCall 5 [0%nat] [5%nat] [v_ 4]))) true)])).
Example C55_ex : optimizable s55_B (fun x => x = 0%nat) s55_prog /\ distinct s55_prog /\ by_value s55_prog /\ serial_sound Z v53_host s55_proves /\
  optimize_symbols s55_proves s55_prog = Val s55_out /\ calls_by_value Z v53_host v53_call /\ represents Z (fun _ => None) v53_env v53_start ex_state /\ inv ex_state /\
  exists v', s54_v s55_prog = Val (0, v') /\ v_ext Z v' <> 0.
Proof.
  split; [|split; [|split; [|split; [|split; [vm_compute; reflexivity|split; [exact v53_calls|split; [exact (v53_rep 1 ltac:(lia))|split; [exact ex_inv|]]]]]]]].
  - constructor.
    + cbn. repeat split; auto; lia.
    + cbn. unfold also, s55_B. cbn. repeat split; try lia; try (intros y Hy (ro & []); fail).
    + intros y Fy. apply C17_find_dependencies_stmt in Fy. vm_compute in Fy. destruct Fy as [Fy|[]]. auto.
    + cbn. repeat split; auto; repeat constructor; auto.
    + cbn. repeat split; auto; repeat constructor; auto.
    + cbn. repeat split; auto; repeat constructor; auto.
  - cbn. repeat split; auto; repeat constructor; cbn; auto.
  - cbn. repeat split; auto; repeat constructor; cbn; auto.
  - intros w Q E k G. destruct w as [| | | | | | |c]; try discriminate. cbn in Q, G. injection G as <-. destruct c as [|[]|]; try discriminate.
  - eexists. split; [vm_compute; reflexivity|vm_compute; discriminate].
Qed.

(** ** Findings *)
(** the result for a statement, and what the two return *)
Definition s55_findings (s s' : stmt) : Prop := optimize_symbols s55_proves s = Val s' /\ s54_run s <> None /\ s54_run s' <> s54_run s.
(** Finding: a transpose that only truncates leaves the rank of the buffer it makes to the length of the list; done in place it needs the buffer to have that rank.  (The dimensions that are missing
    are made for the one, and are outside the array for the other.) *)
Theorem C55_truncate_refuted :
  let prog s := SCropDim 1 0 0 (EConst 2, EUndef) (STranspose s 1 [0; 1; 2]%nat (SCall 5 [] [s] [])) in
  s55_findings (prog 2%nat) (prog 1%nat).
Proof. cbv zeta. split; [vm_compute; reflexivity|]. split; vm_compute; discriminate. Qed.
(** Finding: in place, the bounds of the later dimensions of a crop_buffer see the dimensions that were already cropped. *)
Theorem C55_crop_refuted :
  let prog s := SCropDim 1 0 0 (EUndef, EUndef) (SCropBuffer s 1 [(EConst 2, EUndef); (EVar 1 f_min 0, EUndef)] (SCheck (EBin Equal (EVar s f_min 1) (EConst 0)))) in
  s55_findings (prog 2%nat) (prog 1%nat).
Proof. cbv zeta. split; [vm_compute; reflexivity|]. split; vm_compute; discriminate. Qed.
(** Finding: another name for the buffer sees what is done in place. *)
Theorem C55_alias_refuted :
  let prog s := SCropDim 1 0 0 (EUndef, EUndef) (SLet [(3%nat, v_ 1)] (SCropDim s 1 0 (EConst 2, EUndef) (SCheck (EBin Equal (EVar 3 f_min 0) (EConst 0)))) false) in
  s55_findings (prog 2%nat) (prog 1%nat).
Proof. cbv zeta. split; [vm_compute; reflexivity|]. split; vm_compute; discriminate. Qed.
(** Finding: what is known of a symbol stays known after its scope: the buffer of a later let of the same symbol, here the input, is cropped in place. *)
Theorem C55_stale_refuted :
  let prog s := SBlock [SCropDim 1 0 0 (EUndef, EUndef) (SCall 5 [] [1%nat] []);
    SLet [(1%nat, v_ 0)] (SCropDim s 1 0 (EConst 2, EUndef) (SCheck (EBin Equal (EVar 0 f_min 0) (EConst 0)))) false] in
  s55_findings (prog 2%nat) (prog 1%nat).
Proof. cbv zeta. split; [vm_compute; reflexivity|]. split; vm_compute; discriminate. Qed.
(** Finding: the number of workers of a loop keeps the name that the crop does not declare any more. *)
Theorem C55_workers_refuted :
  let prog s l := SCropDim 1 0 0 (EUndef, EUndef) (SCropDim s 1 0 (EConst 2, EUndef) (SLoop 3 (EVar 2 f_min 0) (EConst 0, EConst 3) (EConst 1) (SLet l (SCall 5 [] [s] []) true))) in
  let s := SCropDim 1 0 0 (EUndef, EUndef) (SCropDim 2 1 0 (EConst 2, EUndef) (SLoop 3 (EVar 2 f_min 0) (EConst 0, EConst 3) (EConst 1) (SCall 5 [] [2%nat] []))) in
  s55_findings s (prog 1%nat [(1%nat, v_ 1)]).
Proof. cbv zeta. split; [vm_compute; reflexivity|]. split; vm_compute; discriminate. Qed.
