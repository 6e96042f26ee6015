(** C54: substitute(stmt, var, expr) gives a statement that does what the given one does when the variable has the value of the expression. *)
From Coq Require Import ZArith List Bool Lia.
From Verif Require Import Arith_Model Arith_Proofs Buf_Model Alloc_Model Expr_Model Expr_Spec Expr_Proofs Stmt_Model Stmt_Spec Stmt_Proofs Stmt_Props Simplify_Model Simplify_Proofs Deps_Model Deps_Spec
  Deps_Proofs Deps_Props Subst_Model Subst_Spec Subst_Props StmtSubst_Model StmtSubst_Spec VSem_Spec VMono_Proofs VExec_Proofs VSem_Props VRef_Proofs StmtSubst_Proofs StmtSubst2_Proofs StmtSubst3_Proofs.
Import ListNotations.
Open Scope Z_scope.

(** what the theorems ask of the statement, the target and the replacement *)
Record substitutable (s : stmt) (x : nat) (rep : expr) : Prop := {
  su_plain : plain_stmt s;
  su_capture_exprs : every_expr (no_capture x (fun y => free y rep)) s;
  su_capture : no_capture_stmt x rep s;
  su_tidy : every_expr (tidy x rep) s;
  su_defined : defined rep = true;
  su_free : forall t a, rep <> ECall i_free t a
}.
(** if the replacement is a symbol that stands for a buffer, then not one that an allocate has declared *)
Definition not_owner (E : venv) (x : nat) (rep : expr) : Prop := forall z d k b, rep = EVar z f_none d -> z <> x -> E z = Buffer k b -> block k = None.

(** Executing the result does the same as executing let x = rep in s. *)
Theorem C54_substitute : forall X (H : host X) call_v copy_v consts s x rep s' E v r,
  substitutable s x rep -> not_owner E x rep -> substitute_stmt s x rep = Val s' ->
  vexec X H call_v copy_v consts (SLet [(x, rep)] s false) E v = Val r -> vexec X H call_v copy_v consts s' E v = Val r.
Proof.
  intros X H call_v copy_v consts s x rep s' E v r [P C N T D Nf] Ow M G. rewrite vexec_let_cons in G. apply bind_inv in G as (E1 & G1 & G). change (vexec X H call_v copy_v consts s E1 v = Val r) in G.
  unfold substitute_stmt in M. destruct (is_var rep x) eqn:Iv.
  - injection M as <-. apply is_var_inv in Iv as (d & ->). refine (ref_same X H call_v copy_v consts s P id_sub _ E1 E v r _ G); [intros y _; exists 0; reflexivity|].
    intros y _. unfold id_sub. cbn [vmatch]. cbn [vlet] in G1. destruct (E x) as [|n|k b] eqn:Ex; injection G1 as <-.
    + destruct (Nat.eq_dec y x) as [->|n]; [rewrite vset_same; exact I|rewrite (vset_other _ _ _ _ n)]. destruct (E y) as [| |k b]; auto. exists k. split; [reflexivity|]. split; [auto|intros [[]|(_ & A)]; exact A].
    + destruct (Nat.eq_dec y x) as [->|m]; [rewrite vset_same; exact Ex|rewrite (vset_other _ _ _ _ m)]. destruct (E y) as [| |k b]; auto. exists k. split; [reflexivity|]. split; [auto|intros [[]|(_ & A)]; exact A].
    + destruct (Nat.eq_dec y x) as [->|m]; [rewrite vset_same|rewrite !(vset_other _ _ _ _ m)].
      * exists k. split; [exact Ex|]. split; [auto|]. cbn [alone]. intros [[]|(_ & A)]. discriminate A.
      * destruct (E y) as [| |k1 b1]; auto. exists k1. split; [reflexivity|]. split; [auto|]. intros [[]|(_ & A)]. exact A.
  - refine (sub_ref X H call_v copy_v consts x rep D Nf s P C T s' N M E1 E v r _ G). intros y _.
    assert (Same : forall y, y <> x -> E1 y = E y -> vmatch X H (others x y) (no_syms y) y (E1 y) (sub_of x rep y) E).
    { intros u n ->. rewrite (sub_other _ _ _ n). cbn [vmatch]. destruct (E u) as [| |k b]; auto. exists k. split; [reflexivity|]. split; [auto|]. intros [[]|(_ & A)]. exact A. }
    destruct (bare rep) eqn:Br.
    + destruct rep as [|z f d| | | | | |]; try discriminate. destruct f; try discriminate. cbn [is_var] in Iv. apply Nat.eqb_neq in Iv. cbn [vlet] in G1.
      destruct (E z) as [|n|k b] eqn:Ez; injection G1 as <-.
      * destruct (Nat.eq_dec y x) as [->|n]; [rewrite vset_same, sub_same; exact I|apply Same; [exact n|apply vset_other, n]].
      * destruct (Nat.eq_dec y x) as [->|m]; [rewrite vset_same, sub_same; exact Ez|apply Same; [exact m|apply vset_other, m]].
      * destruct (Nat.eq_dec y x) as [->|m].
        { rewrite vset_same, sub_same. cbn [vmatch]. exists k. split; [exact Ez|]. split; [|intros [[]|(A & _)]; exfalso; apply A; reflexivity].
          cbn [block]. intros id Q. rewrite (Ow z d k b eq_refl Iv Ez) in Q. discriminate Q. }
        destruct (Nat.eq_dec y z) as [->|mz]; [|apply Same; [exact m|rewrite (vset_other _ _ _ _ m); apply vset_other, mz]].
        rewrite (vset_other _ _ _ _ m), vset_same, (sub_other _ _ _ m). cbn [vmatch]. exists k. split; [exact Ez|]. split; [auto|]. cbn [alone]. intros [[]|(_ & A)]. discriminate A.
    + rewrite vlet_num in G1 by exact Br. apply bind_inv in G1 as (n & G1 & Q). injection Q as <-. destruct (Nat.eq_dec y x) as [->|m]; [|apply Same; [exact m|apply vset_other, m]].
      rewrite vset_same, sub_same. unfold vmatch. destruct rep as [|z f d| | | | | |]; try exact G1. destruct f; try exact G1. discriminate Br.
Qed.

(** So the evaluator returns the same code, and leaves the outside in the same state, the same blocks allocated, and the same log. *)
Theorem C54_evaluate : forall X (H : host X) call_v copy_v consts s x rep s' E v st z v',
  substitutable s x rep -> distinct s -> by_value s -> lets_distinct rep -> not_owner E x rep -> substitute_stmt s x rep = Val s' ->
  calls_by_value X H call_v -> represents X consts E v st -> inv st ->
  vexec X H call_v copy_v consts (SLet [(x, rep)] s false) E v = Val (z, v') ->
  exists st1 st2, exec X H (SLet [(x, rep)] s false) st = Val (z, st1) /\ exec X H s' st = Val (z, st2) /\
    s_ext X st1 = s_ext X st2 /\ map snd (s_alloc X st1) = map snd (s_alloc X st2) /\ map unnamed (s_log X st1) = map unnamed (s_log X st2).
Proof.
  intros X H call_v copy_v consts s x rep s' E v st z v' U D B L Ow M Hc R I G. pose proof (C54_substitute _ _ _ _ _ _ _ _ _ _ _ _ U Ow M G) as G'.
  assert (K : distinct s' /\ by_value s').
  { unfold substitute_stmt in M. destruct (is_var rep x); [injection M as <-; auto|]. destruct U as [P C N T De Nf]. exact (keep_stmt x rep L s P N D B s' M). }
  destruct K as (D' & B'). destruct (C53_by_value _ _ _ _ _ _ _ _ _ _ _ Hc D' B' R I G') as (st2 & E2 & P1 & P2 & P3).
  assert (DL : distinct (SLet [(x, rep)] s false)).
  { cbn [distinct map fst snd]. split; [constructor; [intros []|constructor]|]. split; [constructor; [exact L|constructor]|exact D]. }
  assert (BL : by_value (SLet [(x, rep)] s false)) by (cbn [by_value]; split; [discriminate|exact B]).
  destruct (C53_by_value _ _ _ _ _ _ _ _ _ _ _ Hc DL BL R I G) as (st1 & E1 & O1 & O2 & O3).
  exists st1, st2. split; [exact E1|]. split; [exact E2|]. split; [congruence|]. split; congruence.
Qed.

(** It is defined for all statements if the variable is used only as a number, or is replaced by another variable. *)
Theorem C54_defined : forall s x rep, every_expr plain_heads s ->
  (exists y d, rep = EVar y f_none d) \/ (no_buffer x s /\ every_expr (fun e => forall ro, occurs x ro e -> ro = RField f_none) s) ->
  exists s', substitute_stmt s x rep = Val s'.
Proof.
  intros s x rep P R. unfold substitute_stmt. destruct (is_var rep x); [eauto|]. apply able_stmt; [|tauto].
  destruct R as [R|(_ & R)].
  - eapply every_impl; [|exact P]. intros e Pe. split; [exact Pe|left; exact R].
  - eapply every_impl; [|exact (every_and _ _ s P R)]. intros e (Pe & Re). split; [exact Pe|right; exact Re].
Qed.

(** ** Examples *)
(** for 2 = 0..1: crop 3 = buffer 0 to [2, x + 2] in dimension 0: call(3; x * 2); check x < 4, where x is replaced by min(buffer 0, dim 0) + 3 *)
Definition s54_prog : stmt :=
  SLoop 2 (EConst 1) (EConst 0, EBin Sub (v_ 1) (EConst 2)) (EConst 1)
    (SCropDim 3 0 0 (v_ 2, EBin Add (v_ 1) (v_ 2)) (SBlock [SCall 5 [3%nat] [3%nat] [EBin Mul (v_ 1) (v_ 2)]; SCheck (EBin Less (v_ 1) (EConst 4))])).
Definition s54_rep : expr := EBin Add (EVar 0 f_min 0) (EConst 3).
(** crop 3 = 1 in dimension 0 to [2, max of 1 in dimension 0]: call(1; 3), where 1 is replaced by buffer 0 *)
Definition s54_crop : stmt := SCropDim 3 1 0 (EConst 2, EVar 1 f_max 0) (SCall 5 [1%nat] [3%nat] [EVar 1 f_min 0]).
Definition s54_v (s : stmt) := vexec Z v53_host v53_call (fun _ _ _ _ x => x) (fun _ => None) s v53_env v53_start.
Definition s54_run (s : stmt) := match exec Z v53_host s ex_state with Val (z, st) => Some (z, s_ext Z st) | UB => None end.
Example C54_ex : substitutable s54_prog 1 s54_rep /\ distinct s54_prog /\ by_value s54_prog /\ lets_distinct s54_rep /\ not_owner v53_env 1 s54_rep /\
  calls_by_value Z v53_host v53_call /\ represents Z (fun _ => None) v53_env v53_start ex_state /\ inv ex_state /\
  (exists s' v', substitute_stmt s54_prog 1 s54_rep = Val s' /\ s' <> s54_prog /\ s54_v (SLet [(1%nat, s54_rep)] s54_prog false) = Val (0, v') /\ v_ext Z v' = 5) /\
  substitutable s54_crop 1 (v_ 0) /\ not_owner v53_env 1 (v_ 0) /\
  substitute_stmt s54_crop 1 (v_ 0) = Val (SCropDim 3 0 0 (EConst 2, EUndef) (SCall 5 [0%nat] [3%nat] [EVar 0 f_min 0])) /\
  exists v', s54_v (SLet [(1%nat, v_ 0)] s54_crop false) = Val (0, v') /\ v_ext Z v' = 2.
Proof.
  assert (F0 : forall y, free y s54_rep -> y = 0%nat) by (intros y (ro & O); cbn in O; intuition congruence).
  assert (F1 : forall y, free y (v_ 0) -> y = 0%nat) by (intros y (ro & O); cbn in O; intuition congruence).
  split; [|split; [|split; [|split; [|split; [|split; [exact v53_calls|split; [exact (v53_rep 1 ltac:(lia))|split; [exact ex_inv|split; [|split; [|split; [|split; [reflexivity|]]]]]]]]]]]].
  - constructor.
    + cbn. auto.
    + cbn. repeat split; auto; repeat constructor; auto.
    + cbn. split; [intros (ro & O); exact O|]. right. split; [intros _ K; apply F0 in K; discriminate K|]. split; [discriminate|]. right. split; [intros _ K; apply F0 in K; discriminate K|auto].
    + cbn. repeat split; auto; repeat constructor; auto.
    + reflexivity.
    + discriminate.
  - cbn. repeat split; auto; repeat constructor; cbn; auto.
  - cbn. repeat split; auto; repeat constructor; cbn; auto.
  - cbn. auto.
  - discriminate.
  - eexists. eexists. split; [vm_compute; reflexivity|]. split; [discriminate|]. split; [vm_compute; reflexivity|reflexivity].
  - constructor.
    + cbn. auto.
    + cbn. repeat split; auto; repeat constructor; auto.
    + cbn. split; [intros _ K; apply F1 in K; discriminate K|]. right. split; [intros _ K; apply F1 in K; discriminate K|auto].
    + cbn. repeat split; auto; repeat constructor; auto.
    + reflexivity.
    + discriminate.
  - intros z d k b [= <- <-] _ [= <- _]. reflexivity.
  - eexists. split; [vm_compute; reflexivity|reflexivity].
Qed.

(** Finding: a declaration of a symbol of the replacement stops the substitution: the target stays in its scope. *)
Theorem C54_capture_refuted :
  let s := SLoop 0 (EConst 1) (EConst 0, EConst 3) (EConst 1) (SCheck (EBin Equal (v_ 1) (EConst 5))) in
  substitute_stmt s 1 (EBin Add (v_ 0) (EConst 4)) = Val s /\
  s54_run (SLet [(0%nat, EConst 1)] (SLet [(1%nat, EBin Add (v_ 0) (EConst 4))] s false) false) = Some (0, 0) /\ s54_run (SLet [(0%nat, EConst 1)] s false) = Some (1, 0).
Proof. cbv zeta. vm_compute. auto. Qed.
(** Finding: the number of workers of a loop is left as it is. *)
Theorem C54_workers_refuted :
  let s := SLoop 0 (v_ 1) (EConst 0, EConst 3) (EConst 1) (SCheck (EBin Less (v_ 0) (EConst 2))) in
  substitute_stmt s 1 (EConst 1) = Val s /\
  match exec Z v53_host (SLet [(1%nat, EConst 1)] s false) ex_state, exec Z v53_host s ex_state with
  | Val (_, a), Val (_, b) => (length (s_log Z a), length (s_log Z b)) = (1%nat, 2%nat)
  | _, _ => False
  end.
Proof. cbv zeta. vm_compute. auto. Qed.
(** Finding: nothing in an async without a symbol (parallelize_tasks makes no others) is replaced. *)
Theorem C54_async_refuted : forall t b x rep, substitute_stmt (SAsync None t b) x rep = Val (SAsync None t b).
Proof. intros t b x rep. unfold substitute_stmt. destruct (is_var rep x); reflexivity. Qed.
Theorem C54_async_run_refuted :
  let s := SAsync None (SCheck (EBin Equal (v_ 1) (EConst 5))) (SCheck (EBin Equal (v_ 1) (EConst 5))) in
  substitute_stmt s 1 (EConst 5) = Val s /\ s54_run (SLet [(1%nat, EConst 5)] s false) = Some (0, 0) /\ s54_run s = Some (1, 0).
Proof. cbv zeta. vm_compute. auto. Qed.
(** Finding: a copy_stmt one of whose indices is a symbol of the replacement stays as it is, also outside the scope of its indices. *)
Theorem C54_copy_refuted : let s := SCopy 1 [v_ 2] 3 [2%nat] None in
  substitute_stmt s 1 (v_ 2) = Val s /\ substitute_stmt s 1 (v_ 4) = Val (SCopy 4 [v_ 2] 3 [2%nat] None).
Proof. split; reflexivity. Qed.
(** Finding: if the target has another name, and the symbol that replaces it is changed in place, that name sees the change. *)
Theorem C54_alias_refuted :
  let s := SLet [(2%nat, v_ 1)] (SCropDim 0 0 0 (EConst 3, EUndef) (SCheck (EBin Equal (EVar 2 f_min 0) (EConst 0)))) false in
  let s' := SLet [(2%nat, v_ 0)] (SCropDim 0 0 0 (EConst 3, EUndef) (SCheck (EBin Equal (EVar 2 f_min 0) (EConst 0)))) false in
  substitute_stmt s 1 (v_ 0) = Val s' /\ s54_run (SClone 1 0 s) = Some (0, 0) /\ s54_run (SClone 1 0 s') = Some (1, 0).
Proof. cbv zeta. vm_compute. auto. Qed.
