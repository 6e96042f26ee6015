(** C45: the closures made for parallel loops and async tasks capture all that is used. *)
From Coq Require Import ZArith List Bool Lia Sorted.
From Verif Require Import Arith_Model Arith_Proofs Buf_Model Alloc_Model Expr_Model Expr_Spec Expr_Proofs Stmt_Model Stmt_Spec Stmt_Proofs Stmt_Props
  Deps_Model Deps_Spec Deps_Proofs DepsStmt_Proofs DepsExec_Proofs Deps_Props Closure_Model.
Import ListNotations.
Open Scope Z_scope.

Section Closures.
  Context {X : Type} (H : host X).
  Notation closure_of s := (map (fun y => (y, EVar y f_none 0)) (find_dependencies_stmt s)).

  Lemma init_value (p : context) ex l : forall c, exists c1, init_closure p ex (map (fun y => (y, EVar y f_none 0)) l) c = Val c1 /\
    (forall y, In y l -> ex <> Some y -> c1 y = p y) /\ (forall y, ~ In y l -> c1 y = c y).
  Proof.
    induction l as [|s l IH]; intros c; cbn [map init_closure]; [exists c; split; [reflexivity|split; [intros y []|auto]]|].
    assert (G : forall c0, (match ex with Some e => Nat.eqb s e | None => false end = true -> forall y, c0 y = c y) ->
       (match ex with Some e => Nat.eqb s e | None => false end = false -> forall y, c0 y = ctx_set c s (p s) y) ->
       exists c1, init_closure p ex (map (fun y => (y, EVar y f_none 0)) l) c0 = Val c1 /\
       (forall y, In y (s :: l) -> ex <> Some y -> c1 y = p y) /\ (forall y, ~ In y (s :: l) -> c1 y = c y)).
    { intros c0 E1 E2. destruct (IH c0) as (c1 & A & B & C). exists c1. split; [exact A|]. split.
      - intros y I N. destruct (in_dec Nat.eq_dec y l) as [J|J]; [apply B; auto|]. destruct I as [->|I]; [|tauto].
        rewrite C by exact J. assert (F : match ex with Some e => Nat.eqb y e | None => false end = false).
        { destruct ex as [e|]; [|reflexivity]. apply Nat.eqb_neq. congruence. }
        rewrite (E2 F). unfold ctx_set. rewrite Nat.eqb_refl. reflexivity.
      - intros y I. cbn in I. rewrite C by tauto. destruct (match ex with Some e => Nat.eqb s e | None => false end) eqn:F; [apply E1; reflexivity|].
        rewrite (E2 eq_refl). unfold ctx_set. destruct (Nat.eqb_spec y s); [subst; tauto|reflexivity]. }
    destruct (match ex with Some e => Nat.eqb s e | None => false end) eqn:F; apply G; auto; discriminate.
  Qed.
  Lemma same_bind_eq D (a b : res (Z * state X)) c : same_result D a b ->
    (r <- a ;; let '(z, s1) := r in Val (z, set_ctx X s1 c)) = (r <- b ;; let '(z, s1) := r in Val (z, set_ctx X s1 c)).
  Proof. destruct a as [(v, t)|], b as [(v', t')|]; cbn; try tauto; auto. intros (-> & c' & -> & _). reflexivity. Qed.

  (** Running a statement in a new context that only has the values of the symbols of its
      closure, and junk otherwise, does the same as in a copy of the whole context. *)
  Theorem C45_own_context : forall s st, calls_read_named H s -> plain_closures s ->
    with_new_context X H (as_closure (make_closure s)) (exec X H s) st = with_new_context X H None (exec X H s) st.
  Proof.
    intros s st R P. unfold with_new_context, make_closure. cbn [as_closure init_context bind].
    destruct (init_value (s_ctx X st) None (find_dependencies_stmt s) (h_junk X H)) as (c1 & -> & B & _). cbn [bind].
    apply (same_bind_eq (fun y => In y (find_dependencies_stmt s))). apply C17_find_dependencies_run; auto.
    exists (s_ctx X st). split; [reflexivity|]. intros y Hy. cbn. apply B; [exact Hy|discriminate].
  Qed.

  (** ... so an async does the same with closures as without. *)
  Theorem C45_async : forall sym t b st, calls_read_named H t -> calls_read_named H b -> plain_closures t -> plain_closures b ->
    as_closure t = None -> as_closure b = None ->
    exec X H (SAsync sym (make_closure t) (make_closure b)) st = exec X H (SAsync sym t b) st.
  Proof.
    intros sym t b st R1 R2 P1 P2 N1 N2.
    assert (I : forall s, as_closure s = None -> inner X H s = exec X H s).
    { intros s N. destruct s; try reflexivity. destruct is_closure; [discriminate N|reflexivity]. }
    assert (T : forall st, with_new_context X H (as_closure (make_closure t)) (inner X H (make_closure t)) st = with_new_context X H (as_closure t) (inner X H t) st).
    { intros st'. rewrite (I t N1), N1. apply C45_own_context; auto. }
    assert (B : forall st, with_new_context X H (as_closure (make_closure b)) (inner X H (make_closure b)) st = with_new_context X H (as_closure b) (inner X H b) st).
    { intros st'. rewrite (I b N2), N2. apply C45_own_context; auto. }
    cbn [exec]. fold (inner X H t) (inner X H b) (inner X H (make_closure t)) (inner X H (make_closure b)). cbv zeta.
    destruct (h_pool X H); [destruct (h_task_first X H (s_ext X st))|].
    - rewrite <- (T st). destruct (with_new_context X H (as_closure (make_closure t)) _ st) as [(z, s1)|]; cbn [bind]; [|reflexivity].
      rewrite <- B. reflexivity.
    - rewrite <- B. destruct (with_new_context X H (as_closure (make_closure b)) _ _) as [(z, s1)|]; cbn [bind]; [|reflexivity].
      rewrite <- T. reflexivity.
    - rewrite <- (T st). destruct (with_new_context X H (as_closure (make_closure t)) _ st) as [(z, s1)|]; cbn [bind]; [|reflexivity].
      rewrite <- B. reflexivity.
  Qed.

  (** A loop that runs in parallel does the same whether its body is a closure or not. *)
  Theorem C45_parallel_loop : forall sym w i stp b st k s1 lo hi s2 v s3 n, calls_read_named H b -> plain_closures b -> as_closure b = None ->
    ev X H st w = Val (k, s1) -> ev_interval X H s1 i = Val (lo, hi, s2) -> ev_def X H s2 stp 1 = Val (v, s3) ->
    1 < k -> par_count lo hi v = Val n -> n <> 1 ->
    exec X H (SLoop sym w i stp (make_closure b)) st = exec X H (SLoop sym w i stp b) st.
  Proof.
    intros sym w i stp b st k s1 lo hi s2 v s3 n R P N E1 E2 E3 K Pc N1. cbn [exec]. rewrite E1. cbn [bind]. rewrite E2. cbn [bind]. rewrite E3. cbn [bind].
    destruct (v =? 0); [reflexivity|]. apply Z.ltb_lt in K. rewrite K, Pc. cbn [bind]. destruct (n =? 0); [reflexivity|].
    apply Z.eqb_neq in N1. rewrite N1. destruct (h_pool X H); [|reflexivity]. cbv zeta. unfold make_closure at 1.
    assert (I : (match b with SLet _ b0 true => exec X H b0 | _ => exec X H b end) = exec X H b).
    { destruct b; try reflexivity. destruct is_closure; [discriminate N|reflexivity]. }
    rewrite I, N. apply (same_bind_eq (fun _ => False)).
    destruct (exec_same X H b R P) as (G & _).
    apply par_same with (D := fun y => In y (find_dependencies_stmt b) /\ y <> sym).
    - eapply pres_ext; [|apply (G (fun y => y = sym \/ In y (find_dependencies_stmt b)))].
      + intros y. unfold also. destruct (Nat.eq_dec y sym); tauto.
      + intros y F. right. apply C17_find_dependencies_stmt, F.
    - unfold make_closure. cbn [as_closure init_context].
      destruct (init_value (s_ctx X s3) (Some sym) (find_dependencies_stmt b) (h_junk X H)) as (c1 & -> & B & _). cbn [same_ctx].
      intros y (Hy & Ny). apply B; [exact Hy|congruence].
    - intros. exact Logic.I.
    - exists (fun _ => True). apply st_refl.
  Qed.

  (** On its own a closure is a let of symbols to themselves: it changes nothing but what
      the context holds for the symbols of asyncs afterwards. *)
  Lemma ev_identity l : forall st, exists st1 old, ev_lets X H (map (fun y => (y, EVar y f_none 0)) l) st = Val (st1, old) /\
    same_state (fun _ => True) st st1 /\ (forall y, In y l -> In (y, s_ctx X st y) old) /\ map fst old = l /\ Forall (fun p => snd p = s_ctx X st (fst p)) old.
  Proof.
    induction l as [|s l IH]; intros st; cbn [map ev_lets].
    { exists st, []. split; [reflexivity|]. split; [apply st_refl|]. split; [intros y []|]. split; [reflexivity|constructor]. }
    unfold ev. cbn [eval bind]. set (st2 := set_ctx X (set_ctx X st (s_ctx X st)) (ctx_set (s_ctx X (set_ctx X st (s_ctx X st))) s (s_ctx X st s))).
    destruct (IH st2) as (st1 & old & E & (c & -> & K) & A & M & F). rewrite E. cbn [bind].
    assert (Q : forall y, s_ctx X st2 y = s_ctx X st y).
    { intros y. unfold st2. cbn. unfold ctx_set. destruct (Nat.eqb_spec y s); [subst; reflexivity|reflexivity]. }
    eexists; eexists. split; [reflexivity|]. split; [|split; [|split]].
    - exists c. split; [reflexivity|]. intros y _. rewrite <- K by exact I. rewrite Q. reflexivity.
    - intros y [->|J]; [left; reflexivity|right]. rewrite <- Q. auto.
    - cbn. rewrite M. reflexivity.
    - constructor; [reflexivity|]. eapply Forall_impl; [|exact F]. intros p Hp. rewrite <- Q. exact Hp.
  Qed.
  Lemma restore_value c old (p : context) : Forall (fun q => snd q = p (fst q)) old -> forall y, restore_all c old y = (if in_dec Nat.eq_dec y (map fst old) then p y else c y).
  Proof.
    intros F. revert c. induction F as [|(s, v) old E F IH]; intros c y; cbn [restore_all map fst snd] in *; [destruct (in_dec _ _ _) as [[]|]; reflexivity|].
    rewrite IH. destruct (in_dec Nat.eq_dec y (map fst old)) as [J|J]; destruct (in_dec Nat.eq_dec y (s :: map fst old)) as [J'|J']; cbn in J'; try tauto.
    - unfold ctx_set. destruct (Nat.eqb_spec y s); [subst; auto|]. destruct J'; [congruence|tauto].
    - unfold ctx_set. destruct (Nat.eqb_spec y s); [subst; tauto|reflexivity].
  Qed.
  Theorem C45_serial : forall s st, calls_read_named H s -> plain_closures s -> inv st -> distinct s ->
    same_result (fun y => ~ In y (async_syms s)) (exec X H s st) (exec X H (make_closure s) st).
  Proof.
    intros s st R P I D. unfold make_closure. cbn [exec]. unfold with_lets.
    destruct (ev_identity (find_dependencies_stmt s) st) as (st1 & old & E & K & _ & M & F). rewrite E. cbn [bind].
    pose proof (C17_run H s st st1 (fun _ => True) R P (fun _ _ => Logic.I) K) as S. pose proof (C27_context_restored X H s st) as C.
    destruct (exec X H s st) as [(z, t)|], (exec X H s st1) as [(z', t')|]; cbn [same_result bind] in *; try tauto.
    destruct S as (-> & c & -> & A). split; [reflexivity|]. eexists. split; [reflexivity|]. intros y Ny. cbn [s_ctx set_ctx].
    rewrite (restore_value _ old (s_ctx X st) F). destruct (C z' t I D eq_refl) as (C1 & _).
    destruct (in_dec _ _ _); [apply C1, Ny|apply A; exact Logic.I].
  Qed.
End Closures.

(** async { check x1 < 8 } { call 5 on 0 } *)
Example C45_ex : let t := SCheck (EBin Less (EVar 1 f_none 0) (EConst 8)) in let b := SCall 5 [0%nat] [] [] in
  calls_read_named ex_host t /\ calls_read_named ex_host b /\ plain_closures t /\ plain_closures b /\ as_closure t = None /\ as_closure b = None /\
  make_closure t = SLet [(1%nat, EVar 1 f_none 0)] t true /\
  exec_result (SAsync (Some 2%nat) (make_closure t) (make_closure b)) ex_state = Some (5, [1; 7; 0; 7], [EvCall 5 5], []).
Proof. cbv zeta. repeat split. Qed.
(** for x2 in [0, 3], in parallel: check x2 < x1 *)
Example C45_loop_ex : let b := SCheck (EBin Less (EVar 2 f_none 0) (EVar 1 f_none 0)) in let i := (EConst 0, EConst 3) in
  calls_read_named ex_host b /\ plain_closures b /\ as_closure b = None /\
  ev Z ex_host ex_state (EConst 2) = Val (2, ex_state) /\ ev_interval Z ex_host ex_state i = Val (0, 3, ex_state) /\
  ev_def Z ex_host ex_state (EConst 1) 1 = Val (1, ex_state) /\ par_count 0 3 1 = Val 4 /\
  make_closure b = SLet [(1%nat, EVar 1 f_none 0); (2%nat, EVar 2 f_none 0)] b true /\
  exec_result (SLoop 2 (EConst 2) i (EConst 1) (make_closure b)) ex_state = Some (0, [1; 7; 7; 7], [], []).
Proof. cbv zeta. repeat split. Qed.
Print Assumptions C45_own_context.
Print Assumptions C45_async.
Print Assumptions C45_parallel_loop.
Print Assumptions C45_serial.
