(** C56: deshadow keeps what a statement does, and leaves no shadowed declarations. *)
From Coq Require Import ZArith String List Bool Lia.
From Verif Require Import Arith_Model Arith_Proofs Buf_Model Alloc_Model Expr_Model Expr_Spec Expr_Proofs Stmt_Model Stmt_Spec Stmt_Proofs Stmt_Props Deps_Model Deps_Spec Subst_Spec StmtSubst_Model StmtSubst_Spec
  OptSym_Spec VSem_Spec VExec_Proofs VSem_Props StmtSubst3_Proofs StmtSubst_Props Deshadow_Model Deshadow_Spec Deshadow_Proofs Deshadow2_Proofs Deshadow3_Proofs Deshadow4_Proofs Deshadow5_Proofs.
Import ListNotations.
Open Scope Z_scope.

(** the symbols of the statement, and the external ones, have names in the context [c] *)
Record deshadowable (s : stmt) (external : list nat) (c : context_names) : Prop := {
  de_ready : ready (List.length c) s;
  de_exprs : every_expr (fine (List.length c)) s;
  de_external : Forall (fun x => (x < List.length c)%nat) external }.
(** what a copy does depends on the coordinates it is given, not on how they are computed *)
Definition copies_by_value (X : Type) (copy_v : buf -> buf -> option buf -> (list Z -> option (list Z)) -> X -> X) : Prop :=
  forall bs bd bp f g x, (forall i, f i = g i) -> copy_v bs bd bp f x = copy_v bs bd bp g x.

Lemma start_known l : forall m x, (forall y v, m y = Some v -> v = y) -> (In x l -> fold_left (fun m x => put m x (Some x)) l m x <> None) /\
  (m x <> None -> fold_left (fun m x => put m x (Some x)) l m x <> None) /\ (forall y v, fold_left (fun m x => put m x (Some x)) l m y = Some v -> v = y).
Proof.
  induction l as [|a l IH]; intros m x Hm; cbn [fold_left]; [split; [intros []|]; split; auto|].
  assert (Hm' : forall y v, put m a (Some a) y = Some v -> v = y). { intros y v. unfold put. destruct (Nat.eqb_spec y a); [congruence|apply Hm]. }
  destruct (IH (put m a (Some a)) x Hm') as (A & B & C). split; [|split; [|exact C]].
  - intros [->|I]; [|auto]. apply B. rewrite put_same. discriminate.
  - intro N. apply B. unfold put. destruct (x =? a)%nat; [discriminate|exact N].
Qed.
Definition start (external : list nat) (c : context_names) : dstate := (fold_left (fun m x => put m x (Some x)) external (fun _ => None), c).
Lemma start_renamed l c x : renamed (fst (start l c)) x = x.
Proof.
  destruct (start_known l (fun _ => None) x) as (_ & _ & K); [discriminate|]. unfold renamed, start. cbn [fst]. destruct (fold_left _ l _ x) eqn:Q; [|reflexivity]. exact (K _ _ Q).
Qed.
Lemma start_ok l c : okst (List.length c) (start l c).
Proof. split; [cbn; lia|]. split; intros; rewrite ?start_renamed in *; auto. Qed.
Lemma start_cov l c : Forall (fun x => (x < List.length c)%nat) l -> cov (List.length c) (fun x => In x l) (start l c).
Proof.
  intros F. split; [cbn; lia|]. intros y I. rewrite Forall_forall in F. split; [exact (F y I)|]. intros _. destruct (start_known l (fun _ => None) y) as (K & _); [discriminate|]. exact (K I).
Qed.
Lemma deshadow_inv s external c s' c' : deshadow s external c = Val (s', c') -> exists t, d_stmt None s (start external c) = Val (s', t) /\ c' = snd t.
Proof. intro M. unfold deshadow in M. apply bind_inv in M as ((s1, t) & M1 & M). injection M as <- <-. exists t. split; [exact M1|reflexivity]. Qed.

(** What the statement does from values, the result does. *)
Theorem C56_deshadow : forall X (H : host X) call_v copy_v consts s external c s' c',
  deshadowable s external c -> copies_by_value X copy_v -> deshadow s external c = Val (s', c') ->
  forall E v r, vexec X H call_v copy_v consts s E v = Val r -> vexec X H call_v copy_v consts s' E v = Val r.
Proof.
  intros X H call_v copy_v consts s external c s' c' [R F _] K M E v r G. apply deshadow_inv in M as (t & M & _).
  destruct (stmt_good (List.length c) X H call_v copy_v consts K s R F None (start external c) s' t (start_ok external c) M) as (_ & S & _).
  apply (S E E v r); [|exact G]. intros x _. rewrite start_renamed. apply vok_refl.
Qed.
(** So the evaluator returns the same code, and leaves the outside in the same state, the same blocks allocated, and the same log. *)
Theorem C56_evaluate : forall X (H : host X) call_v copy_v consts s external c s' c' E v st z v',
  deshadowable s external c -> distinct s -> by_value s -> deshadow s external c = Val (s', c') -> copies_by_value X copy_v ->
  calls_by_value X H call_v -> represents X consts E v st -> inv st -> vexec X H call_v copy_v consts s E v = Val (z, v') ->
  exists st1 st2, exec X H s st = Val (z, st1) /\ exec X H s' st = Val (z, st2) /\
    s_ext X st1 = s_ext X st2 /\ map snd (s_alloc X st1) = map snd (s_alloc X st2) /\ map unnamed (s_log X st1) = map unnamed (s_log X st2).
Proof.
  intros X H call_v copy_v consts s external c s' c' E v st z v' O D V M K Hc R I G. pose proof (C56_deshadow X H call_v copy_v consts s external c s' c' O K M E v _ G) as G'.
  apply deshadow_inv in M as (t & M & _). destruct (stmt_from (List.length c) s (de_ready _ _ _ O) (de_exprs _ _ _ O) None (start external c) s' t (start_ok external c) M) as (_ & _ & D' & V' & _).
  destruct (C53_by_value _ _ _ _ _ _ _ _ _ _ _ Hc D' (V' V) R I G') as (st2 & E2 & P1 & P2 & P3). destruct (C53_by_value _ _ _ _ _ _ _ _ _ _ _ Hc D V R I G) as (st1 & E1 & O1 & O2 & O3).
  exists st1, st2. split; [exact E1|]. split; [exact E2|]. split; [congruence|]. split; congruence.
Qed.
(** No declaration in the result, but for allocations, declares a symbol that is in scope or external. *)
Theorem C56_unshadowed : forall s external c s' c', deshadowable s external c -> deshadow s external c = Val (s', c') -> unshadowed (fun x => In x external) s'.
Proof.
  intros s external c s' c' [R F L] M. apply deshadow_inv in M as (t & M & _). exact (proj2 (proj2 (stmt_clear (List.length c) s R F None _ _ s' t (start_cov external c L) M))).
Qed.
(** The result depends on nothing that the statement does not depend on, and the names of the symbols that were there are kept. *)
Theorem C56_free : forall s external c s' c', deshadowable s external c -> deshadow s external c = Val (s', c') ->
  (forall x, free_stmt x s' -> free_stmt x s) /\ (forall x, (x < List.length c)%nat -> name_of c' x = name_of c x).
Proof.
  intros s external c s' c' [R F L] M. apply deshadow_inv in M as (t & M & ->). destruct (stmt_from (List.length c) s R F None (start external c) s' t (start_ok external c) M) as ((_ & k & Q) & _ & _ & _ & Fr). split.
  - intros x Hx. destruct (Fr x Hx) as (y & _ & Hy & Qy). rewrite start_renamed in Qy. congruence.
  - intros x Lx. cbn [start snd] in Q. unfold name_of. rewrite Q. apply app_nth1. exact Lx.
Qed.
(** It does not fail if the buffer of each buffer_at is a plain variable, and each async has a symbol. *)
Theorem C56_defined : forall s external c, every_expr plain_heads s -> named_asyncs s -> exists s' c', deshadow s external c = Val (s', c').
Proof. intros s external c P N. unfold deshadow. destruct (stmt_able s P N None (start external c)) as (s' & t & Q). unfold start in Q. rewrite Q. cbn [bind]. eauto. Qed.
Lemma Add_app_end {A} (a : A) l : List.Add a l (l ++ [a]). Proof. induction l as [|b l IH]; cbn; constructor. exact IH. Qed.
(** A new symbol is new, and so is its name, also if the name asked for is in use. *)
Theorem C56_insert_unique : forall c prefix x c', insert_unique c prefix = (x, c') ->
  x = List.length c /\ exists name, c' = c ++ [name] /\ ~ In name c /\ (~ In prefix c -> name = prefix) /\ name_of c' x = name /\ (NoDup c -> NoDup c').
Proof.
  intros c prefix x c' M. destruct (insert_unique_new c prefix) as (Q & N). rewrite M in Q. injection Q as -> ->. split; [reflexivity|]. exists (unique_name c prefix prefix 0 (List.length c)).
  split; [reflexivity|]. split; [exact N|]. split; [|split].
  - intro Np. destruct c as [|a c]; [reflexivity|]. cbn [List.length unique_name]. destruct (find_name (a :: c) prefix) eqn:Q; [|reflexivity]. exfalso. apply find_name_none in Np. congruence.
  - unfold name_of. rewrite app_nth2, Nat.sub_diag by lia. reflexivity.
  - intro Nd. apply (NoDup_Add (a := unique_name c prefix prefix 0 (List.length c)) (l := c)); [apply Add_app_end|]; auto.
Qed.

(** ** Example *)
Definition s56_names : context_names := ["in"; "a"; "x"; "y"]%string.
(** { crop a = in to [2, 7]: for x = 0..1: crop a = a to [x + 2, x + 5]: call(in; a); for x = 0..1: { let y = x + (let x = 3, y = x in y): make a: call(in; a) with y; check (let a = x in a) < 2 } } *)
Definition s56_prog (a1 a2 a3 x1 x2 x3 y1 y2 a4 : nat) : stmt :=
  SBlock [
    SCropDim a1 0 0 (EConst 2, EConst 7) (SLoop x1 (EConst 1) (EConst 0, EConst 1) (EConst 1)
      (SCropDim a2 a1 0 (EBin Add (v_ x1) (EConst 2), EBin Add (v_ x1) (EConst 5)) (SCall 5 [0%nat] [a2] [])));
    SLoop x2 (EConst 1) (EConst 0, EConst 1) (EConst 1) (SBlock [
      SLet [(y1, EBin Add (v_ x2) (ELet [(x3, EConst 3); (y2, v_ x3)] (v_ y2)))] (SMake a3 (EConst 64) (EConst 4) [DimE (EConst 0, EConst 9) (EConst 4) EUndef] (SCall 5 [0%nat] [a3] [v_ y1])) false;
      SCheck (EBin Less (ELet [(a4, v_ x2)] (v_ a4)) (EConst 2))])].
Example C56_ex : let s := s56_prog 1 1 1 2 2 2 3 3 1 in let s' := s56_prog 1 4 6 2 2 5 3 3 1 in
  deshadowable s [0%nat] s56_names /\ distinct s /\ by_value s /\ deshadow s [0%nat] s56_names = Val (s', s56_names ++ ["a.x"; "x.x"; "a.x#0"]%string) /\
  every_expr plain_heads s /\ named_asyncs s /\
  calls_by_value Z v53_host v53_call /\ represents Z (fun _ => None) v53_env v53_start ex_state /\ inv ex_state /\ ~ unshadowed (fun x => In x [0%nat]) s /\
  exists v', s54_v s = Val (0, v') /\ v_ext Z v' <> 0.
Proof.
  cbv zeta. split; [|split; [|split; [|split; [vm_compute; reflexivity|split; [|split; [|split; [exact v53_calls|split; [exact (v53_rep 1 ltac:(lia))|split; [exact ex_inv|split]]]]]]]]].
  - constructor; [cbn; repeat split; auto; try lia; try discriminate; repeat constructor; cbn; lia| |repeat constructor; cbn; lia].
    cbn. unfold fine. repeat split; cbn; auto; try lia; repeat constructor; cbn; auto; try lia; try (intros [|[]]; lia); try tauto.
  - cbn. repeat split; auto; repeat constructor; cbn; intuition lia.
  - cbn. repeat split; auto; try discriminate; repeat constructor; cbn; auto.
  - cbn. repeat split; auto; repeat constructor; cbn; auto.
  - cbn. repeat split; auto.
  - cbn. unfold also. intros ((_ & _ & _ & _ & _ & _ & _ & N & _) & _). apply N. auto.
  - eexists. split; [vm_compute; reflexivity|vm_compute; discriminate].
Qed.

(** ** Findings *)
(** Finding: allocations keep their names, so an allocation of a symbol in scope still shadows it. *)
Theorem C56_allocate_refuted : let s := SAllocate 1 heap (EConst 4) ex_dims (SAllocate 1 heap (EConst 4) ex_dims (SCall 5 [0%nat] [1%nat] [])) in
  deshadowable s [0%nat] s56_names /\ deshadow s [0%nat] s56_names = Val (s, s56_names).
Proof.
  cbv zeta. split; [|vm_compute; reflexivity]. constructor; [cbn; repeat split; auto; try lia; repeat constructor; cbn; lia| |repeat constructor; cbn; lia].
  cbn. unfold fine. repeat split; cbn; auto; try lia; repeat constructor; cbn; auto.
Qed.
(** Finding: what [symbols] was before is put back from the first declaration to the last, so after a let that declares a symbol twice uses of that symbol get the name of the inner one, which is not in scope. *)
Theorem C56_twice_refuted :
  let s l := SLet [(1%nat, EConst 5)] (SBlock [SLet l (SCheck (EBin Equal (v_ (fst (last l (O, EUndef)))) (EConst 3))) false; SCheck (EBin Equal (v_ 1) (EConst 5))]) false in
  let run s := match s54_v s with Val (z, _) => Some z | UB => None end in
  let l := [(1%nat, EConst 2); (1%nat, EBin Add (v_ 1) (EConst 1))] in
  run (s l) = Some 0 /\ exists s' c', deshadow (s l) [0%nat] s56_names = Val (s', c') /\ run s' = None.
Proof. cbv zeta. split; [vm_compute; reflexivity|]. eexists. eexists. split; [vm_compute; reflexivity|]. vm_compute. reflexivity. Qed.
(** Finding: an in-place transpose that just truncates keeps the dimensions that are broadcasts; renamed, it is not done in place, and drops them. *)
Theorem C56_truncate_refuted :
  let s b t := SMake b (EConst 64) (EConst 4) [DimE (EConst 0, EConst 9) (EConst 4) EUndef; DimE (EConst 0, EConst 0) (EConst 0) EUndef; DimE (EConst 0, EConst 4) (EConst 40) EUndef]
    (STranspose t b [0; 1]%nat (SCheck (EBin Equal (EVar t f_rank 0) (EConst 2)))) in
  exists s' c', deshadow (s 1%nat 1%nat) [0%nat] s56_names = Val (s', c') /\ s54_run (s 1%nat 1%nat) = Some (0, 0) /\ s54_run s' = Some (1, 0).
Proof. cbv zeta. eexists. eexists. split; [vm_compute; reflexivity|]. split; vm_compute; reflexivity. Qed.
(** Finding: the symbol of an async that has none is entered as any other is: a write outside of the map of symbols. *)
Theorem C56_async_refuted : deshadow (SAsync None (SCheck (EConst 1)) (SCheck (EConst 1))) [] s56_names = UB.
Proof. reflexivity. Qed.
