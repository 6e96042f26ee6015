(** C51: insert_early_free puts frees only where the memory is not used any more. *)
From Coq Require Import ZArith List Bool Lia.
From Verif Require Import Expr_Model Stmt_Model Deps_Model Deps_Spec Deps_Props EarlyFree_Model EarlyFree_Spec EarlyFree_Proofs.
Import ListNotations.

Lemma proj_split j t1 e t2 : proj j (t1 ++ e :: t2) = proj j t1 ++ (if is_about j e then [e] else []) ++ proj j t2.
Proof. rewrite proj_app. cbn [proj filter]. destruct (is_about j e); reflexivity. Qed.
Lemma in_proj j e t : is_about j e = true -> In e t <-> In e (proj j t).
Proof. intro A. unfold proj. rewrite filter_In. tauto. Qed.
Lemma split_free j w u f a b : Make j w :: u ++ f ++ [End_ j] = a ++ Free j :: b -> Forall (is_use j) u -> (f = [] \/ (f = [Free j] /\ w = heap)) ->
  a = Make j w :: u /\ b = [End_ j] /\ w = heap.
Proof.
  intros E U F. destruct a as [|e a]; [discriminate E|]. injection E as <- E.
  revert a E. induction U as [|e u -> U IH]; intros a E; cbn [app] in E.
  - destruct F as [->|[-> ->]]; cbn [app] in E.
    + destruct a as [|x [|]]; cbn [app] in E; try discriminate E. 
    + destruct a as [|x [|y [|]]]; cbn [app] in E; try discriminate E. injection E as <-. auto.
  - destruct a as [|x a]; cbn [app] in E; [discriminate E|]. injection E as <- E. destruct (IH _ E) as (A & B & C). injection A as ->. auto.
Qed.

(** In every run of the result, nothing is freed that is not an allocation.  What is freed early is an allocation on the heap
    that was made before, whose statement has not ended; it is not used or freed after that, and not freed twice. *)
Theorem C51_no_use_after_free : forall s r ok t, no_free s -> well_named s -> runs r (insert_early_free s) ok t -> fresh r t ->
  ~ In Invalid t /\ forall t1 i t2, t = t1 ++ Free i :: t2 ->
    In (Make i heap) t1 /\ In (End_ i) t2 /\ ~ In (Use i) t2 /\ ~ In (Free i) (t1 ++ t2) /\ ~ In (End_ i) t1.
Proof.
  intros s r ok t N W R F. destruct (early_ok s N W) as [S1 _]. destruct (S1 _ _ _ R F) as [_ [A B]]. split; [exact A|].
  intros t1 i t2 ->. destruct (B i) as [B1 B2].
  assert (P : proj i (t1 ++ Free i :: t2) = proj i t1 ++ Free i :: proj i t2) by (rewrite proj_split; cbn [is_about]; rewrite Nat.eqb_refl; reflexivity).
  rewrite P in B1, B2. destruct (in_dec Nat.eq_dec i (made (t1 ++ Free i :: t2))) as [I|I].
  - destruct (B1 I) as (w & u & f & E & U & Ff). symmetry in E. destruct (split_free _ _ _ _ _ _ E U Ff) as (E1 & E2 & ->).
    assert (Q : forall e u, is_about i e = true -> In e u -> In e (proj i u)) by (intros e u' Ae K; apply in_proj; assumption).
    assert (Ai : forall e, In e [Make i heap; Use i; Free i; End_ i] -> is_about i e = true).
    { intros e K. repeat destruct K as [<-|K]; try destruct K; cbn [is_about]; apply Nat.eqb_refl. }
    rewrite Forall_forall in U. repeat split.
    + apply (in_proj i); [apply Ai; cbn; tauto|]. rewrite E1. left; reflexivity.
    + apply (in_proj i); [apply Ai; cbn; tauto|]. rewrite E2. left; reflexivity.
    + intro K. apply Q in K; [|apply Ai; cbn; tauto]. rewrite E2 in K. destruct K as [K|[]]. discriminate K.
    + intro K. apply in_app_iff in K as [K|K]; (apply Q in K; [|apply Ai; cbn; tauto]).
      * rewrite E1 in K. destruct K as [K|K]; [discriminate K|]. apply U in K. discriminate K.
      * rewrite E2 in K. destruct K as [K|[]]. discriminate K.
    + intro K. apply Q in K; [|apply Ai; cbn; tauto]. rewrite E1 in K. destruct K as [K|K]; [discriminate K|]. apply U in K. discriminate K.
  - specialize (B2 I). rewrite Forall_forall in B2. assert (K : is_use i (Free i)) by (apply B2; apply in_or_app; right; left; reflexivity). discriminate K.
Qed.
(** Apart from the frees, the result does the same as the program: it has the same runs. *)
Theorem C51_same_runs : forall s r ok t, no_free s -> well_named s -> fresh r t ->
  runs r s ok t <-> exists t', runs r (insert_early_free s) ok t' /\ without_frees t' = t.
Proof.
  intros s r ok t N W F. destruct (early_ok s N W) as [A B]. split.
  - intro R. exact (B _ _ _ R F).
  - intros (t' & R & <-). apply A; [exact R|]. apply fresh_without. exact F.
Qed.

Definition is_leaf (s : stmt) : bool := match s with SCall _ _ _ _ | SCopy _ _ _ _ _ | SCheck _ => true | _ => false end.
Lemma leaf_ins s names f v : is_leaf s = true -> ins names s f v = visit_terminal names s f v.
Proof. destruct s; intro E; try discriminate E; reflexivity. Qed.
Lemma leaf_block l : (2 <= length l)%nat -> forallb is_leaf l = true -> block_make l = SBlock l.
Proof.
  intros L F. unfold block_make.
  assert (E1 : flatten_blocks l = l). { clear L. induction l as [|x l IH]; [reflexivity|]. cbn [forallb] in F. apply andb_prop in F as [Fx F]. destruct x; try discriminate Fx; cbn [flatten_blocks]; f_equal; auto. }
  assert (E2 : erase_undefs l = l). { clear L E1. induction l as [|x l IH]; [reflexivity|]. cbn [forallb] in F. apply andb_prop in F as [Fx F]. unfold erase_undefs in *. destruct x; try discriminate Fx; cbn [filter sdefined]; f_equal; auto. }
  rewrite E1, E2. destruct l as [|x [|y l]]; cbn [length] in L; [lia|lia|reflexivity].
Qed.
Lemma leaf_flatten a b c : forallb is_leaf (a ++ b ++ c) = true -> (2 <= length b)%nat -> block_make (a ++ block_make b :: c) = SBlock (a ++ b ++ c).
Proof.
  intros F L. rewrite <- leaf_block; [| |exact F].
  - rewrite leaf_block with (l := b); [|exact L|rewrite !forallb_app in F; apply andb_prop in F as [_ F]; apply andb_prop in F as [F _]; exact F].
    unfold block_make. assert (E : flatten_blocks (a ++ SBlock b :: c) = flatten_blocks (a ++ b ++ c)).
    { clear L. induction a as [|x a IH]; cbn [app].
      - cbn [flatten_blocks]. cbn [app] in F. rewrite forallb_app in F. apply andb_prop in F as [F _]. clear - F. induction b as [|x b IH]; cbn [app]; [reflexivity|].
        cbn [forallb] in F. apply andb_prop in F as [Fx F]. destruct x; try discriminate Fx; cbn [flatten_blocks]; f_equal; auto.
      - cbn [app forallb] in F. apply andb_prop in F as [Fx F]. destruct x; try discriminate Fx; cbn [flatten_blocks]; f_equal; auto. }
    rewrite E. reflexivity.
  - rewrite !app_length. lia.
Qed.
Lemma shadow_tracked vd v y : find_deps false (shadow false vd v) y = Some (TTracked 0) -> find_deps false vd y = Some (TTracked 0) /\ y <> v.
Proof.
  unfold shadow, decl_needs_shadow, find_deps. destruct (find_entry vd v) as [d|] eqn:E.
  - destruct (is_dummy d) eqn:Dd; cbn [negb find_entry].
    + intro K. split; [exact K|]. intro Ey. rewrite Ey, E in K. destruct d; discriminate.
    + destruct (Nat.eqb_spec v y) as [Ev|Ev]; [discriminate|]. intro K. split; [exact K|congruence].
  - intro K. split; [exact K|]. intro Ey. rewrite Ey, E in K. discriminate K.
Qed.
Lemma shadow_all_tracked l : forall vd y, find_deps false (shadow_all false vd l) y = Some (TTracked 0) -> find_deps false vd y = Some (TTracked 0) /\ ~ In y l.
Proof.
  induction l as [|v l IH]; intros vd y K; cbn [shadow_all] in K; [auto|]. apply IH in K as [K N]. apply shadow_tracked in K as [K D].
  split; [exact K|]. intros [E|I]; [congruence|contradiction].
Qed.
Lemma quiet_all_shadowed x dx l : ~ (~ In x dx /\ any_of (free x) l) -> quiet (visit_all (visit_expr false) (shadow_all false [(x, TTracked 0)] dx) l).
Proof.
  intro N. induction l as [|e l IH]; cbn [visit_all any_of] in *; [apply quiet_nil|]. apply quiet_app. split; [|apply IH; tauto].
  intros f I. destruct (expr_exact false e _ _ _ I eq_refl) as (y & ro & O & _ & F). apply shadow_all_tracked in F as [F M].
  unfold find_deps in F. cbn [find_entry] in F. destruct (Nat.eqb_spec x y) as [->|]; [|discriminate F]. exfalso. apply N. split; [exact M|]. left. exists ro. exact O.
Qed.
Lemma leaf_not_dep x s : is_leaf s = true -> ~ free_stmt x s -> any_flag (depends_on_any_stmt s [x]) = false.
Proof.
  intros L N. apply dep_quiet. destruct s; try discriminate L.
  - apply quiet_unmentioned. exact N.
  - cbn [free_stmt visit_stmt] in *. rewrite !quiet_app. repeat split; try (apply quiet_set_ne; tauto); [|apply quiet_all_shadowed; tauto].
    destruct pad; [apply quiet_set_ne; intro; subst; tauto|apply quiet_nil].
  - apply quiet_unmentioned. exact N.
Qed.
Lemma leaf_dep x s : is_leaf s = true -> free_stmt x s -> any_flag (depends_on_any_stmt s [x]) = true.
Proof.
  intros L F. destruct (any_flag _) eqn:D; [reflexivity|]. exfalso. eapply depends_any_stmt_free; [exact D|left; reflexivity| |exact F].
  destruct s; try discriminate L; intros [].
Qed.
(** The memory is freed as soon as possible: right after the last of its calls, copies and checks that refers to it, unless
    nothing follows. *)
Theorem C51_freed_after_last_use : forall x e ds a s b, forallb is_leaf (a ++ s :: b) = true -> b <> [] ->
  free_stmt x s -> (forall y, In y b -> ~ free_stmt x y) ->
  insert_early_free (SAllocate x heap e ds (SBlock (a ++ s :: b))) =
  SAllocate x heap e ds (SBlock (a ++ [s; SCheck (ECall i_free None [EVar x f_none 0])] ++ b)).
Proof.
  intros x e ds a s b T B D0 Db0.
  assert (Tb : forallb is_leaf b = true) by (rewrite forallb_app in T; cbn [forallb] in T; apply andb_prop in T as [_ T]; apply andb_prop in T as [_ T]; exact T).
  assert (Ts : is_leaf s = true) by (rewrite forallb_app in T; cbn [forallb] in T; apply andb_prop in T as [_ T]; apply andb_prop in T as [T _]; exact T).
  assert (Db : forall y, In y b -> any_flag (depends_on_any_stmt y [x]) = false).
  { intros y I. rewrite forallb_forall in Tb. apply leaf_not_dep; auto. }
  assert (L : ins_list (ins [x]) b false false = (b, false, false, true)).
  { clear - Tb B Db. induction b as [|y b IH]; [congruence|]. cbn [ins_list forallb] in *. apply andb_prop in Tb as [Ty T].
    assert (G : exists vi, ins_list (ins [x]) b false false = (b, false, false, vi)).
    { destruct b; [eexists; reflexivity|]. eexists. apply IH; [discriminate|exact T|auto with datatypes]. }
    destruct G as (vi & ->). cbn [orb]. rewrite leaf_ins by exact Ty. unfold visit_terminal. cbn [negb andb].
    rewrite Db by (left; reflexivity). reflexivity. }
  assert (L2 : ins_list (ins [x]) (a ++ s :: b) false false = (a ++ block_make [s; free_check x] :: b, true, true, true)).
  { clear T. induction a as [|y a IH]; cbn [app ins_list].
    - rewrite L. cbn [orb]. rewrite leaf_ins by exact Ts. unfold visit_terminal. rewrite (leaf_dep x s Ts D0). reflexivity.
    - rewrite IH. reflexivity. }
  assert (Es : early_list early (a ++ s :: b) = (a ++ s :: b, false)).
  { clear - T. induction (a ++ s :: b) as [|y l IH]; [reflexivity|]. cbn [early_list forallb] in *. apply andb_prop in T as [Ty T].
    rewrite (IH T). destruct y; try discriminate Ty; reflexivity. }
  unfold insert_early_free. cbn [early]. rewrite Es. unfold insert_free. cbn [ins]. rewrite L2. cbn [orb fst]. f_equal.
  apply leaf_flatten; [|cbn [length]; lia]. rewrite !forallb_app in *. cbn [forallb is_leaf free_check] in *. rewrite !andb_true_r in *.
  apply andb_prop in T as [T1 T2]. rewrite T1. exact T2.
Qed.

(** The example: allocate 0 on the heap {allocate 4 on the heap {f(out 4); crop 1 = 4 {g(in 1, out 0)}}; g(in 0, out 2); async {h(in 2, out 3)} {h(in 3, out 2)}} *)
Definition c51_s : stmt := SAllocate 0 heap (EConst 4) [] (SBlock
  [SAllocate 4 heap (EConst 4) [] (SBlock [SCall 0 [] [4%nat] []; SCropBuffer 1 4 [] (SCall 1 [1%nat] [0%nat] [])]);
   SCall 1 [0%nat] [2%nat] [];
   SAsync None (SCall 2 [2%nat] [3%nat] []) (SCall 2 [3%nat] [2%nat] [])]).
Definition c51_out : stmt := SAllocate 0 heap (EConst 4) [] (SBlock
  [SAllocate 4 heap (EConst 4) [] (SBlock [SCall 0 [] [4%nat] []; SCropBuffer 1 4 [] (SCall 1 [1%nat] [0%nat] [])]);
   SCall 1 [0%nat] [2%nat] []; SCheck (ECall i_free None [EVar 0 f_none 0]);
   SAsync None (SCall 2 [2%nat] [3%nat] []) (SCall 2 [3%nat] [2%nat] [])]).
Definition c51_r : pointers := fun y i => (y = 2%nat /\ i = 20%nat) \/ (y = 3%nat /\ i = 30%nat).
Definition c51_t : list event := [Make 5 heap; Make 6 heap; Use 6; Use 6; Use 5; End_ 6; Use 5; Use 20; Free 5; Use 20; Use 30; End_ 5].
Ltac used := apply Forall_cons; [eexists; split; [reflexivity|]|]; [|used] || apply Forall_nil.
Example C51_ex : no_free c51_s /\ well_named c51_s /\ insert_early_free c51_s = c51_out /\ runs c51_r c51_out true c51_t /\ fresh c51_r c51_t.
Proof.
  split; [cbn; tauto|]. split.
  { cbn. unfold free. repeat split; try discriminate; intros; try discriminate.
    left. intros [[K|[]]|[[K|[]]|[]]]; discriminate K. }
  split; [vm_compute; reflexivity|]. split.
  - unfold c51_out, c51_t. apply (run_allocate _ _ _ _ _ _ 5 true [Make 6 heap; Use 6; Use 6; Use 5; End_ 6; Use 5; Use 20; Free 5; Use 20; Use 30]).
    apply run_block. apply (list_cons _ _ _ [Make 6 heap; Use 6; Use 6; Use 5; End_ 6] true [Use 5; Use 20; Free 5; Use 20; Use 30]).
    { apply (run_allocate _ _ _ _ _ _ 6 true [Use 6; Use 6; Use 5]). apply run_block. apply (list_cons _ _ _ [Use 6] true [Use 6; Use 5]).
      - apply run_call. used. left. exists 4%nat. split; [right; left; reflexivity|reflexivity].
      - apply list_one. apply run_crop. apply run_call. used.
        + left. exists 1%nat. split; [left; left; reflexivity|reflexivity].
        + left. exists 0%nat. split; [right; left; reflexivity|reflexivity]. }
    apply (list_cons _ _ _ [Use 5; Use 20] true [Free 5; Use 20; Use 30]).
    { apply run_call. used.
      - left. exists 0%nat. split; [left; left; reflexivity|reflexivity].
      - left. exists 2%nat. split; [right; left; reflexivity|left; auto]. }
    apply (list_cons _ _ _ [Free 5] true [Use 20; Use 30]).
    { eapply run_free; reflexivity. }
    apply list_one. apply (run_async _ _ _ _ true [Use 20] true [Use 30]).
    + apply run_call. used. left. exists 2%nat. split; [left; left; reflexivity|left; auto].
    + apply run_call. used. left. exists 3%nat. split; [left; left; reflexivity|right; auto].
    + apply (shuffle_app [Use 20] [Use 30]).
  - split; [repeat constructor; cbn; intros K; repeat destruct K as [K|K]; try discriminate K; exact K|].
    intros x i [[-> ->]|[-> ->]] K; cbn in K; repeat destruct K as [K|K]; try discriminate K; exact K.
Qed.

(** Finding: the task of an async runs at the same time as its body, but the body is not looked at when the task uses the
    buffer: it is freed in the task, and the body may still use it. *)
Definition c51_async : stmt := SAllocate 0 heap (EConst 4) [] (SBlock
  [SAsync None (SCall 0 [0%nat] [2%nat] []) (SCall 1 [0%nat] [3%nat] []); SCall 2 [2%nat] [3%nat] []]).
Theorem C51_async_refuted : no_free c51_async /\ exists t1 i t2, runs (fun _ => nothing) (insert_early_free c51_async) true (t1 ++ Free i :: t2) /\
  fresh (fun _ => nothing) (t1 ++ Free i :: t2) /\ In (Use i) t2.
Proof.
  split; [cbn; tauto|]. exists [Make 5 heap], 5%nat, [Use 5; End_ 5]. split; [|split; [|left; reflexivity]].
  - assert (E : insert_early_free c51_async = SAllocate 0 heap (EConst 4) [] (SBlock
      [SAsync None (SBlock [SCall 0 [0%nat] [2%nat] []; SCheck (ECall i_free None [EVar 0 f_none 0])]) (SCall 1 [0%nat] [3%nat] []); SCall 2 [2%nat] [3%nat] []])) by (vm_compute; reflexivity).
    rewrite E. apply (run_allocate _ _ _ _ _ _ 5 true [Free 5; Use 5]). apply run_block. apply (list_cons _ _ _ [Free 5; Use 5] true []).
    + apply (run_async _ _ _ _ true [Free 5] true [Use 5]).
      * apply run_block. apply (list_cons _ _ _ [] true [Free 5]); [apply run_call; constructor|]. apply list_one. eapply run_free; reflexivity.
      * apply run_call. used. left. exists 0%nat. split; [left; left; reflexivity|reflexivity].
      * apply (shuffle_app [Free 5] [Use 5]).
    + apply list_one. apply run_call. constructor.
  - split; [repeat constructor; intros []|]. intros x i [].
Qed.
(** Finding: allocations with the same symbol, one in the other: the free of the inner one is taken for a use of the outer
    one, and another free, of the inner one, is put after it. *)
Definition c51_nested : stmt := SAllocate 0 heap (EConst 4) [] (SBlock
  [SAllocate 0 heap (EConst 4) [] (SBlock [SCall 0 [0%nat] [2%nat] []; SCall 1 [2%nat] [3%nat] []]); SCall 2 [2%nat] [3%nat] []]).
Theorem C51_nested_refuted : no_free c51_nested /\ exists t1 i t2, runs (fun _ => nothing) (insert_early_free c51_nested) true (t1 ++ Free i :: t2) /\
  fresh (fun _ => nothing) (t1 ++ Free i :: t2) /\ In (Free i) t2.
Proof.
  split; [cbn; tauto|]. exists [Make 5 heap; Make 6 heap], 6%nat, [Free 6; End_ 6; End_ 5]. split; [|split; [|left; reflexivity]].
  - assert (E : insert_early_free c51_nested = SAllocate 0 heap (EConst 4) [] (SBlock
      [SAllocate 0 heap (EConst 4) [] (SBlock [SCall 0 [0%nat] [2%nat] []; free_check 0; free_check 0; SCall 1 [2%nat] [3%nat] []]); SCall 2 [2%nat] [3%nat] []])) by (vm_compute; reflexivity).
    rewrite E. apply (run_allocate _ _ _ _ _ _ 5 true [Make 6 heap; Free 6; Free 6; End_ 6]). apply run_block. apply (list_cons _ _ _ [Make 6 heap; Free 6; Free 6; End_ 6] true []).
    + apply (run_allocate _ _ _ _ _ _ 6 true [Free 6; Free 6]). apply run_block. apply (list_cons _ _ _ [] true [Free 6; Free 6]); [apply run_call; constructor|].
      apply (list_cons _ _ _ [Free 6] true [Free 6]); [eapply run_free; reflexivity|].
      apply (list_cons _ _ _ [Free 6] true []); [eapply run_free; reflexivity|]. apply list_one. apply run_call; constructor.
    + apply list_one. apply run_call. constructor.
  - split; [repeat constructor; cbn; intros K; repeat destruct K as [K|K]; try discriminate K; exact K|]. intros x i [].
Qed.
(** The same with a constant in an allocation: the free is of the constant, which is not an allocation. *)
Theorem C51_constant_refuted : exists s t, no_free s /\ runs (fun _ => nothing) (insert_early_free s) true t /\ fresh (fun _ => nothing) t /\ In Invalid t.
Proof.
  exists (SAllocate 0 heap (EConst 4) [] (SBlock [SConst 0 7 (SCall 0 [0%nat] [2%nat] []); SCall 2 [2%nat] [3%nat] []])), [Make 5 heap; Invalid; End_ 5].
  split; [cbn; tauto|]. split; [|split; [|right; left; reflexivity]].
  - assert (E : insert_early_free (SAllocate 0 heap (EConst 4) [] (SBlock [SConst 0 7 (SCall 0 [0%nat] [2%nat] []); SCall 2 [2%nat] [3%nat] []])) =
      SAllocate 0 heap (EConst 4) [] (SBlock [SConst 0 7 (SBlock [SCall 0 [0%nat] [2%nat] []; free_check 0]); SCall 2 [2%nat] [3%nat] []])) by (vm_compute; reflexivity).
    rewrite E. apply (run_allocate _ _ _ _ _ _ 5 true [Invalid]). apply run_block. apply (list_cons _ _ _ [Invalid] true []).
    + apply run_const. apply run_block. apply (list_cons _ _ _ [] true [Invalid]); [apply run_call; constructor|]. apply list_one.
      eapply run_free_invalid; [reflexivity|]. intros i [].
    + apply list_one. apply run_call. constructor.
  - split; [repeat constructor; intros []|]. intros x i [].
Qed.
Print Assumptions C51_no_use_after_free.
Print Assumptions C51_same_runs.
