(** C27: evaluating a statement restores the caller's context.  C28: errors stop
    execution and are returned.  C29: loops run each iteration exactly once.  C30: every
    allocation is freed exactly once.  C37: blocks flatten without changing meaning. *)
From Coq Require Import ZArith List Bool Lia Sorted Permutation.
From Verif Require Import Arith_Model Arith_Proofs Buf_Model Alloc_Model Expr_Model Expr_Proofs Stmt_Model Stmt_Spec Stmt_Proofs StmtLoop_Proofs.
Import ListNotations.
Open Scope Z_scope.

(** ** A host for the examples: calls return the number of their target, allocation
    number n is the block 1000 n. *)
Definition ex_host : host Z :=
  Host Z (fun _ _ => 0) (fun _ _ => 0) (fun t _ _ _ c m x => (Z.of_nat t, x))
    (fun s b x => (Buf (Some (1000 * (x + 1))) (elem_size b) (dims b), 1000 * (x + 1), x + 1)) (fun s b p x => x)
    (fun b n x => 64) true (fun n k x => map (fun i => (0%nat, Z.of_nat i)) (seq 0 (Z.to_nat n))) (fun _ => true) (fun _ => 99) (fun _ => 0) 1 1 8.
(** one buffer, at address 1, is named by symbol 0 *)
Definition ex_buf : buf := Buf (Some 4096) 4 [Dim 0 9 4 unfolded; Dim 0 4 40 unfolded].
Definition ex_state : state Z := State Z (fun s => match s with O => 1 | _ => 7 end) (fun a => if a =? 1 then Some ex_buf else None) 2 [] 0 [].
Lemma ex_inv : inv ex_state.
Proof. split; [|constructor]. cbn [s_next s_buf ex_state]. intros a L. destruct (Z.eqb_spec a 1); [lia|reflexivity]. Qed.
Definition v_ (s : nat) := EVar s f_none 0.
Definition ex_dims := [DimE (EConst 0, EConst 9) EUndef EUndef].
(** let 1 = min(buffer 0, dim 0) + 2: crop buffer 0 in place; allocate 3; call 0; check false *)
Definition ex_prog (cond : expr) : stmt :=
  SLet [(1%nat, EBin Add (EVar 0 f_min 0) (EConst 2))]
    (SCropBuffer 0 0 [(v_ 1, EConst 7)]
      (SLoop 2 (EConst 1) (EConst 0, EConst 2) (EConst 1)
        (SAllocate 3 heap (EConst 4) ex_dims (SBlock [SCall 0 [] [] []; SCheck cond])))) false.
Lemma ex_prog_distinct c : lets_distinct c -> distinct (ex_prog c).
Proof.
  intro D. cbn. repeat split; auto; try (repeat constructor; cbn; tauto).
Qed.

(** ** C27 *)
(** Whatever the result, every symbol, except those of asyncs, has its old value, and
    every buffer object is as it was; in particular the ones made for the statement are
    gone. *)
Theorem C27_context_restored : forall X (H : host X) s st z st',
  inv st -> distinct s -> exec X H s st = Val (z, st') ->
  (forall x, ~ In x (async_syms s) -> s_ctx X st' x = s_ctx X st x) /\ (forall a, s_buf X st' a = s_buf X st a).
Proof.
  intros X H s st z st' I D E. destruct (proj1 (exec_good X H s D) _ _ _ I E) as [K1 K2 _ _ _]. exact (conj K1 K2).
Qed.
(** The condition on the state holds again afterwards, so the theorem applies to one
    evaluation after the other. *)
Theorem C27_objects_stay_below : forall X (H : host X) s st z st',
  inv st -> distinct s -> exec X H s st = Val (z, st') -> inv st'.
Proof. intros X H s st z st' I D E. exact (step_inv X _ _ _ _ _ I (proj1 (exec_good X H s D) _ _ _ I E)). Qed.

Definition exec_result (s : stmt) (st : state Z) : option (Z * list Z * list event * list (Z * Z)) :=
  match exec Z ex_host s st with
  | Val (z, st') => Some (z, map (s_ctx Z st') (seq 0 4), s_log Z st', s_alloc Z st')
  | UB => None
  end.
(** a program that crops its input in place, and fails in the second iteration *)
Example C27_ex : inv ex_state /\ distinct (ex_prog (EBin Less (v_ 2) (EConst 1))) /\
  exec_result (ex_prog (EBin Less (v_ 2) (EConst 1))) ex_state =
    Some (1, [1; 7; 7; 7], [EvAlloc 3 1000; EvCall 0 0; EvFree 3 1000; EvAlloc 3 2000; EvCall 0 0; EvCheckFailed; EvFree 3 2000], []).
Proof. split; [exact ex_inv|]. split; [apply ex_prog_distinct; cbn; tauto|vm_compute; reflexivity]. Qed.
(** Finding: async does not put back the old value of its symbol, it sets it to 0
    (evaluate.cc:552: old_sym is initialized to 0 and not to the value set returns). *)
Theorem C27_async_refuted :
  let s := SAsync (Some 1%nat) (SCheck (EConst 1)) (SCheck (EConst 1)) in
  inv ex_state /\ distinct s /\ s_ctx Z ex_state 1%nat = 7 /\
  exists z st', exec Z ex_host s ex_state = Val (z, st') /\ z = 0 /\ s_ctx Z st' 1%nat = 0.
Proof.
  cbv zeta. split; [exact ex_inv|]. split; [cbn; tauto|]. split; [reflexivity|]. eexists; eexists. split; [reflexivity|]. split; reflexivity.
Qed.
(** Finding: a let statement that binds a symbol twice leaves it changed. *)
Theorem C27_duplicate_let_refuted :
  let s := SLet [(1%nat, EConst 5); (1%nat, EConst 6)] (SCheck (EConst 1)) false in
  inv ex_state /\ s_ctx Z ex_state 1%nat = 7 /\
  exists z st', exec Z ex_host s ex_state = Val (z, st') /\ z = 0 /\ s_ctx Z st' 1%nat = 5.
Proof. cbv zeta. split; [exact ex_inv|]. split; [reflexivity|]. eexists; eexists. split; [reflexivity|]. split; reflexivity. Qed.

(** ** C28 *)
(** Any program: 0 is returned exactly when nothing failed, and otherwise the code of
    something that failed. *)
Theorem C28_failure_reported : forall X (H : host X) s st z st',
  inv st -> distinct s -> exec X H s st = Val (z, st') ->
  exists evs, s_log X st' = s_log X st ++ evs /\
    (z = 0 <-> Forall succeeds evs) /\ (z <> 0 -> exists e, In e evs /\ fails e = Some z).
Proof.
  intros X H s st z st' I D E. destruct (proj1 (exec_good X H s D) _ _ _ I E) as [_ _ _ _ (evs & L & ((R1 & R2) & _) & _)].
  exists evs. split; [exact L|]. split; [|exact R2]. split; [exact R1|]. intro F.
  destruct (Z.eq_dec z 0) as [|n]; [assumption|]. destruct (R2 n) as (e & J & Fe).
  rewrite Forall_forall in F. unfold succeeds in F. rewrite (F e J) in Fe. discriminate.
Qed.
(** A program without parallel loops and asyncs stops at its first failure and returns
    its code; after that only memory is freed. *)
Theorem C28_stops_at_first_failure : forall X (H : host X) s st z st',
  inv st -> distinct s -> sequential s = true -> exec X H s st = Val (z, st') ->
  exists evs, s_log X st' = s_log X st ++ evs /\ stops_at_first_failure z evs.
Proof.
  intros X H s st z st' I D Q E. destruct (proj1 (exec_good X H s D) _ _ _ I E) as [_ _ _ _ (evs & L & (_ & R & _) & _)].
  exists evs. split; [exact L|exact (R Q)].
Qed.
(** A block is evaluated by evaluating its statements in order, each once, until one
    fails. *)
Theorem C28_block : forall X (H : host X) l st z st',
  exec X H (SBlock l) st = Val (z, st') <-> runs (map (exec X H) l) st z st'.
Proof. intros. rewrite exec_block. apply go_block_runs. Qed.
Example C28_ex :
  sequential (ex_prog (EConst 1)) = true /\
  exec_result (ex_prog (EConst 1)) ex_state =
    Some (0, [1; 7; 7; 7], [EvAlloc 3 1000; EvCall 0 0; EvFree 3 1000; EvAlloc 3 2000; EvCall 0 0; EvFree 3 2000;
                            EvAlloc 3 3000; EvCall 0 0; EvFree 3 3000], []) /\
  exec_result (SBlock [SCall 0 [] [] []; SCall 5 [] [] []; SCall 6 [] [] []]) ex_state = Some (5, [1; 7; 7; 7], [EvCall 0 0; EvCall 5 5], []).
Proof. split; [reflexivity|]. split; vm_compute; reflexivity. Qed.

(** ** C29 *)
(** A loop with at most one worker and a positive step runs the body for
    lo, lo + step, ... up to hi, in that order, until the body fails. *)
Theorem C29_serial : forall X (H : host X) sym w bounds step_ body st z st',
  lets_distinct w -> distinct_interval bounds -> lets_distinct step_ ->
  exec X H (SLoop sym w bounds step_ body) st = Val (z, st') ->
  exists k lo hi stp st0 st1 st2,
    ev X H st w = Val (k, st0) /\ ev_interval X H st0 bounds = Val (lo, hi, st1) /\ ev_def X H st1 step_ 1 = Val (stp, st2) /\
    (k <= 1 -> 0 < stp -> exists vs st3, loop_range lo hi stp vs /\
       runs (map (fun i st => exec X H body (set_ctx X st (ctx_set (s_ctx X st) sym i))) vs)
         (set_ctx X st2 (ctx_set (s_ctx X st2) sym 0)) z st3 /\
       st' = set_ctx X st3 (ctx_set (s_ctx X st3) sym (s_ctx X st sym))).
Proof.
  intros X H sym w bounds step_ body st z st' D1 D2 D3 E.
  destruct (loop_inv X H _ _ _ _ _ _ _ _ D1 D2 D3 E) as (k & lo & hi & stp & st0 & st1 & st2 & E0 & E1 & E2 & Q & n0 & C).
  exists k, lo, hi, stp, st0, st1, st2. split; [exact E0|]. split; [exact E1|]. split; [exact E2|]. intros K P.
  destruct C as [(_ & st3 & E3 & ->)|(L & _)]; [|lia].
  exists (loop_values lo hi stp (Z.to_nat (hi - lo + 1)) lo), st3. split; [|split].
  - apply (loop_values_range lo hi stp P); lia.
  - exact (serial_loop_runs X sym _ _ _ _ _ _ _ _ _ E3).
  - destruct Q as (c & -> & Qc). change (s_ctx X (set_ctx X st c) sym) with (c sym). rewrite (Qc sym). reflexivity.
Qed.
(** A parallel loop over a range that is not shorter than empty, with a positive step,
    runs the body exactly once for each value, in some order, each time in a context in
    which the loop variable has that value and the captured variables (all, if the body
    is no closure) have the values they had before the loop, except those of asyncs.
    The result is that of the first iteration that failed. *)
Theorem C29_parallel : forall X (H : host X) sym w bounds step_ body st z st',
  (forall n k x, complete_schedule n (h_schedule X H n k x)) ->
  inv st -> lets_distinct w -> distinct_interval bounds -> lets_distinct step_ -> distinct body ->
  exec X H (SLoop sym w bounds step_ body) st = Val (z, st') ->
  exists k lo hi stp st0 st1 st2,
    ev X H st w = Val (k, st0) /\ ev_interval X H st0 bounds = Val (lo, hi, st1) /\ ev_def X H st1 step_ 1 = Val (stp, st2) /\
    (1 < k -> 0 < stp -> lo <= hi + 1 -> exists vs, loop_range lo hi stp vs /\
       ((vs = [] /\ z = 0 /\ st' = st2) \/
        (vs = [lo] /\ with_value X sym lo (exec X H body) st2 = Val (z, st')) \/
        (exists vs' zs st3, Permutation vs' vs /\
           iterations (inner X H body)
             (fun v c => c sym = v /\ forall x y, captured (s_ctx X st) (as_closure body) x y -> x <> sym -> ~ In x (async_syms body) -> c x = y)
             vs' st2 zs st3 /\
           z = first_failure zs /\ forall x, s_ctx X st' x = s_ctx X st x))).
Proof.
  intros X H sym w bounds step_ body st z st' HS I D1 D2 D3 D4 E.
  destruct (loop_inv X H _ _ _ _ _ _ _ _ D1 D2 D3 E) as (k & lo & hi & stp & st0 & st1 & st2 & E0 & E1 & E2 & Q & n0 & C).
  exists k, lo, hi, stp, st0, st1, st2. split; [exact E0|]. split; [exact E1|]. split; [exact E2|]. intros K P B.
  destruct C as [(L & _)|(_ & n & E3 & C)]; [lia|].
  destruct (par_count_inv _ _ _ _ P B E3) as [N0 N1].
  exists (map (fun i => i * stp + lo) (map Z.of_nat (seq 0 (Z.to_nat n)))). split; [exact (seq_range _ _ _ _ P N0 N1)|].
  destruct C as [(-> & -> & ->)|[(-> & E4)|(n1 & n2 & st3 & E4 & ->)]].
  - left. split; [reflexivity|]. split; reflexivity.
  - right. left. split; [reflexivity|exact E4].
  - right. right. pose proof (HS n k (s_ext X st2)) as HP. unfold complete_schedule in HP.
    set (sched := h_schedule X H n k (s_ext X st2)) in *.
    destruct (init_context X H (s_ctx X st2) (as_closure body) (Some sym)) as [c0|] eqn:Ec.
    + destruct (par_iterations X H sym (inner X H body) _ _ (s_ctx X st2) (as_closure body) lo stp c0
                  (proj2 (exec_good X H body D4)) Ec sched (fun _ => None) 0 st2 z st3 (quiet_inv X _ _ Q I)) as (zs & Its & Ez).
      { intros w0 c J. discriminate. }
      { exact E4. }
      exists (map (fun i => i * stp + lo) (map snd sched)), zs, st3. split; [apply Permutation_map; exact HP|].
      assert (Hcap : forall x y, captured (s_ctx X st) (as_closure body) x y -> x <> sym -> c0 x = y).
      { intros x y Cx Nx. apply (init_context_captured X H (s_ctx X st2) (as_closure body) sym c0 x y); [|exact Ec| |exact Nx].
        - intros l El. destruct body as [| | |l0 b0 []| | | | | | | | | | | | |]; try discriminate. injection El as <-. exact (proj1 D4).
        - destruct Q as (c & -> & Qc). cbn [s_ctx set_ctx]. unfold captured in *. destruct (as_closure body) as [l|].
          + destruct Cx as (src & d & J & ->). exists src, d. split; [exact J|symmetry; exact (Qc src)].
          + rewrite Cx. symmetry. exact (Qc x). }
      split; [|split; [exact Ez|]].
      * clear -Its Hcap. induction Its as [|v vs s c z0 s1 zs s2 [O1 O2] Ef Its IH]; [constructor|].
        eapply it_next; [|exact Ef|exact IH]. split; [exact O1|]. intros x y Cx Nx Na.
        rewrite O2; [exact (Hcap x y Cx Nx)|]. intros [J|J]; [congruence|exact (Na J)].
      * intro x. destruct Q as (c & -> & Qc). exact (Qc x).
    + exfalso. destruct sched as [|[w0 i0] sched'].
      * cbn [map] in HP. apply Permutation_length in HP. rewrite map_length, seq_length in HP. cbn [length] in HP. lia.
      * cbn [par_loop] in E4. rewrite Ec in E4. discriminate.
Qed.

Definition ex_loop (workers lo hi step : Z) : stmt := SLoop 2 (EConst workers) (EConst lo, EConst hi) (EConst step) (SCheck (v_ 0)).
Lemma ex_schedule_complete : forall n k x, complete_schedule n (h_schedule Z ex_host n k x).
Proof. intros n k x. unfold complete_schedule. cbn [h_schedule ex_host]. rewrite map_map. cbn [snd]. apply Permutation_refl. Qed.
(** the checks of a parallel loop over 3, 5, ..., 9: 7 and 9 fail *)
Example C29_ex :
  (forall n k x, complete_schedule n (h_schedule Z ex_host n k x)) /\
  exec_result (SLoop 2 (EConst 4) (EConst 3, EConst 10) (EConst 2) (SCheck (EBin Less (v_ 2) (EConst 6)))) ex_state =
    Some (1, [1; 7; 7; 7], [EvCheckFailed; EvCheckFailed], []) /\
  exec_result (SLoop 2 (EConst 1) (EConst 3, EConst 10) (EConst 2) (SCheck (EBin Less (v_ 2) (EConst 6)))) ex_state =
    Some (1, [1; 7; 7; 7], [EvCheckFailed], []).
Proof. split; [exact ex_schedule_complete|]. split; vm_compute; reflexivity. Qed.
(** Finding: over the range [0, -5], where a serial loop runs nothing, a parallel loop
    asks the thread pool for 2^64 - 4 iterations (evaluate.cc:453 converts the negative
    count to a size_t). *)
Theorem C29_negative_extent_refuted :
  par_count 0 (-5) 1 = Val (2 ^ 64 - 4) /\ exec_result (ex_loop 1 0 (-5) 1) ex_state = Some (0, [1; 7; 7; 7], [], []).
Proof. split; vm_compute; reflexivity. Qed.
(** Finding: a serial loop with a negative step runs one iteration. *)
Theorem C29_negative_step_refuted :
  exec_result (SLoop 2 (EConst 1) (EConst 5, EConst 9) (EConst (-1)) (SCall 0 [] [] [])) ex_state = Some (0, [1; 7; 7; 7], [EvCall 0 0], []).
Proof. vm_compute. reflexivity. Qed.
(** Finding: a loop up to the largest index_t overflows after its last iteration. *)
Theorem C29_last_index_refuted :
  exec_result (ex_loop 1 (2 ^ 63 - 1) (2 ^ 63 - 1) 1) ex_state = None.
Proof. vm_compute. reflexivity. Qed.

(** ** C30 *)
(** A program that starts without live allocations gives back every block exactly as
    often as it obtained it, never before, whether it succeeds or fails. *)
Theorem C30_every_block_freed : forall X (H : host X) s st z st',
  inv st -> distinct s -> s_alloc X st = [] -> exec X H s st = Val (z, st') ->
  s_alloc X st' = [] /\
  exists evs, s_log X st' = s_log X st ++ evs /\
    forall p, p <> 0 -> allocs p evs = frees p evs /\ forall pre post, evs = pre ++ post -> (frees p pre <= allocs p pre)%nat.
Proof.
  intros X H s st z st' I D A E. destruct (proj1 (exec_good X H s D) _ _ _ I E) as [_ _ _ K (evs & L & _ & B)].
  rewrite A in *. assert (A' : s_alloc X st' = []) by (inversion K; reflexivity). split; [exact A'|].
  exists evs. split; [exact L|]. intros p n. destruct (B p n) as [B1 B2]. rewrite A' in B1. unfold live in *. cbn [filter length] in *.
  split; [lia|]. intros pre post Ep. specialize (B2 pre post Ep). lia.
Qed.
(** the same from any state *)
Theorem C30_balanced : forall X (H : host X) s st z st',
  inv st -> distinct s -> exec X H s st = Val (z, st') ->
  exists evs, s_log X st' = s_log X st ++ evs /\ balanced (s_alloc X st) evs (s_alloc X st').
Proof.
  intros X H s st z st' I D E. destruct (proj1 (exec_good X H s D) _ _ _ I E) as [_ _ _ K (evs & L & _ & B)].
  exists evs. exact (conj L B).
Qed.
(** An allocate on the heap obtains a block p.  If that fails, p is given back at once;
    otherwise the body runs, and then p is given back, unless the body did it. *)
Theorem C30_allocate : forall X (H : host X) sym e ds body st z st',
  inv st -> distinct (SAllocate sym heap e ds body) -> exec X H (SAllocate sym heap e ds body) st = Val (z, st') ->
  exists p,
    (z = -1 /\ s_log X st' = s_log X st ++ EvAlloc sym p :: EvFailed sym :: (if p =? 0 then [] else [EvFree sym p])) \/
    (exists st1 st2 evs, exec X H body st1 = Val (z, st2) /\
       s_log X st1 = s_log X st ++ [EvAlloc sym p] /\ s_log X st2 = s_log X st1 ++ evs /\
       (s_log X st' = s_log X st2 ++ [EvFree sym p] \/
        (s_log X st' = s_log X st2 /\ (p = 0 \/ (0 < frees p evs)%nat)))).
Proof.
  intros X H sym e ds body st z st' I (D1 & D2 & D3) E. cbn [exec] in E.
  assert (Eheap : forall st2 z0 st0, (z0, st0) = (-1, log X st2 (EvFailed sym)) -> True) by auto.
  unfold exec_allocate in E.
  apply bind_inv in E; destruct E as ([es st1] & E1 & E). apply bind_inv in E; destruct E as ([dl st2] & E2 & E). cbv zeta in E.
  pose proof (quiet_trans X _ _ _ (ev_quiet X H _ _ _ _ D1 E1) (ev_dims_quiet X H _ _ _ _ _ D2 E2)) as Q. clear E1 E2 Eheap.
  cbn [bind] in E. destruct (heap_allocate X H sym (Buf None es dl) st2) as [[b p] st3] eqn:Eh.
  pose proof (heap_obtained X H _ _ _ _ _ _ Eh) as O.
  assert (L3 : s_log X st3 = s_log X st ++ [EvAlloc sym p]).
  { unfold heap_allocate in Eh. destruct (h_allocate X H sym _ (s_ext X st2)) as [[b1 p1] x]. injection Eh as <- <- <-.
    destruct Q as (c & -> & _). reflexivity. }
  exists p. destruct (alloc_fails b).
  - left. injection E as <- <-. split; [reflexivity|]. destruct (p =? 0); unfold free_buffer; cbn [s_log log set_ext]; rewrite L3, <- !app_assoc; reflexivity.
  - right. apply bind_inv in E; destruct E as ([z0 st4] & E1 & E).
    set (a := s_next X st3) in *. destruct O as (Oc & Ob & On & Oa & _). apply (quiet_inv X _ _ Q) in I.
    set (st5 := set_alloc X (set_next X (set_buf X st3 a (Some b)) (a + 1)) ((a, p) :: s_alloc X st3)) in *.
    unfold with_value in E1. apply bind_inv in E1; destruct E1 as ([z1 st6] & E1 & E1'). injection E1' as <- <-.
    assert (I5 : inv (set_ctx X st5 (ctx_set (s_ctx X st5) sym a))).
    { destruct I as [I1 I2]. unfold st5, a. split; cbn [s_next s_buf s_alloc set_ctx set_alloc set_next set_buf].
      - intros x Lx. destruct (Z.eqb_spec x (s_next X st3)); [lia|]. rewrite Ob. apply I1. lia.
      - constructor; [cbn [fst]; lia|]. rewrite Oa. eapply Forall_impl; [|exact I2]. cbn. intros; lia. }
    destruct (proj1 (exec_good X H body D3) _ _ _ I5 E1) as [_ K2 _ K4 (evs & M1 & _ & M3)].
    exists (set_ctx X st5 (ctx_set (s_ctx X st5) sym a)), st6, evs. split.
    { cbn [s_buf s_alloc set_ctx] in E. pose proof (K2 a) as Ka. cbn [s_buf set_ctx st5 set_alloc set_next set_buf] in Ka. rewrite Z.eqb_refl in Ka.
      rewrite Ka in E. destruct (lookup_alloc (s_alloc X st6) a); [|discriminate]. injection E as <- _. exact E1. }
    split; [exact L3|]. split; [exact M1|].
    cbn [s_buf s_alloc set_ctx] in E. pose proof (K2 a) as Ka. cbn [s_buf set_ctx st5 set_alloc set_next set_buf] in Ka. rewrite Z.eqb_refl in Ka.
    rewrite Ka in E. cbn [s_alloc set_ctx st5 set_alloc] in K4.
    destruct (s_alloc X st6) as [|[a6 p6] l6] eqn:Ea; [inversion K4|]. inversion K4 as [|? ? ? ? [Ka6 Kp6] K4']; subst. cbn [fst snd] in Ka6, Kp6. subst a6.
    cbn [lookup_alloc] in E. rewrite Z.eqb_refl in E. injection E as <- <-.
    destruct Kp6 as [->| ->].
    + destruct (Z.eqb_spec p 0) as [->|n]; [right; split; [reflexivity|left; reflexivity]|left; reflexivity].
    + right. split; [reflexivity|]. destruct (Z.eq_dec p 0) as [|n]; [left; assumption|]. right.
      destruct (M3 p n) as [M4 _]. cbn [s_alloc set_ctx st5 set_alloc] in M4. rewrite !live_cons in M4.
      rewrite Z.eqb_refl in M4. replace (0 =? p) with false in M4 by (symmetry; apply Z.eqb_neq; congruence).
      assert (Lv : (live l6 p <= live (s_alloc X st3) p)%nat).
      { clear -K4' n. induction K4' as [|[k1 q1] [k2 q2] l l' [_ Kq] F IH]; [lia|]. rewrite !live_cons. cbn [snd] in Kq.
        destruct Kq as [->| ->]; [lia|]. replace (0 =? p) with false by (symmetry; apply Z.eqb_neq; congruence). lia. }
      unfold allocs, frees in *. lia.
Qed.
(** A program all of whose allocations are on the stack never asks for a block, and
    gives none back, but for the null pointer. *)
Theorem C30_stack : forall X (H : host X) s st z st',
  inv st -> distinct s -> stack_only s = true -> s_alloc X st = [] -> exec X H s st = Val (z, st') ->
  exists evs, s_log X st' = s_log X st ++ evs /\ forall sym p, ~ In (EvAlloc sym p) evs /\ (In (EvFree sym p) evs -> p = 0).
Proof.
  intros X H s st z st' I D Q A E. destruct (proj1 (exec_good X H s D) _ _ _ I E) as [_ _ _ _ (evs & L & (_ & _ & N) & B)].
  specialize (N Q). exists evs. split; [exact L|]. intros sym p. rewrite Forall_forall in N. split.
  - intro J. specialize (N _ J). discriminate.
  - intro J. destruct (Z.eq_dec p 0) as [|n]; [assumption|]. exfalso. destruct (B p n) as [_ B2]. specialize (B2 evs [] (eq_sym (app_nil_r evs))).
    rewrite A in B2. unfold live, allocs, frees, count in B2. cbn [filter length] in B2.
    assert (G : filter (fun e => match alloc_of e with Some q => q =? p | None => false end) evs = []).
    { clear -N. induction evs as [|e evs IH]; [reflexivity|]. cbn [filter]. rewrite (N e (or_introl eq_refl)). apply IH. intros x J. apply N. right. exact J. }
    rewrite G in B2. cbn [length] in B2.
    assert (J' : In (EvFree sym p) (filter (fun e => match free_of e with Some q => q =? p | None => false end) evs))
      by (apply filter_In; split; [exact J|cbn [free_of]; apply Z.eqb_refl]).
    destruct (filter _ evs) as [|? ?]; [destruct J'|cbn [length] in B2; lia].
Qed.
(** an early free, and a failing allocation *)
Example C30_ex :
  exec_result (SAllocate 3 heap (EConst 4) ex_dims (SBlock [SCheck (ECall i_free None [v_ 3]); SCall 5 [] [] []])) ex_state =
    Some (5, [1; 7; 7; 7], [EvAlloc 3 1000; EvFree 3 1000; EvCall 5 5], []) /\
  exec_result (SAllocate 3 heap (EConst 4) ex_dims (SBlock [SCall 5 [] [] []])) ex_state =
    Some (5, [1; 7; 7; 7], [EvAlloc 3 1000; EvCall 5 5; EvFree 3 1000], []) /\
  exec_result (SAllocate 3 stack (EConst 4) ex_dims (SBlock [SCall 0 [] [] []])) ex_state = Some (0, [1; 7; 7; 7], [EvCall 0 0], []) /\
  exec_result (SAllocate 3 automatic (EConst 4) ex_dims (SBlock [SCall 0 [] [] []])) ex_state =
    Some (0, [1; 7; 7; 7], [EvAlloc 3 1000; EvCall 0 0; EvFree 3 1000], []).
Proof. split; [|split; [|split]]; vm_compute; reflexivity. Qed.

(** ** C37 *)
(** a statement that is not undefined and, if a block, has no blocks and no undefined
    statements among its statements: what block::make itself gives *)
Definition flat (s : stmt) : Prop :=
  match s with SBlock l => Forall (fun x => x <> SUndef /\ forall k, x <> SBlock k) l /\ (2 <= length l)%nat | _ => True end.
(** the statements a list of statements stands for *)
Fixpoint parts (l : list stmt) : list stmt :=
  match l with
  | [] => []
  | SUndef :: l' => parts l'
  | SBlock k :: l' => k ++ parts l'
  | s :: l' => s :: parts l'
  end.
Lemma make_parts l : Forall flat l -> erase_undefs (flatten_blocks l) = parts l.
Proof.
  unfold erase_undefs. induction 1 as [|s l F _ IH]; [reflexivity|].
  destruct s; cbn [flatten_blocks parts filter sdefined]; try (rewrite IH; reflexivity); try exact IH.
  rewrite filter_app, IH. f_equal. destruct F as [F _]. clear -F.
  induction F as [|x k [N _] _ IHk]; [reflexivity|]. cbn [filter]. destruct x; cbn [sdefined]; try (rewrite IHk; reflexivity). congruence.
Qed.
Lemma parts_flat l : Forall flat l -> Forall (fun x => x <> SUndef /\ forall k, x <> SBlock k) (parts l).
Proof.
  induction 1 as [|s l F _ IH]; [constructor|].
  destruct s; cbn [parts]; try exact IH; try (constructor; [split; [discriminate|intro; discriminate]|exact IH]).
  apply Forall_app. split; [exact (proj1 F)|exact IH].
Qed.
(** Making a block of flat statements gives a flat statement: nothing, the only
    statement, or a block of at least two statements none of which is a block. *)
Theorem C37_flat : forall l, Forall flat l ->
  flat (block_make l) /\
  block_make l = match parts l with [] => SUndef | [s] => s | k => SBlock k end.
Proof.
  intros l F. pose proof (parts_flat l F) as P. unfold block_make. rewrite (make_parts l F).
  destruct (parts l) as [|s [|t k]].
  - split; [exact I|reflexivity].
  - split; [|reflexivity]. inversion P as [|? ? [_ N] _]; subst. destruct s; try exact I. exfalso. apply (N l0). reflexivity.
  - split; [|reflexivity]. split; [exact P|cbn [length]; lia].
Qed.
Lemma runs_app {S} (f g : list (S -> res (Z * S))) s z s' :
  runs (f ++ g) s z s' <-> (exists s1, runs f s 0 s1 /\ runs g s1 z s') \/ (runs f s z s' /\ z <> 0).
Proof.
  revert s; induction f as [|x f IH]; intro s; cbn [app]; split.
  - intro R. left. exists s. split; [constructor|exact R].
  - intros [(s1 & R1 & R2)|(R & n)]; [inversion R1; subst; exact R2|inversion R; subst; congruence].
  - intro R. inversion R as [|? ? ? s1 ? ? E R'|? ? ? ? ? E n]; subst.
    + apply IH in R'. destruct R' as [(s2 & R1 & R2)|(R1 & n)].
      * left. exists s2. split; [eapply runs_next; eassumption|exact R2].
      * right. split; [eapply runs_next; eassumption|exact n].
    + right. split; [apply runs_fail; assumption|exact n].
  - intros [(s1 & R1 & R2)|(R & n)].
    + inversion R1 as [|? ? ? s2 ? ? E R'|? ? ? ? ? E n]; subst; [|congruence].
      eapply runs_next; [exact E|]. apply IH. left. exists s1. exact (conj R' R2).
    + inversion R as [|? ? ? s2 ? ? E R'|? ? ? ? ? E n']; subst.
      * eapply runs_next; [exact E|]. apply IH. right. exact (conj R' n).
      * apply runs_fail; assumption.
Qed.
(** Evaluating the block evaluates the given statements in order, each once, until one
    fails; undefined statements count for nothing. *)
Definition run_defined {X} (H : host X) (l : list stmt) := runs (map (exec X H) (filter sdefined l)).
Theorem C37_same_execution : forall X (H : host X) l st z st', Forall flat l ->
  (exec X H (block_make l) st = Val (z, st') \/ (block_make l = SUndef /\ z = 0 /\ st' = st)) <-> run_defined H l st z st'.
Proof.
  intros X H l st z st' F.
  assert (E : run_defined H l st z st' <-> runs (map (exec X H) (parts l)) st z st').
  { unfold run_defined. clear F. revert st. induction l as [|s l IH]; intro st; [reflexivity|].
    assert (C : forall t, runs (map (exec X H) (t :: filter sdefined l)) st z st' <-> runs (map (exec X H) (t :: parts l)) st z st').
    { intro t. cbn [map]. split; intro R; inversion R; subst; try (apply runs_fail; assumption); (eapply runs_next; [eassumption|]; apply IH; assumption). }
    destruct s as [| | | |k| | | | | | | | | | | |]; cbn [filter sdefined parts]; try (apply C); [apply IH|].
    rewrite map_app, runs_app. cbn [map]. split.
    - intro R. inversion R as [|? ? ? s1 ? ? E R'|? ? ? ? ? E n]; subst.
      + left. exists s1. split; [apply (go_block_runs X H); exact E|apply IH; exact R'].
      + right. split; [apply (go_block_runs X H); exact E|exact n].
    - intros [(s1 & R1 & R2)|(R & n)].
      + eapply runs_next; [apply (go_block_runs X H) in R1; exact R1|]. apply IH. exact R2.
      + apply runs_fail; [apply (go_block_runs X H) in R; exact R|exact n]. }
  rewrite E. destruct (C37_flat l F) as [_ M]. rewrite M. pose proof (parts_flat l F) as P.
  destruct (parts l) as [|s [|t k]].
  - split.
    + intros [E'|(_ & -> & ->)]; [discriminate|constructor].
    + intro R. inversion R; subst. right. split; [reflexivity|split; reflexivity].
  - inversion P as [|? ? [N _] _]; subst. split.
    + intros [E'|(C & _)]; [|congruence]. cbn [map]. destruct (Z.eq_dec z 0) as [->|n]; [eapply runs_next; [exact E'|constructor]|apply runs_fail; assumption].
    + intro R. left. cbn [map] in R. inversion R as [|? ? ? s1 ? ? E' R'|? ? ? ? ? E' n]; subst; [inversion R'; subst; exact E'|exact E'].
  - split.
    + intros [E'|(C & _)]; [|discriminate]. apply (go_block_runs X H). exact E'.
    + intro R. left. apply (go_block_runs X H) in R. exact R.
Qed.
(** the other overloads of block::make *)
Lemma make_one b : flat b -> block_make [b] = b.
Proof.
  intro F. destruct (C37_flat [b]) as [_ ->]; [constructor; [exact F|constructor]|].
  destruct b; cbn [parts]; try reflexivity. rewrite app_nil_r. destruct F as [_ L].
  destruct l as [|? [|? ?]]; cbn [length] in L; [lia|lia|reflexivity].
Qed.
Theorem C37_pair : forall a b, flat a -> flat b ->
  block_make2 a b = block_make [a; b] /\ forall l, block_make_tail l a = block_make (l ++ [a]).
Proof.
  intros a b Fa Fb. split; [|reflexivity]. unfold block_make2.
  destruct (sdefined a) eqn:Da; cbn [negb].
  - destruct (sdefined b) eqn:Db; cbn [negb]; [reflexivity|].
    destruct b; try discriminate. rewrite <- (make_one a Fa) at 1. unfold block_make, erase_undefs.
    replace (filter sdefined (flatten_blocks [a; SUndef])) with (filter sdefined (flatten_blocks [a])); [reflexivity|].
    destruct a; try discriminate; try reflexivity. cbn [flatten_blocks]. rewrite !filter_app. reflexivity.
  - destruct a; try discriminate. rewrite <- (make_one b Fb) at 1. reflexivity.
Qed.
Example C37_ex :
  let a := SCall 1 [] [] [] in let b := SCheck (EConst 1) in let k := block_make [a; SUndef; b] in
  flat a /\ flat b /\ flat k /\ k = SBlock [a; b] /\ block_make [SUndef; k; a] = SBlock [a; b; a] /\
  block_make [SUndef; a] = a /\ block_make [SUndef] = SUndef.
Proof. cbv zeta. repeat split; try (repeat constructor; cbn; try discriminate; intro; discriminate). Qed.
