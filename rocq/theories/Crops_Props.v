(** C69: the crops of a loop's body. *)
From Coq Require Import ZArith List Bool Arith Lia.
From Verif Require Import Arith_Model Buf_Model Buf_Spec ForEach_Spec Expr_Model Stmt_Model Deps_Spec Subst_Spec VSem_Spec Concat_Model Crops_Model Crops_Spec Crops_Proofs Crops2_Proofs Crops3_Proofs Crops4_Proofs Concat_Props.
Import ListNotations.
Open Scope Z_scope.

(** The search finds the buffers on paths of dependences from what the body computes to the outputs of the loop's function,
    if there are no cycles. *)
Theorem C69_needed_buffers : forall deps terminal constants roots, acyclic deps ->
  exists n res, (forall fuel, (n <= fuel)%nat -> find_transitive_deps deps terminal fuel constants roots = Some res) /\
    forall x, In x res <-> leads deps (fun x => In x terminal) x /\ exists v, In v roots /\ ~ In v constants /\ reaches deps (fun x => In x terminal) v x.
Proof.
  intros deps terminal constants roots (rk & Dn).
  assert (B : forall l v, In v l -> (rk v <= fold_right Nat.max 0 (map rk l))%nat).
  { induction l as [|w l IH]; intros v []; cbn [map fold_right]; [subst; lia|specialize (IH v H); lia]. }
  set (n := S (fold_right Nat.max 0%nat (map rk roots))).
  assert (F : forall fuel, (n <= fuel)%nat -> exists res, find_transitive_deps deps terminal fuel constants roots = Some res /\ forall x, In x res <-> leads deps (fun x => In x terminal) x /\ exists v, In v roots /\ ~ In v constants /\ reaches deps (fun x => In x terminal) v x).
  { intros fuel L. apply (find_ok deps terminal rk Dn). intros v Iv. specialize (B roots v Iv). unfold n in L. lia. }
  destruct (F n (le_n _)) as (res & R & Q). exists n, res. split; [|exact Q]. intros fuel L. exact (find_mono deps terminal constants roots n fuel L res R).
Qed.

(** In a loop, cropping only the dimensions that vary in the loop, and only of the buffers that the body needs, gives these buffers
    the elements and, except for inputs in dimensions that do not vary, exactly the bounds that cropping every dimension of every buffer
    gives. *)
Theorem C69_crops : forall X H call_v copy_v consts i fuel res E0 E body v,
  is_pipeline i -> sources_used_here i -> buffers_ok X H i E0 E ->
  find_transitive_deps (bi_deps i) (map fst (bi_outputs i)) fuel (bi_constants i) (bi_roots i) = Some res ->
  vexec X H call_v copy_v consts (all_crops (bi_order i) (bi_inputs i) body) E v <> UB ->
  exists E1 E2,
    vexec X H call_v copy_v consts (crop_body (has (res ++ bi_sources i)) (loop_dims (bi_outputs i) (bi_loop i)) (bi_order i) (bi_inputs i) body) E v = vexec X H call_v copy_v consts body E1 v /\
    vexec X H call_v copy_v consts (all_crops (bi_order i) (bi_inputs i) body) E v = vexec X H call_v copy_v consts body E2 v /\
    (forall x, ~ In x (map fst (bi_items i)) -> E1 x = E x /\ E2 x = E x) /\
    (forall x, In x (map fst (bi_items i)) -> needed i x -> exists k0 b0 k1 b1 k2 b2, E0 x = Buffer k0 b0 /\ E1 x = Buffer k1 b1 /\ E2 x = Buffer k2 b2 /\
       well_cropped (varies (bi_outputs i) (bi_loop i) (bi_items i) x) (In x (map fst (concat (bi_order i)))) b0 b1 b2).
Proof.
  intros X H call_v copy_v consts i fuel res E0 E body v IP S B F V.
  apply (body_ok X H call_v copy_v consts i IP S res); [|exact B|exact V]. exists fuel. intros g L. exact (find_mono _ _ _ _ fuel g L res F).
Qed.

(** *** A stencil: buffer 1 is computed in a loop over its rows from buffer 2 and its neighbours, buffer 2 is a copy of the input 3. *)
Definition c69_min (x : nat) (d : Z) := EVar x f_min d.
Definition c69_max (x : nat) (d : Z) := EVar x f_max d.
Definition c69_stencil : list interval :=
  [(EBin Sub (c69_min 1 0) (EConst 1), EBin Add (c69_max 1 0) (EConst 1)); (EBin Sub (c69_min 1 1) (EConst 1), EBin Add (c69_max 1 1) (EConst 1))].
Definition c69_same (x : nat) : list interval := [(c69_min x 0, c69_max x 0); (c69_min x 1, c69_max x 1)].
Definition c69_deps (x : nat) : list nat := match x with 2%nat => [1%nat] | 3%nat => [2%nat] | _ => [] end.
Definition c69_info : body_info := BodyInfo [(1, [10; 11])]%nat 11 [[(2%nat, c69_stencil)]] [(3%nat, c69_same 2)] c69_deps [] [1; 2]%nat [3%nat].
Definition c69_buf (p lo0 hi0 lo1 hi1 : Z) : buf := Buf (Some p) 1 [Dim lo0 hi0 1 unfolded; Dim lo1 hi1 100 unfolded].
Definition c69_env (row : option Z) : venv := fun x =>
  match x with
  | 1%nat => Buffer Own (match row with None => c69_buf 1000 0 9 0 9 | Some y => c69_buf (1000 + 100 * y) 0 9 y y end)
  | 2%nat => Buffer Own (c69_buf 5000 (-1) 10 (-1) 10)
  | 3%nat => Buffer Own (c69_buf 9000 (-20) 20 (-20) 20)
  | _ => Undef
  end.
Definition c69_body : stmt := SBlock [SCall 7 [3%nat] [2%nat] []; SCall 8 [2%nat] [1%nat] []].
Definition c69_log : Type := list (list (list (Z * Z))).
Definition c69_call (t : nat) (bi bo : list buf) (vs : list Z) (x : c69_log) : Z * c69_log :=
  (0, x ++ map (fun b => map (fun d => (d_min d, d_max d)) (dims b)) bi :: []).
Definition no_copy {X} (a b : buf) (p : option buf) (f : list Z -> option (list Z)) (x : X) : X := x.
Lemma c69_ready : is_pipeline c69_info /\ sources_used_here c69_info /\ buffers_ok c69_log (idle _) c69_info (c69_env None) (c69_env (Some 3)).
Proof.
  assert (Cases : forall s l, In (s, l) (bi_items c69_info) -> (s = 2%nat /\ l = c69_stencil) \/ (s = 3%nat /\ l = c69_same 2)).
  { intros s l [Q|[Q|[]]]; injection Q as <- <-; auto. }
  assert (U2 : forall y d, bounds_use y d c69_stencil -> y = 1%nat).
  { intros y d (b & [<-|[<-|[]]] & [[U|U]|[U|U]]); cbn in U; intuition congruence. }
  assert (U3 : forall y d, bounds_use y d (c69_same 2) -> y = 2%nat).
  { intros y d (b & [<-|[<-|[]]] & [[U|U]|[U|U]]); cbn in U; intuition congruence. }
  split; [|split].
  - constructor.
    + exists (fun x => x). intros v p I. destruct v as [|[|[|[|v]]]]; cbn in I; try contradiction; destruct I as [<-|[]]; lia.
    + cbn. repeat constructor; cbn; intuition congruence.
    + intros x [<-|[<-|[]]]; unfold bi_terminal; cbn; intuition congruence.
    + cbn [ordered c69_info bi_order bi_inputs app]. split; [|split; [|exact I]].
      * intros s l y d [Q|[]] B. injection Q as <- <-. apply U2 in B. subst. cbn. intuition congruence.
      * intros s l y d [Q|[]] B. injection Q as <- <-. apply U3 in B. subst. cbn. intuition congruence.
    + intros s l y d I B _. destruct (Cases s l I) as [(-> & ->)|(-> & ->)]; [apply U2 in B|apply U3 in B]; subst; left; reflexivity.
    + intros s l b I Ib. destruct (Cases s l I) as [(-> & ->)|(-> & ->)]; destruct Ib as [<-|[<-|[]]]; split; (split; [cbn; tauto|intros y d; cbn; intuition congruence]).
  - intros s p [<-|[]] [<-|[]]. right. exists 2%nat. split; [right; left; reflexivity|]. split; [intros []|]. apply reaches_here. unfold bi_terminal. cbn. intuition congruence.
  - constructor.
    + intros x. destruct x as [|[|[|[|x]]]]; try (left; reflexivity). right. eexists _, _, _, _. split; [reflexivity|]. split; [reflexivity|]. split; [reflexivity|]. split; [reflexivity|]. split.
      * intro d. destruct d as [|[|d]]; split; reflexivity.
      * intros d N. destruct d as [|[|d]]; try reflexivity. destruct N. exists [10; 11]%nat. split; [left; reflexivity|reflexivity].
    + intros s l I. destruct (Cases s l I) as [(-> & ->)|(-> & ->)]; eexists _, _; (split; [reflexivity|]); (split; [reflexivity|]); (split; [reflexivity|]); (split; [cbn; lia|]).
      * intros _ d b Eb. destruct d as [|[|d]]; cbn in Eb; [| |destruct d; discriminate]; injection Eb as <-; split; intros z Q; vm_compute in Q; injection Q as <-; cbn; lia.
      * intros [Q|[]]. discriminate Q.
Qed.
(** The needed buffers are 2 and the source 3; only their rows vary; buffer 2 has three rows of all its columns, buffer 3 has three rows of all columns
    that it has outside of the loop (with all crops, it has those of buffer 2). *)
Example C69_case :
  let i := c69_info in
  find_transitive_deps (bi_deps i) (map fst (bi_outputs i)) 5 (bi_constants i) (bi_roots i) = Some [2%nat] /\
  vexec c69_log (idle _) c69_call no_copy no_const (crop_body (has [2; 3]%nat) (loop_dims (bi_outputs i) (bi_loop i)) (bi_order i) (bi_inputs i) c69_body) (c69_env (Some 3)) (VState _ [] [] []) =
    Val (0, VState _ [[[(-20, 20); (2, 4)]]; [[(-1, 10); (2, 4)]]] [] [EvCall 7 0; EvCall 8 0]) /\
  vexec c69_log (idle _) c69_call no_copy no_const (all_crops (bi_order i) (bi_inputs i) c69_body) (c69_env (Some 3)) (VState _ [] [] []) =
    Val (0, VState _ [[[(-1, 10); (2, 4)]]; [[(-1, 10); (2, 4)]]] [] [EvCall 7 0; EvCall 8 0]) /\
  crop_body (has [2; 3]%nat) (loop_dims (bi_outputs i) (bi_loop i)) (bi_order i) (bi_inputs i) c69_body =
    SCropDim 2 2 1 (EBin Sub (c69_min 1 1) (EConst 1), EBin Add (c69_max 1 1) (EConst 1)) (SCropDim 3 3 1 (c69_min 2 1, c69_max 2 1) c69_body).
Proof. vm_compute. repeat split. Qed.
Example C69_crops_used : exists E1 E2,
  vexec c69_log (idle _) c69_call no_copy no_const (crop_body (has ([2] ++ [3])%nat) (loop_dims [(1, [10; 11])]%nat 11) (bi_order c69_info) (bi_inputs c69_info) c69_body) (c69_env (Some 3)) (VState _ [] [] []) =
    vexec c69_log (idle _) c69_call no_copy no_const c69_body E1 (VState _ [] [] []) /\
  exists k1 b1 k2 b2, E1 2%nat = Buffer k1 b1 /\ E2 2%nat = Buffer k2 b2 /\ dims b1 = dims b2.
Proof.
  destruct c69_ready as (P & S & B). destruct (C69_crops c69_log (idle _) c69_call no_copy no_const c69_info 5 [2%nat] _ _ c69_body (VState _ [] [] []) P S B eq_refl) as (E1 & E2 & Q1 & _ & _ & W); [vm_compute; discriminate|].
  exists E1, E2. split; [exact Q1|]. destruct (W 2%nat) as (k0 & b0 & k1 & b1 & k2 & b2 & _ & R1 & R2 & Wc); [left; reflexivity| |].
  - right. exists 2%nat. split; [right; left; reflexivity|]. split; [intros []|]. apply reaches_here. unfold bi_terminal. cbn. intuition congruence.
  - exists k1, b1, k2, b2. repeat (split; [assumption|]). apply (wc_exact _ _ _ _ _ Wc). left. reflexivity.
Qed.

(** The search forgets nodes of a cycle: 2 is on the path 2, 1, 9, but is not found. *)
Example C69_cycle_refuted :
  let deps := fun x => match x with 1%nat => [2; 9]%nat | 2%nat => [1%nat] | _ => [] end in
  find_transitive_deps deps [9%nat] 5 [] [1%nat] = Some [1%nat] /\
  reaches deps (fun x => In x [9%nat]) 1 2 /\ leads deps (fun x => In x [9%nat]) 2.
Proof.
  cbv zeta. split; [reflexivity|]. split.
  - apply (reaches_step _ _ _ 2); [cbn; lia|left; reflexivity|]. apply reaches_here. cbn. lia.
  - apply (leads_step _ _ _ 1); [left; reflexivity|]. apply (leads_step _ _ _ 9); [right; left; reflexivity|]. apply leads_end. left. reflexivity.
Qed.

(** If a source of a copy of the body is also used by a function that the body does not compute (here buffer 4, which is computed from buffer 3 and used like
    buffer 2), the latter is not cropped, and the source is larger than with all crops: rows -1 to 10 instead of 2 to 4. *)
Definition c69_both : list interval :=
  [(EBin Min (c69_min 2 0) (c69_min 4 0), EBin Max (c69_max 2 0) (c69_max 4 0)); (EBin Min (c69_min 2 1) (c69_min 4 1), EBin Max (c69_max 2 1) (c69_max 4 1))].
Definition c69_deps2 (x : nat) : list nat := match x with 2%nat | 4%nat => [1%nat] | 3%nat => [2; 4]%nat | _ => [] end.
Definition c69_info2 : body_info := BodyInfo [(1, [10; 11])]%nat 11 [[(4%nat, c69_stencil)]; [(2%nat, c69_stencil)]] [(3%nat, c69_both)] c69_deps2 [] [1; 2]%nat [3%nat].
Definition c69_env2 : venv := vset (c69_env (Some 3)) 4 (Buffer Own (c69_buf 20000 (-1) 10 (-1) 10)).
Example C69_other_consumer_refuted :
  let i := c69_info2 in
  ~ sources_used_here i /\
  find_transitive_deps (bi_deps i) (map fst (bi_outputs i)) 5 (bi_constants i) (bi_roots i) = Some [2%nat] /\
  vexec c69_log (idle _) c69_call no_copy no_const (crop_body (has [2; 3]%nat) (loop_dims (bi_outputs i) (bi_loop i)) (bi_order i) (bi_inputs i) c69_body) c69_env2 (VState _ [] [] []) =
    Val (0, VState _ [[[(-20, 20); (-1, 10)]]; [[(-1, 10); (2, 4)]]] [] [EvCall 7 0; EvCall 8 0]) /\
  vexec c69_log (idle _) c69_call no_copy no_const (all_crops (bi_order i) (bi_inputs i) c69_body) c69_env2 (VState _ [] [] []) =
    Val (0, VState _ [[[(-1, 10); (2, 4)]]; [[(-1, 10); (2, 4)]]] [] [EvCall 7 0; EvCall 8 0]).
Proof.
  cbv zeta. split; [|vm_compute; repeat split]. intro S. destruct (S 3%nat 4%nat) as [T|(v & Iv & _ & R)]; [left; reflexivity|right; left; reflexivity|unfold bi_terminal in T; cbn in T; intuition congruence|].
  assert (N : forall v x, reaches c69_deps2 (bi_terminal c69_info2) v x -> x = 4%nat -> v = 4%nat \/ v = 3%nat).
  { clear. induction 1 as [v T|v p x T Ip R IH]; intro Q; [left; exact Q|]. specialize (IH Q). destruct v as [|[|[|[|[|v]]]]]; cbn in Ip; try contradiction; intuition congruence. }
  destruct (N v 4%nat R eq_refl) as [-> | ->]; cbn in Iv; intuition congruence.
Qed.
