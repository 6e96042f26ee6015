(** C72: tracing. *)
From Coq Require Import ZArith List Bool Arith String Ascii Lia.
From Verif Require Import Arith_Model Arith_Proofs Buf_Model Expr_Model Stmt_Spec Deps_Spec Stmt_Proofs VSem_Spec VExec_Proofs VFrame_Proofs Concat_Model Concat_Props Crops_Props Trace_Model Trace_Spec Trace_Proofs Stmt_Model.
Import ListNotations.
Open Scope Z_scope.

(** A pipeline with tracing does what it does without it. *)
Theorem C72_same : forall X (H : host X) call_v copy_v consts name_of call_name token names_buf p b s E v,
  (forall vs, h_intrinsic X H i_trace_end vs <> 0) ->
  token <> names_buf -> ~ free_stmt token s -> ~ free_stmt names_buf s -> traceable token names_buf s -> consts p = Some b ->
  vexec X H call_v copy_v consts (fst (inject_traces name_of call_name token names_buf p s)) E v = vexec X H call_v copy_v consts s E v.
Proof.
  intros X H call_v copy_v consts name_of call_name token names_buf p b s E v Ends D Nt Nn O C. unfold inject_traces.
  pose proof (traced_body X H call_v copy_v consts name_of call_name token names_buf Ends D s) as T. specialize (T) with (st := TraceState [] []).
  destruct (inject _ _ _ _ s _) as (s', st1). pose proof (get_arg names_buf "pipeline" st1) as (off & Q). destruct (get_trace_arg _ _ st1) as (a, st2). cbn [fst] in *. subst a.
  cbn [vexec]. rewrite C. cbn [of_ bind]. apply T; [exact O| |exact Nt| |].
  - apply inject_exec; assumption.
  - exists Shared, b. apply vset_same.
  - intros x F. apply vset_other. intros ->. contradiction.
Qed.

(** The callback is told the names of the pipeline, of its calls, loops and tasks: the offsets that it is given are those of these names in the names buffer. *)
Theorem C72_names : forall name_of call_name token names_buf p s, offsets s = [] ->
  let (s', chars) := inject_traces name_of call_name token names_buf p s in
  Forall2 (reads chars) ("pipeline"%string :: traced name_of call_name s) (offsets s').
Proof.
  intros name_of call_name token names_buf p s N. unfold inject_traces.
  assert (G0 : good (TraceState [] [])) by (intros n off []).
  destruct (inject_names name_of call_name token names_buf s N _ G0) as (E1 & G1 & F1). destruct (inject _ _ _ _ s _) as (s', st1). cbn [fst snd] in *.
  destruct (get_spec names_buf "pipeline" st1 G1) as (off & st2 & -> & R & E2 & G2). cbn [offsets]. rewrite offsets_trace. constructor; [exact R|]. eapply reads_list; eauto.
Qed.

(** The address that a call of trace_begin is given is that of the name: the base of the names buffer and the offset. *)
Theorem C72_address : forall X (H : host X) names_buf q n off E k,
  E names_buf = Buffer k (Buf (Some q) 1 [Dim 0 (n - 1) 1 unfolded]) -> 0 <= off < n ->
  veval X H E (trace_arg names_buf off) = Val (q + off).
Proof.
  intros X H names_buf q n off E k Q R. unfold trace_arg. cbn [veval]. rewrite Q. cbn [rank dims List.length veval_at defined veval bind].
  unfold buffer_at. cbn [base dims buffer_at_loop]. unfold d_contains, d_contains2, d_offset. cbn [d_min d_max d_stride d_fold]. rewrite Z.eqb_refl, orb_true_r.
  replace ((1 =? 0) || ((0 <=? off) && (off <=? n - 1))) with true by (symmetry; apply orb_true_iff; right; apply andb_true_intro; split; apply Z.leb_le; lia).
  cbn. f_equal. lia.
Qed.

(** An example: a loop of two iterations of two calls, one of them without a name. *)
Definition c72_body : stmt :=
  SLoop 10 (EConst 1) (EConst 0, EConst 1) (EConst 1)
    (SCropDim 2 2 1 (e_var 10, e_var 10) (SBlock [SCall 7 [5%nat] [2%nat] []; SCall 8 [2%nat] [3%nat] []])).
Definition c72_buf (lo hi : Z) : buf := Buf (Some 1000) 1 [Dim 0 9 1 unfolded; Dim lo hi 10 unfolded].
Definition c72_env : venv := fun x => match x with 2%nat => Buffer Own (c72_buf (-1) 3) | 3%nat => Buffer Own (c72_buf 0 2) | 5%nat => Buffer Shared (c72_buf (-5) 20) | _ => Undef end.
Definition c72_host (end_ : Z) : host c69_log :=
  Host _ (fun _ _ => 0) (fun fn _ => match fn with i_trace_end => end_ | _ => 0 end) (fun _ _ _ _ _ _ x => (0, x)) (fun _ b x => (b, 0, x)) (fun _ _ _ x => x) (fun _ _ _ => 64) true (fun _ _ _ => []) (fun _ => true) (fun _ => 99) (fun _ => 0) 1 1 8.
Definition c72_name (s : nat) : string := match s with 10%nat => "y" | _ => "x" end.
Definition c72_call (t : nat) : string := match t with 7%nat => "blur" | _ => "" end.
Definition c72_names : Z -> option buf := fun p => if p =? 5000 then Some (Buf (Some 6000) 1 [Dim 0 42 1 unfolded]) else None.
Definition c72_traced : stmt * list ascii := inject_traces c72_name c72_call 50 51 5000 c72_body.
Notation c72_run end_ s := (vexec c69_log (c72_host end_) c69_call no_copy c72_names s c72_env (VState _ [] [] [])).
Example C72_case :
  string_of_list_ascii (snd c72_traced) = ("loop y iteration" ++ String zero ("loop y" ++ String zero ("blur" ++ String zero ("call" ++ String zero ("pipeline" ++ String zero "")))))%string /\
  offsets (fst c72_traced) = [34; 17; 0; 24; 29] /\
  c72_run 1 (fst c72_traced) = c72_run 1 c72_body /\
  exists v, c72_run 1 c72_body = Val (0, VState _ v [] [EvCall 7 0; EvCall 8 0; EvCall 7 0; EvCall 8 0]).
Proof. split; [vm_compute; reflexivity|]. split; [vm_compute; reflexivity|]. split; [vm_compute; reflexivity|]. eexists. vm_compute. reflexivity. Qed.
Example C72_used : c72_run 1 (fst c72_traced) = c72_run 1 c72_body.
Proof.
  apply (C72_same c69_log (c72_host 1) c69_call no_copy c72_names c72_name c72_call 50 51 5000 (Buf (Some 6000) 1 [Dim 0 42 1 unfolded])); try reflexivity; try discriminate.
  - intros F. unfold c72_body in F. cbn in F. unfold free_interval, free in F. cbn in F. repeat match goal with A : _ \/ _ |- _ => destruct A | A : exists _, _ |- _ => destruct A | A : _ /\ _ |- _ => destruct A | A : False |- _ => destruct A end; try discriminate; try congruence; lia.
  - intros F. unfold c72_body in F. cbn in F. unfold free_interval, free in F. cbn in F. repeat match goal with A : _ \/ _ |- _ => destruct A | A : exists _, _ |- _ => destruct A | A : _ /\ _ |- _ => destruct A | A : False |- _ => destruct A end; try discriminate; try congruence; lia.
  - cbn. unfold other. repeat split; discriminate.
Qed.
(** The calls of trace_end are checks: if they were 0, the pipeline would stop after the first function. *)
Example C72_end_refuted : exists v, c72_run 0 (fst c72_traced) = Val (1, VState _ v [] [EvCall 7 0; EvCheckFailed]).
Proof. eexists. vm_compute. reflexivity. Qed.
(** Tasks are traced, too. *)
Definition c72_async : stmt := SAsync (Some 12%nat) (SCall 7 [5%nat] [2%nat] []) (SBlock [SCheck (ECall i_wait_for None [e_var 12]); SCall 8 [2%nat] [3%nat] []]).
Example C72_async_case :
  let (s, chars) := inject_traces c72_name c72_call 50 51 5000 c72_async in
  string_of_list_ascii chars = ("task x" ++ String zero ("blur" ++ String zero ("call" ++ String zero ("pipeline" ++ String zero ""))))%string /\
  offsets s = [17; 0; 7; 12] /\ traceable 50 51 c72_async /\ c72_run 1 s = c72_run 1 c72_async.
Proof. vm_compute. repeat split; discriminate. Qed.
