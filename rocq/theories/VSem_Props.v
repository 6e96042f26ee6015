(** C53: evaluating a statement does what its value semantics (VSem_Spec.v) says. *)
From Coq Require Import ZArith List Bool Lia.
From Verif Require Import Arith_Model Arith_Proofs Buf_Model Alloc_Model Expr_Model Expr_Proofs Stmt_Model Stmt_Spec Stmt_Proofs Stmt_Props Deps_Spec VSem_Spec VMono_Proofs VSem_Proofs VExec_Proofs.
Import ListNotations.
Open Scope Z_scope.

(** Whenever the value semantics gives the statement a meaning, the evaluator succeeds with the same return code, leaves the
    outside (what calls, allocations and frees have done) in the same state, with the same blocks still allocated and the same log. *)
Theorem C53_by_value : forall X (H : host X) call_v copy_v consts s E v st z v',
  calls_by_value X H call_v -> distinct s -> by_value s -> represents X consts E v st -> inv st ->
  vexec X H call_v copy_v consts s E v = Val (z, v') ->
  exists st', exec X H s st = Val (z, st') /\ outside X v' st'.
Proof.
  intros X H call_v copy_v consts s E v st z v' Hc D B R I G. exact (proj1 (exec_vexec X H call_v copy_v consts Hc s D B E) v st z v' R I G).
Qed.
(** So addresses do not matter, nor do the symbols without a value: the outcome is the same in all states that represent the same values. *)
Theorem C53_same_values : forall X (H : host X) call_v copy_v consts s E v st1 st2 z v',
  calls_by_value X H call_v -> distinct s -> by_value s -> represents X consts E v st1 -> represents X consts E v st2 -> inv st1 -> inv st2 ->
  vexec X H call_v copy_v consts s E v = Val (z, v') ->
  exists st1' st2', exec X H s st1 = Val (z, st1') /\ exec X H s st2 = Val (z, st2') /\
    s_ext X st1' = s_ext X st2' /\ map snd (s_alloc X st1') = map snd (s_alloc X st2') /\ map unnamed (s_log X st1') = map unnamed (s_log X st2').
Proof.
  intros X H call_v copy_v consts s E v st1 st2 z v' Hc D B R1 R2 I1 I2 G.
  destruct (C53_by_value _ _ _ _ _ _ _ _ _ _ _ Hc D B R1 I1 G) as (t1 & E1 & O1 & O2 & O3).
  destruct (C53_by_value _ _ _ _ _ _ _ _ _ _ _ Hc D B R2 I2 G) as (t2 & E2 & P1 & P2 & P3).
  exists t1, t2. split; [exact E1|]. split; [exact E2|]. split; [congruence|]. split; congruence.
Qed.

(** ** An example: a call reads the minimum of the buffers that it is given and its scalars *)
Definition v53_sum (bi bo : list buf) (vs : list Z) : Z := fold_right Z.add 0 (map (fun b => d_min (dim_at b 0)) (bi ++ bo) ++ vs).
Definition v53_call (t : nat) (bi bo : list buf) (vs : list Z) (x : Z) : Z * Z := (0, 100 * x + v53_sum bi bo vs).
Definition v53_host : host Z :=
  Host Z (fun _ _ => 0) (fun _ _ => 0)
    (fun t ins outs sc c m x =>
       let get := flat_map (fun y => match m (c y) with Some b => [b] | None => [] end) in
       let vs := flat_map (fun e => match eval (World m (fun _ _ => 0) (fun _ _ => 0)) c e with Val (z, _) => [z] | UB => [] end) sc in
       v53_call t (get ins) (get outs) vs x)
    (fun s b x => (Buf (Some 1000) (elem_size b) (dims b), 1000, x)) (fun s b p x => x)
    (fun b n x => 64) true (fun n k x => map (fun i => (Nat.modulo i 2, Z.of_nat i)) (seq 0 (Z.to_nat n))) (fun _ => true) (fun _ => 99) (fun _ => 0) 1 1 8.
Lemma v53_calls : calls_by_value Z v53_host v53_call.
Proof.
  intros t ins outs sc c m x bi bo vs Fi Fo Fs. cbn [h_call v53_host h_user h_intrinsic] in *. cbv zeta.
  assert (G : forall l bs, Forall2 (fun y b => m (c y) = Some b) l bs -> flat_map (fun y => match m (c y) with Some b => [b] | None => [] end) l = bs).
  { induction 1 as [|y b l bs Q F IH]; [reflexivity|]. cbn [flat_map]. rewrite Q, IH. reflexivity. }
  rewrite (G _ _ Fi), (G _ _ Fo). f_equal. clear -Fs. induction Fs as [|e z l vs (c' & Q) F IH]; [reflexivity|]. cbn [flat_map]. rewrite Q, IH. reflexivity.
Qed.
(** let 1 = min(buffer 0, dim 0) + 2: crop buffer 0 in place to [1, 7]; in parallel for 2 = 0..2: allocate 3; call(0, 3; 2); check *)
Definition v53_prog : stmt :=
  SLet [(1%nat, EBin Add (EVar 0 f_min 0) (EConst 2))]
    (SCropBuffer 0 0 [(v_ 1, EConst 7); (EConst 1, EUndef)]
      (SLoop 2 (EConst 2) (EConst 0, EConst 2) (EConst 1)
        (SAllocate 3 heap (EConst 4) ex_dims (SBlock [SCall 5 [0%nat] [3%nat] [v_ 2]; SCheck (EBin Less (v_ 2) (EConst 1))])))) false.
Definition v53_env : venv := fun x => match x with O => Buffer Own ex_buf | _ => Undef end.
Definition v53_start : vstate Z := VState Z 0 [] [].
Lemma v53_rep a : a <> 7 -> represents Z (fun _ => None) v53_env v53_start (State Z (fun s => match s with O => a | _ => 7 end) (fun p => if p =? a then Some ex_buf else None) (a + 1) [] 0 []).
Proof.
  intro Na. split; cbn [s_ctx s_buf s_alloc map rev].
  - intros [|x]; cbn; [rewrite Z.eqb_refl; reflexivity|exact Logic.I].
  - intros [|x] k b Q; [|discriminate]. intros _. split; [reflexivity|]. intros [|y] k' b' Q'; [reflexivity|discriminate].
  - intros [|x] k id b Q Bk; [injection Q as <- _; discriminate Bk|discriminate Q].
  - discriminate.
  - constructor.
  - split; [reflexivity|]. split; reflexivity.
Qed.
Definition v53_result : res (Z * vstate Z) := vexec Z v53_host v53_call (fun _ _ _ _ x => x) (fun _ => None) v53_prog v53_env v53_start.
Example C53_ex : calls_by_value Z v53_host v53_call /\ distinct v53_prog /\ by_value v53_prog /\ represents Z (fun _ => None) v53_env v53_start ex_state /\ inv ex_state /\
  exists v', v53_result = Val (1, v') /\ v_ext Z v' = 20304 /\
    v_log Z v' = [EvAlloc 3 1000; EvCall 5 0; EvFree 3 1000; EvAlloc 3 1000; EvCall 5 0; EvCheckFailed; EvFree 3 1000; EvAlloc 3 1000; EvCall 5 0; EvCheckFailed; EvFree 3 1000].
Proof.
  split; [exact v53_calls|]. split; [cbn; repeat split; auto; repeat constructor; cbn; tauto|]. split.
  { cbn. repeat split; try congruence; [|repeat constructor].
    intros _. repeat constructor; intros (ro & O); cbn in O; exact O. }
  split; [exact (v53_rep 1 ltac:(lia))|]. split; [exact ex_inv|]. vm_compute. eexists. split; [reflexivity|]. split; reflexivity.
Qed.
(** buffers at other addresses give the same *)
Example C53_same_ex : forall a, 7 < a -> exists st', exec Z v53_host v53_prog (State Z (fun s => match s with O => a | _ => 7 end) (fun p => if p =? a then Some ex_buf else None) (a + 1) [] 0 []) = Val (1, st') /\ s_ext Z st' = 20304.
Proof.
  intros a La. destruct C53_ex as (Hc & D & B & _ & _ & v' & V & Q & _).
  destruct (C53_by_value Z v53_host v53_call (fun _ _ _ _ x => x) (fun _ => None) v53_prog v53_env v53_start _ 1 v' Hc D B (v53_rep a ltac:(lia))) as (st' & E' & O); [|exact V|].
  - split; [|constructor]. cbn [s_next s_buf]. intros p Lp. destruct (Z.eqb_spec p a); [lia|reflexivity].
  - exists st'. split; [exact E'|]. rewrite <- Q. symmetry. exact (proj1 O).
Qed.

(** Finding: the bounds of an in-place crop_buffer are evaluated one dimension after the other, and the later ones see the buffer as it has been
    cropped so far (evaluate.cc: visit(crop_buffer)); the crop into another symbol sees the buffer as it was. *)
Theorem C53_in_place_crop_refuted :
  let crop sym := SCropBuffer sym 0 [(EConst 3, EUndef); (EVar 0 f_min 0, EUndef)] (SCheck (EBin Equal (EVar sym f_min 1) (EConst 0))) in
  let vrun s := vexec Z v53_host v53_call (fun _ _ _ _ x => x) (fun _ => None) s v53_env v53_start in
  let run s := match exec Z v53_host s ex_state with Val (z, _) => Some z | UB => None end in
  distinct (crop 0%nat) /\ ~ by_value (crop 0%nat) /\
  (exists v', vrun (crop 0%nat) = Val (0, v')) /\ run (crop 1%nat) = Some 0 /\ run (crop 0%nat) = Some 1.
Proof.
  cbv zeta. split; [cbn; repeat split; repeat constructor; cbn; tauto|]. split.
  - cbn. intros (F & _). specialize (F eq_refl). inversion F as [|? ? (A & _) _]; subst. apply A. exists (RField f_min). cbn. auto.
  - vm_compute. split; [eexists; reflexivity|]. split; reflexivity.
Qed.
(** Finding: a let gives an object a second name, which sees the changes in place that are made through the first. *)
Theorem C53_alias_refuted :
  let alias sym := SLet [(1%nat, v_ 0)] (SCropDim sym 0 0 (EConst 3, EUndef) (SCheck (EBin Equal (EVar 1 f_min 0) (EConst 0)))) false in
  let run s := match exec Z v53_host s ex_state with Val (z, _) => Some z | UB => None end in
  vexec Z v53_host v53_call (fun _ _ _ _ x => x) (fun _ => None) (alias 0%nat) v53_env v53_start = UB /\
  (exists v', vexec Z v53_host v53_call (fun _ _ _ _ x => x) (fun _ => None) (alias 2%nat) v53_env v53_start = Val (0, v')) /\
  run (alias 2%nat) = Some 0 /\ run (alias 0%nat) = Some 1.
Proof. cbv zeta. vm_compute. split; [reflexivity|]. split; [eexists; reflexivity|]. split; reflexivity. Qed.
