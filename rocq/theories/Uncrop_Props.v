(** C71: functions get the whole buffers as inputs. *)
From Coq Require Import ZArith List Bool Arith Lia.
From Verif Require Import Arith_Model Arith_Proofs Buf_Model Expr_Model Deps_Spec Stmt_Proofs VSem_Spec VExec_Proofs Concat_Model Concat_Props Crops_Spec Crops_Props Uncrop_Model Uncrop_Spec Uncrop_Proofs Stmt_Model.
Import ListNotations.
Open Scope Z_scope.

(** After the substitution, a pipeline runs as the original one would if each function were given the whole buffers instead of the crops of them. *)
Theorem C71_whole_inputs : forall X (H : host X) call_v copy_v consts subs whole inputs_of s E v,
  (forall x, subs x = None -> whole x = None) -> only_crops (is_old subs) (is_new subs) inputs_of s -> in_scope subs whole E ->
  vexec X H call_v copy_v consts (substitute_inputs subs s) E v =
  vexec X H (fun t bi bo vs x => call_v t (wholes whole (inputs_of t) bi) bo vs x) copy_v consts s E v.
Proof.
  intros X H call_v copy_v consts subs whole inputs_of s E v W O I.
  apply (inputs_exec X H (fun t bi bo vs x => call_v t (wholes whole (inputs_of t) bi) bo vs x) call_v copy_v consts subs whole inputs_of W); [reflexivity|exact O|exact I].
Qed.

(** It does what the original pipeline does if the functions do the same with larger inputs that have the elements of the smaller ones. *)
Theorem C71_same : forall X (H : host X) call_v copy_v consts subs whole inputs_of s E v,
  (forall x, subs x = None -> whole x = None) -> only_crops (is_old subs) (is_new subs) inputs_of s -> in_scope subs whole E ->
  (forall t bi bo vs x, parts whole (inputs_of t) bi -> call_v t (wholes whole (inputs_of t) bi) bo vs x = call_v t bi bo vs x) ->
  vexec X H call_v copy_v consts (substitute_inputs subs s) E v = vexec X H call_v copy_v consts s E v.
Proof. intros X H call_v copy_v consts subs whole inputs_of s E v W O I C. apply (inputs_exec X H call_v call_v copy_v consts subs whole inputs_of W C s O E v I). Qed.

(** The body of an allocation of [x]: whatever crops of [x] there are in it, the functions that use [x] get what was allocated. *)
Definition only (x : nat) (b : buf) : nat -> option buf := fun z => if (z =? x)%nat then Some b else None.
Theorem C71_allocation : forall X (H : host X) call_v copy_v consts inputs_of x y k b body E v,
  x <> y -> only_crops (fun z => z = x) (fun z => z = y) inputs_of body -> E x = Buffer k b ->
  vexec X H call_v copy_v consts (uncrop x y body) E v =
  vexec X H (fun t bi bo vs w => call_v t (wholes (only x b) (inputs_of t) bi) bo vs w) copy_v consts body (vset E y (Buffer Own b)) v.
Proof.
  intros X H call_v copy_v consts inputs_of x y k b body E v N O Ex. unfold uncrop. cbn [vexec]. unfold vbuffer. rewrite Ex. cbn [bind].
  set (subs := fun z => if (z =? x)%nat then Some y else None). apply C71_whole_inputs.
  - intros z Q. unfold subs, only in *. destruct (z =? x)%nat; [discriminate|reflexivity].
  - assert (A : forall z, is_old subs z -> z = x) by (intros z Q; unfold is_old, subs in Q; destruct (Nat.eqb_spec z x); [assumption|congruence]).
    assert (B : forall z, is_new subs z -> z = y) by (intros z (q & Q); unfold subs in Q; destruct (q =? x)%nat; congruence).
    assert (C : forall z, apart_from (fun z => z = x) (fun z => z = y) z -> apart_from (is_old subs) (is_new subs) z) by (intros z (P & Q); split; intro R; [apply P, A, R|apply Q, B, R]).
    clear - A B C O. induction body as [|t ins outs sc|src sx dst dx pad|l s c IHs|l IHl|s w i st b0 IHs|s w e ds b0 IHs|s p e ds b0 IHs|s v0 b0 IHs|s v0 b0 IHs|s v0 l b0 IHs|s v0 d i b0 IHs|s v0 l b0 IHs|s v0 d i b0 IHs|s v0 p b0 IHs|s s1 s2 IHs1 IHs2|c] using stmt_ind';
      cbn [only_crops] in *; try assumption; try (destruct O as (O1 & O2); split; [apply C, O1|apply IHs, O2]).
    + destruct O as (O1 & O2). split; [intro Q; apply O1, A, Q|]. destruct pad; [intro Q; apply O2, A, Q|exact I].
    + destruct O as (O1 & O2 & O3). split; [exact O1|]. split; [|apply IHs, O3]. clear - O2 C. induction l as [|(s, v) l IH]; [exact I|]. destruct O2 as (P & Q). split; [apply C, P|apply IH, Q].
    + induction IHl as [|z l Hz _ IH]; [exact I|]. destruct O as (P & Q). split; [apply Hz, P|apply IH, Q].
    + destruct O as (O1 & O2 & O3). split; [intro Q; apply O1, B, Q|]. split; [intro Q; apply O2, A, Q|apply IHs, O3].
    + destruct O as (O1 & O2 & O3). split; [intro Q; apply O1, B, Q|]. split; [intro Q; apply O2, A, Q|apply IHs, O3].
  - intros z u Q. unfold subs in Q. destruct (Nat.eqb_spec z x) as [->|]; [|discriminate]. injection Q as <-. exists b, Own, k, b. unfold only. rewrite Nat.eqb_refl. split; [reflexivity|].
    rewrite vset_same, vset_other by exact N. split; [reflexivity|]. split; [exact Ex|apply includes_refl].
Qed.

(** An example: in each iteration of the loop 10, function 7 computes one row of buffer 2, and function 8 uses three rows of it. *)
Definition c71_body : stmt :=
  SLoop 10 (EConst 1) (EConst 0, EConst 1) (EConst 1)
    (SCropDim 2 2 1 (e_var 10, e_var 10) (SBlock [SCall 7 [5%nat] [2%nat] []; SCall 8 [2%nat] [3%nat] []])).
Definition c71_inputs (t : nat) : list nat := match t with 7%nat => [5%nat] | _ => [2%nat] end.
Definition c71_buf (lo hi : Z) : buf := Buf (Some 1000) 1 [Dim 0 9 1 unfolded; Dim lo hi 10 unfolded].
Definition c71_env : venv := fun x => match x with 2%nat => Buffer Own (c71_buf (-1) 3) | 3%nat => Buffer Own (c71_buf 0 2) | 5%nat => Buffer Shared (c71_buf (-5) 20) | _ => Undef end.
Notation c71_run call s := (vexec c69_log (idle _) call no_copy no_const s c71_env (VState _ [] [] [])).
Example C71_case :
  let large := [(0, 9); (-1, 3)] in let input := [(0, 9); (-5, 20)] in
  let events := [EvCall 7 0; EvCall 8 0; EvCall 7 0; EvCall 8 0] in
  c71_run c69_call c71_body = Val (0, VState _ [[input]; [[(0, 9); (0, 0)]]; [input]; [[(0, 9); (1, 1)]]] [] events) /\
  c71_run c69_call (uncrop 2 20 c71_body) = Val (0, VState _ [[input]; [large]; [input]; [large]] [] events).
Proof. vm_compute. split; reflexivity. Qed.
Example C71_used :
  c71_run c69_call (uncrop 2 20 c71_body) =
  vexec c69_log (idle _) (fun t bi bo vs w => c69_call t (wholes (only 2 (c71_buf (-1) 3)) (c71_inputs t) bi) bo vs w) no_copy no_const c71_body (vset c71_env 20 (Buffer Own (c71_buf (-1) 3))) (VState _ [] [] []).
Proof. apply (C71_allocation c69_log (idle _) c69_call no_copy no_const c71_inputs 2 20 Own); [discriminate| |reflexivity]. cbn. unfold apart_from. intuition congruence. Qed.

(** If the symbol is defined again in the body, functions there get the wrong buffer. *)
Example C71_shadow_refuted :
  let inner := SClone 2 3 (SCall 8 [2%nat] [3%nat] []) in
  c71_run c69_call inner = Val (0, VState _ [[[(0, 9); (0, 2)]]] [] [EvCall 8 0]) /\
  c71_run c69_call (uncrop 2 20 inner) = Val (0, VState _ [[[(0, 9); (-1, 3)]]] [] [EvCall 8 0]) /\
  ~ only_crops (fun z => z = 2%nat) (fun z => z = 20%nat) c71_inputs inner.
Proof. cbv zeta. do 2 (split; [vm_compute; reflexivity|]). intros ((N & _) & _). apply N. reflexivity. Qed.
