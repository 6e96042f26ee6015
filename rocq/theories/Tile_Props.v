(** C65: the loops of a function compute each element of its outputs once. *)
From Coq Require Import ZArith List Bool Lia.
From Verif Require Import Arith_Model Arith_Proofs Buf_Model Buf_Spec Buf_Props Alloc_Model Expr_Model Expr_Spec Match_Model Rewrite_Model Interval_Model Interval_Spec Interval_Props Simplifier_Model
  SimplifierGuard_Model SimplifierCheck_Model Simplifier_Props Tile_Model.
From Verif Require Import Stmt_Model Stmt_Spec VSem_Spec Tile_Spec Tile_Proofs.
Import ListNotations.
Open Scope Z_scope.

(** When the loops [ls] of the function [f] are executed, the calls compute parts of the
    outputs, with each element at its address; and if a loop goes over a dimension of an
    output for each of the loops, every element of that output is computed by one call, and
    nothing else is. *)
Theorem C65_once : forall H copy_v consts P fuel f ls s E st z st',
  make_loops P fuel f ls = Val s ->
  NoDup (map lp_var ls) -> NoDup (map o_sym (f_outputs f)) ->
  (forall l, In l ls -> ~ In (lp_var l) (map o_sym (f_outputs f))) ->
  (forall o, In o (f_outputs f) -> exists k b, E (o_sym o) = Buffer k b /\ rank b = length (o_dims o)) ->
  loops_ok H P fuel f ls E ->
  vexec (list (list buf)) H record_call copy_v consts s E st = Val (z, st') ->
  z = 0 /\ exists calls, v_ext _ st' = v_ext _ st ++ calls /\
    forall k o kd b, nth_error (f_outputs f) k = Some o -> E (o_sym o) = Buffer kd b ->
      (forall call, In call calls -> exists c, nth_error call k = Some c /\ part_of c b) /\
      (NoDup (o_dims o) -> (forall l, In l ls -> In (lp_var l) (o_dims o)) ->
       forall p, times k p calls = if inside b p then 1%nat else 0%nat).
Proof.
  intros H copy_v consts P fuel f ls s E st z st' M N No Nv Bs Ok X.
  exact (loops_calls H copy_v consts P fuel f No ls Nv E Ok ls N (fun l I => I) s M E st z st' (fun x _ => eq_refl) Bs X).
Qed.

(** ** An example: two outputs, with bounds [-2, 7] x [0, 6] and [3, 5] x [6, 8] (transposed:
    its dimensions are y, x), in tiles of 4 x 3. *)
Definition c65_f : func := Func 7 [] [Output 0 [2; 3]%nat; Output 1 [3; 2]%nat] [].
Definition c65_ls : list loop := [Loop 3 (EConst 3) (EConst 1); Loop 2 (EConst 4) (EConst 1)].
Definition c65_a := Buf (Some 1000) 1 [Dim (-2) 7 1 unfolded; Dim 0 6 10 unfolded].
Definition c65_b := Buf (Some 2000) 1 [Dim 3 5 1 unfolded; Dim 6 8 3 unfolded].
Definition c65_env : venv := fun x => match x with 0%nat => Buffer Own c65_a | 1%nat => Buffer Own c65_b | _ => Undef end.
Definition c65_host : host (list (list buf)) :=
  Host _ (fun _ _ => 0) (fun _ _ => 0) (fun t ins outs sc c m x => (0, x)) (fun s b x => (b, 0, x)) (fun s b p x => x)
    (fun b n x => 64) true (fun n k x => map (fun i => (0%nat, Z.of_nat i)) (seq 0 (Z.to_nat n))) (fun _ => true) (fun _ => 99) (fun _ => 0) 1 1 8.
Definition c65_run f ls E := match make_loops c48_code 60 f ls with Val s => vexec _ c65_host record_call (fun _ _ _ _ x => x) (fun _ => None) s E (VState _ [] [] []) | UB => UB end.

Lemma c65_step c y E : (forall z, veval _ c65_host E (EBin Add (EVar y f_none 0) (EConst (c - 1))) = Val z ->
  value_of c65_host E (e_sub (e_add (EVar y f_none 0) (EConst c)) (EConst 1)) = Fin z).
Proof.
  intros z V. cbn [veval] in V. unfold value_of, e_sub, e_add. rewrite !make_mean. cbn [meaning xbin]. unfold env_of at 1.
  destruct (E y) as [|v|k b]; try discriminate V. cbn [bind eval_bin] in V. unfold cadd in V. apply chk_inv in V as (-> & _). cbn [xadd xsub xneg]. f_equal. lia.
Qed.
Lemma c65_bounds o f' g' m E a b da db : (f' = f_min /\ g' = positive_infinity /\ o = Min /\ m = e_min \/ f' = f_max /\ g' = negative_infinity /\ o = Max /\ m = e_max) ->
  same_value c65_host E (m (m g' (EVar a f' (Z.of_nat da))) (EVar b f' (Z.of_nat db))) (EBin o (EVar b f' (Z.of_nat db)) (EVar a f' (Z.of_nat da))).
Proof.
  intros C z V. cbn [veval] in V. unfold value_of.
  destruct (E b) as [|v|k c] eqn:Eb; destruct C as [(-> & -> & -> & ->)|(-> & -> & -> & ->)]; try discriminate V;
    destruct (E a) as [|v'|k' c'] eqn:Ea; try discriminate V; cbn [bind eval_bin] in V; injection V as <-;
    unfold e_min, e_max; rewrite !make_mean; cbn [meaning]; unfold env_of, world_of; cbn [w_buf]; rewrite !Ea, !Eb, !Nat2Z.id, !Ea, !Eb;
    
    repeat match goal with |- context [meaning ?w ?r positive_infinity] => change (meaning w r positive_infinity) with PInf | |- context [meaning ?w ?r negative_infinity] => change (meaning w r negative_infinity) with NInf end;
    cbn [xbin xmin xmax field_value]; (apply f_equal, Z.min_comm || apply f_equal, Z.max_comm).
Qed.
Lemma c65_ok : loops_ok c65_host c48_code 60 c65_f c65_ls c65_env.
Proof.
  intros l [<-|[<-|[]]]; [exists 3|exists 4]; (split; [lia|]); intros E _; cbn [lp_workers lp_step lp_var];
    (split; [intros z V; injection V as <-; lia|]); (split; [intros z V; injection V as <-; reflexivity|]); (split; [reflexivity|]); split.
  - intros last L. vm_compute in L. injection L as <-. split; [reflexivity|]. exact (c65_step 3 3%nat E).
  - intros b B. vm_compute in B. injection B as <-. split; cbn [i_min i_max].
    + apply (c65_bounds Min f_min positive_infinity e_min E 0 1 1 0). left. auto.
    + apply (c65_bounds Max f_max negative_infinity e_max E 0 1 1 0). right. auto.
  - intros last L. vm_compute in L. injection L as <-. split; [reflexivity|]. exact (c65_step 4 2%nat E).
  - intros b B. vm_compute in B. injection B as <-. split; cbn [i_min i_max].
    + apply (c65_bounds Min f_min positive_infinity e_min E 0 1 0 1). left. auto.
    + apply (c65_bounds Max f_max negative_infinity e_max E 0 1 0 1). right. auto.
Qed.
Lemma C65_ex : exists st', c65_run c65_f c65_ls c65_env = Val (0, st') /\
  (forall p, times 0 p (v_ext _ st') = if inside c65_a p then 1%nat else 0%nat) /\ (forall p, times 1 p (v_ext _ st') = if inside c65_b p then 1%nat else 0%nat) /\
  (** the bounds of the loops are [0, 6] and [-2, 8]: 9 calls *)
  length (v_ext _ st') = 9%nat.
Proof.
  destruct (c65_run c65_f c65_ls c65_env) as [(z & st')|] eqn:R; [|exfalso; revert R; vm_compute; discriminate].
  assert (L : match c65_run c65_f c65_ls c65_env with Val (_, st') => length (v_ext _ st') = 9%nat | UB => False end) by (vm_compute; reflexivity). rewrite R in L.
  unfold c65_run in R. destruct (make_loops c48_code 60 c65_f c65_ls) as [s|] eqn:M; [|discriminate R].
  destruct (C65_once c65_host (fun _ _ _ _ x => x) (fun _ => None) c48_code 60 c65_f c65_ls s c65_env (VState _ [] [] []) z st' M) as (-> & calls & C1 & C2).
  - repeat constructor; cbn; intuition discriminate.
  - repeat constructor; cbn; intuition discriminate.
  - intros l [<-|[<-|[]]]; cbn; intuition discriminate.
  - intros o [<-|[<-|[]]]; do 2 eexists; split; reflexivity.
  - exact c65_ok.
  - exact R.
  - cbn [v_ext app] in C1. subst calls. exists st'. split; [reflexivity|]. split; [|split; [|exact L]].
    + apply (C2 0%nat (Output 0 [2; 3]%nat) Own c65_a eq_refl eq_refl); [repeat constructor; cbn; intuition discriminate|]. intros l [<-|[<-|[]]]; cbn; auto.
    + apply (C2 1%nat (Output 1 [3; 2]%nat) Own c65_b eq_refl eq_refl); [repeat constructor; cbn; intuition discriminate|]. intros l [<-|[<-|[]]]; cbn; auto.
Qed.

(** An output with the same dimension variable twice: only the tiles on the diagonal are
    computed. *)
Theorem C65_repeated_dim_refuted :
  let b := Buf (Some 1000) 1 [Dim 0 3 1 unfolded; Dim 0 3 4 unfolded] in
  let p := fun d => match d with 0%nat => 0 | _ => 3 end in
  exists st', c65_run (Func 7 [] [Output 0 [2; 2]%nat] []) [Loop 2 (EConst 2) (EConst 1)] (fun x => match x with 0%nat => Buffer Own b | _ => Undef end) = Val (0, st') /\
    inside b p = true /\ times 0 p (v_ext _ st') = 0%nat.
Proof. eexists. split; [vm_compute; reflexivity|]. split; reflexivity. Qed.
(** An output that does not have the dimension of a loop is computed in every iteration. *)
Theorem C65_other_dim_refuted :
  let a := Buf (Some 1000) 1 [Dim 0 3 1 unfolded] in
  let b := Buf (Some 2000) 1 [Dim 0 0 1 unfolded] in
  exists st', c65_run (Func 7 [] [Output 0 [2]%nat; Output 1 [3]%nat] []) [Loop 2 (EConst 1) (EConst 1)] (fun x => match x with 0%nat => Buffer Own a | 1%nat => Buffer Own b | _ => Undef end) = Val (0, st') /\
    inside b (fun _ => 0) = true /\ times 1 (fun _ => 0) (v_ext _ st') = 4%nat.
Proof. eexists. split; [vm_compute; reflexivity|]. split; reflexivity. Qed.
