(** C70: the sanitizer of the user's expressions. *)
From Coq Require Import ZArith List Bool Arith Lia Permutation.
From Verif Require Import Arith_Model Arith_Proofs Buf_Model Expr_Model Expr_Proofs Rewrite_Model Const_Model Stmt_Model Deps_Spec VSem_Spec VFrame_Proofs OptSym_Proofs San_Model San_Spec San_Proofs San2_Proofs VExec_Proofs Concat_Model Concat_Props Crops_Props.
Import ListNotations.
Open Scope Z_scope.

Lemma all_parts ext es n es' R n' : sanitize_all ext es ([], n) = Val (es', (R, n')) ->
  (R, n') = adds (flat_map metadata es) ([], n) /\ es' = map (rw R) es /\ entries_ok n (R, n') /\ Forall (of_buffer (fun s => In s ext)) (flat_map metadata es).
Proof.
  intro Q. pose proof (list_sound ext es (proj2 (Forall_forall _ _) (fun e _ => san_sound ext e)) _ _ _ Q) as (A & B & C).
  split; [exact A|]. split; [apply B, extends_refl|]. split; [rewrite A; apply adds_ok, entries_start|exact C].
Qed.
Lemma rw_no_metadata r e : (forall m, In m (metadata e) -> In m (map fst r)) -> metadata (rw r e) = [].
Proof.
  assert (U : forall m, In m (map fst r) -> metadata (sub r m) = []).
  { intros m I. unfold sub. destruct (find_entry_some r m I) as (g & ->). reflexivity. }
  assert (L : forall l, Forall (fun e => (forall m, In m (metadata e) -> In m (map fst r)) -> metadata (rw r e) = []) l -> (forall m, In m (flat_map metadata l) -> In m (map fst r)) -> flat_map metadata (map (rw r) l) = []).
  { induction 1 as [|a l Ha _ IH]; intro I; [reflexivity|]. cbn [map flat_map] in *. rewrite Ha, IH; [reflexivity|intros m M; apply I, in_app_iff; auto|intros m M; apply I, in_app_iff; auto]. }
  induction e as [|s f d|l b IHl IHb|o a b IHa IHb|a IHa|q t f IHq IHt IHf|fn t args IHargs|c0] using expr_ind'; intro I.
  - reflexivity.
  - cbn [rw metadata] in *. destruct f; [reflexivity|..]; apply U, I; left; reflexivity.
  - cbn [rw]. rewrite metadata_let in *. rewrite IHb by (intros m M; apply I, in_app_iff; auto). rewrite app_nil_r. assert (J : forall m, In m (flat_map (fun p => metadata (snd p)) l) -> In m (map fst r)) by (intros m M; apply I, in_app_iff; auto).
    clear I. induction IHl as [|p l Hp _ IH]; [reflexivity|]. cbn [map flat_map snd] in *. rewrite Hp, IH; [reflexivity|intros m M; apply J, in_app_iff; auto|intros m M; apply J, in_app_iff; auto].
  - cbn [rw metadata] in *. rewrite IHa, IHb; [reflexivity|intros m M; apply I, in_app_iff; auto|intros m M; apply I, in_app_iff; auto].
  - apply IHa, I.
  - cbn [rw metadata] in *. rewrite IHq, IHt, IHf; [reflexivity|intros m M; apply I; rewrite !in_app_iff; auto|intros m M; apply I; rewrite !in_app_iff; auto|intros m M; apply I; rewrite !in_app_iff; auto].
  - destruct (fn_cases fn) as [->|N]; [cbn [rw]; apply U, I; left; reflexivity|]. rewrite rw_call by exact N. rewrite metadata_call in * by exact N. apply L; [exact IHargs|exact I].
  - reflexivity.
Qed.

(** The sanitizer works for expressions that use only metadata of external buffers, and for no others. *)
Theorem C70_accepts : forall ext es st, (exists r, sanitize_all ext es st = Val r) <-> Forall (of_buffer (fun s => In s ext)) (flat_map metadata es).
Proof.
  intros ext es st. split.
  - intros ((es' & st') & Q). exact (proj2 (proj2 (list_sound ext es (proj2 (Forall_forall _ _) (fun e _ => san_sound ext e)) _ _ _ Q))).
  - intro O. exact (list_complete ext es (proj2 (Forall_forall _ _) (fun e _ => san_complete ext e)) st O).
Qed.

(** The sanitized expressions use no metadata; each use of metadata in the original expressions is evaluated once and has its own fresh symbol. *)
Theorem C70_no_metadata : forall ext es n es' R n', sanitize_all ext es ([], n) = Val (es', (R, n')) ->
  Forall (fun e' => metadata e' = []) es' /\
  (forall m, In m (map fst R) <-> In m (flat_map metadata es)) /\ NoDup (map fst R) /\ map snd R = seq n (length R) /\ n' = (n + length R)%nat.
Proof.
  intros ext es n es' R n' Q. destruct (all_parts _ _ _ _ _ _ Q) as (A & -> & [N1 N2 N3] & _). cbn [fst snd] in *.
  assert (K : forall m, In m (map fst R) <-> In m (flat_map metadata es)).
  { intro m. pose proof (adds_keys (flat_map metadata es) ([], n) m) as T. rewrite <- A in T. cbn in T. tauto. }
  split; [|auto]. apply Forall_forall. intros e' I. apply in_map_iff in I as (e & <- & I). apply rw_no_metadata. intros m M. apply K, in_flat_map. eauto.
Qed.

(** The sanitized expressions have, wherever they are evaluated, the values that the user's expressions have with the external buffers as
    they are outside of everything. *)
Theorem C70_values : forall X (H : host X) call_v copy_v consts ext es n es' R n' L E,
  sanitize_all ext es ([], n) = Val (es', (R, n')) -> Permutation L R ->
  (forall e y, In e es -> In y (names e) -> (y < n)%nat) ->
  (forall e s m, In e es -> In s (locals e) -> In m (metadata e) -> ~ free s m) ->
  (forall m, In m (flat_map metadata es) -> exists z, veval X H E m = Val z) ->
  exists E1,
    (forall s v, vexec X H call_v copy_v consts (define_replacements L s) E v = vexec X H call_v copy_v consts s E1 v) /\
    (forall y, (y < n)%nat -> E1 y = E y) /\
    forall E2 F, (forall g, (n <= g < n')%nat -> E2 g = E1 g) -> inside (fun s => In s ext) (flat_map metadata es) E E2 -> with_outside (fun s => In s ext) E E2 F ->
      Forall2 (fun e e' => veval X H E2 e' = veval X H F e) es es'.
Proof.
  intros X H call_v copy_v consts ext es n es' R n' L E Q Pm Nn Nl V.
  pose proof (C70_no_metadata _ _ _ _ _ _ Q) as (_ & K & D & Sn & Nx). destruct (all_parts _ _ _ _ _ _ Q) as (_ & -> & _ & _).
  assert (IR : forall m g, In (m, g) L -> In m (flat_map metadata es) /\ (n <= g < n')%nat).
  { intros m g I. apply (Permutation_in _ Pm) in I. split; [apply K, in_map_iff; exists (m, g); auto|]. assert (G : In g (map snd R)) by (apply in_map_iff; exists (m, g); auto). rewrite Sn in G. apply in_seq in G. lia. }
  assert (MM : forall m, In m (flat_map metadata es) -> is_metadata m /\ forall y, free y m -> (y < n)%nat).
  { intros m I. apply in_flat_map in I as (e & Ie & I). split; [exact (metadata_shape e m I)|]. intros y Y. apply (Nn e y Ie). eapply metadata_names; [exact I|]. apply free_names, Y. }
  destruct (lets_value X H n E L) with (Ec := E) as (E1 & L1 & O1 & V1).
  { eapply Permutation_NoDup; [apply Permutation_map, Permutation_sym, Pm|]. rewrite Sn. apply seq_NoDup. }
  { intros m g I. destruct (IR m g I) as (Im & G). destruct (MM m Im) as (Mm & Fm). split; [exact Mm|]. split; [apply G|]. split; [exact Fm|]. apply V, Im. }
  { reflexivity. }
  exists E1. split; [|split].
  - intros s v. unfold define_replacements. cbn [vexec]. change (map _ L) with (lets_of L). rewrite L1. reflexivity.
  - intros y Y. apply O1. intro I. apply in_map_iff in I as ((m, g) & <- & I). cbn in *. pose proof (proj2 (IR m g I)). lia.
  - intros E2 F Fr [I1 I2] W.
    assert (G : forall l, incl l es -> Forall2 (fun e e' => veval X H E2 e' = veval X H F e) l (map (rw R) l)).
    2:{ apply G. intros e Ie. exact Ie. }
    induction l as [|e l IH]; intro Il; constructor; [|apply IH; intros a Ia; apply Il; right; exact Ia].
    assert (Ie : In e es) by (apply Il; left; reflexivity).
    apply (rw_value X H n R (metadata e) e).
    + split; [intros y; apply Nn, Ie|]. split; [intros s m; apply Nl, Ie|intros m Im; exact Im].
    + intros y _. destruct (in_dec Nat.eq_dec y ext) as [Iy|Iy]; [right|left; apply W, Iy]. rewrite (proj1 (W y) Iy). destruct (I1 y Iy) as (A & B). auto.
    + intros m Im. assert (Ia : In m (flat_map metadata es)) by (apply in_flat_map; eauto). destruct (find_entry_some R m (proj2 (K m) Ia)) as (g & Fg). exists g.
      pose proof (find_entry_in _ _ _ Fg) as Ig. apply (Permutation_in _ (Permutation_sym Pm)) in Ig. destruct (V1 m g Ig) as (z & Vz & Eg). exists z. split; [exact Fg|]. destruct (IR m g Ig) as (_ & G). split; [apply G|].
      split; [rewrite Fr by exact G; exact Eg|]. rewrite <- Vz. apply eval_frame. intros y Y. destruct (in_dec Nat.eq_dec y ext) as [Iy|Iy]; [apply W, Iy|].
      rewrite (proj2 (W y) Iy). apply (I2 m y Ia Y Iy).
Qed.

(** Metadata that has no value outside of everything makes the whole pipeline undefined. *)
Theorem C70_undefined : forall X (H : host X) call_v copy_v consts ext es n es' R n' L E m s v,
  sanitize_all ext es ([], n) = Val (es', (R, n')) -> Permutation L R ->
  (forall e y, In e es -> In y (names e) -> (y < n)%nat) ->
  In m (flat_map metadata es) -> veval X H E m = UB -> vexec X H call_v copy_v consts (define_replacements L s) E v = UB.
Proof.
  intros X H call_v copy_v consts ext es n es' R n' L E m s v Q Pm Nn I U.
  pose proof (C70_no_metadata _ _ _ _ _ _ Q) as (_ & K & D & Sn & Nx).
  unfold define_replacements. cbn [vexec]. change (map _ L) with (lets_of L). rewrite (lets_fail X H n E m L) with (Ec := E); [reflexivity| | |exact U|reflexivity].
  - intros m' g I'. apply (Permutation_in _ Pm) in I'. assert (Im : In m' (flat_map metadata es)) by (apply K, in_map_iff; exists (m', g); auto).
    assert (G : In g (map snd R)) by (apply in_map_iff; exists (m', g); auto). rewrite Sn in G. apply in_seq in G.
    apply in_flat_map in Im as (e & Ie & Im). split; [exact (metadata_shape e _ Im)|]. split; [lia|]. intros y Y. apply (Nn e y Ie). eapply metadata_names; [exact Im|]. apply free_names, Y.
  - eapply Permutation_in; [apply Permutation_map, Permutation_sym, Pm|]. apply K, I.
Qed.

(** An example: an input 1 with bounds [-5, 20] in dimension 0, inside of a crop to [3, 7]; the dimension 10 of a function is 4 inside of a loop. *)
Definition c70_buf : buf := Buf (Some 1000) 1 [Dim (-5) 20 1 unfolded; Dim 0 9 100 unfolded].
Definition c70_env : venv := fun x => match x with 1%nat => Buffer Own c70_buf | 12%nat => Num 3 | _ => Undef end.
Definition c70_min : expr := EVar 1 f_min 0.
Definition c70_max : expr := EVar 1 f_max 0.
Definition c70_at : expr := ECall i_buffer_at None [EVar 1 f_none (-1); e_var 12; c70_min].
(** clamp the coordinate to the input; the middle of the input; the address of an element *)
Definition c70_user : list expr :=
  [EBin Min (EBin Max (e_var 10) c70_min) c70_max; ELet [(11%nat, EBin Add c70_min c70_max)] (EBin Div (e_var 11) (EConst 2)); EBin Add c70_at (EBin Sub c70_max (e_var 10))].
Definition c70_entries : entries := [(c70_min, 20); (c70_max, 21); (c70_at, 22)]%nat.
Definition c70_clean : list expr :=
  [EBin Min (EBin Max (e_var 10) (e_var 20)) (e_var 21); ELet [(11%nat, EBin Add (e_var 20) (e_var 21))] (EBin Div (e_var 11) (EConst 2)); EBin Add (e_var 22) (EBin Sub (e_var 21) (e_var 10))].
Lemma c70_sanitized : sanitize_all [1%nat] c70_user ([], 20%nat) = Val (c70_clean, (c70_entries, 23%nat)). Proof. reflexivity. Qed.
(** in the crop, in the loop *)
Definition c70_in (E : venv) : venv := vset (vset E 1 (Buffer Own (crop c70_buf 0 3 7))) 10 (Num 4).
Example C70_case : exists E1,
  (forall s v, vexec unit (idle unit) (no_call unit) no_copy no_const (define_replacements (rev c70_entries) s) c70_env v = vexec unit (idle unit) (no_call unit) no_copy no_const s E1 v) /\
  map (veval unit (idle unit) (c70_in E1)) c70_clean = map (veval unit (idle unit) (vset c70_env 10 (Num 4))) c70_user /\
  map (veval unit (idle unit) (c70_in E1)) c70_clean <> map (veval unit (idle unit) (c70_in c70_env)) c70_user.
Proof.
  destruct (C70_values unit (idle unit) (no_call unit) no_copy no_const _ _ _ _ _ _ (rev c70_entries) c70_env c70_sanitized) as (E1 & Q1 & Q2 & Q3).
  - symmetry. apply Permutation_rev.
  - intros e y [<-|[<-|[<-|[]]]] I; vm_compute in I; intuition lia.
  - intros e s m [<-|[<-|[<-|[]]]] I J; cbn in I; try contradiction. destruct I as [<-|[]]. cbn in J. intros (ro & O). destruct J as [<-|[<-|[]]]; cbn in O; destruct O as (Q & _); discriminate Q.
  - intros m I. vm_compute in I. destruct I as [<-|[<-|[<-|[<-|[<-|[<-|[]]]]]]]; eexists; vm_compute; reflexivity.
  - exists E1. split; [exact Q1|].
    assert (Q : map (veval unit (idle unit) (c70_in E1)) c70_clean = map (veval unit (idle unit) (vset c70_env 10 (Num 4))) c70_user).
    { specialize (Q3 (c70_in E1) (fun y => if (y =? 1)%nat then c70_env y else c70_in E1 y)).
      assert (F2 : Forall2 (fun e e' => veval unit (idle unit) (c70_in E1) e' = veval unit (idle unit) (fun y => if (y =? 1)%nat then c70_env y else c70_in E1 y) e) c70_user c70_clean).
      { apply Q3.
        - intros g G. unfold c70_in. rewrite !vset_other by lia. reflexivity.
        - constructor.
          + intros y [<-|[]]. split; eexists _, _; reflexivity.
          + intros m y I (ro & O) N. assert (Y : y = 12%nat \/ y = 1%nat).
            { vm_compute in I. destruct I as [<-|[<-|[<-|[<-|[<-|[<-|[]]]]]]]; cbn in O; intuition congruence. }
            destruct Y as [-> | ->]; [|destruct N; left; reflexivity]. unfold c70_in. rewrite !vset_other by lia. apply Q2. lia.
        - intro y. split; [intros [<-|[]]; reflexivity|]. intro N. destruct (Nat.eqb_spec y 1) as [->|_]; [destruct N; left; reflexivity|reflexivity]. }
      assert (G : forall e, In e c70_user -> veval unit (idle unit) (fun y => if (y =? 1)%nat then c70_env y else c70_in E1 y) e = veval unit (idle unit) (vset c70_env 10 (Num 4)) e).
      { intros e I. apply eval_frame. intros y Y. apply free_names in Y. assert (L : (y < 20)%nat) by (destruct I as [<-|[<-|[<-|[]]]]; vm_compute in Y; intuition lia).
        destruct (Nat.eqb_spec y 1) as [->|N]; [reflexivity|]. unfold c70_in. destruct (Nat.eq_dec y 10) as [->|N2]; [rewrite !vset_same; reflexivity|]. rewrite !vset_other by assumption. apply Q2, L. }
      clear - F2 G. induction F2 as [|e e' l l' A _ IH]; [reflexivity|]. cbn [map]. rewrite A, (G e (or_introl eq_refl)), IH; [reflexivity|]. intros a I. apply G. right. exact I. }
    split; [exact Q|]. rewrite Q. vm_compute. discriminate.
Qed.

(** The indices of buffer_at may be local: a let of the expression, or the dimension of a function.  They are then used outside of their scope. *)
Example C70_local_refuted :
  let e := ELet [(11%nat, EConst 3)] (ECall i_buffer_at None [EVar 1 f_none (-1); e_var 11]) in
  let x := ECall i_buffer_at None [EVar 1 f_none (-1); e_var 10] in
  veval unit (idle unit) c70_env e = Val 1008 /\
  veval unit (idle unit) (vset c70_env 10 (Num 4)) x = Val 1009 /\
  sanitize_all [1%nat] [e] ([], 20%nat) = Val ([ELet [(11%nat, EConst 3)] (e_var 20)], ([(ECall i_buffer_at None [EVar 1 f_none (-1); e_var 11], 20%nat)], 21%nat)) /\
  sanitize_all [1%nat] [x] ([], 20%nat) = Val ([e_var 20], ([(x, 20%nat)], 21%nat)) /\
  forall s v, vexec unit (idle unit) (no_call unit) no_copy no_const (define_replacements [(ECall i_buffer_at None [EVar 1 f_none (-1); e_var 11], 20%nat)] s) c70_env v = UB /\
    vexec unit (idle unit) (no_call unit) no_copy no_const (define_replacements [(x, 20%nat)] s) c70_env v = UB.
Proof. cbv zeta. do 4 (split; [vm_compute; reflexivity|]). intros s v. split; reflexivity. Qed.
