(** One input of a copy, and one after the other. *)
From Coq Require Import ZArith List Bool Arith Lia.
From Verif Require Import Arith_Model Arith_Proofs Buf_Model Buf_Spec Buf_Proofs BufSlice_Proofs Buf_Props ForEach_Spec ForEach_Proofs ForEach_Props Copy_Model Copy_Spec CopyBox_Proofs Expr_Model Stmt_Model Stmt_Spec Deps_Spec Const_Model
  VSem_Spec VExec_Proofs VFrame_Proofs CopyStmt_Spec Concat_Model Concat_Spec Concat_Proofs.
Import ListNotations.
Open Scope Z_scope.

Definition piece_assigned (bd : buf) (p : piece) (m m' : mem) : Prop :=
  (forall idx d s k, in_bounds (dims bd) idx -> covered p idx -> locate bd (index idx) = Some d -> source p idx = Some s -> 0 <= k < elem_size bd -> m' (d + k) = m (s + k)) /\
  (forall a, (forall idx d, in_bounds (dims bd) idx -> covered p idx -> locate bd (index idx) = Some d -> ~ (d <= a < d + elem_size bd)) -> m' a = m a).

(** the destination and the source of the copy *)
Definition dst_of (bd : buf) (p : piece) : buf := crops (slice_buffer bd (p_slice p)) 0 (p_out p).
Definition src_of (p : piece) : buf := crops (p_src p) 0 (p_in p).
Definition src_elem (p : piece) (r : list Z) : ptr :=
  match locate (src_of p) (index (p_coord p r)) with
  | Some s => Some s
  | None => match p_pad p with Some b => locate b (index r) | None => None end
  end.
Lemma dst_bounds bd p r : in_bounds (dims (dst_of bd p)) r <-> in_bounds (unsliced (p_slice p) (dims bd)) r /\ within (p_out p) r.
Proof. unfold dst_of. rewrite crops_dims0, crop_list_bounds, slice_buffer_dims. reflexivity. Qed.
Lemma to_slice bd p idx : in_bounds (dims bd) idx -> covered p idx -> let r := unsliced (p_slice p) idx in
  in_bounds (dims (dst_of bd p)) r /\ locate (dst_of bd p) (index r) = locate bd (index idx) /\ src_elem p r = source p idx.
Proof.
  intros B (A & W). cbn zeta. set (r := unsliced (p_slice p) idx).
  assert (Br : in_bounds (dims (dst_of bd p)) r) by (apply dst_bounds; split; [apply unsliced_bounds, B|exact W]).
  split; [exact Br|]. split.
  - unfold dst_of. rewrite locate_crops0. unfold dst_of in Br. rewrite crops_dims0 in Br. rewrite (crop_list_reach _ _ _ Br), C19_slice_buffer.
    apply locate_ext. intros k K. apply fill_in_agrees; [exact A|]. rewrite (in_bounds_length _ _ B). exact K.
  - unfold src_elem, source, src_of. fold r. rewrite locate_crops0. reflexivity.
Qed.
Lemma of_slice bd p r : provided bd p -> in_bounds (dims (dst_of bd p)) r ->
  exists idx, in_bounds (dims bd) idx /\ covered p idx /\ unsliced (p_slice p) idx = r.
Proof.
  intros V B. apply dst_bounds in B as (B & W). destruct (whole_ok (p_slice p) (dims bd) r B (pv_slice _ _ V)) as (I1 & I2 & I3).
  exists (whole (p_slice p) (length (dims bd)) r). split; [exact I1|]. split; [split; [exact I2|rewrite I3; exact W]|exact I3].
Qed.
Lemma copied_elems bd p d s : In (d, s) (copied_of (dst_of bd p) (src_of p) (p_pad p) (p_coord p)) <->
  exists r, in_bounds (dims (dst_of bd p)) r /\ d = locate (dst_of bd p) (index r) /\ s = src_elem p r.
Proof.
  unfold copied_of, copied_or, copied, src_elem. destruct (p_pad p) as [b|]; rewrite in_map_iff; split.
  - intros (r & E & I). injection E as <- <-. apply in_box in I. eauto.
  - intros (r & B & -> & ->). exists r. split; [reflexivity|apply in_box; exact B].
  - intros (r & E & I). injection E as <- <-. apply in_box in I. exists r. split; [exact I|]. split; [reflexivity|]. destruct (locate (src_of p) _); reflexivity.
  - intros (r & B & -> & ->). exists r. split; [|apply in_box; exact B]. f_equal. destruct (locate (src_of p) _); reflexivity.
Qed.

Section One.
  Variable H : host mem.
  Variable call_v : nat -> list buf -> list buf -> list Z -> mem -> Z * mem.
  Variable copy_v : buf -> buf -> option buf -> (list Z -> option (list Z)) -> mem -> mem.
  Variable consts : Z -> option buf.
  Hypothesis Hcopy : does_copies copy_v.
  Notation vexec := (vexec mem H call_v copy_v consts).

  Lemma crop_step E x l ls k b c v : E x = Buffer k b -> (l <> [] -> alone k = true) -> Forall2 (gives_limits mem H E) l ls ->
    exists E' k', (forall y, y <> x -> E' y = E y) /\ E' x = Buffer k' (crops b 0 ls) /\
      vexec (match l with [] => c | e :: l0 => SCropBuffer x x (e :: l0) c end) E v = vexec c E' v.
  Proof.
    intros Ex A F. destruct l as [|i l].
    - inversion F; subst. exists E, k. repeat split; auto.
    - exists (vset E x (Buffer Own (crops b 0 ls))), Own. split; [intros y N; apply vset_other; auto|]. split; [apply vset_same|]. specialize (A ltac:(discriminate)).
      cbn [VSem_Spec.vexec]. unfold vbuffer. rewrite Ex. cbn [bind]. unfold in_place. rewrite Nat.eqb_refl, Ex. destruct k as [al bk]. cbn [alone] in A. subst al. cbn [bind].
      rewrite (vcrop_crops mem H E (i :: l) ls F). reflexivity.
  Qed.
  Lemma slice_step E x l vs k b c v : E x = Buffer k b -> alone k = true -> Forall2 (gives mem H E) l vs ->
    exists E' k', (forall y, y <> x -> E' y = E y) /\ E' x = Buffer k' (slice_buffer b vs) /\ alone k' = true /\
      vexec (match l with [] => c | e :: l0 => SSliceBuffer x x (e :: l0) c end) E v = vexec c E' v.
  Proof.
    intros Ex A F. destruct l as [|e l].
    - inversion F; subst. exists E, k. repeat split; auto. rewrite Ex. f_equal. unfold slice_buffer.
      assert (N : forall p ds, slice_buffer_loop p ds [] = (p, ds)).
      { intros p. induction ds as [|d ds IH]; cbn [slice_buffer_loop]; [reflexivity|]. rewrite IH. reflexivity. }
      rewrite N. destruct b; reflexivity.
    - exists (vset E x (Buffer Own (slice_buffer b vs))), Own. split; [intros y N; apply vset_other; auto|]. split; [apply vset_same|]. split; [reflexivity|].
      cbn [VSem_Spec.vexec]. unfold vbuffer. rewrite Ex. cbn [bind]. rewrite (vslice_slices mem H E (e :: l) vs F). cbn [bind]. unfold slice_buffer.
      destruct (slice_buffer_loop (base b) (dims b) vs) as [r ds]. reflexivity.
  Qed.

  Definition pad_of (E : venv) (i : copy_input) (dst : copy_output) (y : option nat) (p : piece) : Prop :=
    match y, p_pad p with
    | None, None => True
    | Some x, Some b => x <> ci_sym i /\ x <> co_sym dst /\ exists k, E x = Buffer k b
    | _, _ => False
    end.

  Lemma one_piece E i dst bd kd p y s v : piece_of mem H E i dst bd p -> E (co_sym dst) = Buffer kd bd -> alone kd = true -> pad_of E i dst y p ->
    separate bd -> provided bd p -> make_copy_func i dst y = Val s ->
    exists m', vexec s E v = Val (0, v_set_ext mem v m') /\ piece_assigned bd p (v_ext mem v) m'.
  Proof.
    intros P Ed Ad Py Sep V M. unfold make_copy_func in M. destruct (forallb _ _); [|discriminate]. cbv zeta in M. injection M as <-.
    destruct P as [(ks & Es & As) (Nsd & Nsx & Ndx) _ Gs Go Gi U C].
    set (copy := SCopy (ci_sym i) (map fst (ci_bounds i)) (co_sym dst) (co_dims dst) y).
    set (c2 := match ci_input_crop i with [] => copy | l => SCropBuffer (ci_sym i) (ci_sym i) l copy end).
    set (c1 := match ci_output_crop i with [] => c2 | l => SCropBuffer (co_sym dst) (co_sym dst) l c2 end).
    apply Forall_app in U as (U1 & U). apply Forall_app in U as (U2 & U3).
    destruct (slice_step E (co_sym dst) (ci_output_slice i) (p_slice p) kd bd c1 v Ed Ad Gs) as (E1 & k1 & O1 & D1 & A1 & R1). rewrite R1. clear R1.
    assert (Go1 : Forall2 (gives_limits mem H E1) (ci_output_crop i) (p_out p)).
    { eapply limits_same; [|exact Go]. eapply Forall_impl; [|exact U1]. intros l (_ & U4 & U5) x Fx. symmetry. apply O1. intros ->. destruct Fx; contradiction. }
    destruct (crop_step E1 (co_sym dst) (ci_output_crop i) (p_out p) k1 _ c2 v D1 (fun _ => A1) Go1) as (E2 & k2 & O2 & D2 & R2). unfold c1. rewrite R2. clear R2 c1.
    assert (O12 : forall z, z <> co_sym dst -> E2 z = E z) by (intros z N; rewrite O2, O1; auto).
    assert (Gi2 : Forall2 (gives_limits mem H E2) (ci_input_crop i) (p_in p)).
    { eapply limits_same; [|exact Gi]. eapply Forall_impl; [|exact U2]. intros l (_ & U4 & U5) x Fx. symmetry. apply O12. intros ->. destruct Fx; contradiction. }
    assert (Es2 : E2 (ci_sym i) = Buffer ks (p_src p)) by (rewrite O12 by exact Nsd; exact Es).
    destruct (crop_step E2 (ci_sym i) (ci_input_crop i) (p_in p) ks _ copy v Es2 As Gi2) as (E3 & k3 & O3 & D3 & R3). unfold c2. rewrite R3. clear R3 c2.
    assert (O123 : forall z, z <> co_sym dst -> z <> ci_sym i -> E3 z = E z) by (intros z N1 N2; rewrite O3, O12; auto).
    assert (D3d : E3 (co_sym dst) = Buffer k2 (dst_of bd p)) by (rewrite O3 by auto; exact D2).
    fold (src_of p) in D3.
    (* the copy *)
    assert (Hp : match y with Some z => b <- vbuffer E3 z ;; Val (Some b) | None => Val None end = Val (p_pad p)).
    { unfold pad_of in Py. destruct y as [z|], (p_pad p) as [bp|]; try contradiction; [|reflexivity]. destruct Py as (N1 & N2 & kp & Ep).
      unfold vbuffer. rewrite O123 by auto. rewrite Ep. reflexivity. }
    exists (copy_v (src_of p) (dst_of bd p) (p_pad p) (vcoords mem H E3 (co_dims dst) (map fst (ci_bounds i))) (v_ext mem v)).
    split.
    { unfold copy. cbn [VSem_Spec.vexec]. unfold vbuffer at 1 2. rewrite D3, D3d. cbn [bind]. rewrite Hp. reflexivity. }
    assert (Es3 : elem_size (dst_of bd p) = elem_size bd) by (unfold dst_of; rewrite crops_es; apply slice_buffer_es).
    assert (Co : forall r, in_bounds (dims (dst_of bd p)) r -> vcoords mem H E3 (co_dims dst) (map fst (ci_bounds i)) r = Some (p_coord p r)).
    { intros r Br. destruct (of_slice bd p r V Br) as (idx & I1 & I2 & I3). specialize (C idx I1 I2). cbn zeta in C. rewrite I3 in C. unfold vcoords.
      rewrite <- (vlist_same mem H (at_values E (co_dims dst) r)); [rewrite C; reflexivity|].
      apply Forall_forall. intros e Ie x Fx. apply in_map_iff in Ie as (l & <- & Il). rewrite Forall_forall in U3. destruct (U3 l Il) as ((N1 & _) & (N2 & _)).
      apply (at_same (fun z => z <> co_sym dst /\ z <> ci_sym i)); [intros z (Z1 & Z2); symmetry; apply O123; auto|]. split; intros ->; contradiction. }
    assert (As_ : assigned (elem_size (dst_of bd p)) (copied_of (dst_of bd p) (src_of p) (p_pad p) (p_coord p)) (v_ext mem v)
      (copy_v (src_of p) (dst_of bd p) (p_pad p) (vcoords mem H E3 (co_dims dst) (map fst (ci_bounds i))) (v_ext mem v))).
    { apply Hcopy; [exact Co| | |].
      - intros d s I. apply copied_elems in I as (r & Br & -> & ->). destruct (of_slice bd p r V Br) as (idx & I1 & I2 & I3).
        destruct (to_slice bd p idx I1 I2) as (_ & T1 & T2). rewrite I3 in T1, T2. rewrite T1, T2. exact (pv_there _ _ V idx I1 I2).
      - intros r r' Br Br' N. destruct (of_slice bd p r V Br) as (idx & I1 & I2 & I3). destruct (of_slice bd p r' V Br') as (idx' & J1 & J2 & J3).
        destruct (to_slice bd p idx I1 I2) as (_ & T1 & _). destruct (to_slice bd p idx' J1 J2) as (_ & T1' & _). rewrite I3 in T1. rewrite J3 in T1'. rewrite T1, T1', Es3.
        apply Sep; auto. intros ->. congruence.
      - intros d s d' s' I I'. apply copied_elems in I as (r & Br & -> & ->). apply copied_elems in I' as (r' & Br' & -> & ->).
        destruct (of_slice bd p r V Br) as (idx & I1 & I2 & I3). destruct (of_slice bd p r' V Br') as (idx' & J1 & J2 & J3).
        destruct (to_slice bd p idx I1 I2) as (_ & T1 & _). destruct (to_slice bd p idx' J1 J2) as (_ & _ & T2). rewrite I3 in T1. rewrite J3 in T2. rewrite T1, T2, Es3.
        exact (pv_apart _ _ V idx idx' I1 J1 J2). }
    destruct As_ as (W1 & W2). rewrite Es3 in W1, W2. split.
    - intros idx d s k I1 I2 Ld Ss K. destruct (to_slice bd p idx I1 I2) as (Br & T1 & T2). apply W1; [|exact K]. apply copied_elems. exists (unsliced (p_slice p) idx).
      rewrite T1, T2. auto.
    - intros a N. apply W2. intros d s I. apply copied_elems in I as (r & Br & Ed' & _). destruct (of_slice bd p r V Br) as (idx & I1 & I2 & I3).
      destruct (to_slice bd p idx I1 I2) as (_ & T1 & _). rewrite I3 in T1. apply (N idx d I1 I2). rewrite <- T1. auto.
  Qed.
End One.

(** *** one after the other *)
Inductive pieces_assigned (bd : buf) : list piece -> mem -> mem -> Prop :=
| pieces_nil m : pieces_assigned bd [] m m
| pieces_cons p ps m m1 m2 : piece_assigned bd p m m1 -> pieces_assigned bd ps m1 m2 -> pieces_assigned bd (p :: ps) m m2.
Lemma pieces_snoc bd ps : forall p m m1 m2, pieces_assigned bd ps m m1 -> piece_assigned bd p m1 m2 -> pieces_assigned bd (ps ++ [p]) m m2.
Proof.
  induction ps as [|q ps IH]; intros p m m1 m2 A B; inversion A; subst; cbn [app].
  - econstructor; [exact B|constructor].
  - econstructor; [eassumption|eapply IH; eauto].
Qed.
Lemma apart_in es d s a : apart es (Some d) (Some s) -> d <= a < d + es -> s <= a < s + es -> False.
Proof. cbn. lia. Qed.
Definition free_of (bd : buf) (ps : list piece) (a : Z) : Prop :=
  forall idx p d, in_bounds (dims bd) idx -> In p ps -> covered p idx -> locate bd (index idx) = Some d -> ~ (d <= a < d + elem_size bd).
Lemma pieces_same bd ps : forall m m', pieces_assigned bd ps m m' -> forall a, free_of bd ps a -> m' a = m a.
Proof.
  induction ps as [|p ps IH]; intros m m' A a F; inversion A as [|? ? ? m1 ? A1 A2]; subst; [reflexivity|].
  rewrite (IH _ _ A2 a) by (intros idx q d B I; apply F; [exact B|right; exact I]).
  apply (proj2 A1). intros idx d B C. apply (F idx p d B); [left; reflexivity|exact C].
Qed.
Lemma pieces_combined bd ps m m' : separate bd -> Forall (provided bd) ps -> pieces_assigned bd ps m m' -> combined bd ps m m'.
Proof.
  intros Sep PV A. split; [|intros a F; exact (pieces_same bd ps m m' A a F)].
  intros idx d l1 p l2 s k B E C N Ld Ls K. subst ps.
  assert (Q : exists m1 m2, pieces_assigned bd l1 m m1 /\ piece_assigned bd p m1 m2 /\ pieces_assigned bd l2 m2 m').
  { clear - A. revert m A. induction l1 as [|q l1 IH]; intros m A; cbn [app] in A; inversion A as [|? ? ? m1 ? A1 A2]; subst.
    - exists m, m1. repeat split; try apply A1; [constructor|exact A2].
    - destruct (IH _ A2) as (u & w & Q1 & Q2 & Q3). exists u, w. split; [econstructor; eauto|auto]. }
  destruct Q as (m1 & m2 & Q1 & Q2 & Q3). apply Forall_app in PV as (PV1 & PV2). inversion PV2 as [|? ? Pp PV3]; subst.
  rewrite (pieces_same bd l2 m2 m' Q3 (d + k)).
  - rewrite (proj1 Q2 idx d s k B C Ld Ls K). apply (pieces_same bd l1 m m1 Q1). intros idx' q d' B' I' C' Ld' R.
    pose proof (pv_apart _ _ Pp idx' idx B' B C) as Ap. rewrite Ld', Ls in Ap. apply (apart_in _ _ _ (s + k) Ap R). lia.
  - intros idx' q d' B' I' C' Ld' R. assert (Ne : idx <> idx') by (intros ->; exact (N q I' C')).
    pose proof (Sep idx idx' B B' Ne) as Ap. rewrite Ld, Ld' in Ap. apply (apart_in _ _ _ (d + k) Ap); [lia|exact R].
Qed.
