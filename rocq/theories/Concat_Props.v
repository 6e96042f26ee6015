(** C68: copies, concatenations and stacks. *)
From Coq Require Import ZArith List Bool Arith Lia.
From Verif Require Import Arith_Model Arith_Proofs Buf_Model Buf_Spec Buf_Proofs BufSlice_Proofs Buf_Props ForEach_Spec ForEach_Proofs ForEach_Props Copy_Model Copy_Spec CopyBox_Proofs Expr_Model Rewrite_Model Match_Model Match_Proofs Stmt_Model Stmt_Spec Deps_Spec Const_Model
  VSem_Spec VExec_Proofs VFrame_Proofs CopyStmt_Spec Concat_Model Concat_Spec Concat_Proofs Concat2_Proofs Concat3_Proofs Concat4_Proofs Concat5_Proofs.
Import ListNotations.
Open Scope Z_scope.

Lemma make_copies_ok dst ins : Forall (fun i => Forall (fun x => same (fst x) (snd x) = true) (ci_bounds i)) ins -> exists l, make_copies ins dst = Val l.
Proof.
  induction 1 as [|i ins P F (l & IH)]; [exists []; reflexivity|]. cbn [make_copies]. unfold make_copy_func. rewrite (proj2 (forallb_forall _ _)).
  - cbv zeta. rewrite IH. cbn [bind]. eauto.
  - intros x Ix. rewrite Forall_forall in P. exact (P x Ix).
Qed.
Lemma make_call_ok H E dst bd ins ps : Forall2 (fun i p => piece_of mem H E i dst bd p /\ p_pad p = None) ins ps -> exists s, make_call false ins dst = Val s.
Proof.
  intros F. destruct (make_copies_ok dst ins) as (l & M).
  - clear - F. induction F as [|i p ins ps (P & _) F IH]; constructor; [exact (po_points _ _ _ _ _ _ _ P)|exact IH].
  - unfold make_call. rewrite M. cbn [bind]. eauto.
Qed.
Lemma concat_inputs_val dims rank_ dim srcs : (dim < rank_)%nat -> (rank_ <= length dims)%nat -> Forall (fun s => snd s = rank_) srcs ->
  forall bounds, length bounds = S (length srcs) -> exists l, concat_inputs srcs dims rank_ dim bounds = Val l.
Proof.
  intros Ld Lr F. induction F as [|(s, r) srcs R F IH]; intros bounds L.
  - destruct bounds as [|b [|b' bounds]]; try discriminate L. exists []. reflexivity.
  - destruct bounds as [|b [|b' bounds]]; try discriminate L. destruct (IH (b' :: bounds)) as (l & M); [cbn in *; lia|]. cbn [concat_inputs]. cbn [snd] in R. subst r.
    rewrite Nat.eqb_refl. destruct (Nat.ltb_spec dim rank_); [|lia]. destruct (Nat.leb_spec rank_ (length dims)); [|lia]. cbn [andb]. cbv zeta. rewrite M. cbn [bind]. eauto.
Qed.

(** A function that copies from several inputs: afterwards each element of the destination is what the last of the inputs that
    provide it has for it, and nothing else is changed. *)
Theorem C68_copies : forall H call_v copy_v consts E dst bd kd ins ps s v,
  does_copies copy_v -> E (co_sym dst) = Buffer kd bd -> alone kd = true -> separate bd -> ins <> [] ->
  Forall2 (fun i p => piece_of mem H E i dst bd p /\ p_pad p = None) ins ps -> Forall (provided bd) ps -> make_call false ins dst = Val s ->
  exists m', vexec mem H call_v copy_v consts s E v = Val (0, v_set_ext mem v m') /\ combined bd ps (v_ext mem v) m'.
Proof. intros H call_v copy_v consts E dst bd kd ins ps s v Hc. exact (run_call H call_v copy_v consts Hc E dst bd kd ins ps s v). Qed.

(** A padded copy. *)
Theorem C68_padded : forall H call_v copy_v consts E dst bd kd i pad bp kp p s v,
  does_copies copy_v -> E (co_sym dst) = Buffer kd bd -> alone kd = true -> separate bd -> piece_of mem H E i dst bd p ->
  p_pad p = Some bp -> E (ci_sym pad) = Buffer kp bp -> ci_sym pad <> ci_sym i -> ci_sym pad <> co_sym dst -> provided bd p -> make_call true [i; pad] dst = Val s ->
  exists m', vexec mem H call_v copy_v consts s E v = Val (0, v_set_ext mem v m') /\ combined bd [p] (v_ext mem v) m'.
Proof.
  intros H call_v copy_v consts E dst bd kd i pad bp kp p s v Hc Ed Ad Sep P Pd Ep N1 N2. refine (run_padded H call_v copy_v consts Hc E dst bd kd i pad p s v Ed Ad Sep P _).
  unfold pad_of. rewrite Pd. eauto.
Qed.

(** A concatenation can be made; afterwards an element of the destination at bounds(i) <= x < bounds(i + 1) is the one of the
    i-th source at x - bounds(i) (of the last such source), and nothing else is changed. *)
Theorem C68_concat : forall H call_v copy_v consts E srcs dst rank_ dim bounds bz bs bd v,
  does_copies copy_v -> concat_ready H E srcs dst rank_ dim bounds bz bs bd ->
  exists ins out s m', make_concat srcs dst rank_ dim bounds = Val (ins, out) /\ make_call false ins out = Val s /\
    vexec mem H call_v copy_v consts s E v = Val (0, v_set_ext mem v m') /\
    (forall i idx d p k, (i < length srcs)%nat -> in_bounds (dims bd) idx -> concat_at bz dim i idx -> (forall j, (i < j < length srcs)%nat -> ~ concat_at bz dim j idx) ->
       locate bd (index idx) = Some d -> concat_source bs bz dim i idx = Some p -> 0 <= k < elem_size bd -> m' (d + k) = v_ext mem v (p + k)) /\
    (forall a, (forall idx i d, in_bounds (dims bd) idx -> (i < length srcs)%nat -> concat_at bz dim i idx -> locate bd (index idx) = Some d -> ~ (d <= a < d + elem_size bd)) ->
       m' a = v_ext mem v a).
Proof.
  intros H call_v copy_v consts E srcs dst rank_ dim bounds bz bs bd v Hc [Ne Nc (Nd & Nr) Rk Ds ((kd & Ed & Ad) & Sep) Sr Bo Fr Th Ap].
  destruct (concat_inputs_val (co_dims dst) rank_ dim srcs Nd ltac:(destruct Rk; lia) Nr bounds Nc) as (ins & M).
  pose proof (concat_pieces H E srcs dst rank_ dim bounds bz bs bd ins M Ne Rk Ds Sr Bo Fr) as P.
  pose proof (concat_provided E srcs dst rank_ dim bounds bz bs bd ins M Ne Rk Sr Th Ap) as V.
  destruct (make_call_ok _ _ _ _ _ _ P) as (s & Ms).
  assert (Ni : ins <> []) by (destruct (concat_inputs_ok _ _ _ _ _ _ M) as (_ & Q & _); intros ->; destruct srcs; [contradiction|discriminate Q]).
  destruct (run_call H call_v copy_v consts Hc E dst bd kd ins _ s v Ed Ad Sep Ni P V Ms) as (m' & R & C).
  exists ins, dst, s, m'. split; [unfold make_concat; rewrite M; reflexivity|]. split; [exact Ms|]. split; [exact R|].
  exact (concat_result E srcs dst rank_ dim bounds bz bs bd ins M Ne Rk Sr Th _ _ C).
Qed.
(** If the bounds are in order, each coordinate between the first and the last is at one source. *)
Theorem C68_concat_sorted : forall bz dim idx n, length bz = S n -> (forall i j, (i <= j <= n)%nat -> nth i bz 0 <= nth j bz 0) ->
  nth 0 bz 0 <= nth dim idx 0 < nth n bz 0 ->
  exists i, (i < n)%nat /\ concat_at bz dim i idx /\ forall j, (j < n)%nat -> concat_at bz dim j idx -> j = i.
Proof.
  intros bz dim idx n L So B. assert (Ex : exists i, (i < n)%nat /\ concat_at bz dim i idx).
  { clear L. unfold concat_at. set (x := nth dim idx 0) in *. clearbody x. clear idx dim. induction n as [|n IH]; [lia|].
    destruct (Z.lt_ge_cases x (nth n bz 0)) as [Lx|Lx].
    - destruct IH as (i & Li & I); [intros; apply So; lia|lia|]. exists i. split; [lia|exact I].
    - exists n. split; [lia|]. lia. }
  destruct Ex as (i & Li & I). exists i. split; [exact Li|]. split; [exact I|]. intros j Lj J. unfold concat_at in *.
  destruct (Nat.lt_trichotomy i j) as [Q|[Q|Q]]; [|symmetry; exact Q|].
  - specialize (So (S i) j ltac:(lia)). lia.
  - specialize (So (S j) i ltac:(lia)). lia.
Qed.

(** A stack can be made; afterwards an element of the destination at i in the dimension of the stack is the one of the i-th
    source at the other coordinates, and nothing else is changed. The dimension is at most the last one. *)
Theorem C68_stack : forall H call_v copy_v consts E srcs dst rank_ dim bs bd v,
  does_copies copy_v -> (0 < rank_)%nat -> let D := Nat.min (rank_ - 1) dim in stack_ready E srcs dst rank_ D bs bd ->
  exists ins out s m', make_stack srcs dst rank_ dim = Val (ins, out) /\ make_call false ins out = Val s /\
    vexec mem H call_v copy_v consts s E v = Val (0, v_set_ext mem v m') /\
    (forall i idx d p k, (i < length srcs)%nat -> in_bounds (dims bd) idx -> nth D idx 0 = Z.of_nat i -> locate bd (index idx) = Some d ->
       stack_source bs D i idx = Some p -> 0 <= k < elem_size bd -> m' (d + k) = v_ext mem v (p + k)) /\
    (forall a, (forall idx d, in_bounds (dims bd) idx -> 0 <= nth D idx 0 < Z.of_nat (length srcs) -> locate bd (index idx) = Some d -> ~ (d <= a < d + elem_size bd)) ->
       m' a = v_ext mem v a).
Proof.
  intros H call_v copy_v consts E srcs dst rank_ dim bs bd v Hc R0 D [Ne Nd Rk Ds ((kd & Ed & Ad) & Sep) Sr Si Th Ap].
  set (out := COutput (co_sym dst) (remove_nth (co_dims dst) D)). set (ins := stack_inputs srcs (co_dims dst) D 0).
  pose proof (stack_pieces H E srcs dst rank_ D bs bd Nd Rk Ds Sr) as P. fold out ins in P.
  pose proof (stack_provided E srcs dst rank_ D bs bd Nd Rk Ds Sr Si Th Ap) as V.
  destruct (make_call_ok _ _ _ _ _ _ P) as (s & Ms).
  assert (Ni : ins <> []) by (pose proof (stack_inputs_length D (co_dims dst) srcs 0) as Q; fold ins in Q; intros Z0; rewrite Z0 in Q; destruct srcs; [contradiction|discriminate Q]).
  destruct (run_call H call_v copy_v consts Hc E out bd kd ins _ s v Ed Ad Sep Ni P V Ms) as (m' & R & C).
  exists ins, out, s, m'. split; [|split; [exact Ms|split; [exact R|exact (stack_result E srcs dst rank_ D bs bd Nd Rk Ds Sr Si _ _ C)]]].
  unfold make_stack. destruct Rk as (-> & _). rewrite Nat.eqb_refl. destruct (Nat.ltb_spec 0 rank_); [|lia]. reflexivity.
Qed.

(** ** Examples *)
(** A function that copies. *)
Definition at_address (bd : buf) (a : Z) (idx : list Z) : bool :=
  match locate bd (index idx) with Some d => (d <=? a) && (a <? d + elem_size bd) | None => false end.
Definition each_element (bs bd : buf) (pad : option buf) (coord : list Z -> option (list Z)) (m : mem) : mem := fun a =>
  match find (at_address bd a) (box (dims bd)) with
  | Some idx =>
      match locate bd (index idx), coord idx with
      | Some d, Some c =>
          match (match locate bs (index c) with Some s => Some s | None => match pad with Some bp => locate bp (index idx) | None => None end end) with
          | Some s => m (s + (a - d))
          | None => m a
          end
      | _, _ => m a
      end
  | None => m a
  end.
Lemma each_element_copies : does_copies each_element.
Proof.
  intros bs bd pad coord f m Co De Sep Ap.
  assert (Cop : forall d s, In (d, s) (copied_of bd bs pad f) <-> exists idx, in_bounds (dims bd) idx /\ d = locate bd (index idx) /\
    s = match locate bs (index (f idx)) with Some s => Some s | None => match pad with Some bp => locate bp (index idx) | None => None end end).
  { intros d s. unfold copied_of, copied, copied_or. destruct pad as [bp|]; rewrite in_map_iff; split; intros (idx & Q).
    - destruct Q as (Q & I). injection Q as <- <-. exists idx. split; [apply in_box; exact I|]. auto.
    - destruct Q as (I & -> & ->). exists idx. split; [reflexivity|]. apply in_box. exact I.
    - destruct Q as (Q & I). injection Q as <- <-. exists idx. split; [apply in_box; exact I|]. split; [reflexivity|]. destruct (locate bs _); reflexivity.
    - destruct Q as (I & -> & ->). exists idx. split; [|apply in_box; exact I]. f_equal. destruct (locate bs _); reflexivity. }
  split.
  - intros d s k I K. apply Cop in I as (idx & B & Ld & Ls). unfold each_element. destruct (find _ _) as [idx'|] eqn:F.
    + apply find_some in F as (B' & A). apply in_box in B'. unfold at_address in A.
      assert (idx' = idx) as ->.
      { destruct (list_eq_dec Z.eq_dec idx' idx) as [Q|N]; [exact Q|]. specialize (Sep idx' idx B' B N). rewrite <- Ld in Sep. destruct (locate bd (index idx')) as [d'|]; [|discriminate].
        apply andb_true_iff in A as (A1 & A2). apply Z.leb_le in A1. apply Z.ltb_lt in A2. cbn [apart] in Sep. lia. }
      rewrite <- Ld, (Co idx B). cbv beta iota. revert Ls. destruct (locate bs (index (f idx))) as [z|]; [|destruct pad as [bp|]; [|discriminate]]; intros Ls; [injection Ls as <-|rewrite <- Ls]; f_equal; lia.
    + exfalso. pose proof (find_none _ _ F idx (proj2 (in_box _ _) B)) as A. unfold at_address in A. rewrite <- Ld in A.
      apply andb_false_iff in A as [A|A]; [apply Z.leb_gt in A|apply Z.ltb_ge in A]; lia.
  - intros a N. unfold each_element. destruct (find _ _) as [idx'|] eqn:F; [|reflexivity]. apply find_some in F as (B' & A). apply in_box in B'. unfold at_address in A.
    destruct (locate bd (index idx')) as [d'|] eqn:Ld; [|discriminate]. exfalso. apply andb_true_iff in A as (A1 & A2). apply Z.leb_le in A1. apply Z.ltb_lt in A2.
    apply (N d' _ (proj2 (Cop (Some d') _) (ex_intro _ idx' (conj B' (conj (eq_sym Ld) eq_refl))))). lia.
Qed.

(** checks over all the indices of a buffer *)
Definition is_apart (es : Z) (p q : ptr) : bool := match p, q with Some a, Some b => (a + es <=? b) || (b + es <=? a) | _, _ => true end.
Lemma is_apart_ok es p q : is_apart es p q = true -> apart es p q.
Proof. unfold is_apart, apart. destruct p, q; auto. intros Q. apply orb_true_iff in Q as [Q|Q]; apply Z.leb_le in Q; auto. Qed.
Lemma each_index ds (P : list Z -> bool) : forallb P (box ds) = true -> forall idx, in_bounds ds idx -> P idx = true.
Proof. intros F idx B. rewrite forallb_forall in F. apply F, in_box, B. Qed.
Lemma is_separate bd : forallb (fun i => forallb (fun j => (if list_eq_dec Z.eq_dec i j then true else false) || is_apart (elem_size bd) (locate bd (index i)) (locate bd (index j))) (box (dims bd))) (box (dims bd)) = true ->
  separate bd.
Proof.
  intros F i j Bi Bj N. pose proof (each_index _ _ F i Bi) as G. cbv beta in G. pose proof (each_index _ _ G j Bj) as K. cbv beta in K. destruct (list_eq_dec Z.eq_dec i j) as [Q|_]; [contradiction|].
  exact (is_apart_ok _ _ _ K).
Qed.
Definition is_there (p : ptr) : bool := match p with Some _ => true | None => false end.
Lemma is_there_ok p : is_there p = true -> p <> None. Proof. destruct p; discriminate. Qed.

Definition idle (X : Type) : host X :=
  Host X (fun _ _ => 0) (fun _ _ => 0) (fun _ _ _ _ _ _ x => (0, x)) (fun _ b x => (b, 0, x)) (fun _ _ _ x => x) (fun _ _ _ => 64) true (fun _ _ _ => []) (fun _ => true) (fun _ => 99) (fun _ => 0) 1 1 8.
Definition no_call (X : Type) (t : nat) (bi bo : list buf) (vs : list Z) (x : X) : Z * X := (0, x).
Definition no_const (p : Z) : option buf := None.
Definition c68_a : buf := Buf (Some 100) 1 [Dim 0 1 1 unfolded; Dim 0 1 2 unfolded].
Definition c68_b : buf := Buf (Some 200) 1 [Dim 0 1 1 unfolded; Dim 0 2 2 unfolded].
Definition c68_d : buf := Buf (Some 300) 1 [Dim 0 1 1 unfolded; Dim 0 4 2 unfolded].
Definition c68_env (a b d : buf) : venv := fun x =>
  match x with 1%nat => Buffer Own a | 2%nat => Buffer Own b | 3%nat => Buffer Own d | 20%nat => Num 5 | _ => Undef end.
Definition c68_dst : copy_output := COutput 3 [10; 11]%nat.
Definition c68_bounds : list expr := [EConst 0; EConst 2; e_var 20].
Definition c68_r : buf := Buf (Some 400) 1 [Dim 0 1 1 unfolded].
Definition c68_q : buf := Buf (Some 410) 1 [].
Definition c68_s : buf := Buf (Some 500) 1 [Dim 0 1 1 unfolded; Dim (-1) 2 2 unfolded].
Definition memory_after (f : res (list copy_input * copy_output)) (E : venv) (l : list Z) : option (list Z) :=
  match f with
  | Val (ins, out) =>
      match make_call false ins out with
      | Val s => match vexec mem (idle mem) (no_call mem) each_element no_const s E (VState mem (fun a => a) [] []) with Val (0, v) => Some (map (v_ext mem v) l) | _ => None end
      | UB => None
      end
  | UB => None
  end.
Ltac c68_sep := apply is_separate; vm_compute; reflexivity.
Theorem C68_ex :
  does_copies each_element /\
  concat_ready (idle mem) (c68_env c68_a c68_b c68_d) [(1, 2); (2, 2)]%nat c68_dst 2 1 c68_bounds [0; 2; 5] [c68_a; c68_b] c68_d /\
  memory_after (make_concat [(1, 2); (2, 2)]%nat c68_dst 2 1 c68_bounds) (c68_env c68_a c68_b c68_d) [299; 300; 301; 302; 303; 304; 305; 306; 307; 308; 309; 310] =
    Some [299; 100; 101; 102; 103; 200; 201; 202; 203; 204; 205; 310] /\
  stack_ready (c68_env c68_r c68_q c68_s) [(1, 1); (2, 0)]%nat c68_dst 2 (Nat.min (2 - 1) 7) [c68_r; c68_q] c68_s /\
  memory_after (make_stack [(1, 1); (2, 0)]%nat c68_dst 2 7) (c68_env c68_r c68_q c68_s) [500; 501; 502; 503; 504; 505; 506; 507] = Some [500; 501; 400; 401; 410; 410; 506; 507].
Proof.
  split; [exact each_element_copies|]. split; [|split; [vm_compute; reflexivity|split; [|vm_compute; reflexivity]]].
  - constructor.
    + discriminate.
    + reflexivity.
    + split; [lia|]. repeat constructor.
    + split; reflexivity.
    + split; [repeat constructor; cbn; lia|]. cbn. lia.
    + split; [exists Own; split; reflexivity|c68_sep].
    + constructor; [|constructor; [|constructor]]; (split; [exists Own; split; reflexivity|]); (split; [cbn; lia|]); (split; [cbn; lia|]); (split; [cbn; lia|]);
        intros d [<-|[<-|[]]]; cbn; lia.
    + repeat constructor; vm_compute; auto.
    + intros e x Ie (ro & O). cbn in Ie. destruct Ie as [<-|[<-|[<-|[]]]]; cbn in O; try contradiction. destruct O as (<- & _). cbn. lia.
    + intros i idx L B A. unfold concat_at in A.
      assert (G : forallb (fun idx => is_there (locate c68_d (index idx)) && ((negb ((0 <=? nth 1 idx 0) && (nth 1 idx 0 <? 2)) || is_there (concat_source [c68_a; c68_b] [0; 2; 5] 1 0 idx)) &&
        (negb ((2 <=? nth 1 idx 0) && (nth 1 idx 0 <? 5)) || is_there (concat_source [c68_a; c68_b] [0; 2; 5] 1 1 idx)))) (box (dims c68_d)) = true) by (vm_compute; reflexivity).
      pose proof (each_index _ _ G idx B) as K. cbv beta in K. apply andb_true_iff in K as (K1 & K). apply andb_true_iff in K as (K2 & K3).
      split; [apply is_there_ok, K1|]. destruct i as [|[|i]]; [| |cbn in L; lia]; cbn [nth] in A; apply is_there_ok.
      * destruct (Z.leb_spec 0 (nth 1 idx 0)), (Z.ltb_spec (nth 1 idx 0) 2); try lia. exact K2.
      * destruct (Z.leb_spec 2 (nth 1 idx 0)), (Z.ltb_spec (nth 1 idx 0) 5); try lia. exact K3.
    + intros i idx idx' L B B' A.
      assert (G : forallb (fun idx => forallb (fun idx' => is_apart 1 (locate c68_d (index idx)) (concat_source [c68_a; c68_b] [0; 2; 5] 1 0 idx') &&
        is_apart 1 (locate c68_d (index idx)) (concat_source [c68_a; c68_b] [0; 2; 5] 1 1 idx')) (box (dims c68_d))) (box (dims c68_d)) = true) by (vm_compute; reflexivity).
      pose proof (each_index _ _ G idx B) as K. cbv beta in K. pose proof (each_index _ _ K idx' B') as K'. cbv beta in K'. apply andb_true_iff in K' as (K1 & K2).
      apply is_apart_ok. destruct i as [|[|i]]; [exact K1|exact K2|cbn in L; lia].
  - change (Nat.min (2 - 1) 7) with 1%nat. constructor.
    + discriminate.
    + lia.
    + split; reflexivity.
    + split; [repeat constructor; cbn; lia|]. cbn. lia.
    + split; [exists Own; split; reflexivity|c68_sep].
    + constructor; [|constructor; [|constructor]]; (split; [exists Own; reflexivity|]); (split; [cbn; lia|]); (split; [cbn; lia|]); cbn; lia.
    + cbn. lia.
    + intros i idx L B A.
      assert (G : forallb (fun idx => is_there (locate c68_s (index idx)) && (is_there (stack_source [c68_r; c68_q] 1 0 idx) && is_there (stack_source [c68_r; c68_q] 1 1 idx))) (box (dims c68_s)) = true)
        by (vm_compute; reflexivity).
      pose proof (each_index _ _ G idx B) as K. cbv beta in K. apply andb_true_iff in K as (K1 & K). apply andb_true_iff in K as (K2 & K3).
      split; [apply is_there_ok, K1|]. apply is_there_ok. destruct i as [|[|i]]; [exact K2|exact K3|cbn in L; lia].
    + intros i idx idx' L B B' A.
      assert (G : forallb (fun idx => forallb (fun idx' => is_apart 1 (locate c68_s (index idx)) (stack_source [c68_r; c68_q] 1 0 idx') &&
        is_apart 1 (locate c68_s (index idx)) (stack_source [c68_r; c68_q] 1 1 idx')) (box (dims c68_s))) (box (dims c68_s)) = true) by (vm_compute; reflexivity).
      pose proof (each_index _ _ G idx B) as K. cbv beta in K. pose proof (each_index _ _ K idx' B') as K'. cbv beta in K'. apply andb_true_iff in K' as (K1 & K2).
      apply is_apart_ok. destruct i as [|[|i]]; [exact K1|exact K2|cbn in L; lia].
Qed.

(** If the destination does not have the index of a source in the dimension of the stack (a consumer's loop has cropped it), the copy
    is called with a destination that has elements but no memory, which slinky::copy asserts not to happen. *)
Definition c68_crop : buf := Buf (Some 502) 1 [Dim 0 1 1 unfolded; Dim 1 1 2 unfolded].
Definition records (bs bd : buf) (pad : option buf) (coord : list Z -> option (list Z)) (l : list (buf * buf)) : list (buf * buf) := l ++ [(bs, bd)].
Theorem C68_stack_cropped_refuted :
  (forall i idx, in_bounds (dims c68_crop) idx -> nth 1 idx 0 = Z.of_nat i -> locate c68_crop (index idx) <> None /\ i = 1%nat) /\
  exists ins out s v, make_stack [(1, 1); (2, 0)]%nat c68_dst 2 1 = Val (ins, out) /\ make_call false ins out = Val s /\
    vexec (list (buf * buf)) (idle _) (no_call _) records no_const s (c68_env c68_r c68_q c68_crop) (VState _ [] [] []) = Val (0, v) /\
    exists src dst, In (src, dst) (v_ext _ v) /\ base dst = None /\ box (dims dst) = [[0]; [1]].
Proof.
  split.
  - intros i idx B A. assert (G : forallb (fun idx => is_there (locate c68_crop (index idx)) && (nth 1 idx 0 =? 1)) (box (dims c68_crop)) = true) by (vm_compute; reflexivity).
    pose proof (each_index _ _ G idx B) as K. cbv beta in K. apply andb_true_iff in K as (K1 & K2). apply Z.eqb_eq in K2. split; [apply is_there_ok, K1|lia].
  - do 4 eexists. split; [reflexivity|]. split; [reflexivity|]. split; [vm_compute; reflexivity|]. do 2 eexists. split; [left; reflexivity|]. split; reflexivity.
Qed.
(** Bounds that use the metadata of the destination itself: they are evaluated again when it is cropped, so that the first source is not
    copied. (Pipelines replace such metadata by symbols outside of the crops.) *)
Theorem C68_metadata_refuted : let bounds := [EConst 0; EBin Sub (EVar 3 f_max 1) (EConst 2); EConst 5] in let E := c68_env c68_a c68_b c68_d in
  map (veval mem (idle mem) E) bounds = [Val 0; Val 2; Val 5] /\
  memory_after (make_concat [(1, 2); (2, 2)]%nat c68_dst 2 1 bounds) E [300; 301; 302; 303; 304] = Some [300; 301; 302; 303; 200].
Proof. split; vm_compute; reflexivity. Qed.
(** A padded copy with an output crop: the elements outside of the crop are not padded, but left as they are (the comment on
    func::make_copy says "with padding outside the output crop"). The source has 2 of the 4 elements of the crop. *)
Definition c68_line : buf := Buf (Some 600) 1 [Dim 0 5 1 unfolded].
Definition c68_pad : buf := Buf (Some 700) 1 [].
Theorem C68_pad_output_crop_refuted :
  exists s v, make_call true [CInput 1 [p_point (e_var 10)] [] [(EConst 0, EConst 3)] []; CInput 2 [] [] [] []] (COutput 3 [10%nat]) = Val s /\
    vexec mem (idle mem) (no_call mem) each_element no_const s (c68_env c68_r c68_pad c68_line) (VState mem (fun a => a) [] []) = Val (0, v) /\
    map (v_ext mem v) [600; 601; 602; 603; 604; 605] = [400; 401; 700; 700; 604; 605].
Proof. do 2 eexists. split; [reflexivity|]. split; [reflexivity|]. vm_compute. reflexivity. Qed.

(** The premises of C68_padded in this case. *)
Theorem C68_padded_ex : let i := CInput 1 [p_point (e_var 10)] [] [(EConst 0, EConst 3)] [] in let p := Piece [] [(Some 0, Some 3)] [] c68_r (fun r => r) (Some c68_pad) in
  piece_of mem (idle mem) (c68_env c68_r c68_pad c68_line) i (COutput 3 [10%nat]) c68_line p /\ provided c68_line p /\ separate c68_line /\
  covered p [3] /\ ~ covered p [4] /\ source p [1] = Some 401 /\ source p [2] = Some 700.
Proof.
  cbv zeta. split; [|split; [|split; [c68_sep|]]].
  - constructor; cbn [ci_sym ci_bounds ci_input_crop ci_output_crop ci_output_slice p_slice p_out p_in p_src p_coord p_pad co_sym co_dims].
    + exists Own. split; [reflexivity|]. contradiction.
    + cbn. repeat split; lia.
    + repeat constructor.
    + constructor.
    + repeat constructor.
    + constructor.
    + constructor; [|constructor; [|constructor]]; unfold unused, free; cbn; repeat split; intros (ro & F); try contradiction; destruct F as (F & _); discriminate.
    + intros idx B C. destruct idx as [|x [|y idx]]; try (destruct B; fail); [reflexivity|]. destruct B as (_ & []).
  - assert (G : forallb (fun idx => is_there (locate c68_line (index idx)) && (is_there (source (Piece [] [(Some 0, Some 3)] [] c68_r (fun r => r) (Some c68_pad)) idx) &&
      forallb (fun idx' => is_apart 1 (locate c68_line (index idx)) (source (Piece [] [(Some 0, Some 3)] [] c68_r (fun r => r) (Some c68_pad)) idx')) (box (dims c68_line)))) (box (dims c68_line)) = true)
      by (vm_compute; reflexivity).
    constructor.
    + intros [|k] v K; discriminate.
    + intros idx B _. pose proof (each_index _ _ G idx B) as K. cbv beta in K. apply andb_true_iff in K as (K1 & K). apply andb_true_iff in K as (K2 & _).
      split; [apply is_there_ok, K1|apply is_there_ok, K2].
    + intros idx idx' B B' _. pose proof (each_index _ _ G idx B) as K. cbv beta in K. apply andb_true_iff in K as (_ & K). apply andb_true_iff in K as (_ & K).
      apply is_apart_ok. exact (each_index _ _ K idx' B').
  - split; [vm_compute; repeat split; discriminate|]. split; [intros (_ & (_ & C) & _); vm_compute in C; apply C; reflexivity|]. split; reflexivity.
Qed.

Print Assumptions C68_concat.
Print Assumptions C68_stack.
