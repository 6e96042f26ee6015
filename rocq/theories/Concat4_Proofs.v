(** The pieces of concatenations and stacks. *)
From Coq Require Import ZArith List Bool Arith Lia.
From Verif Require Import Arith_Model Arith_Proofs Buf_Model Buf_Spec Buf_Proofs BufSlice_Proofs Buf_Props ForEach_Spec ForEach_Proofs ForEach_Props Copy_Model Copy_Spec CopyBox_Proofs Expr_Model Rewrite_Model Match_Model Match_Proofs Stmt_Model Stmt_Spec Deps_Spec Const_Model
  VSem_Spec VExec_Proofs VFrame_Proofs CopyStmt_Spec Concat_Model Concat_Spec Concat_Proofs Concat2_Proofs Concat3_Proofs.
Import ListNotations.
Open Scope Z_scope.

Lemma Forall2_nth {A B} (P : A -> B -> Prop) : forall l l', length l = length l' ->
  (forall k a b, nth_error l k = Some a -> nth_error l' k = Some b -> P a b) -> Forall2 P l l'.
Proof.
  induction l as [|a l IH]; intros [|b l'] L F; try discriminate; [constructor|]. constructor; [exact (F O a b eq_refl eq_refl)|].
  apply IH; [cbn in L; lia|]. intros k x y Kx Ky. exact (F (S k) x y Kx Ky).
Qed.
Lemma Forall_nth_error {A} (P : A -> Prop) l : (forall k a, nth_error l k = Some a -> P a) -> Forall P l.
Proof. intros F. apply Forall_forall. intros a I. apply In_nth_error in I as (k & K). eauto. Qed.
Lemma reach_all ds c : reach ds [] c = true. Proof. destruct ds; reflexivity. Qed.
Lemma combined_nth bd ps m m' i p idx d s k : combined bd ps m m' -> nth_error ps i = Some p -> in_bounds (dims bd) idx -> covered p idx ->
  (forall j q, (i < j)%nat -> nth_error ps j = Some q -> ~ covered q idx) -> locate bd (index idx) = Some d -> source p idx = Some s -> 0 <= k < elem_size bd ->
  m' (d + k) = m (s + k).
Proof.
  intros (C & _) N B Cv La. destruct (nth_error_split _ _ N) as (l1 & l2 & E & L). apply (C idx d l1 p l2 s k B E Cv).
  intros q I. apply In_nth_error in I as (j & J). apply (La (i + S j)%nat q); [lia|]. rewrite E, nth_error_app2 by lia. replace (i + S j - length l1)%nat with (S j) by lia. exact J.
Qed.
Lemma in_remove_nth {A} (x : A) : forall l d, In x (remove_nth l d) -> In x l.
Proof. induction l as [|y l IH]; intros [|d] I; cbn [remove_nth] in I; try (destruct I; fail); [right; exact I|]. destruct I as [->|I]; [left; reflexivity|right; eauto]. Qed.
Lemma NoDup_remove_nth' {A} : forall (l : list A) d, NoDup l -> NoDup (remove_nth l d).
Proof.
  induction l as [|y l IH]; intros [|d] N; cbn [remove_nth]; try constructor; apply NoDup_cons_iff in N as (N1 & N2); auto. intros I. exact (N1 (in_remove_nth _ _ _ I)).
Qed.
Lemma veval_var X H E x : veval X H E (e_var x) = match E x with Num z => Val z | _ => UB end.
Proof. unfold e_var. cbn [veval]. destruct (E x); reflexivity. Qed.

Lemma nth_error_first {A} (l : list A) : forall n k, (k < n)%nat -> nth_error (firstn n l) k = nth_error l k.
Proof. induction l as [|x l IH]; intros [|n] [|k] L; try lia; cbn; auto. apply IH. lia. Qed.

(** *** stacks *)
Definition stack_piece (srcs : list (nat * nat)) (bs : list buf) (D i : nat) : piece :=
  Piece (nones D ++ [Some (Z.of_nat i)]) [] [] (nth i bs (Buf None 0 [])) (firstn (snd (nth i srcs (O, O)))) None.
Lemma stack_inputs_nth D dims : forall srcs i0 k c, nth_error (stack_inputs srcs dims D i0) k = Some c <->
  exists s r, nth_error srcs k = Some (s, r) /\ c = CInput s (firstn r (remove_nth (map (fun x => p_point (e_var x)) dims) D)) [] [] (repeat EUndef D ++ [EConst (Z.of_nat (i0 + k))]).
Proof.
  induction srcs as [|(s, r) srcs IH]; intros i0 k c; cbn [stack_inputs].
  - split; [destruct k; discriminate|]. intros (? & ? & K & _). destruct k; discriminate.
  - destruct k as [|k]; cbn [nth_error].
    + rewrite Nat.add_0_r. split; [intros Q; injection Q as <-; eauto|intros (? & ? & Q & ->); injection Q as -> ->; reflexivity].
    + rewrite IH, <- plus_n_Sm. reflexivity.
Qed.
Lemma stack_inputs_length D dims : forall srcs i0, length (stack_inputs srcs dims D i0) = length srcs.
Proof. induction srcs as [|(s, r) srcs IH]; intros i0; cbn; auto. Qed.

Section Stack.
  Variable H : host mem.
  Variable E : venv.
  Variables (srcs : list (nat * nat)) (dst : copy_output) (rank_ D : nat) (bs : list buf) (bd : buf).
  Hypothesis HD : (D < rank_)%nat.
  Hypothesis Hrank : length (co_dims dst) = rank_ /\ rank bd = rank_.
  Hypothesis Hdims : NoDup (co_dims dst) /\ ~ In (co_sym dst) (co_dims dst).
  Hypothesis Hsrc : Forall2 (fun s b => (exists k, E (fst s) = Buffer k b) /\ (rank b <= snd s)%nat /\ fst s <> co_sym dst /\ ~ In (fst s) (co_dims dst)) srcs bs.
  Hypothesis Hin : d_min (dim_at bd D) <= 0 /\ Z.of_nat (length srcs) - 1 <= d_max (dim_at bd D).
  Hypothesis Hthere : forall i idx, (i < length srcs)%nat -> in_bounds (dims bd) idx -> nth D idx 0 = Z.of_nat i -> locate bd (index idx) <> None /\ stack_source bs D i idx <> None.
  Hypothesis Hapart : forall i idx idx', (i < length srcs)%nat -> in_bounds (dims bd) idx -> in_bounds (dims bd) idx' -> nth D idx' 0 = Z.of_nat i ->
    apart (elem_size bd) (locate bd (index idx)) (stack_source bs D i idx').
  Let out := COutput (co_sym dst) (remove_nth (co_dims dst) D).
  Let ps := map (stack_piece srcs bs D) (seq 0 (length srcs)).
  Lemma src_nth k s r : nth_error srcs k = Some (s, r) -> (exists kd, E s = Buffer kd (nth k bs (Buf None 0 []))) /\ (rank (nth k bs (Buf None 0 [])) <= r)%nat /\ s <> co_sym dst /\ ~ In s (co_dims dst) /\ nth k srcs (O, O) = (s, r).
  Proof.
    clear - Hsrc. revert k. induction Hsrc as [|(s', r') b ss bs' (P1 & P2 & P3 & P4) F IH]; intros k K; [destruct k; discriminate|].
    destruct k as [|k]; cbn [nth_error] in K; [injection K as -> ->; cbn [fst snd nth] in *; auto|]. cbn [nth]. exact (IH F k K).
  Qed.
  Lemma ps_nth k p : nth_error ps k = Some p <-> (k < length srcs)%nat /\ p = stack_piece srcs bs D k.
  Proof.
    unfold ps. split.
    - intros K. assert (L : (k < length srcs)%nat) by (rewrite <- (seq_length (length srcs) 0), <- (map_length (stack_piece srcs bs D)); apply nth_error_Some; congruence). split; [exact L|].
      rewrite (map_nth_error _ _ _ (nth_error_nth' (seq 0 (length srcs)) O ltac:(rewrite seq_length; exact L))) in K. injection K as <-. rewrite seq_nth by exact L. reflexivity.
    - intros (L & ->). rewrite (map_nth_error _ _ _ (nth_error_nth' (seq 0 (length srcs)) O ltac:(rewrite seq_length; exact L))). rewrite seq_nth by exact L. reflexivity.
  Qed.
  Lemma stack_len idx : in_bounds (dims bd) idx -> length idx = rank_.
  Proof. intros B. rewrite (in_bounds_length _ _ B). exact (proj2 Hrank). Qed.
  Lemma stack_covered k idx : in_bounds (dims bd) idx -> covered (stack_piece srcs bs D k) idx <-> nth D idx 0 = Z.of_nat k.
  Proof. intros B. unfold covered, stack_piece. cbn [p_slice p_out]. rewrite agrees_one by (rewrite (stack_len idx B); exact HD). destruct (unsliced _ idx); cbn [within]; tauto. Qed.
  Lemma stack_from k idx : (k < length srcs)%nat -> source (stack_piece srcs bs D k) idx = stack_source bs D k idx.
  Proof.
    intros L. unfold source, stack_piece, stack_source. cbn [p_slice p_in p_src p_coord p_pad]. rewrite reach_all, unsliced_one.
    destruct (nth_error srcs k) as [(s, r)|] eqn:K; [|apply nth_error_None in K; lia]. destruct (src_nth k s r K) as (_ & R & _ & _ & ->). cbn [snd].
    replace (locate (nth k bs (Buf None 0 [])) (index (firstn r (remove_nth idx D)))) with (locate (nth k bs (Buf None 0 [])) (index (remove_nth idx D))).
    - destruct (locate _ _); reflexivity.
    - apply locate_ext. intros j J. unfold index. symmetry. apply nth_firstn_lt. lia.
  Qed.
  Lemma stack_pieces : Forall2 (fun i p => piece_of mem H E i out bd p /\ p_pad p = None) (stack_inputs srcs (co_dims dst) D 0) ps.
  Proof.
    apply Forall2_nth; [unfold ps; rewrite stack_inputs_length, map_length, seq_length; reflexivity|].
    intros k c p Kc Kp. apply stack_inputs_nth in Kc as (s & r & K & ->). apply ps_nth in Kp as (L & ->). destruct (src_nth k s r K) as ((kd & Es) & R & N1 & N2 & Ns).
    split; [|reflexivity]. constructor; cbn [ci_sym ci_bounds ci_input_crop ci_output_crop ci_output_slice stack_piece p_slice p_out p_in p_src p_coord co_sym co_dims out Nat.add].
    - exists kd. split; [exact Es|]. intros []. reflexivity.
    - split; [exact N1|]. split; [intros I; exact (N2 (in_remove_nth _ _ _ I))|]. intros I. exact (proj2 Hdims (in_remove_nth _ _ _ I)).
    - apply Forall_nth_error. intros j x J. assert (I : In x (remove_nth (map (fun x => p_point (e_var x)) (co_dims dst)) D)).
      { apply nth_error_In in J. rewrite <- (firstn_skipn r). apply in_or_app. left. exact J. }
      apply in_remove_nth, in_map_iff in I as (z & <- & _). apply same_refl.
    - unfold nones. clear. induction D as [|n IH]; cbn [repeat app]; [constructor; [split; reflexivity|constructor]|]. constructor; [reflexivity|exact IH].
    - constructor.
    - constructor.
    - cbn [app]. apply Forall_nth_error. intros j x J. assert (I : In x (remove_nth (map (fun x => p_point (e_var x)) (co_dims dst)) D)).
      { apply nth_error_In in J. rewrite <- (firstn_skipn r). apply in_or_app. left. exact J. }
      apply in_remove_nth, in_map_iff in I as (z & <- & I). unfold unused, p_point, e_var. cbn [fst snd]. unfold free. cbn [occurs].
      repeat split; intros (ro & Q & _); subst z; [exact (N2 I)|exact (N2 I)|exact (proj2 Hdims I)|exact (proj2 Hdims I)].
    - intros idx B C. rewrite unsliced_one. set (rest := remove_nth idx D). rewrite Ns. cbn [snd].
      assert (Lr : length rest = length (remove_nth (co_dims dst) D)).
      { unfold rest. destruct Hrank as (R1 & R2). rewrite !remove_nth_length by (rewrite ?(stack_len idx B), ?R1; exact HD). rewrite (stack_len idx B), R1. reflexivity. }
      apply vlist_nth.
      + rewrite map_length, !firstn_length, Lr. f_equal. destruct Hrank as (R1 & _). rewrite !remove_nth_length by (rewrite ?map_length, R1; exact HD). rewrite map_length. reflexivity.
      + intros j e J. destruct (Nat.lt_ge_cases j r) as [Lj|Lj].
        2:{ exfalso. assert (Q : nth_error (map fst (firstn r (remove_nth (map (fun x => p_point (e_var x)) (co_dims dst)) D))) j = None) by (apply nth_error_None; rewrite map_length, firstn_length; lia). congruence. }
        rewrite nth_error_map in J.
        assert (Q : nth_error (firstn r (remove_nth (map (fun x => p_point (e_var x)) (co_dims dst)) D)) j = option_map (fun x => p_point (e_var x)) (nth_error (remove_nth (co_dims dst) D) j)).
        { rewrite nth_error_first by exact Lj. rewrite !nth_error_remove_nth, nth_error_map. reflexivity. }
        unfold interval in *. rewrite Q in J. destruct (nth_error (remove_nth (co_dims dst) D) j) as [x|] eqn:Kx; [|discriminate]. injection J as <-. cbn [p_point fst].
        rewrite veval_var, (at_nth _ rest E j x (NoDup_remove_nth' _ _ (proj1 Hdims)) Lr Kx). f_equal. symmetry. apply nth_firstn_lt. exact Lj.
  Qed.
  Lemma stack_provided : Forall (provided bd) ps.
  Proof.
    apply Forall_nth_error. intros k p K. apply ps_nth in K as (L & ->). constructor.
    - cbn [stack_piece p_slice]. intros j v J Lj. assert (Q : j = D /\ v = Z.of_nat k).
      { revert J. unfold nones. clear. revert j. induction D as [|n IH]; intros [|j] J; cbn in J.
        - injection J as <-. auto.
        - destruct j; discriminate.
        - discriminate.
        - destruct (IH j J) as (-> & ->). auto. }
      destruct Q as (-> & ->). destruct Hin. lia.
    - intros idx B C. apply stack_covered in C; [|exact B]. rewrite stack_from by exact L. exact (Hthere k idx L B C).
    - intros idx idx' B B' C. apply stack_covered in C; [|exact B']. rewrite stack_from by exact L. exact (Hapart k idx idx' L B B' C).
  Qed.
  Lemma stack_result m m' : combined bd ps m m' ->
    (forall i idx d s k, (i < length srcs)%nat -> in_bounds (dims bd) idx -> nth D idx 0 = Z.of_nat i -> locate bd (index idx) = Some d -> stack_source bs D i idx = Some s ->
       0 <= k < elem_size bd -> m' (d + k) = m (s + k)) /\
    (forall a, (forall idx d, in_bounds (dims bd) idx -> 0 <= nth D idx 0 < Z.of_nat (length srcs) -> locate bd (index idx) = Some d -> ~ (d <= a < d + elem_size bd)) -> m' a = m a).
  Proof.
    intros C. split.
    - intros i idx d s k L B Ni Ld Ls K. refine (combined_nth bd ps m m' i _ idx d s k C (proj2 (ps_nth i _) (conj L eq_refl)) B _ _ Ld _ K).
      + apply stack_covered; auto.
      + intros j q J Q. apply ps_nth in Q as (_ & ->). rewrite stack_covered by exact B. lia.
      + rewrite stack_from by exact L. exact Ls.
    - intros a F. apply (proj2 C). intros idx p d B I Cv Ld. apply In_nth_error in I as (j & J). apply ps_nth in J as (L & ->). apply stack_covered in Cv; [|exact B].
      apply (F idx d B); [lia|exact Ld].
  Qed.
End Stack.
