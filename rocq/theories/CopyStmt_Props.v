(** C52: a copy is implemented by calls to copy that copy the same elements. *)
From Coq Require Import ZArith List Bool Lia Permutation.
From Verif Require Import Arith_Model Arith_Spec Arith_Proofs Buf_Model Buf_Spec Buf_Proofs ForEach_Spec ForEach_Proofs ForEach_Props Copy_Model Copy_Spec Expr_Model Expr_Spec Expr_Proofs
  Stmt_Model Stmt_Spec Stmt_Proofs Const_Model Const_Proofs Const_Props Simplify_Proofs RewriteMatch_Proofs Deps_Model Deps_Spec Subst_Spec Match_Model CopyStmt_Model CopyStmt_Spec CopyStmt_Proofs CopyBox_Proofs CopyPass_Proofs CopyExec_Proofs CopyMem_Proofs.
Import ListNotations.
Open Scope Z_scope.

Section Implement.
  Variable H : host copy_calls.
  Variable simplify : expr -> res expr.
  Variables (st st' : state copy_calls).
  Variables (target sliced src dst : nat) (src_x : list expr) (dst_x : list nat) (pad : option nat) (bs bd : buf) (coord : list Z -> list Z) (body : stmt).
  Let W := world_of copy_calls H st.
  (** the state of an evaluation *)
  Hypothesis Iv : Stmt_Spec.inv st.
  Hypothesis HC : ctx_ok (s_ctx copy_calls st).
  Hypothesis HW : world_ok W.
  Hypothesis Sf : simplifies W simplify.
  (** the copy *)
  Hypothesis Ok : copyable W (of_context (s_ctx copy_calls st)) src src_x dst dst_x bs bd coord.
  Hypothesis Null : forall idx, locate bs idx <> Some 0.
  (** the new name is not used *)
  Hypothesis Fresh : sliced <> src /\ sliced <> dst /\ ~ In sliced dst_x /\ pad <> Some sliced /\ forall i e, nth_error src_x i = Some e -> ~ free sliced e.
  Hypothesis Call : records_copies H target src sliced pad.
  Hypothesis Implement : implement_copy simplify target sliced src src_x dst dst_x pad = Val body.
  Hypothesis Run : exec copy_calls H body st = Val (0, st').

  Lemma implemented pd : match pad with Some p => ~ In p dst_x /\ p <> sliced /\ p <> src /\ pd <> None /\ w_buf W (s_ctx copy_calls st p) = pd | None => pd = None end ->
    exists calls, s_ext copy_calls st' = s_ext copy_calls st ++ calls /\ Forall (fun p => snd p = pd) calls /\
      Permutation (flat_map (fun p => elementwise (snd (fst p)) (fst (fst p))) calls) (copied bd bs coord).
  Proof.
    intros Pad. destruct Fresh as (F1 & F2 & F3 & F4 & F5).
    destruct (bind_inv _ _ _ Implement) as (((a, o), s) & Pass & _).
    exact (implement_ok H W HW eq_refl eq_refl simplify Sf target sliced src dst src_x dst_x pad bs bd coord (s_ctx copy_calls st) pd HC Ok Null Pad
      (conj F1 (conj F2 (conj F3 F5))) Call a o s Pass body st st' Implement Iv eq_refl (fun p b E => E) Run).
  Qed.

  (** The calls that the implementation of the copy makes assign, together, exactly what the copy does: each element of the destination from the
      element of the source at its coordinates. *)
  Theorem C52_implement_copy : pad = None -> exists calls,
    s_ext copy_calls st' = s_ext copy_calls st ++ calls /\ Permutation (flat_map assigns calls) (copied bd bs coord).
  Proof.
    intros Hp. destruct (implemented None) as (calls & E & F & P); [rewrite Hp; reflexivity|]. exists calls. split; [exact E|].
    replace (flat_map assigns calls) with (flat_map (fun p => elementwise (snd (fst p)) (fst (fst p))) calls); [exact P|].
    clear -F. induction F as [|((b, B), p) l E F IH]; [reflexivity|]. cbn [flat_map]. rewrite IH. cbn in E. subst p. reflexivity.
  Qed.

  (** With padding that has one element: the elements whose coordinates are not in the source are the padding. *)
  Theorem C52_implement_copy_padded : forall p bp q, pad = Some p -> ~ In p dst_x -> p <> src -> s_buf copy_calls st (s_ctx copy_calls st p) = Some bp ->
    (forall idx, locate bp idx = q) -> exists calls,
    s_ext copy_calls st' = s_ext copy_calls st ++ calls /\ Permutation (flat_map assigns calls) (copied_or bd bs bp coord).
  Proof.
    intros p bp q Hp N1 N2 Bp U. destruct Fresh as (F1 & F2 & F3 & F4 & F5).
    destruct (implemented (Some bp)) as (calls & E & F & P).
    { rewrite Hp. split; [exact N1|]. split; [congruence|]. split; [exact N2|]. split; [discriminate|exact Bp]. }
    exists calls. split; [exact E|]. set (g := fun x : ptr * ptr => (fst x, match snd x with Some s => Some s | None => q end)).
    assert (Eq : flat_map assigns calls = map g (flat_map (fun p => elementwise (snd (fst p)) (fst (fst p))) calls)).
    { clear -F U. induction F as [|((b, B), p) l E F IH]; [reflexivity|]. cbn [flat_map]. rewrite map_app, <- IH. cbn in E. subst p. f_equal.
      cbn [assigns fst snd]. unfold elementwise_or, elementwise. rewrite map_map. apply map_ext. intros idx. unfold g. cbn [fst snd]. rewrite U. reflexivity. }
    rewrite Eq, P. unfold copied_or, copied. rewrite map_map.
    match goal with |- Permutation ?u ?w => assert (Q : u = w); [|rewrite Q; apply Permutation_refl] end.
    apply map_ext. intros idx. unfold g. cbn [fst snd]. rewrite U. reflexivity.
  Qed.

  (** If each call does its assignments, one call after the other, the memory is that after the copy, where the elements of the destination do not
      overlap each other or what is read. *)
  Theorem C52_memory : forall m m' calls, pad = None -> s_ext copy_calls st' = s_ext copy_calls st ++ calls -> carried_out (elem_size bd) calls m m' ->
    separate bd -> (forall i j, in_bounds (dims bd) i -> in_bounds (dims bd) j -> apart (elem_size bd) (locate bd (index i)) (locate bs (index (coord j)))) ->
    assigned (elem_size bd) (copied bd bs coord) m m'.
  Proof.
    intros m m' calls Hp E C Sp No. destruct (C52_implement_copy Hp) as (calls' & E' & P). rewrite E in E'. apply app_inv_head in E'. subst calls'.
    eapply assigned_perm; [exact P|]. apply carried_assigned; [exact C| |].
    - eapply dests_apart_perm; [apply Permutation_sym; exact P|]. unfold copied. apply box_dests_apart; [apply box_NoDup|].
      intros i j Ii Ij. apply in_box in Ii, Ij. apply Sp; assumption.
    - eapply sources_apart_perm; [apply Permutation_sym; exact P|]. intros x y Ix Iy. unfold copied in Ix, Iy.
      apply in_map_iff in Ix as (i & <- & Ii). apply in_map_iff in Iy as (j & <- & Ij). apply in_box in Ii, Ij. cbn [fst snd]. auto.
  Qed.
  Theorem C52_memory_padded : forall p bp q m m' calls, pad = Some p -> ~ In p dst_x -> p <> src -> s_buf copy_calls st (s_ctx copy_calls st p) = Some bp ->
    (forall idx, locate bp idx = q) -> s_ext copy_calls st' = s_ext copy_calls st ++ calls -> carried_out (elem_size bd) calls m m' ->
    separate bd -> (forall i j, in_bounds (dims bd) i -> in_bounds (dims bd) j ->
      apart (elem_size bd) (locate bd (index i)) (locate bs (index (coord j))) /\ apart (elem_size bd) (locate bd (index i)) q) ->
    assigned (elem_size bd) (copied_or bd bs bp coord) m m'.
  Proof.
    intros p bp q m m' calls Hp N1 N2 Bp U E C Sp No. destruct (C52_implement_copy_padded p bp q Hp N1 N2 Bp U) as (calls' & E' & P). rewrite E in E'. apply app_inv_head in E'. subst calls'.
    eapply assigned_perm; [exact P|]. apply carried_assigned; [exact C| |].
    - eapply dests_apart_perm; [apply Permutation_sym; exact P|]. unfold copied_or.
      apply (box_dests_apart _ (fun idx => locate bd (index idx)) (fun idx => match locate bs (index (coord idx)) with Some s => Some s | None => locate bp (index idx) end)); [apply box_NoDup|].
      intros i j Ii Ij. apply in_box in Ii, Ij. apply Sp; assumption.
    - eapply sources_apart_perm; [apply Permutation_sym; exact P|]. intros x y Ix Iy. unfold copied_or in Ix, Iy.
      apply in_map_iff in Ix as (i & <- & Ii). apply in_map_iff in Iy as (j & <- & Ij). apply in_box in Ii, Ij. cbn [fst snd]. rewrite U.
      destruct (No i j Ii Ij) as (A1 & A2). destruct (locate bs (index (coord j))); assumption.
  Qed.
End Implement.

(** is_linear: [y] is [a] times the symbol plus [b], and neither [a] nor [b] uses the symbol. *)
Theorem C52_is_linear : forall W x y a b, (forall ro, occurs x ro y -> ro = RField f_none) -> is_linear y x = Some (a, b) ->
  ~ free x a /\ ~ free x b /\
  forall r v z, r x = Fin v -> meaning W r y = Fin z -> exists va vb, meaning W r a = Fin va /\ meaning W r b = Fin vb /\ z = va * v + vb.
Proof.
  intros W x y a b Ix E. destruct (linear_ok W x y a b Ix E) as (A & B & L). split; [intros (ro & O); exact (proj2 (A x ro O) eq_refl)|].
  split; [intros (ro & O); exact (proj2 (B x ro O) eq_refl)|exact L].
Qed.

(** ** Examples *)
(** a simplifier that changes nothing, for expressions without lets, calls, selects and logical operators *)
Fixpoint c52_plain (e : expr) : bool :=
  match e with
  | EVar _ _ _ => true
  | EConst k => (-1000 <=? k) && (k <=? 1000)
  | EBin o a b => match o with And | Or => false | _ => c52_plain a && c52_plain b end
  | _ => false
  end.
Definition c52_simplify (e : expr) : res expr := if c52_plain e then Val e else UB.
Lemma c52_plain_ok e : c52_plain e = true -> lets_distinct e /\ consts_ok e /\ logical_ok e = true.
Proof.
  induction e as [|s f d|l b IHl IHb|o a b IHa IHb|a IHa|q t f IHq IHt IHf|fn t args IHargs|c0] using expr_ind'; cbn [c52_plain lets_distinct consts_ok logical_ok]; intros P; try discriminate.
  - auto.
  - assert (P' : c52_plain a = true /\ c52_plain b = true) by (destruct o; try discriminate; apply andb_true_iff; exact P). destruct P' as (Pa & Pb).
    destruct (IHa Pa) as (A1 & A2 & A3), (IHb Pb) as (B1 & B2 & B3). rewrite A3, B3. split; [auto|]. split; [auto|]. destruct o; try discriminate; reflexivity.
  - apply andb_true_iff in P as (P1 & P2). apply Z.leb_le in P1, P2. assert (in64 c0) by (apply in64_small; lia). auto.
Qed.
Lemma c52_simplifies W : simplifies W c52_simplify.
Proof.
  split; unfold c52_simplify; intros e e'; intros; destruct (c52_plain e) eqn:P; try discriminate; match goal with E : Val _ = Val _ |- _ => injection E as <- end; auto.
  - apply c52_plain_ok in P. tauto.
  - apply c52_plain_ok in P as (_ & C & L). apply consts_ok_all in C. unfold evaluate_constant_lower_bound in *.
    match goal with E : (_ <- _ ;; _) = _ |- _ => apply bind_inv in E as (q & Hq & E); injection E as E; apply constant_inv in E; subst q end.
    match goal with Hq : _ = Val (EConst k), M : meaning W r e = Fin z |- _ => destruct (cev_ok W r true e C L (-1) _ Hq) as (_ & B); destruct (B k eq_refl) as (_ & V);
      rewrite M in V; apply bound_inv in V; [exact V|discriminate] end.
Qed.

(** a world of small buffers *)
Definition small_dim (d : dim) : Prop :=
  -1000 <= d_min d <= 1000 /\ -1000 <= d_max d <= 1000 /\ 0 <= d_stride d <= 1000 /\ d_fold d = unfolded.
Lemma small_at ds : Forall small_dim ds -> forall p args q, buffer_at_loop (Some p) ds args = Some q -> p <= q <= p + Z.of_nat (length ds) * 2000000.
Proof.
  induction 1 as [|d ds (A & B & C & D) F IH]; intros p args q E.
  - assert (q = p) by (destruct args as [|[|] ?]; cbn in E; congruence). subst. cbn [length]. lia.
  - cbn [length]. destruct args as [|[x|] args]; cbn [buffer_at_loop] in E.
    + injection E as <-. lia.
    + destruct (d_contains d x) eqn:Cn; [|rewrite buffer_at_loop_none in E; discriminate]. apply IH in E.
      assert (O : 0 <= d_offset d x <= 2000000).
      { unfold d_offset. rewrite D, Z.eqb_refl, orb_true_r. unfold d_contains, d_contains2 in Cn. destruct (Z.eqb_spec (d_stride d) 0) as [->|Ns]; [lia|]. cbn [orb] in Cn.
        apply andb_true_iff in Cn as (C1 & C2). apply Z.leb_le in C1, C2. nia. }
      lia.
    + apply IH in E. lia.
Qed.
Definition small_buf (b : buf) : Prop :=
  Forall small_dim (dims b) /\ (length (dims b) <= 4)%nat /\ 0 <= elem_size b <= 1000 /\ 0 <= Alloc_Model.size_bytes b <= 1000000 /\ match base b with Some p => 0 <= p <= 1000000 | None => True end.
Lemma small_world W : (forall p b, w_buf W p = Some b -> small_buf b) -> (forall n l, in64 (w_user W n l)) -> (forall n l, in64 (w_intrinsic W n l)) -> world_ok W.
Proof.
  intros S U I. assert (K : forall z, -10000000 <= z <= 10000000 -> in64 z) by (intros z Hz; unfold in64; change (imin 64) with (-9223372036854775808); change (imax 64) with 9223372036854775807; lia).
  split; auto.
  - intros p b f d Hp E. destruct (S p b E) as (F & L & Es & Sz & _).
    assert (D : small_dim (dim_int b d) \/ dim_int b d = broadcast).
    { unfold dim_int. destruct (d <? 0); [auto|]. unfold dim_at. destruct (Nat.lt_ge_cases (Z.to_nat d) (length (dims b))) as [Q|Q]; [left|right; apply nth_overflow; exact Q].
      rewrite Forall_forall in F. apply F, nth_In, Q. }
    assert (D' : -1000 <= d_min (dim_int b d) <= 1000 /\ -1000 <= d_max (dim_int b d) <= 1000 /\ 0 <= d_stride (dim_int b d) <= 1000 /\ -1 <= d_fold (dim_int b d) <= 1000).
    { destruct D as [(A & B & C & G)| ->]; [rewrite G; unfold unfolded; lia|cbn; lia]. }
    destruct D' as (A & B & C & G). destruct f; cbn [field_value]; [exact Hp|..]; apply K; unfold rank; lia.
  - intros p b l E. destruct (S p b E) as (F & L & _ & _ & Bp). unfold buffer_at. destruct (base b) as [q|]; [|rewrite buffer_at_loop_none; apply K; cbn; lia].
    destruct (buffer_at_loop (Some q) (dims b) l) as [z|] eqn:Ez; cbn [ptr_value]; [|apply K; lia]. apply (small_at _ F) in Ez. apply K. lia.
Qed.

(** src is 0, dst 1, padding 3; the symbols of the dimensions of dst are 10 and 11 *)
Definition c52_src : buf := Buf (Some 4096) 1 [Dim 0 3 1 unfolded; Dim 0 9 4 unfolded].
Definition c52_dst : buf := Buf (Some 8192) 1 [Dim 0 7 1 unfolded; Dim 0 3 8 unfolded].
Definition c52_pad : buf := Buf (Some 64) 1 [].
Definition c52_host : host copy_calls :=
  Host copy_calls (fun _ _ => 0) (fun _ _ => 0)
    (fun t _ _ _ c m x => match m (c 0%nat), m (c 2%nat) with
                    | Some b1, Some b2 => (0, x ++ [(b1, b2, match t with O => None | _ => m (c 3%nat) end)])
                    | _, _ => (1, x)
                    end)
    (fun s b x => (b, 0, x)) (fun s b p x => x) (fun b n x => 64) true (fun n k x => []) (fun _ => true) (fun _ => 99) (fun _ => 0) 1 1 8.
Definition c52_state_of (src dst pad : buf) : state copy_calls :=
  State copy_calls (fun s => match s with 0%nat => 1 | 1%nat => 2 | 3%nat => 3 | _ => 7 end)
    (fun a => if a =? 1 then Some src else if a =? 2 then Some dst else if a =? 3 then Some pad else None) 8 [] [] [].
Definition c52_state := c52_state_of c52_src c52_dst c52_pad.
Definition x_ (n : nat) : expr := EVar n f_none (-1).
(** the calls made *)
Definition c52_run (src dst padding : buf) (src_x : list expr) (dst_x : list nat) (pad : option nat) : option (Z * copy_calls) :=
  match implement_copy c52_simplify (match pad with Some _ => 1 | None => 0 end) 2 0 src_x 1 dst_x pad with
  | UB => None
  | Val body => match exec copy_calls c52_host body (c52_state_of src dst padding) with Val (z, st) => Some (z, s_ext copy_calls st) | UB => None end
  end.
(** dst(x, y) = src(y, x + 2) and dst(x, y) = src(y, x / 2) *)
Definition c52_shift := [x_ 11; EBin Add (x_ 10) (EConst 2)].
Definition c52_up := [x_ 11; EBin Div (x_ 10) (EConst 2)].
Lemma c52_inv : Stmt_Spec.inv c52_state.
Proof.
  split; [|constructor]. cbn [s_next s_buf c52_state c52_state_of]. intros a L. destruct (Z.eqb_spec a 1); [lia|]. destruct (Z.eqb_spec a 2); [lia|]. destruct (Z.eqb_spec a 3); [lia|reflexivity].
Qed.
Lemma c52_ctx : ctx_ok (s_ctx copy_calls c52_state).
Proof. intros y. cbn [s_ctx c52_state c52_state_of]. do 4 (destruct y as [|y]; [apply in64_small; lia|]). apply in64_small; lia. Qed.
Lemma c52_world : world_ok (world_of copy_calls c52_host c52_state).
Proof.
  apply small_world; [|intros; apply in64_small; cbn; lia|intros; apply in64_small; cbn; lia].
  intros p b E. cbn [world_of w_buf s_buf c52_state c52_state_of] in E. unfold small_buf.
  destruct (p =? 1); [|destruct (p =? 2); [|destruct (p =? 3); [|discriminate]]]; injection E as <-; cbn [dims base elem_size c52_src c52_dst c52_pad length];
    (split; [repeat (constructor; [unfold small_dim; cbn; lia|]); constructor|]); (split; [lia|]); (split; [lia|]); (split; [vm_compute; split; discriminate|lia]).
Qed.
Lemma c52_null idx : locate c52_src idx <> Some 0.
Proof.
  unfold locate. cbn [base c52_src dims place_all]. unfold place. cbn [d_stride d_min d_max d_fold]. change (1 =? 0) with false. change (4 =? 0) with false. cbn iota.
  destruct (Z.leb_spec 0 (idx 0%nat)), (Z.leb_spec (idx 0%nat) 3); cbn [andb oadd]; try discriminate.
  destruct (Z.leb_spec 0 (idx 1%nat)), (Z.leb_spec (idx 1%nat) 9); cbn [andb oadd]; try discriminate. change (unfolded =? unfolded) with true. cbn iota. intros E. assert (G : forall z, Some z = Some 0 -> z = 0) by congruence. apply G in E. lia.
Qed.
Lemma c52_copyable e f : (forall y ro, occurs y ro e -> y = 10%nat /\ ro = RField f_none) -> lets_distinct e -> consts_ok e -> ~ takes_address e -> plain_selects [10;11]%nat e ->
  (forall r v, r 10%nat = Fin v -> meaning (world_of copy_calls c52_host c52_state) r e = Fin (f v)) ->
  copyable (world_of copy_calls c52_host c52_state) (of_context (s_ctx copy_calls c52_state)) 0 [x_ 11; e] 1 [10;11]%nat c52_src c52_dst (fun idx => [nth 1 idx 0; f (nth 0 idx 0)]).
Proof.
  intros Oc Ld Co Ta Ps Me. split.
  - exists 1. split; reflexivity.
  - exists 2. split; reflexivity.
  - split; [repeat constructor; cbn; lia|]. cbn. lia.
  - split; [reflexivity|]. cbn. lia.
  - intros [|[|i]] e' E; try (destruct i; discriminate); injection E as <-; [|auto]. cbn. auto.
  - intros [|[|i]] e' E; try (destruct i; discriminate); injection E as <-.
    + split; [exact I|]. exists 11%nat. intros y ro _ (-> & ->). auto.
    + split; [exact Ps|]. exists 10%nat. intros y ro _ O. exact (Oc y ro O).
  - intros i e' idx E L. destruct idx as [|v0 [|v1 [|? ?]]]; try discriminate. destruct i as [|[|i]]; try (destruct i; discriminate); injection E as <-.
    + reflexivity.
    + cbn [nth at_index]. apply Me. reflexivity.
  - intros [|[|i]] e' x E _ _; try (destruct i; discriminate); right; reflexivity.
  - intros [|[|i]] e' idx E (ro & O); try (destruct i; discriminate); injection E as <-.
    + destruct O as (O & _). discriminate.
    + destruct (Oc _ _ O). discriminate.
Qed.
Lemma c52_records pad : pad = None \/ pad = Some 3%nat -> records_copies c52_host (match pad with Some _ => 1 | None => 0 end) 0 2 pad.
Proof. intros P c m x b1 b2 E1 E2. cbn [h_call c52_host]. rewrite E1, E2. destruct P as [-> | ->]; reflexivity. Qed.

(** The hypotheses of the theorems hold: the copy of a shifted transpose is one call, that of an enlarged one a call for each x. *)
Definition c52_meets (e : expr) (f : Z -> Z) (pad : option nat) (n : nat) : Prop :=
  Stmt_Spec.inv c52_state /\ ctx_ok (s_ctx copy_calls c52_state) /\ world_ok (world_of copy_calls c52_host c52_state) /\
  simplifies (world_of copy_calls c52_host c52_state) c52_simplify /\
  copyable (world_of copy_calls c52_host c52_state) (of_context (s_ctx copy_calls c52_state)) 0 [x_ 11; e] 1 [10;11]%nat c52_src c52_dst (fun idx => [nth 1 idx 0; f (nth 0 idx 0)]) /\
  (forall idx, locate c52_src idx <> Some 0) /\
  (2 <> 0 /\ 2 <> 1 /\ ~ In 2 [10; 11] /\ pad <> Some 2 /\ forall i e', nth_error [x_ 11; e] i = Some e' -> ~ free 2 e')%nat /\
  records_copies c52_host (match pad with Some _ => 1 | None => 0 end) 0 2 pad /\
  exists calls, c52_run c52_src c52_dst c52_pad [x_ 11; e] [10;11]%nat pad = Some (0, calls) /\ length calls = n.
Example C52_ex : c52_meets (EBin Add (x_ 10) (EConst 2)) (fun v => v + 2) None 1 /\ c52_meets (EBin Div (x_ 10) (EConst 2)) (fun v => v / 2) None 8 /\
  c52_meets (EBin Add (x_ 10) (EConst 7)) (fun v => v + 7) (Some 3%nat) 1 /\ forall idx, locate c52_pad idx = Some 64.
Proof.
  assert (K : forall e f pad n, pad = None \/ pad = Some 3%nat ->
    (forall y ro, occurs y ro e -> y = 10%nat /\ ro = RField f_none) -> lets_distinct e -> consts_ok e -> ~ takes_address e -> plain_selects [10;11]%nat e ->
    (forall r v, r 10%nat = Fin v -> meaning (world_of copy_calls c52_host c52_state) r e = Fin (f v)) ->
    (exists calls, c52_run c52_src c52_dst c52_pad [x_ 11; e] [10;11]%nat pad = Some (0, calls) /\ length calls = n) -> c52_meets e f pad n).
  { intros e f pad n P Oc Ld Co Ta Ps Me R. split; [exact c52_inv|]. split; [exact c52_ctx|]. split; [exact c52_world|]. split; [apply c52_simplifies|].
    split; [apply c52_copyable; assumption|]. split; [exact c52_null|]. split; [|split; [apply c52_records; exact P|exact R]].
    split; [lia|]. split; [lia|]. split; [cbn; lia|]. split; [destruct P as [-> | ->]; discriminate|].
    intros [|[|i]] e' E (ro & O); try (destruct i; discriminate); injection E as <-; [destruct O; discriminate|destruct (Oc _ _ O); discriminate]. }
  assert (C : forall k, -1000 <= k <= 1000 -> consts_ok (EConst k)) by (intros k Hk; apply in64_small, Hk).
  split; [|split; [|split]].
  - apply K; auto; try (cbn; tauto).
    + intros y ro [(<- & ->)|[]]. auto.
    + split; [exact I|apply C; lia].
    + intros r v R. cbn [meaning x_]. rewrite R. reflexivity.
    + eexists. split; [vm_compute; reflexivity|reflexivity].
  - apply K; auto; try (cbn; tauto).
    + intros y ro [(<- & ->)|[]]. auto.
    + split; [exact I|apply C; lia].
    + intros r v R. cbn [meaning x_]. rewrite R. cbn [xbin xdiv]. rewrite ediv_pos by lia. reflexivity.
    + eexists. split; [vm_compute; reflexivity|reflexivity].
  - apply K; auto; try (cbn; tauto).
    + intros y ro [(<- & ->)|[]]. auto.
    + split; [exact I|apply C; lia].
    + intros r v R. cbn [meaning x_]. rewrite R. reflexivity.
    + eexists. split; [vm_compute; reflexivity|reflexivity].
  - intros idx. reflexivity.
Qed.

(** ** Findings: copies that are not implemented correctly *)
(** [c52_wrong run dst_ptr wrong right]: the calls are made, and give the element at [dst_ptr] the element at [wrong], and not the one at [right]. *)
Definition c52_wrong (run : option (Z * copy_calls)) (d : ptr) (wrong : ptr) : Prop :=
  exists calls, run = Some (0, calls) /\ In (d, wrong) (flat_map assigns calls).
Ltac c52_show := eexists; split; [vm_compute; reflexivity|vm_compute; repeat first [left; reflexivity|right]].
(** An index that uses two symbols, and is linear in only one of them, x + y/2: y is replaced by the minimum of the destination
    (optimizations.cc:125-129) in the index that is used inside of the loop over y. *)
Definition c52_row : buf := Buf (Some 4096) 1 [Dim 0 20 1 unfolded].
Definition c52_two : list expr := [EBin Add (x_ 10) (EBin Div (x_ 11) (EConst 2))].
Theorem C52_two_symbols_refuted : c52_wrong (c52_run c52_row c52_dst c52_pad c52_two [10;11]%nat None) (Some (8192 + 16)) (Some 4096) /\
  In (Some (8192 + 16), Some 4097) (copied c52_dst c52_row (fun idx => [nth 0 idx 0 + nth 1 idx 0 / 2])) /\
  ~ In (Some (8192 + 16), Some 4096) (copied c52_dst c52_row (fun idx => [nth 0 idx 0 + nth 1 idx 0 / 2])).
Proof. split; [c52_show|]. split; [vm_compute; repeat first [left; reflexivity|right]|]. vm_compute. intros K. repeat (destruct K as [K|K]; [discriminate|]). exact K. Qed.
(** A select whose condition uses a symbol of the destination: no loop defines the symbol where the condition is evaluated (117). *)
Definition c52_line : buf := Buf (Some 8192) 1 [Dim 0 7 1 unfolded].
Theorem C52_select_refuted : c52_wrong (c52_run c52_row c52_line c52_pad [ESelect (EBin Less (x_ 10) (EConst 2)) (x_ 10) (EConst 3)] [10]%nat None) (Some 8192) (Some 4099) /\
  meaning (world_of copy_calls c52_host c52_state) (at_index [10]%nat [0] (fun _ => Bad)) (ESelect (EBin Less (x_ 10) (EConst 2)) (x_ 10) (EConst 3)) = Fin 0.
Proof. split; [c52_show|reflexivity]. Qed.
(** A source with a folded dimension: the new dimension has other coordinates, and the same fold factor (142). *)
Definition c52_folded : buf := Buf (Some 4096) 1 [Dim 4 7 1 4].
Definition c52_line36 : buf := Buf (Some 8192) 1 [Dim 3 6 1 unfolded].
Theorem C52_folded_refuted : c52_wrong (c52_run c52_folded c52_line36 c52_pad [EBin Add (x_ 10) (EConst 1)] [10]%nat None) (Some 8192) (Some 4099) /\
  locate c52_folded (index [3 + 1]) = Some 4096.
Proof. split; [c52_show|reflexivity]. Qed.
(** A padded copy whose index refers to the destination: elements outside of the source are read (149-153). *)
Definition c52_short : buf := Buf (Some 4096) 1 [Dim 0 3 1 unfolded].
Theorem C52_padded_offset_refuted : c52_wrong (c52_run c52_short c52_line c52_pad [EBin Sub (x_ 10) (EVar 1 f_min 0)] [10]%nat (Some 3%nat)) (Some 8199) (Some 4103) /\
  locate c52_short (index [7 - 0]) = None.
Proof. split; [c52_show|reflexivity]. Qed.
(** Padding that is not the same everywhere: it is not sliced with the destination (1358-1363), and another element of it is used. *)
Definition c52_pads : buf := Buf (Some 64) 1 [Dim 0 7 1 unfolded; Dim 0 3 8 unfolded].
Theorem C52_padding_refuted : c52_wrong (c52_run c52_src c52_dst c52_pads [EBin Add (x_ 11) (EConst 9); EBin Div (x_ 10) (EConst 2)] [10;11]%nat (Some 3%nat)) (Some (8192 + 8)) (Some 65) /\
  locate c52_dst (index [0; 1]) = Some (8192 + 8) /\ locate c52_pads (index [0; 1]) = Some 72.
Proof. split; [c52_show|split; reflexivity]. Qed.
