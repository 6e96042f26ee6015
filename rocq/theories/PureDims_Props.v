(** C58: remove_pure_dims keeps what a statement does, if the functions that are called do not care about the dimensions that are sliced off. *)
From Coq Require Import ZArith List Bool Lia.
From Verif Require Import Arith_Model Arith_Proofs Buf_Model Alloc_Model Expr_Model Expr_Spec Expr_Proofs Stmt_Model Stmt_Spec Stmt_Proofs Stmt_Props Deps_Model Deps_Spec Deps_Props StmtSubst_Spec
  VSem_Spec VExec_Proofs VSem_Props OptSym_Model OptSym_Spec Deshadow_Spec Match_Model Match_Proofs PureDims_Model PureDims_Spec PureDims_Proofs PureDims2_Proofs.
Import ListNotations.
Open Scope Z_scope.

Definition none_declared : nat -> Prop := fun _ => False.
Lemma tracked_none : tracked none_declared (fun _ => no_dims). Proof. intro x. split; [apply bounded_none|discriminate]. Qed.
Lemma known_none E : known (fun _ => no_dims) E. Proof. intros x k b _ d Q. discriminate. Qed.

(** What the statement does from values, if it succeeds, the result does.  The functions check that the calls are legal, and for legal calls slicing makes no difference. *)
Theorem C58_remove : forall X (H : host X) call_v copy_v consts min_rank legal s s',
  pure_calls X call_v min_rank legal -> strict_calls X call_v legal -> keeps_bounds H ->
  plain_stmt s -> not_stale none_declared s -> scalars_apart min_rank s -> remove_pure_dims min_rank consts s = Val s' ->
  forall E v v', vexec X H call_v copy_v consts s E v = Val (0, v') -> vexec X H call_v copy_v consts s' E v = Val (0, v').
Proof.
  intros X H call_v copy_v consts min_rank legal s s' Hp Hs Hk P S A M E v v' G.
  refine (g_exec _ _ _ _ _ _ _ _ _ (remover_good X H call_v copy_v consts min_rank legal Hp Hs Hk s none_declared _ s' P S A tracked_none M) E v _ (known_none E) _ G). left. reflexivity.
Qed.
(** If slicing makes no difference to any call, also the failures are the same. *)
Theorem C58_remove_all : forall X (H : host X) call_v copy_v consts min_rank s s',
  pure_calls X call_v min_rank (fun _ _ _ => True) -> keeps_bounds H ->
  plain_stmt s -> not_stale none_declared s -> scalars_apart min_rank s -> remove_pure_dims min_rank consts s = Val s' ->
  forall E v r, vexec X H call_v copy_v consts s E v = Val r -> vexec X H call_v copy_v consts s' E v = Val r.
Proof.
  intros X H call_v copy_v consts min_rank s s' Hp Hk P S A M E v r G.
  refine (g_exec _ _ _ _ _ _ _ _ _ (remover_good X H call_v copy_v consts min_rank (fun _ _ _ => True) Hp (fun _ _ _ _ _ _ => Logic.I) Hk s none_declared _ s' P S A tracked_none M) E v r (known_none E) _ G). right. auto.
Qed.
(** So when the evaluator succeeds on the statement, it does on the result, and leaves the outside in the same state, the same blocks allocated, and the same log. *)
Theorem C58_evaluate : forall X (H : host X) call_v copy_v consts min_rank legal s s' E v st v',
  pure_calls X call_v min_rank legal -> strict_calls X call_v legal -> keeps_bounds H ->
  plain_stmt s -> not_stale none_declared s -> scalars_apart min_rank s -> distinct s -> by_value s -> remove_pure_dims min_rank consts s = Val s' ->
  calls_by_value X H call_v -> represents X consts E v st -> inv st -> vexec X H call_v copy_v consts s E v = Val (0, v') ->
  exists st1 st2, exec X H s st = Val (0, st1) /\ exec X H s' st = Val (0, st2) /\
    s_ext X st1 = s_ext X st2 /\ map snd (s_alloc X st1) = map snd (s_alloc X st2) /\ map unnamed (s_log X st1) = map unnamed (s_log X st2).
Proof.
  intros X H call_v copy_v consts min_rank legal s s' E v st v' Hp Hs Hk P S A D V M Hc R I G.
  destruct (remover_good X H call_v copy_v consts min_rank legal Hp Hs Hk s none_declared _ s' P S A tracked_none M) as [_ _ V' D' _ G'].
  destruct (C53_by_value _ _ _ _ _ _ _ _ _ _ _ Hc (D' D) (V' V) R I (G' E v (0, v') (known_none E) (or_introl eq_refl) G)) as (st2 & E2 & P1 & P2 & P3).
  destruct (C53_by_value _ _ _ _ _ _ _ _ _ _ _ Hc D V R I G) as (st1 & E1 & O1 & O2 & O3).
  exists st1, st2. split; [exact E1|]. split; [exact E2|]. split; [congruence|]. split; congruence.
Qed.

(** It does not fail if no buffer has more than 64 dimensions and each call has an output. *)
Lemma set_dim_able sd d : (d < 64)%nat -> exists sd', set_dim sd d = Val sd'. Proof. intro L. unfold set_dim. destruct (Nat.ltb_spec d 64); [eauto|lia]. Qed.
Lemma find_able l : forall i, (i + length l <= 64)%nat -> exists sd, find_sliceable i l = Val sd.
Proof.
  induction l as [|x l IH]; intros i L; cbn [find_sliceable length] in *; [eauto|]. destruct (IH (S i)) as (sd & ->); [lia|]. cbn [bind]. destruct (is_extent_one x); [apply set_dim_able; lia|eauto].
Qed.
Lemma constant_able l : forall i, (i + length l <= 64)%nat -> exists sd, find_constant i l = Val sd.
Proof.
  induction l as [|x l IH]; intros i L; cbn [find_constant length] in *; [eauto|]. destruct (IH (S i)) as (sd & ->); [lia|]. cbn [bind]. destruct (_ =? 1); [apply set_dim_able; lia|eauto].
Qed.
Lemma erase_able sd d : (d <= 64)%nat -> exists sd', erase_dim sd d = Val sd'. Proof. intro L. unfold erase_dim. destruct (Nat.ltb_spec 64 d); [lia|eauto]. Qed.
Lemma erase_at_able l sd : forall i, (i + length l <= 64)%nat -> exists sd', erase_at i l sd = Val sd'.
Proof.
  induction l as [|x l IH]; intros i L; cbn [erase_at length] in *; [eauto|]. destruct (IH (S i)) as (sd' & ->); [lia|]. cbn [bind]. destruct (defined x); [apply erase_able; lia|eauto].
Qed.
Lemma few_list min_rank consts l : (fix go (l : list stmt) := match l with [] => True | x :: l' => few_dims min_rank consts x /\ go l' end) l <-> Forall (few_dims min_rank consts) l.
Proof. induction l as [|x l IH]; [split; auto; constructor|]. split; [intros (A & B); constructor; tauto|intro F; inversion F; tauto]. Qed.
Lemma remover_able min_rank consts s : few_dims min_rank consts s -> forall m, exists s', remover min_rank consts m s = Val s'.
Proof.
  induction s as [|t ins outs sc|src sx dst dx pad|l s c IHs|l IHl|s w i st b IHs|s w e ds b IHs|s p e ds b IHs|s c b IHs|s src b IHs|s src l b IHs|s src d i b IHs|s src l b IHs|s src d e b IHs|s src p b IHs|s s1 s2 IHs1 IHs2|c] using stmt_ind';
    intros F m; cbn [remover]; try (eexists; reflexivity).
  - unfold remove_call. destruct (min_rank t) as [n|] eqn:Mr; [|eauto]. destruct outs as [|o outs].
    + cbn [few_dims] in F. specialize (F eq_refl). rewrite Mr in F. destruct (Nat.ltb_spec n 64); [lia|eauto].
    + destruct (slices_for o n _); eauto.
  - destruct (IHs F m) as (b' & ->). eexists; reflexivity.
  - apply few_list in F. assert (G : exists r, (fix go (l : list stmt) : res (list stmt) := match l with [] => Val [] | x :: l' => x' <- remover min_rank consts m x ;; r <- go l' ;; Val (x' :: r) end) l = Val r).
    { induction IHl as [|x l Hx IHl IH]; [eauto|]. inversion F as [|? ? F1 F2]; subst. destruct (Hx F1 m) as (x' & ->). destruct (IH F2) as (r & ->). eexists; reflexivity. }
    destruct G as (r & ->). eexists; reflexivity.
  - destruct (IHs F m) as (b' & ->). eexists; reflexivity.
  - destruct F as (L & F). destruct (find_able (map de_bounds ds) 0) as (sd & ->); [rewrite map_length; exact L|]. cbn [bind]. destruct (IHs F (mset m s sd)) as (b' & ->). eexists; reflexivity.
  - destruct F as (L & F). destruct (find_able (map de_bounds ds) 0) as (sd & ->); [rewrite map_length; exact L|]. cbn [bind]. destruct (IHs F (mset m s sd)) as (b' & ->). eexists; reflexivity.
  - destruct F as ((q & -> & L) & F). cbn [bind]. destruct (constant_able (dims q) 0 L) as (sd & ->). cbn [bind]. destruct (IHs F (mset m s sd)) as (b' & ->). eexists; reflexivity.
  - destruct (IHs F (mset m s (m src))) as (b' & ->). eexists; reflexivity.
  - destruct F as (L & F). destruct (find_able l 0 L) as (sd & ->). cbn [bind]. destruct (IHs F (mset m s (or_dims (m src) sd))) as (b' & ->). eexists; reflexivity.
  - destruct F as (L & F). destruct (is_extent_one i).
    + destruct (set_dim_able (m src) d L) as (sd & ->). cbn [bind]. destruct (IHs F (mset m s sd)) as (b' & ->). eexists; reflexivity.
    + destruct (IHs F m) as (b' & ->). eexists; reflexivity.
  - destruct (erase_at_able (firstn 64 l) (m src) 0) as (sd & ->); [rewrite firstn_length; lia|]. cbn [bind]. destruct (IHs F (mset m s sd)) as (b' & ->). eexists; reflexivity.
  - destruct F as (L & F). destruct (erase_able (m src) d) as (sd & ->); [lia|]. cbn [bind]. destruct (IHs F (mset m s sd)) as (b' & ->). eexists; reflexivity.
  - destruct F as (L & Fp & F). unfold transpose_dims. destruct (Nat.ltb_spec 64 (length p)); [lia|]. cbn [orb]. destruct (existsb _ p) eqn:Ex.
    + apply existsb_exists in Ex as (d & I & Q). rewrite Forall_forall in Fp. specialize (Fp d I). apply Nat.leb_le in Q. lia.
    + cbn [bind]. destruct (IHs F (mset m s (fun k => if (k <? length p)%nat then m src (nth k p 0%nat) else false))) as (b' & Q). rewrite Q. eexists; reflexivity.
  - destruct F as (F1 & F2). destruct (IHs1 F1 m) as (t' & ->). cbn [bind]. destruct (IHs2 F2 m) as (b' & ->). eexists; reflexivity.
Qed.
Theorem C58_defined : forall min_rank consts s, few_dims min_rank consts s -> exists s', remove_pure_dims min_rank consts s = Val s'.
Proof. intros min_rank consts s F. exact (remover_able min_rank consts s F _). Qed.
(** The result depends on nothing that the statement does not depend on. *)
Theorem C58_free : forall min_rank consts s s', plain_stmt s -> not_stale none_declared s -> scalars_apart min_rank s -> remove_pure_dims min_rank consts s = Val s' ->
  plain_stmt s' /\ forall x, free_stmt x s' -> free_stmt x s.
Proof.
  intros min_rank consts s s' P S A M.
  assert (Hp : pure_calls Z (fun _ _ _ _ x => (0, x)) min_rank (fun _ _ _ => True)) by (intros t n bi o bo vs x f _ _ _; reflexivity).
  assert (Hk : keeps_bounds v53_host) by (intros sym b x b' p x' Q; cbn in Q; injection Q as <- <- <-; apply bounds_refl).
  destruct (remover_good Z v53_host _ (fun _ _ _ _ x => x) consts min_rank _ Hp (fun _ _ _ _ _ _ => Logic.I) Hk s none_declared _ s' P S A tracked_none M) as [G1 _ _ _ G2 _]. auto.
Qed.
(** After deshadow (C56) nothing is stale. *)
Lemma unshadowed_not_stale s : plain_stmt s -> forall D D' : nat -> Prop, unshadowed D s -> (forall x, D' x -> D x) -> not_stale D' s.
Proof.
  assert (Al : forall (D D' : nat -> Prop) x, (forall y, D' y -> D y) -> forall y, also D' x y -> also D x y) by (unfold also; intros D D' x I y [Q|Q]; auto).
  induction s as [|t ins outs sc|src sx dst dx pad|l s c IHs|l IHl|s w i st b IHs|s w e ds b IHs|s p e ds b IHs|s c b IHs|s src b IHs|s src l b IHs|s src d i b IHs|s src l b IHs|s src d e b IHs|s src p b IHs|s s1 s2 IHs1 IHs2|c] using stmt_ind';
    intros P D D' U I; cbn [not_stale]; try exact Logic.I; try (destruct P; fail).
  - destruct P as (_ & P). cbn [unshadowed] in U. assert (G : forall (l : list (nat * expr)) (D D' : nat -> Prop), (forall x, D' x -> D x) -> unshadowed_lets unshadowed_expr D l (fun D0 => unshadowed D0 s) -> Forall (fun x => ~ D' x) (map fst l) /\ not_stale D' s).
    { clear - IHs P. induction l as [|(u, e) l IH]; intros D D' I U; cbn [unshadowed_lets map] in *; [split; [constructor|exact (IHs P _ _ U I)]|]. destruct U as (_ & N & U).
      destruct (IH (also D u) D' (fun x Q => or_intror (I x Q)) U) as (A & B). split; [constructor; [intro Q; exact (N (I _ Q))|exact A]|exact B]. }
    exact (G l D D' I U).
  - destruct P as (_ & _ & P). cbn [unshadowed] in U. induction IHl as [|x l Hx IHl IH]; [exact Logic.I|]. destruct P as (P1 & P2), U as (U1 & U2). split; [exact (Hx P1 _ _ U1 I)|exact (IH P2 U2)].
  - cbn [unshadowed] in U. destruct U as (_ & _ & _ & N & U). split; [intro Q; exact (N (I _ Q))|]. exact (IHs P _ _ U (fun x Q => or_intror (I x Q))).
  - cbn [unshadowed] in U. destruct U as (_ & _ & U). exact (IHs P _ _ U (Al _ _ _ I)).
  - cbn [unshadowed] in U. destruct U as (_ & _ & _ & _ & U). exact (IHs P _ _ U (Al _ _ _ I)).
  - cbn [unshadowed] in U. destruct U as (_ & U). exact (IHs P _ _ U (Al _ _ _ I)).
  - cbn [unshadowed] in U. destruct U as (_ & U). exact (IHs P _ _ U (Al _ _ _ I)).
  - cbn [unshadowed] in U. destruct U as (_ & _ & U). exact (IHs P _ _ U (Al _ _ _ I)).
  - cbn [unshadowed] in U. destruct U as (_ & N & U). split; [right; intro Q; exact (N (I _ Q))|]. exact (IHs P _ _ U (Al _ _ _ I)).
  - cbn [unshadowed] in U. destruct U as (_ & _ & U). exact (IHs P _ _ U (Al _ _ _ I)).
  - cbn [unshadowed] in U. destruct U as (_ & _ & U). exact (IHs P _ _ U (Al _ _ _ I)).
  - cbn [unshadowed] in U. destruct U as (_ & U). exact (IHs P _ _ U (Al _ _ _ I)).
Qed.
Theorem C58_unshadowed : forall D s, plain_stmt s -> unshadowed D s -> not_stale none_declared s.
Proof. intros D s P U. apply (unshadowed_not_stale s P D none_declared U). intros x []. Qed.
(** The output of a call that is cropped to one index of a dimension from min_rank on has that dimension sliced off, and so do the inputs. *)
Theorem C58_slices : forall min_rank consts t n ins out sc src d e, min_rank t = Some n -> (n <= d < 64)%nat -> defined e = true ->
  exists at_, remove_pure_dims min_rank consts (SCropDim out src d (e, e) (SCall t ins [out] sc)) = Val (SCropDim out src d (e, e) (slice_all at_ [] (out :: ins) (SCall t ins [out] sc))) /\
    forall k, nth k at_ EUndef = if (k =? d)%nat then EVar out f_min (Z.of_nat d) else EUndef.
Proof.
  intros min_rank consts t n ins out sc src d e Mr L De. unfold remove_pure_dims. cbn [remover]. unfold is_extent_one. cbn [fst snd]. rewrite De. rewrite (proj2 (match_eq e e) eq_refl). cbn [andb].
  unfold set_dim. destruct (Nat.ltb_spec d 64); [|lia]. cbn [bind]. rewrite Mr. unfold remove_call. set (sd := fun d0 => forallb _ [out]).
  assert (V : forall k, nth k (slices_for out n sd) EUndef = if (k =? d)%nat then EVar out f_min (Z.of_nat d) else EUndef).
  { intro k. rewrite nth_slices. assert (Sd : sd k = (k =? d)%nat) by (unfold sd; cbn [forallb]; unfold mset, no_dims; rewrite Nat.eqb_refl; rewrite orb_false_r, andb_true_r; reflexivity). rewrite Sd.
    destruct (Nat.eqb_spec k d) as [Q|Q]; [rewrite Q|rewrite !andb_false_r; reflexivity]. destruct (Nat.ltb_spec d 64); [|lia]. destruct (Nat.leb_spec n d); [reflexivity|lia]. }
  exists (slices_for out n sd). split; [|exact V]. destruct (slices_for out n sd) eqn:Sl; [|reflexivity]. specialize (V d). rewrite Nat.eqb_refl in V. destruct d; discriminate V.
Qed.

(** ** Example: a function that writes a number to each element of its output, in order *)
Definition range (d : dim) : list Z := map (fun i => d_min d + Z.of_nat i) (seq 0 (Z.to_nat (d_max d - d_min d + 1))).
Fixpoint addresses (p : Z) (ds : list dim) : list Z := match ds with [] => [p] | d :: ds' => flat_map (fun i => addresses (p + d_offset d i) ds') (range d) end.
Definition some_of (d : dim) : bool := d_min d <=? d_max d.
(** legal: one output that has memory and is not empty *)
Definition fill_legal (t : nat) (bi bo : list buf) : Prop := match bo with [o] => base o <> None /\ forallb some_of (dims o) = true | _ => False end.
Definition fill (t : nat) (bi bo : list buf) (vs : list Z) (x : list (Z * Z)) : Z * list (Z * Z) :=
  match bo with
  | [o] =>
      match base o with
      | Some p => if forallb some_of (dims o) then (0, x ++ map (fun a => (a, fold_right Z.add 0 vs)) (addresses p (dims o))) else (1, x)
      | None => (1, x)
      end
  | _ => (1, x)
  end.
Definition fill_rank (t : nat) : option nat := Some 1%nat.
Lemma fill_strict : strict_calls _ fill fill_legal.
Proof.
  intros t bi bo vs x. unfold fill, fill_legal. destruct bo as [|o [|o2 bo]]; cbn [fst]; try discriminate. destruct (base o); [|discriminate]. destruct (forallb some_of (dims o)); cbn [fst]; [|discriminate]. intros _. split; [discriminate|reflexivity].
Qed.
Lemma flat_map_ext {A B} (f g : A -> list B) l : (forall x, f x = g x) -> flat_map f l = flat_map g l. Proof. intro Q. induction l as [|x l IH]; cbn; [reflexivity|]. rewrite Q, IH. reflexivity. Qed.
Lemma fill_dims f ds : forall d, forallb some_of ds = true -> (forall j i, f (d + j)%nat = Some i -> i = d_min (nth j ds broadcast) /\ d_max (nth j ds broadcast) <= d_min (nth j ds broadcast)) ->
  exists c ds', (forall p, slice_dims f d (Some p) ds = (Some (p + c), ds')) /\ forallb some_of ds' = true /\ forall p, addresses (p + c) ds' = addresses p ds.
Proof.
  induction ds as [|x ds IH]; intros d So F; cbn [slice_dims forallb] in *.
  - exists 0, []. split; [intro p; rewrite Z.add_0_r; reflexivity|]. split; [reflexivity|]. intro p. rewrite Z.add_0_r. reflexivity.
  - apply andb_true_iff in So as (Sx & So). destruct (IH (S d) So) as (c & ds' & A & B & C); [intros j i Q; apply (F (S j) i); replace (d + Datatypes.S j)%nat with (Datatypes.S d + j)%nat by lia; exact Q|].
    destruct (f d) as [i|] eqn:Q.
    + destruct (F 0%nat i) as (Ei & Le); [rewrite Nat.add_0_r; exact Q|]. cbn [nth] in *. unfold some_of in Sx. apply Z.leb_le in Sx.
      assert (Cn : d_contains x i = true) by (unfold d_contains, d_contains2; rewrite Ei, Z.leb_refl; cbn [andb]; rewrite (proj2 (Z.leb_le _ _) Sx); apply orb_true_r).
      exists (d_offset x i + c), ds'. split; [intro p; rewrite Cn; cbn [offset_bytes]; rewrite A, Z.add_assoc; reflexivity|]. split; [exact B|]. intro p. cbn [addresses]. unfold range. replace (Z.to_nat (d_max x - d_min x + 1)) with 1%nat by lia.
      cbn [seq map flat_map]. rewrite app_nil_r, Z.add_assoc, C, Z.add_0_r, Ei. reflexivity.
    + exists c, (x :: ds'). split; [intro p; rewrite A; reflexivity|]. split; [cbn [forallb]; rewrite Sx; exact B|]. intro p. cbn [addresses]. apply flat_map_ext. intro i. rewrite <- C. f_equal. lia.
Qed.
Lemma fill_pure : pure_calls _ fill fill_rank fill_legal.
Proof.
  intros t n bi o bo vs x f Mr L F. unfold fill_legal in L. destruct bo as [|o2 bo]; [|contradiction]. destruct L as (Lb & Ls). destruct (base o) as [p|] eqn:Q; [|contradiction].
  destruct (fill_dims f (dims o) 0 Ls) as (c & ds' & A & B & C).
  { intros j i Qi. cbn [Nat.add] in Qi. destruct (F j i Qi) as (_ & E1 & S1). inversion S1 as [|? ? E2 _]; subst. split; [reflexivity|exact E2]. }
  unfold fill. cbn [map]. unfold slice_at. rewrite Q, A. cbn [fst snd base dims]. rewrite B, Ls, C. reflexivity.
Qed.
Definition host58 : host (list (Z * Z)) :=
  Host _ (fun _ _ => 0) (fun _ _ => 0)
    (fun t ins outs sc c m x =>
       let get := flat_map (fun y => match m (c y) with Some b => [b] | None => [] end) in
       let vs := flat_map (fun e => match eval (World m (fun _ _ => 0) (fun _ _ => 0)) c e with Val (z, _) => [z] | UB => [] end) sc in
       fill t (get ins) (get outs) vs x)
    (fun s b x => (Buf (Some 1000) (elem_size b) (dims b), 1000, x)) (fun s b p x => x)
    (fun b n x => 64) true (fun n k x => map (fun i => (Nat.modulo i 2, Z.of_nat i)) (seq 0 (Z.to_nat n))) (fun _ => true) (fun _ => 99) (fun _ => 0) 1 1 8.
Lemma calls58 : calls_by_value _ host58 fill.
Proof.
  intros t ins outs sc c m x bi bo vs Fi Fo Fs. cbn [h_call host58 h_user h_intrinsic] in *. cbv zeta.
  assert (G : forall l bs, Forall2 (fun y b => m (c y) = Some b) l bs -> flat_map (fun y => match m (c y) with Some b => [b] | None => [] end) l = bs).
  { induction 1 as [|y b l bs Q F IH]; [reflexivity|]. cbn [flat_map]. rewrite Q, IH. reflexivity. }
  rewrite (G _ _ Fi), (G _ _ Fo). f_equal. clear -Fs. induction Fs as [|e z l vs (c' & Q) F IH]; [reflexivity|]. cbn [flat_map]. rewrite Q, IH. reflexivity.
Qed.
Lemma keeps58 : keeps_bounds host58. Proof. intros sym b x b' p x' Q. cbn in Q. injection Q as <- <- <-. apply bounds_refl. Qed.
Definition state58 : state (list (Z * Z)) := State _ (fun s => match s with O => 1 | _ => 7 end) (fun a => if a =? 1 then Some ex_buf else None) 2 [] [] [].
Definition start58 : vstate (list (Z * Z)) := VState _ [] [] [].
Lemma rep58 : represents _ (fun _ => None) v53_env start58 state58.
Proof.
  split; cbn [s_ctx s_buf s_alloc map rev state58].
  - intros [|x]; cbn; [reflexivity|exact Logic.I].
  - intros [|x] k b Q; [|discriminate]. intros _. split; [reflexivity|]. intros [|y] k' b' Q'; [reflexivity|discriminate].
  - intros [|x] k id b Q Bk; [injection Q as <- _; discriminate Bk|discriminate Q].
  - discriminate.
  - constructor.
  - split; [reflexivity|]. split; reflexivity.
Qed.
(** for 4 = 0..2, 4 workers: { crop 1 = 0 in dimension 1 to [4, 4]: call(0; 1; 4); allocate 2 of [0, 3] by [4, 4]: transpose 3 = 2, dimensions 1, 0, 1: call(2; 3) } *)
Definition s58_prog (A B : stmt) : stmt :=
  SLoop 4 (EConst 4) (EConst 0, EConst 2) (EConst 1) (SBlock [
    SCropDim 1 0 1 (v_ 4, v_ 4) A;
    SAllocate 2 heap (EConst 4) [DimE (EConst 0, EConst 3) (EConst 4) EUndef; DimE (v_ 4, v_ 4) (EConst 16) EUndef] (STranspose 3 2 [1; 0; 1]%nat B)]).
Definition s58_in : stmt := s58_prog (SCall 5 [0%nat] [1%nat] [v_ 4]) (SCall 5 [2%nat] [3%nat] []).
Definition s58_out : stmt :=
  s58_prog (SSliceBuffer 0 0 [EUndef; EVar 1 f_min 1] (SSliceBuffer 1 1 [EUndef; EVar 1 f_min 1] (SCall 5 [0%nat] [1%nat] [v_ 4])))
    (SSliceBuffer 2 2 [EUndef; EUndef; EVar 3 f_min 2] (SSliceBuffer 3 3 [EUndef; EUndef; EVar 3 f_min 2] (SCall 5 [2%nat] [3%nat] []))).
Definition s58_run (s : stmt) : option (Z * nat) := match vexec _ host58 fill (fun _ _ _ _ x => x) (fun _ => None) s v53_env start58 with Val (z, v) => Some (z, length (v_ext _ v)) | UB => None end.
Example C58_ex : pure_calls _ fill fill_rank fill_legal /\ strict_calls _ fill fill_legal /\ keeps_bounds host58 /\
  plain_stmt s58_in /\ not_stale none_declared s58_in /\ scalars_apart fill_rank s58_in /\ distinct s58_in /\ by_value s58_in /\ few_dims fill_rank (fun _ => None) s58_in /\
  remove_pure_dims fill_rank (fun _ => None) s58_in = Val s58_out /\
  calls_by_value _ host58 fill /\ represents _ (fun _ => None) v53_env start58 state58 /\ inv state58 /\ s58_run s58_in = Some (0, 42%nat) /\ s58_run s58_out = Some (0, 42%nat).
Proof.
  split; [exact fill_pure|]. split; [exact fill_strict|]. split; [exact keeps58|]. split; [cbn; repeat split; auto; lia|]. split; [|split; [|split; [|split; [|split; [|split; [vm_compute; reflexivity|split; [exact calls58|split; [exact rep58|split]]]]]]]].
  - cbn. unfold also, none_declared. intuition.
  - cbn. split; [right|split; [right|exact Logic.I]]; repeat constructor. intros x [<-|[<-|[]]] (ro & F); cbn in F; destruct F; discriminate.
  - cbn. repeat split; auto; repeat constructor; cbn; auto.
  - cbn. repeat split; auto; repeat constructor; cbn; auto.
  - cbn. repeat split; auto; try lia; try discriminate. repeat constructor; lia.
  - split; [|constructor]. cbn [s_next s_buf state58]. intros a L. destruct (Z.eqb_spec a 1); [lia|reflexivity].
  - split; vm_compute; reflexivity.
Qed.

(** ** Findings *)
(** a function that also takes empty outputs, and any number of them: it writes to the null pointer (-1) only if an output has elements and no memory *)
Definition fill_each (t : nat) (bi bo : list buf) (vs : list Z) (x : list (Z * Z)) : Z * list (Z * Z) :=
  fold_left (fun r o => if forallb some_of (dims o) then match base o with Some p => (fst r, snd r ++ map (fun a => (a, fold_right Z.add 0 vs)) (addresses p (dims o))) | None => (-1, snd r) end else r) bo (0, x).
Definition s58_each (s : stmt) : option (Z * nat) := match vexec _ host58 fill_each (fun _ _ _ _ x => x) (fun _ => None) s v53_env start58 with Val (z, v) => Some (z, length (v_ext _ v)) | UB => None end.
Definition s58_findings (run : stmt -> option (Z * nat)) (s s' : stmt) (r r' : option (Z * nat)) : Prop := remove_pure_dims fill_rank (fun _ => None) s = Val s' /\ run s = r /\ run s' = r' /\ r <> None /\ r' <> r.
(** Finding: a crop to one index may be empty, when the index is out of bounds.  The call on the empty buffer does nothing; the one on the slice is given a buffer of 10 elements at the null pointer. *)
Theorem C58_empty_refuted :
  let A := SCall 5 [] [1%nat] [] in
  s58_findings s58_each (SCropDim 1 0 1 (EConst 9, EConst 9) A) (SCropDim 1 0 1 (EConst 9, EConst 9) (SSliceBuffer 1 1 [EUndef; EVar 1 f_min 1] A)) (Some (0, 0%nat)) (Some (-1, 0%nat)).
Proof. cbv zeta. split; [vm_compute; reflexivity|]. split; [vm_compute; reflexivity|]. split; [vm_compute; reflexivity|]. split; discriminate. Qed.
(** Finding: all outputs are sliced at the minimum of the first one, also if theirs are others. *)
Theorem C58_minima_refuted :
  let A := SCall 5 [] [1%nat; 2%nat] [] in let at_ := [EUndef; EVar 1 f_min 1] in
  let crops b := SCropDim 1 0 1 (EConst 2, EConst 2) (SCropDim 2 0 1 (EConst 3, EConst 3) b) in
  s58_findings s58_each (crops A) (crops (SSliceBuffer 2 2 at_ (SSliceBuffer 1 1 at_ A))) (Some (0, 20%nat)) (Some (-1, 10%nat)).
Proof. cbv zeta. split; [vm_compute; reflexivity|]. split; [vm_compute; reflexivity|]. split; [vm_compute; reflexivity|]. split; discriminate. Qed.
(** Finding: a crop_dim of more than one index does not hide what is known of an outer buffer of that name. *)
Theorem C58_stale_refuted :
  let A := SCall 5 [] [1%nat] [] in let crops b := SCropDim 1 0 1 (EConst 2, EConst 2) (SCropDim 1 0 1 (EConst 0, EConst 4) b) in
  s58_findings s58_run (crops A) (crops (SSliceBuffer 1 1 [EUndef; EVar 1 f_min 1] A)) (Some (0, 50%nat)) (Some (0, 10%nat)).
Proof. cbv zeta. split; [vm_compute; reflexivity|]. split; [vm_compute; reflexivity|]. split; [vm_compute; reflexivity|]. split; discriminate. Qed.
(** Finding: scalars that use the bounds of the buffers see those of the slices. *)
Theorem C58_scalars_refuted :
  let A := SCall 5 [] [1%nat] [EVar 1 f_min 1] in let crop b := SCropDim 1 0 1 (EConst 2, EConst 2) b in let s' := crop (SSliceBuffer 1 1 [EUndef; EVar 1 f_min 1] A) in
  let written s := match vexec _ host58 fill (fun _ _ _ _ x => x) (fun _ => None) s v53_env start58 with Val (_, v) => map snd (v_ext _ v) | UB => [] end in
  remove_pure_dims fill_rank (fun _ => None) (crop A) = Val s' /\ written (crop A) = repeat 2 10 /\ written s' = repeat 0 10.
Proof. cbv zeta. split; [vm_compute; reflexivity|]. split; vm_compute; reflexivity. Qed.
(** Finding: std::bitset throws for a crop of dimension 64 to one index, which evaluates as one that does nothing; and outputs.front() is used of no outputs. *)
Theorem C58_throws_refuted :
  let s := SCropDim 1 0 64 (EConst 2, EConst 2) (SCall 5 [] [1%nat] []) in let s2 := SCall 5 [0%nat] [] [] in
  remove_pure_dims fill_rank (fun _ => None) s = UB /\ s58_run s = Some (0, 50%nat) /\ remove_pure_dims fill_rank (fun _ => None) s2 = UB /\ s58_each s2 = Some (0, 0%nat).
Proof. cbv zeta. repeat split; vm_compute; reflexivity. Qed.
