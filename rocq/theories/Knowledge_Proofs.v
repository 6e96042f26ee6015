(** Learning from conditions is sound, and undone at the end of its scope. *)
From Coq Require Import ZArith List Bool Lia.
From Verif Require Import Arith_Model Arith_Spec Arith_Proofs ModRem_Model ModRem_Proofs Buf_Model Expr_Model Expr_Spec Expr_Proofs Match_Model Match_Proofs
  RewriteMatch_Proofs Rewrite_Proofs Deps_Model Interval_Model Interval_Spec BoundsOf_Spec Knowledge_Model Knowledge_Spec.
Import ListNotations.
Open Scope Z_scope.

Lemma mr_inter_repr a b c : mr_repr 64 a -> mr_repr 64 b -> mr_inter 64 a b = Val c -> mr_repr 64 c.
Proof.
  intros Ra Rb H. unfold mr_inter in H.
  destruct (modulus a =? 0); [injection H as <-; exact Ra|].
  destruct (modulus b =? 0); [injection H as <-; exact Rb|].
  destruct ((remainder a =? 0) && (remainder b =? 0)).
  - apply bind_inv in H as (l & H1 & H). injection H as <-. unfold lcm in H1.
    apply bind_inv in H1 as (m & _ & H1). apply bind_inv in H1 as (g & _ & H1). unfold cdiv in H1.
    split; cbn [modulus remainder]; [|unfold imin, imax; cbn; lia].
    destruct (g =? 0); [discriminate|]. apply chk_inv in H1. lia.
  - destruct (modulus b <? modulus a); injection H as <-; assumption.
Qed.

Section Sound.
  Variable W : world.
  Variable r : env.
  Notation M := (meaning W r).
  Variable sbin : binop -> expr -> expr -> res expr.
  Hypothesis sbin_ok : forall o a b e, o = Max \/ o = Min \/ o = Add -> sbin o a b = Val e -> refines (xbin o (M a) (M b)) (M e).

  Lemma intersect_ok a b c z : intersect sbin a b = Val c -> 
    (defined (i_min a) = true -> lower (M (i_min a)) z) -> (defined (i_min b) = true -> lower (M (i_min b)) z) ->
    (defined (i_max a) = true -> upper (M (i_max a)) z) -> (defined (i_max b) = true -> upper (M (i_max b)) z) ->
    (defined (i_min c) = true -> lower (M (i_min c)) z) /\ (defined (i_max c) = true -> upper (M (i_max c)) z).
  Proof.
    intros H La Lb Ua Ub. unfold intersect in H. apply bind_inv in H as (lo & H1 & H). apply bind_inv in H as (hi & H2 & H). 
    assert (E1 : i_min c = lo) by (destruct (match_expr lo hi); injection H as <-; reflexivity).
    assert (L : defined lo = true -> lower (M lo) z).
    { destruct (defined (i_min a)) eqn:Da, (defined (i_min b)) eqn:Db; cbn [andb] in H1; try (injection H1 as <-); auto; try congruence.
      intros _. apply sbin_ok in H1; [|auto]. specialize (La eq_refl). specialize (Lb eq_refl). cbn [xbin] in H1.
      destruct H1 as [H1|H1]; [|rewrite <- H1]; destruct (M (i_min a)), (M (i_min b)); cbn in *; try contradiction; try congruence; auto; lia. }
    assert (U : defined hi = true -> upper (M hi) z).
    { destruct (defined (i_max a)) eqn:Da, (defined (i_max b)) eqn:Db; cbn [andb] in H2; try (injection H2 as <-); auto; try congruence.
      intros _. apply sbin_ok in H2; [|auto]. specialize (Ua eq_refl). specialize (Ub eq_refl). cbn [xbin] in H2.
      destruct H2 as [H2|H2]; [|rewrite <- H2]; destruct (M (i_max a)), (M (i_max b)); cbn in *; try contradiction; try congruence; auto; lia. }
    rewrite E1. split; [exact L|].
    destruct (match_expr lo hi) eqn:Q; injection H as <-; cbn [i_max point i_bounds]; [|exact U].
    apply match_eq in Q. subst hi. exact U.
  Qed.
  Lemma intersect_wf a b c : intersect sbin a b = Val c -> interval_ok c.
  Proof.
    intros H. unfold intersect in H. apply bind_inv in H as (lo & _ & H). apply bind_inv in H as (hi & _ & H). injection H as <-.
    destruct (match_expr lo hi); intros D; [|discriminate D]. cbn [point i_point i_min i_max] in *. auto.
  Qed.

  (** new information about [v] *)
  Definition news (v : expr) (b : interval) (a : modrem) : Prop :=
    interval_ok b /\ mr_repr 64 a /\ mr_reduced a /\
    forall z, M v = Fin z -> (defined (i_min b) = true -> lower (M (i_min b)) z) /\
      (defined (i_max b) = true -> upper (M (i_max b)) z) /\ mr_in a z.

  Lemma merge_ok v i b a i' : info_wf i -> info_holds W r v i -> news v b a -> merge sbin i b a = Val i' ->
    info_wf i' /\ info_holds W r v i'.
  Proof.
    intros (I1 & I2 & I3) H (N1 & N2 & N3 & N) E. unfold merge in E.
    apply bind_inv in E as (b' & Eb & E). apply bind_inv in E as (a' & Ea & E). injection E as <-.
    pose proof (intersect_wf _ _ _ Eb) as Wb.
    split.
    - split; [exact Wb|]. split; [exact (mr_inter_repr _ _ _ I2 N2 Ea) | exact (mr_inter_reduced _ _ _ _ I3 N3 Ea)].
    - intros z Hz. specialize (H z Hz) as (H1 & H2 & H3 & H4). specialize (N z Hz) as (K1 & K2 & K3).
      destruct (intersect_ok _ _ _ z Eb H1 K1 H2 K2) as (L & U). cbn [x_bounds x_align x_known].
      split; [exact L|]. split; [exact U|]. split; [exact (mr_inter_sound 64 _ _ _ ltac:(lia) I2 N2 Ea z H3 K3)|].
      destruct (as_constant (as_point b')) as [c|] eqn:C; [|exact H4]. intros _. cbn [meaning].
      unfold as_point in C. destruct (i_point b') eqn:P; [|discriminate C]. destruct (Wb P) as (E & D). rewrite E in U.
      destruct (i_min b'); try discriminate C. injection C as <-. specialize (L eq_refl). specialize (U eq_refl).
      cbn in L, U. f_equal. lia.
  Qed.

  Lemma wf_empty : info_wf info_empty.
  Proof.
    split; [intros D; discriminate D|]. split; [split; vm_compute; split; discriminate|]. left. vm_compute. reflexivity.
  Qed.
  Lemma holds_empty v : info_holds W r v info_empty.
  Proof. intros z _. cbn. repeat split; try discriminate. apply mr_in_all. Qed.
  Lemma wf_dim_empty : info_wf (di_min dim_empty) /\ info_wf (di_max dim_empty) /\ info_wf (di_stride dim_empty) /\ info_wf (di_fold dim_empty).
  Proof. pose proof wf_empty. auto. Qed.
  Lemma dim_empty_field f : dim_field dim_empty f = info_empty.
  Proof. destruct f; reflexivity. Qed.

  Lemma news_pure v b a : news v b a -> news v (pure_interval b) a.
  Proof.
    intros (N1 & N2 & N3 & N). split; [|split; [exact N2|split; [exact N3|]]].
    - intros P. cbn [pure_interval i_point] in P. apply andb_true_iff in P as (P & Q). destruct (N1 P) as (E & D).
      cbn [pure_interval i_min i_max]. rewrite E. unfold only_pure. rewrite D, Q. cbn. auto.
    - intros z Hz. destruct (N z Hz) as (L & U & A). cbn [pure_interval i_min i_max]. unfold only_pure.
      destruct (defined (i_min b) && negb (is_pure (i_min b))); destruct (defined (i_max b) && negb (is_pure (i_max b)));
        repeat split; auto; discriminate.
  Qed.

  Lemma nth_set_dim l d x e dflt : (d < length l)%nat -> nth e (set_dim l d x) dflt = if (e =? d)%nat then x else nth e l dflt.
  Proof.
    revert d e. induction l as [|y l IH]; cbn [length]; [intros; lia|].
    intros [|d] [|e] H; cbn [set_dim nth Nat.eqb]; auto. apply IH. lia.
  Qed.
  Lemma length_set_dim l d x : length (set_dim l d x) = length l.
  Proof. revert d. induction l as [|y l IH]; intros [|d]; cbn [set_dim length]; auto. Qed.
  Lemma dims_resized_length l d : (d < length (dims_resized l d))%nat /\ (length l <= length (dims_resized l d))%nat.
  Proof. unfold dims_resized. rewrite app_length, repeat_length. lia. Qed.
  Lemma dims_resized_nth l d e : nth e (dims_resized l d) dim_empty = nth e l dim_empty.
  Proof.
    unfold dims_resized. destruct (Nat.lt_ge_cases e (length l)) as [L|L]; [apply app_nth1; exact L|].
    rewrite app_nth2 by exact L. rewrite (nth_overflow l) by exact L. rewrite nth_repeat. reflexivity.
  Qed.
  Lemma set_dim_in l d x y : In y (set_dim l d x) -> y = x \/ In y l.
  Proof.
    revert d. induction l as [|z l IH]; intros d H; [destruct d; contradiction|]. destruct d as [|d]; cbn [set_dim In] in *; [destruct H; auto|].
    destruct H as [->|H]; [auto|]. destruct (IH _ H); auto.
  Qed.
  Lemma dim_field_wf d f : info_wf (di_min d) /\ info_wf (di_max d) /\ info_wf (di_stride d) /\ info_wf (di_fold d) -> info_wf (dim_field d f).
  Proof. intros (A & B & C & D). destruct f; assumption. Qed.
  Lemma set_dim_field_wf d f i : info_wf (di_min d) /\ info_wf (di_max d) /\ info_wf (di_stride d) /\ info_wf (di_fold d) -> info_wf i ->
    let d' := set_dim_field d f i in info_wf (di_min d') /\ info_wf (di_max d') /\ info_wf (di_stride d') /\ info_wf (di_fold d').
  Proof. intros (A & B & C & D) I. destruct f; cbn; auto. Qed.
  Lemma set_dim_field_get d f g i : is_dim_field f = true -> is_dim_field g = true ->
    dim_field (set_dim_field d f i) g = i /\ f = g \/ dim_field (set_dim_field d f i) g = dim_field d g.
  Proof. destruct f, g; try discriminate; cbn; auto. Qed.

  (** the state of knowledge *)
  Definition knows (k : knowledge) : Prop :=
    vars_wf (k_vars k) /\ vars_hold W r (k_vars k) /\ buffers_wf (k_bufs k) /\ buffers_hold W r (k_bufs k) /\ Forall (fact_holds W r) (k_facts k).

  Hypothesis ranks_fit : forall p b, w_buf W p = Some b -> Z.of_nat (rank b) < 2 ^ 31.

  Lemma wrap32 c : 0 <= c < 2 ^ 31 -> wrap 32 c = c.
  Proof. intros H. unfold wrap, imin. change (2 ^ (32 - 1)) with 2147483648. change (2 ^ 32) with 4294967296. change (2 ^ 31) with 2147483648 in H. rewrite Z.mod_small by lia. lia. Qed.

  Lemma buffer_info_of_ok s : buffer_wf (buffer_info_of s) /\ buffer_holds W r s (buffer_info_of s).
  Proof.
    split.
    - split; [|constructor]. cbn. split; [intros _; auto|]. split; [split; vm_compute; split; discriminate|]. left. vm_compute. reflexivity.
    - split; [|split].
      + intros z Hz. cbn [buffer_info_of b_elem_size info_of_value defined x_bounds point i_min i_max as_constant x_align x_known]. rewrite Hz.
        cbn [lower upper]. repeat split; try lia. apply mr_in_all.
      + intros d f _ L. cbn in L. lia.
      + cbn. intros; lia.
  Qed.

  Lemma learn_dim_ok info s f d b a info' : is_dim_field f = true -> 0 <= d -> buffer_wf info -> buffer_holds W r s info -> news (EVar s f d) b a ->
    learn_field sbin info f d b a = Val info' -> buffer_wf info' /\ buffer_holds W r s info'.
  Proof.
    intros Hf Hd0 (Pe & Pd) (He & Hd & Hr) N H.
    assert (E : learn_field sbin info f d b a =
      (i <- merge sbin (dim_field (nth (Z.to_nat d) (dims_resized (b_dims info) (Z.to_nat d)) dim_empty) f) b a ;;
       Val (BufInfo (b_elem_size info) (set_dim (dims_resized (b_dims info) (Z.to_nat d)) (Z.to_nat d)
         (set_dim_field (nth (Z.to_nat d) (dims_resized (b_dims info) (Z.to_nat d)) dim_empty) f i)) (b_rank info) (b_decl info)))).
    { unfold learn_field. destruct (Z.leb_spec 0 d); [|lia]. destruct f; try discriminate Hf; reflexivity. }
    rewrite E in H. clear E. apply bind_inv in H as (i & H1 & H). injection H as <-.
    rewrite dims_resized_nth in H1. rewrite dims_resized_nth. set (di := nth (Z.to_nat d) (b_dims info) dim_empty) in *.
    assert (Wd : info_wf (di_min di) /\ info_wf (di_max di) /\ info_wf (di_stride di) /\ info_wf (di_fold di)).
    { unfold di. destruct (nth_in_or_default (Z.to_nat d) (b_dims info) dim_empty) as [I|I]; [exact (proj1 (Forall_forall _ _) Pd _ I) | rewrite I; apply wf_dim_empty]. }
    assert (Hv : info_holds W r (EVar s f d) (dim_field di f)).
    { unfold di. destruct (Nat.lt_ge_cases (Z.to_nat d) (length (b_dims info))) as [L|L].
      - specialize (Hd (Z.to_nat d) f Hf L). rewrite Z2Nat.id in Hd by assumption. exact Hd.
      - rewrite nth_overflow by exact L. rewrite dim_empty_field. apply holds_empty. }
    destruct (merge_ok _ _ _ _ _ (dim_field_wf _ f Wd) Hv N H1) as (Wi & Hi).
    destruct (dims_resized_length (b_dims info) (Z.to_nat d)) as (L1 & L2).
    split; [split; [exact Pe|]|split; [exact He|split; [|exact Hr]]]; cbn [b_dims].
    - apply Forall_forall. intros y Hy. apply set_dim_in in Hy as [->|Hy]; [apply set_dim_field_wf; assumption|].
      unfold dims_resized in Hy. apply in_app_iff in Hy as [Hy|Hy]; [exact (proj1 (Forall_forall _ _) Pd _ Hy)|].
      apply repeat_spec in Hy as ->. apply wf_dim_empty.
    - intros e g G L. rewrite length_set_dim in L. rewrite nth_set_dim by exact L1.
      assert (Old : info_holds W r (EVar s g (Z.of_nat e)) (dim_field (nth e (b_dims info) dim_empty) g)).
      { destruct (Nat.lt_ge_cases e (length (b_dims info))) as [L'|L']; [exact (Hd e g G L')|]. rewrite nth_overflow by exact L'. rewrite dim_empty_field. apply holds_empty. }
      destruct (e =? Z.to_nat d)%nat eqn:Q; [|rewrite dims_resized_nth; exact Old]. apply Nat.eqb_eq in Q. subst e.
      destruct (set_dim_field_get di f g i Hf G) as [(-> & <-)| ->]; [rewrite Z2Nat.id by assumption; exact Hi | exact Old].
  Qed.
  Lemma learn_field_ok info s f d b a info' : f <> f_none -> buffer_wf info -> buffer_holds W r s info -> news (EVar s f d) b a ->
    learn_field sbin info f d b a = Val info' -> buffer_wf info' /\ buffer_holds W r s info'.
  Proof.
    intros Nf P0 H0 N H. destruct (is_dim_field f) eqn:Df.
    { destruct (Z.leb_spec 0 d) as [L|L]; [exact (learn_dim_ok info s f d b a info' Df L P0 H0 N H)|].
      unfold learn_field in H. destruct (Z.leb_spec 0 d); [lia|]. destruct f; try discriminate Df; injection H as <-; auto. }
    destruct (Z.leb_spec 0 d) as [L|L].
    { unfold learn_field in H. destruct (Z.leb_spec 0 d); [|lia]. destruct f; try discriminate Df; injection H as <-; auto. }
    unfold learn_field in H. destruct (Z.leb_spec 0 d) as [?|_]; [lia|].
    destruct P0 as (Pe & Pd), H0 as (He & Hd & Hr).
    destruct f; try discriminate Df; try congruence; try (injection H as <-; unfold buffer_wf, buffer_holds; tauto).
    - injection H as <-. destruct (as_constant (as_point b)) as [c|] eqn:C; [|unfold buffer_wf, buffer_holds; tauto].
      split; [split; assumption|]. split; [exact He|]. split; [exact Hd|]. cbn [b_rank]. intros _ z Hz.
      change (M (EVar s f_rank (-1))) with (M (EVar s f_rank d)) in Hz. destruct N as (N1 & _ & _ & N). destruct (N z Hz) as (Lo & U & _).
      unfold as_point in C. destruct (i_point b) eqn:P; [|discriminate C]. destruct (N1 P) as (E & D). rewrite E in U.
      destruct (i_min b); try discriminate C. injection C as <-. specialize (Lo eq_refl). specialize (U eq_refl). cbn in Lo, U.
      cbn [meaning] in Hz. destruct (r s) as [p| | |]; try discriminate Hz. destruct (w_buf W p) as [bb|] eqn:Q; [|discriminate Hz].
      injection Hz as Hz. cbn [field_value] in Hz. pose proof (ranks_fit _ _ Q). rewrite wrap32; lia.
    - apply bind_inv in H as (i & H1 & H). injection H as <-.
      destruct (merge_ok (EVar s f_elem_size (-1)) _ _ _ _ Pe He N H1) as (Wi & Hi).
      split; [split; assumption|]. split; [exact Hi|]. split; assumption.
  Qed.
  Lemma add_field_eq k s f d b a : f <> f_none -> add_var_info sbin k s f d b a =
    if learned_nothing (pure_interval b) a then Val k else
    info <- learn_field sbin (default_info (k_bufs k s) (buffer_info_of s)) f d (pure_interval b) a ;;
    Val (Know (k_vars k) (map_set (k_bufs k) s (Some info)) (k_vk k)
      (if existsb (fun p => (fst p =? s)%nat) (k_bk k) then k_bk k else (s, k_bufs k s) :: k_bk k) (k_facts k)).
  Proof. destruct f; [congruence|reflexivity..]. Qed.

  Lemma add_var_info_ok k s f d b a k' : knows k -> news (EVar s f d) b a -> add_var_info sbin k s f d b a = Val k' -> knows k'.
  Proof.
    intros K N H. pose proof K as (Kv & Kh & Bv & Bh & F).
    assert (D : f = f_none \/ f <> f_none) by (destruct f; auto; right; discriminate). destruct D as [->|Nf].
    { unfold add_var_info in H. apply bind_inv in H as (i & H1 & H). injection H as <-.
      assert (P : info_wf (default_info (k_vars k s) info_empty) /\ info_holds W r (EVar s f_none d) (default_info (k_vars k s) info_empty)).
      { destruct (k_vars k s) as [i0|] eqn:E; cbn [default_info]; [|split; [apply wf_empty | apply holds_empty]]. split; [exact (Kv _ _ E) | exact (Kh _ _ E)]. }
      destruct (merge_ok _ _ _ _ _ (proj1 P) (proj2 P) N H1) as (Wi & Hi).
      split; [|split; [|split; [exact Bv|split; [exact Bh|exact F]]]]; intros t j; cbn [k_vars]; unfold map_set; destruct (t =? s)%nat eqn:Q;
        intros E; try (injection E as <-); [exact Wi | exact (Kv _ _ E) | apply Nat.eqb_eq in Q; subst t; exact Hi | exact (Kh _ _ E)]. }
    rewrite add_field_eq in H by exact Nf. destruct (learned_nothing (pure_interval b) a); [injection H as <-; exact K|].
    apply bind_inv in H as (info & H1 & H). injection H as <-.
    assert (P : buffer_wf (default_info (k_bufs k s) (buffer_info_of s)) /\ buffer_holds W r s (default_info (k_bufs k s) (buffer_info_of s))).
    { destruct (k_bufs k s) as [i0|] eqn:E; cbn [default_info]; [split; [exact (Bv _ _ E) | exact (Bh _ _ E)] | apply buffer_info_of_ok]. }
    destruct (learn_field_ok _ s f d _ a info Nf (proj1 P) (proj2 P) (news_pure _ _ _ N) H1) as (Wi & Hi).
    split; [exact Kv|split; [exact Kh|split; [|split; [|exact F]]]]; intros t j; cbn [k_bufs]; unfold map_set; destruct (t =? s)%nat eqn:Q;
      intros E; try (injection E as <-); [exact Wi | exact (Bv _ _ E) | apply Nat.eqb_eq in Q; subst t; exact Hi | exact (Bh _ _ E)].
  Qed.
  Lemma add_fact_ok k a b : knows k -> M a = M b -> knows (add_fact k a b).
  Proof.
    intros (Kv & Kh & Bv & Bh & F) E. split; [exact Kv|split; [exact Kh|split; [exact Bv|split; [exact Bh|]]]]. cbn [add_fact k_facts].
    apply Forall_app. split; [exact F|]. constructor; [exact E|constructor].
  Qed.

  Lemma all_ok : mr_repr 64 mr_all /\ mr_reduced mr_all.
  Proof. exact (proj2 wf_empty). Qed.
  Lemma news_point v e : (M v = M e) -> news v (point e) mr_all.
  Proof.
    intros E. split; [intros D; cbn in *; auto|]. split; [apply all_ok|]. split; [apply all_ok|].
    intros z Hz. cbn [point i_min i_max]. rewrite <- E, Hz. cbn [lower upper]. repeat split; try lia. apply mr_in_all.
  Qed.

  Lemma learn_from_equal_ok k a b z k' : knows k -> M a = Fin z -> M b = Fin z -> plain_equal a -> consts_all in64 a -> consts_all in64 b ->
    learn_from_equal sbin k a b = Val k' -> knows k'.
  Proof.
    intros K Ea Eb Pl Ca Cb H. unfold learn_from_equal in H. apply bind_inv in H as (k1 & H1 & H).
    assert (Fact : Val (add_fact k (e_eq a b) (EConst 1)) = Val k1 -> knows k1).
    { intros Q. injection Q as <-. apply add_fact_ok; [exact K|]. unfold e_eq. rewrite make_bin_mean, Ea, Eb. cbn. rewrite Z.eqb_refl. reflexivity. }
    assert (K1 : knows k1).
    { destruct a as [|s f d| |o x y| | | |]; try exact (Fact H1).
      - refine (add_var_info_ok _ _ _ _ _ _ _ K _ H1). apply news_point. congruence.
      - destruct o; try exact (Fact H1). destruct x as [|s f d| | | | | |]; try (injection H1 as <-; exact K).
        destruct y as [| | | | | | |m]; try (injection H1 as <-; exact K). destruct b as [| | | | | | |c]; try (injection H1 as <-; exact K).
        injection Eb as ->.
        refine (add_var_info_ok _ _ _ _ _ _ _ K _ H1).
        assert (Hm : m <> 0) by (intros ->; exact (Pl _ eq_refl)).
        assert (in64 m) as Im by (apply Ca; apply sub_r; apply sub_refl).
        assert (in64 z) as Iz by (apply Cb; apply sub_refl). cbn [meaning xbin] in Ea.
        assert (exists x, M (EVar s f d) = Fin x /\ emod x m = z) as (x & Ex & Em).
        { change (xmod (M (EVar s f d)) (Fin m) = Fin z) in Ea. destruct (M (EVar s f d)) as [x| | |]; try discriminate Ea. injection Ea as Ea. eauto. }
        assert (B : 0 <= emod x m < Z.abs m) by (destruct (Z.lt_trichotomy m 0) as [Q|[Q|Q]]; [rewrite emod_neg by exact Q; pose proof (Z.mod_pos_bound x (- m)); lia | congruence | rewrite emod_pos by exact Q; pose proof (Z.mod_pos_bound x m); lia]). 
        split; [intros D; discriminate D|]. split; [split; [exact Im | exact Iz]|]. split; [left; cbn; lia|].
        intros z' Hz'. rewrite Ex in Hz'. injection Hz' as <-. split; [discriminate|]. split; [discriminate|].
        apply in_divide. rewrite <- Em. apply emod_divide. exact Hm. }
    destruct b as [|s f d| | | | | |]; try (injection H as <-; exact K1).
    refine (add_var_info_ok _ _ _ _ _ _ _ K1 _ H). apply news_point. congruence.
  Qed.

  (** a < b or a <= b is true *)
  Definition ordered (strict : bool) (a b : expr) : Prop := xbin (if strict then Less else LessEqual) (M a) (M b) = Fin 1.
  Lemma news_bounds v lo hi : (forall z, M v = Fin z -> (defined lo = true -> lower (M lo) z) /\ (defined hi = true -> upper (M hi) z)) -> news v (i_bounds lo hi) mr_all.
  Proof.
    intros H. split; [intros D; discriminate D|]. split; [apply all_ok|]. split; [apply all_ok|].
    intros z Hz. destruct (H z Hz). split; [|split]; auto. apply mr_in_all.
  Qed.
  Lemma learn_leaf_ok strict k a b k' : knows k -> ordered strict a b -> learn_leaf sbin strict k a b = Val k' -> knows k'.
  Proof.
    intros K O H. unfold learn_leaf in H. apply bind_inv in H as (k1 & H1 & H). apply bind_inv in H as (k2 & H2 & H).
    assert (O' : match M a, M b with Fin x, Fin y => if strict then x < y else x <= y | NInf, Fin _ | Fin _, PInf | NInf, PInf => True | _, _ => False end).
    { unfold ordered in O. destruct strict; cbn [xbin] in O; destruct (M a), (M b); cbn in O; try discriminate O; auto.
      - destruct (Z.ltb_spec z z0); [assumption|discriminate O].
      - destruct (Z.leb_spec z z0); [assumption|discriminate O]. }
    assert (K1 : knows k1).
    { destruct a as [|s f d| | | | | |]; try (injection H1 as <-; exact K).
      apply bind_inv in H1 as (hi & H1 & H3). refine (add_var_info_ok _ _ _ _ _ _ _ K _ H3). apply news_bounds. intros z Hz. split; [discriminate|]. intros _.
      rewrite Hz in O'. destruct strict.
      - apply sbin_ok in H1; [|auto]. cbn [xbin meaning] in H1. destruct (M b); try contradiction; cbn [xadd] in H1; destruct H1 as [H1|H1]; try discriminate H1; rewrite <- H1; cbn; [lia|exact I].
      - injection H1 as <-. destruct (M b); try contradiction; cbn; auto. }
    assert (K2 : knows k2).
    { destruct b as [|s f d| | | | | |]; try (injection H2 as <-; exact K1).
      apply bind_inv in H2 as (lo & H2 & H3). refine (add_var_info_ok _ _ _ _ _ _ _ K1 _ H3). apply news_bounds. intros z Hz. split; [|discriminate]. intros _.
      rewrite Hz in O'. destruct strict.
      - apply sbin_ok in H2; [|auto]. cbn [xbin meaning] in H2. destruct (M a); try contradiction; cbn [xadd] in H2; destruct H2 as [H2|H2]; try discriminate H2; rewrite <- H2; cbn; [lia|exact I].
      - injection H2 as <-. destruct (M a); try contradiction; cbn; auto. }
    destruct (is_var a || is_var b); injection H as <-; [exact K2|]. apply add_fact_ok; [exact K2|].
    destruct strict; unfold e_lt, e_le; rewrite make_bin_mean; exact O.
  Qed.
  Lemma learn_order_ok strict k a b k' : knows k -> plain_order a b -> ordered strict a b -> learn_from_order sbin strict k a b = Val k' -> knows k'.
  Proof.
    intros K (Pa & Pb) O H. apply (learn_leaf_ok strict k a b k' K O).
    assert (E : learn_from_order sbin strict k a b = learn_left sbin strict k a b).
    { destruct b as [| | |o x y| | | |]; try reflexivity. destruct o; try reflexivity. discriminate Pb. }
    rewrite E in H. destruct a as [| | |o x y| | | |]; try exact H. destruct o; try exact H. discriminate Pa.
  Qed.

  Lemma xbool2_and x y z : xbool2 andb x y = Fin z -> z <> 0 -> exists p q, x = Fin p /\ y = Fin q /\ p <> 0 /\ q <> 0.
  Proof.
    destruct x as [p| | |], y as [q| | |]; try discriminate. intros E Hz. injection E as <-. exists p, q. unfold truthy, of_bool in Hz.
    destruct (Z.eqb_spec p 0), (Z.eqb_spec q 0); cbn in Hz; auto; congruence.
  Qed.
  Lemma xbool2_or x y : xbool2 orb x y = Fin 0 -> x = Fin 0 /\ y = Fin 0.
  Proof.
    destruct x as [p| | |], y as [q| | |]; try discriminate. intros E. injection E as E. unfold truthy, of_bool in E.
    destruct (Z.eqb_spec p 0), (Z.eqb_spec q 0); cbn in E; try discriminate E. subst. auto.
  Qed.

  Lemma learn_ok : forall c pos k k', knows k -> consts_all in64 c -> learnable W r pos c -> holds_as W r pos c -> learn sbin pos k c = Val k' -> knows k'.
  Proof.
    induction c as [|s f d|lets body IHlets IHbody|o a b IHa IHb|a IHa|q t f IHq IHt IHf|fn t args IHargs|c0] using expr_ind'; intros pos k k' K C L (z & Ez & Hz) H.
    8: { destruct pos; injection H as <-; exact K. }
    5: { cbn [learn learnable meaning] in *.
      assert (H' : learn sbin (negb pos) k a = Val k') by (destruct pos; exact H).
      assert (L' : learnable W r (negb pos) a) by (destruct pos; exact L).
      refine (IHa (negb pos) k k' K _ L' _ H'); [intros v Sv; apply C; constructor; exact Sv|].
      destruct (M a) as [x| | |] eqn:Ea; try discriminate Ez. injection Ez as <-. exists x. split; [exact Ea|].
      destruct pos; cbn [negb]; destruct (Z.eqb_spec x 0); cbn [of_bool] in Hz; congruence. }
    4: { assert (Ca : consts_all in64 a) by (intros v Sv; apply C; apply sub_l; exact Sv).
      assert (Cb : consts_all in64 b) by (intros v Sv; apply C; apply sub_r; exact Sv).
      assert (FactT : Val (add_fact k (EBin o a b) (EConst 1)) = Val k' -> pos = true -> M (EBin o a b) = Fin 0 \/ M (EBin o a b) = Fin 1 -> knows k').
      { intros Q P D. injection Q as <-. apply add_fact_ok; [exact K|]. subst pos. destruct D as [D|D]; [congruence|]. rewrite D. reflexivity. }
      assert (FactF : Val (add_fact k (EBin o a b) (EConst 0)) = Val k' -> pos = false -> knows k').
      { intros Q P. injection Q as <-. apply add_fact_ok; [exact K|]. subst pos. rewrite Ez. subst z. reflexivity. }
      destruct pos, o; try exact (FactT H eq_refl L); try exact (FactF H eq_refl); cbn [learn learnable meaning xbin] in H, L, Ez.
      - (* == true *) destruct (M a) as [x| | |] eqn:Ea, (M b) as [y| | |] eqn:Eb; cbn in Ez; try discriminate Ez; injection Ez as <-; try congruence.
        destruct (Z.eqb_spec x y) as [->|]; [|cbn in Hz; congruence]. exact (learn_from_equal_ok k a b y k' K Ea Eb L Ca Cb H).
      - (* < true *) refine (learn_order_ok true k a b k' K L _ H). unfold ordered. cbn [xbin]. rewrite Ez. f_equal.
        destruct (M a), (M b); cbn in Ez; try discriminate Ez; injection Ez as <-; auto; try congruence. destruct (z0 <? z1); cbn in *; congruence.
      - (* <= true *) refine (learn_order_ok false k a b k' K L _ H). unfold ordered. cbn [xbin]. rewrite Ez. f_equal.
        destruct (M a), (M b); cbn in Ez; try discriminate Ez; injection Ez as <-; auto; try congruence. destruct (z0 <=? z1); cbn in *; congruence.
      - (* and *) apply bind_inv in H as (k1 & H1 & H). destruct (xbool2_and _ _ _ Ez Hz) as (p & q & Ea & Eb & Hp & Hq).
        refine (IHb true k1 k' (IHa true k k1 K Ca (proj1 L) _ H1) Cb (proj2 L) _ H); [exists p | exists q]; auto.
      - (* != false *) subst z. destruct (M a) as [x| | |] eqn:Ea, (M b) as [y| | |] eqn:Eb; cbn in Ez; try discriminate Ez.
        destruct (Z.eqb_spec x y) as [->|]; [|cbn in Ez; congruence]. exact (learn_from_equal_ok k a b y k' K Ea Eb L Ca Cb H).
      - (* < false *) subst z. refine (learn_order_ok false k b a k' K L _ H). unfold ordered. cbn [xbin].
        destruct (M a), (M b); cbn in Ez |- *; try discriminate Ez; auto. destruct (Z.ltb_spec z z0); [discriminate Ez|]. destruct (Z.leb_spec z0 z); [reflexivity|lia].
      - (* <= false *) subst z. refine (learn_order_ok true k b a k' K L _ H). unfold ordered. cbn [xbin].
        destruct (M a), (M b); cbn in Ez |- *; try discriminate Ez; auto. destruct (Z.leb_spec z z0); [discriminate Ez|]. destruct (Z.ltb_spec z0 z); [reflexivity|lia].
      - (* or *) subst z. apply bind_inv in H as (k1 & H1 & H). destruct (xbool2_or _ _ Ez) as (Ea & Eb).
        refine (IHb false k1 k' (IHa false k k1 K Ca (proj1 L) _ H1) Cb (proj2 L) _ H); exists 0; auto. }
    1: discriminate Ez.
    { destruct pos; cbn [learn as_constant] in H.
      - destruct f; cbn [is_plain_variable] in H; [injection H as <-; exact K|..]; injection H as <-; (apply add_fact_ok; [exact K|]);
          cbn [learnable] in L; (destruct L as [L|L]; [congruence|]); rewrite L; reflexivity.
      - injection H as <-. apply add_fact_ok; [exact K|]. rewrite Ez, Hz. reflexivity. }
    all: destruct pos; cbn [learn as_constant is_plain_variable learnable] in H, L; injection H as <-; apply add_fact_ok; try exact K;
      [destruct L as [L|L]; [congruence|]; rewrite L; reflexivity | rewrite Ez, Hz; reflexivity].
  Qed.
End Sound.

(** ** Everything learned is forgotten at the end of the scope *)
Section Scope.
  Variable sbin : binop -> expr -> expr -> res expr.

  Lemma restore_ext {A} (l : list (nat * option A)) m m' : (forall s, m s = m' s) -> forall s, restore m l s = restore m' l s.
  Proof.
    revert m m'. induction l as [|(t, v) l IH]; intros m m' E s; cbn [restore]; [apply E|]. apply IH. intros u. unfold map_set. destruct (u =? t)%nat; auto.
  Qed.
  Lemma restore_set {A} (l : list (nat * option A)) m t v : existsb (fun p => (fst p =? t)%nat) l = true ->
    forall s, restore (map_set m t v) l s = restore m l s.
  Proof.
    revert m. induction l as [|(u, w) l IH]; intros m H s; [discriminate H|]. cbn [restore existsb fst] in *.
    destruct (Nat.eqb_spec u t) as [->|N].
    - apply restore_ext. intros x. unfold map_set. destruct (x =? t)%nat; reflexivity.
    - cbn [orb] in H. rewrite <- (IH (map_set m u w) H s). apply restore_ext. intros x. unfold map_set.
      destruct (Nat.eqb_spec x u) as [->|]; [|reflexivity]. destruct (Nat.eqb_spec u t); [congruence|reflexivity].
  Qed.
  Lemma restore_push {A} (l : list (nat * option A)) m t v s : restore (map_set m t v) ((t, m t) :: l) s = restore m l s.
  Proof.
    cbn [restore]. apply restore_ext. intros x. unfold map_set. destruct (Nat.eqb_spec x t) as [->|]; reflexivity.
  Qed.

  Definition same_scope (k k' : knowledge) : Prop :=
    (forall s, restore (k_vars k') (k_vk k') s = restore (k_vars k) (k_vk k) s) /\ (forall s, restore (k_bufs k') (k_bk k') s = restore (k_bufs k) (k_bk k) s).
  Lemma same_refl k : same_scope k k.
  Proof. split; reflexivity. Qed.
  Lemma same_trans a b c : same_scope a b -> same_scope b c -> same_scope a c.
  Proof. intros (A & B) (C & D). split; intros s; [rewrite C; apply A | rewrite D; apply B]. Qed.
  Lemma same_fact k a b : same_scope k (add_fact k a b).
  Proof. split; reflexivity. Qed.
  Lemma same_var k s f d b a k' : add_var_info sbin k s f d b a = Val k' -> same_scope k k'.
  Proof.
    intros H. assert (D : f = f_none \/ f <> f_none) by (destruct f; auto; right; discriminate). destruct D as [->|Nf].
    - unfold add_var_info in H. apply bind_inv in H as (i & H1 & H). injection H as <-. split; intros t; [apply restore_push|reflexivity].
    - rewrite add_field_eq in H by exact Nf. destruct (learned_nothing (pure_interval b) a); [injection H as <-; apply same_refl|].
      apply bind_inv in H as (info & H1 & H). injection H as <-. split; intros t; [reflexivity|]. cbn [k_bufs k_bk].
      destruct (existsb (fun p => (fst p =? s)%nat) (k_bk k)) eqn:E; [apply restore_set; exact E | apply restore_push].
  Qed.
  Lemma same_equal k a b k' : learn_from_equal sbin k a b = Val k' -> same_scope k k'.
  Proof.
    intros H. unfold learn_from_equal in H. apply bind_inv in H as (k1 & H1 & H).
    assert (same_scope k k1) as A.
    { destruct a as [|s f d| |o x y| | | |]; try (injection H1 as <-; apply same_fact); [exact (same_var _ _ _ _ _ _ _ H1)|].
      destruct o; try (injection H1 as <-; apply same_fact). destruct x as [|s f d| | | | | |]; try (injection H1 as <-; apply same_refl).
      destruct y as [| | | | | | |m]; try (injection H1 as <-; apply same_refl). destruct b as [| | | | | | |c]; try (injection H1 as <-; apply same_refl).
      exact (same_var _ _ _ _ _ _ _ H1). }
    refine (same_trans _ _ _ A _). destruct b as [|s f d| | | | | |]; try (injection H as <-; apply same_refl). exact (same_var _ _ _ _ _ _ _ H).
  Qed.
  Lemma same_leaf strict k a b k' : learn_leaf sbin strict k a b = Val k' -> same_scope k k'.
  Proof.
    intros H. unfold learn_leaf in H. apply bind_inv in H as (k1 & H1 & H). apply bind_inv in H as (k2 & H2 & H).
    assert (same_scope k k1) as A.
    { destruct a; try (injection H1 as <-; apply same_refl). apply bind_inv in H1 as (x & _ & H1). exact (same_var _ _ _ _ _ _ _ H1). }
    assert (same_scope k1 k2) as B.
    { destruct b; try (injection H2 as <-; apply same_refl). apply bind_inv in H2 as (x & _ & H2). exact (same_var _ _ _ _ _ _ _ H2). }
    refine (same_trans _ _ _ (same_trans _ _ _ A B) _). destruct (is_var a || is_var b); injection H as <-; [apply same_refl | apply same_fact].
  Qed.
  Lemma same_left strict a : forall k b k', learn_left sbin strict k a b = Val k' -> same_scope k k'.
  Proof.
    induction a as [|s f d|lets body IHlets IHbody|o x y IHx IHy|x IHx|q t f IHq IHt IHf|fn t args IHargs|c0] using expr_ind'; intros k b k' H; cbn [learn_left] in H; try exact (same_leaf _ _ _ _ _ H).
    destruct o; try exact (same_leaf _ _ _ _ _ H). cbn [learn_left] in H. apply bind_inv in H as (k1 & H1 & H).
    exact (same_trans _ _ _ (IHx _ _ _ H1) (IHy _ _ _ H)).
  Qed.
  Lemma same_order strict b : forall k a k', learn_from_order sbin strict k a b = Val k' -> same_scope k k'.
  Proof.
    induction b as [|s f d|lets body IHlets IHbody|o x y IHx IHy|x IHx|q t f IHq IHt IHf|fn t args IHargs|c0] using expr_ind'; intros k a k' H; cbn [learn_from_order] in H; try exact (same_left _ _ _ _ _ H).
    destruct o; try exact (same_left _ _ _ _ _ H). cbn [learn_from_order] in H. apply bind_inv in H as (k1 & H1 & H).
    exact (same_trans _ _ _ (IHx _ _ _ H1) (IHy _ _ _ H)).
  Qed.
  Lemma same_learn c : forall pos k k', learn sbin pos k c = Val k' -> same_scope k k'.
  Proof.
    induction c as [|s f d|lets body IHlets IHbody|o a b IHa IHb|a IHa|q t f IHq IHt IHf|fn t args IHargs|c0] using expr_ind'; intros pos k k' H.
    - destruct pos; injection H as <-; apply same_fact.
    - destruct pos; cbn [learn as_constant] in H; [destruct f; cbn [is_plain_variable] in H|]; injection H as <-; try apply same_fact; apply same_refl.
    - destruct pos; injection H as <-; apply same_fact.
    - destruct pos, o; try (injection H as <-; apply same_fact); cbn [learn] in H;
        try exact (same_equal _ _ _ _ H); try exact (same_order _ _ _ _ _ H); apply bind_inv in H as (k1 & H1 & H);
        exact (same_trans _ _ _ (IHa _ _ _ H1) (IHb _ _ _ H)).
    - refine (IHa (negb pos) k k' _). destruct pos; exact H.
    - destruct pos; injection H as <-; apply same_fact.
    - destruct pos; injection H as <-; apply same_fact.
    - destruct pos; injection H as <-; apply same_refl.
  Qed.
End Scope.
