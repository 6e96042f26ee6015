(** The simplifier preserves values: induction on the fuel. *)
From Coq Require Import ZArith List Bool Lia.
From Verif Require Import Arith_Model Arith_Spec Arith_Proofs ModRem_Model ModRem_Proofs Buf_Model Expr_Model Expr_Spec Expr_Proofs Match_Model Match_Proofs
  Rewrite_Model Rewrite_Proofs Simplify_Model Interval_Model Interval_Spec BoundsOf_Model BoundsOf_Spec BoundsOf_Proofs
  Deps_Model Subst_Model SubstMean_Proofs Knowledge_Model Knowledge_Spec Knowledge_Proofs Simplifier_Model Simplifier_Spec.
Import ListNotations.
Open Scope Z_scope.

Lemma euclid_pos a b d v : 0 < b -> euclidean_mod 64 a b d = Val v -> 0 <= v < b /\ (b | a - v).
Proof.
  intros B H. unfold euclidean_mod in H. destruct (Z.eqb_spec b 0); [lia|]. apply bind_inv in H as (m & Hm & H).
  unfold crem in Hm. destruct (Z.eqb_spec b 0); [lia|]. destruct (in_range 64 (Z.quot a b)); [|discriminate]. injection Hm as <-.
  pose proof (Z.quot_rem' a b) as Q. pose proof (Z.rem_bound_abs a b ltac:(lia)) as R.
  destruct (Z.leb_spec 0 (Z.rem a b)).
  - injection H as <-. split; [lia|]. exists (Z.quot a b). lia.
  - destruct (Z.ltb_spec b 0); [lia|]. apply chk_inv in H as (-> & _). split; [lia|]. exists (Z.quot a b - 1). lia.
Qed.
Lemma nothing_defined e i : nothing = Val (e, i) -> e = EUndef. Proof. intros H. injection H as <- _. reflexivity. Qed.

Lemma ediv_exact v c : c <> 0 -> ediv (v * c) c = v.
Proof. intros N. destruct (Z.lt_trichotomy c 0) as [L|[L|L]]; [|contradiction|].
  - rewrite ediv_neg by lia. replace (v * c) with (v * - (- c)) by lia. rewrite Z.opp_involutive. replace (v * c) with ((- v) * (- c)) by lia. rewrite Z.div_mul; lia.
  - rewrite ediv_pos by lia. apply Z.div_mul; lia.
Qed.

Lemma xbool2_bad f x : xbool2 f x Bad = Bad. Proof. destruct x; reflexivity. Qed.

Section Sound.
  Variable W : world.
  Variable r : env.
  Variable P : prims.
  Hypothesis OK : prims_sound W r P.
  Hypothesis sane : buffers_sane W.
  Notation M := (meaning W r).
  Notation enc := (encloses W r).
  Notation truth := (truth_ends W r).
  Notation good := (sound_result W r).
  Notation sok := (state_ok W r).

  Lemma fin_defined e z : M e = Fin z -> defined e = true. Proof. destruct e; cbn; congruence. Qed.
  Lemma exact e x z : refines x (M e) -> x = Fin z -> M e = Fin z.
  Proof. intros [->|<-] ?; congruence. Qed.
  Lemma truth_iff i v w : truth i v -> (v = 0 <-> w = 0) -> truth i w.
  Proof. intros (p & q & A & B & C & D) E. exists p, q. split; [exact A|]. split; [exact B|]. split; intros; tauto. Qed.
  Lemma truth_point e v : M e = Fin v -> truth (point e) v.
  Proof. intros E. exists v, v. cbn [point i_min i_max]. tauto. Qed.
  Lemma enc_fin e v : M e = Fin v -> enc (point e) v.
  Proof. intros E. split; cbn [point i_min i_max]; rewrite E; cbn; lia. Qed.
  Lemma good_point e al z : M e = Fin z -> mr_in al z -> forall k, good e (Info (point e) al k) z.
  Proof. intros E A k. split; [exact E|]. split; [apply enc_fin; exact E|]. split; [exact A|]. intros _. apply truth_point. exact E. Qed.
  Lemma good_weak e i z k : good e i z -> good e (Info (x_bounds i) mr_all k) z.
  Proof. intros (A & B & _ & D). split; [exact A|]. split; [exact B|]. split; [apply mr_in_all|exact D]. Qed.

  Lemma ensure_ends i : i_min (ensure_is_point i) = i_min i /\ i_max (ensure_is_point i) = i_max i.
  Proof.
    unfold ensure_is_point. destruct (negb (i_point i) && match_expr (i_min i) (i_max i)) eqn:E; [|auto].
    apply andb_true_iff in E as (_ & E). apply match_eq in E. cbn [point i_min i_max]. auto.
  Qed.
  Lemma set_result_ok e i e' i' z : set_result e i = Val (e', i') -> good e i z -> good e' i' z.
  Proof.
    intros H G. unfold set_result in H. rewrite (fin_defined _ _ (proj1 G)) in H. injection H as <- <-.
    destruct G as (A & B & C & D). destruct (ensure_ends (x_bounds i)) as (E1 & E2). split; [exact A|]. split; [|split; [exact C|]].
    - unfold encloses in *. cbn [x_bounds]. rewrite E1, E2. exact B.
    - intros K. destruct (D K) as (p & q & T). exists p, q. cbn [x_bounds]. rewrite E1, E2. exact T.
  Qed.

  (** *** trim_bounds_using_alignment *)
  Lemma trim_min_ok al e e' z : 1 < modulus al -> mr_in al z -> trim_min al e = Val e' -> lower (M e) z -> lower (M e') z.
  Proof.
    intros Hm (q & A) H L. unfold trim_min in H. destruct e as [| | | | | | |c]; try (injection H as <-; exact L). cbn [as_constant] in H.
    apply bind_inv in H as (t & Ht & H). destruct (sub_with_overflow 64 (remainder al) t) as (o1, d) eqn:E1.
    apply bind_inv in H as (d' & Hd & H). destruct (add_with_overflow 64 c d') as (o2, n) eqn:E2.
    destruct o1; [injection H as <-; exact L|]. destruct o2; [injection H as <-; exact L|]. injection H as <-.
    pose proof (proj2 (sub_with_overflow_ok 64 (remainder al) t ltac:(lia))) as K1. rewrite E1 in K1. specialize (K1 eq_refl). cbn in K1.
    pose proof (proj2 (add_with_overflow_ok 64 c d' ltac:(lia))) as K2. rewrite E2 in K2. specialize (K2 eq_refl). cbn in K2.
    apply euclid_pos in Ht as (Rt & (u & Dt)); [|lia]. apply euclid_pos in Hd as (Rd & (v & Dd)); [|lia].
    cbn [meaning lower] in *. subst n d. assert (z = c + d' + modulus al * (q + v - u)) by lia. assert (0 <= q + v - u) by nia. nia.
  Qed.
  Lemma trim_max_ok al e e' z : 1 < modulus al -> mr_in al z -> trim_max al e = Val e' -> upper (M e) z -> upper (M e') z.
  Proof.
    intros Hm (q & A) H L. unfold trim_max in H. destruct e as [| | | | | | |c]; try (injection H as <-; exact L). cbn [as_constant] in H.
    apply bind_inv in H as (t & Ht & H). destruct (sub_with_overflow 64 t (remainder al)) as (o1, d) eqn:E1.
    apply bind_inv in H as (d' & Hd & H). destruct (sub_with_overflow 64 c d') as (o2, n) eqn:E2.
    destruct o1; [injection H as <-; exact L|]. destruct o2; [injection H as <-; exact L|]. injection H as <-.
    pose proof (proj2 (sub_with_overflow_ok 64 t (remainder al) ltac:(lia))) as K1. rewrite E1 in K1. specialize (K1 eq_refl). cbn in K1.
    pose proof (proj2 (sub_with_overflow_ok 64 c d' ltac:(lia))) as K2. rewrite E2 in K2. specialize (K2 eq_refl). cbn in K2.
    apply euclid_pos in Ht as (Rt & (u & Dt)); [|lia]. apply euclid_pos in Hd as (Rd & (v & Dd)); [|lia].
    cbn [meaning upper] in *. subst n d. assert (z = c - d' + modulus al * (q - v - u)) by lia. assert (q - v - u <= 0) by nia. nia.
  Qed.
  Lemma repoint_const p i c z : enc i z -> as_constant (as_point (repoint P p i)) = Some c -> c = z.
  Proof.
    intros (L & U) H. unfold as_point, repoint in H. cbn [i_point i_min] in H.
    destruct (defined (i_min i) && match_expr (i_min i) (i_max i) && _) eqn:E; [|discriminate].
    apply andb_true_iff in E as (E & _). apply andb_true_iff in E as (_ & E). apply match_eq in E. rewrite <- E in U.
    destruct (i_min i) as [| | | | | | |c']; try discriminate. injection H as ->. cbn [meaning lower upper] in *. lia.
  Qed.
  Lemma trim_ok p b al i z : enc b z -> mr_in al z -> trim_bounds_using_alignment P p (Info b al EUndef) = Val i ->
    enc (x_bounds i) z /\ mr_in (x_align i) z.
  Proof.
    intros E A H. unfold trim_bounds_using_alignment in H. cbn [x_bounds x_align x_known] in H. apply bind_inv in H as (b' & Hb & H). injection H as <-. cbn [x_bounds x_align].
    assert (E' : enc b' z).
    { destruct (Z.eqb_spec (modulus al) 0) as [E0|].
      - injection Hb as <-. destruct A as (q & A). rewrite E0 in A. apply enc_fin. cbn [meaning]. f_equal. lia.
      - destruct (Z.ltb_spec 1 (modulus al)); [|injection Hb as <-; exact E].
        apply bind_inv in Hb as (lo & Hl & Hb). apply bind_inv in Hb as (hi & Hh & Hb). injection Hb as <-. destruct E as (L & U).
        split; cbn [i_min i_max]; [exact (trim_min_ok _ _ _ _ H A Hl L)|exact (trim_max_ok _ _ _ _ H A Hh U)]. }
    split; [exact E'|]. destruct (as_constant (as_point (repoint P p b'))) as [c|] eqn:Q; [|exact A].
    apply (repoint_const _ _ _ _ E') in Q as ->. exists 0. cbn [modulus remainder]. lia.
  Qed.

  (** *** proofs about constants *)
  Lemma attempt_ok i v q : truth i v -> attempt P i = Val (Some q) -> if q then v <> 0 else v = 0.
  Proof.
    intros (p & x & A & B & C & D) H. unfold attempt in H. apply bind_inv in H as (t & Ht & H). destruct t.
    - injection H as <-. apply C. destruct (ok_true _ _ _ OK _ Ht) as (_ & K). rewrite A in K. congruence.
    - apply bind_inv in H as (f & Hf & H). destruct f; [|discriminate]. injection H as <-.
      pose proof (ok_false _ _ _ OK _ Hf) as K. rewrite B in K. injection K as ->. destruct (Z.eq_dec v 0); tauto.
  Qed.
  Lemma strip_ok e : forall e' z, strip_boolean P e = Val e' -> M e = Fin z ->
    exists z', M e' = Fin z' /\ (z' = 0 <-> z = 0) /\ (e' = e \/ is_boolean e = true).
  Proof.
    induction e as [|s f d|lets body IHlets IHbody|o a b IHa IHb|a IHa|q t f IHq IHt IHf|fn t args IHargs|c0] using expr_ind'; intros e' z H E;
      try (injection H as <-; exists z; tauto).
    destruct o; try (injection H as <-; exists z; tauto). cbn [strip_boolean] in H.
    destruct (is_zero b) eqn:Zb.
    - destruct (p_visit P (EBin NotEqual a b)) eqn:V; [|discriminate]. destruct (ok_visit _ _ _ OK _ _ _ _ V E) as (x & y & Ex & Ey).
      destruct (IHa e' x H Ex) as (z' & E' & I & _). exists z'. split; [exact E'|]. split; [|right; reflexivity].
      apply is_zero_inv in Zb. subst b. cbn [meaning] in Ey. injection Ey as <-. cbn [meaning] in E. rewrite Ex, zop_fin in E. injection E as <-. cbn [zop].
      destruct (Z.eqb_spec x 0); split; intros; lia.
    - destruct (is_zero a); [discriminate|]. injection H as <-. exists z. tauto.
  Qed.

  Section Visit.
    Variable mut : path -> state -> expr -> res result.
    Hypothesis IH : forall p st e e' i z, sok st -> mut p st e = Val (e', i) -> M e = Fin z -> good e' i z.
    Hypothesis mut_undef : forall p st x, mut p st EUndef = Val x -> x = (EUndef, info_empty).
    Hypothesis mut_equal : forall p st a b x, a = EUndef \/ b = EUndef -> mut p st (EBin Equal a b) = Val x -> x = (EUndef, info_empty).

    Lemma closure_ok p e e' z : (y <- mut p empty_state e ;; Val (fst y)) = Val e' -> M e = Fin z -> M e' = Fin z.
    Proof.
      intros H E. apply bind_inv in H as ((e1, i) & H & K). injection K as <-.
      assert (S0 : sok empty_state) by (unfold state_ok, empty_state; cbn [s_vars s_bufs]; split; [|split; [|split]]; intros ? ? Q; discriminate Q).
      exact (proj1 (IH _ _ _ _ _ _ S0 H E)).
    Qed.

    Lemma boolean_ok p st e e' i z : sok st -> mutate_boolean P mut p st e = Val (e', i) -> M e = Fin z ->
      exists z', M e' = Fin z' /\ (z' = 0 <-> z = 0) /\ truth (x_bounds i) z'.
    Proof.
      intros K H E. unfold mutate_boolean in H. apply bind_inv in H as ((e1, i1) & H1 & H). apply bind_inv in H as (e2 & H2 & H).
      destruct (IH _ _ _ _ _ _ K H1 E) as (E1 & B1 & _ & T1). destruct (strip_ok _ _ _ H2 E1) as (z' & E2 & I & S).
      destruct (is_boolean e2) eqn:Bo.
      - injection H as <- <-. exists z'. split; [exact E2|]. split; [exact I|].
        apply truth_iff with z; [|tauto]. apply T1. destruct S as [<-|S]; assumption.
      - apply bind_inv in H as (b & Hb & H). injection H as <- <-. exists z'. split; [exact E2|]. split; [exact I|]. cbn [x_bounds].
        destruct (ok_bounds_bin _ _ _ OK _ _ NotEqual _ _ _ _ z 0 eq_refl Hb) as (_ & T).
        + intros; eapply closure_ok; eauto.
        + discriminate.
        + exact B1.
        + apply enc_fin. reflexivity.
        + specialize (T eq_refl). apply truth_iff with (w := z') in T.
          * destruct T as (x & y & T). exists x, y. exact T.
          * cbn [zop]. destruct (Z.eqb_spec z 0); split; intros; lia.
    Qed.
    Lemma proving_ok st : sok st -> sok (State (s_vars st) (s_bufs st) true). Proof. exact (fun x => x). Qed.
    Lemma where_ok p st e i z : sok st -> where_true P mut p st e = Val i -> M e = Fin z -> exists z', (z' = 0 <-> z = 0) /\ truth i z'.
    Proof.
      intros K H E. apply bind_inv in H as ((e1, i1) & H & Q). injection Q as <-.
      destruct (boolean_ok _ _ _ _ _ _ (proving_ok _ K) H E) as (z' & _ & I & T). exists z'. auto.
    Qed.
    Lemma prove_true_ok p st e z : sok st -> prove_true P mut p st e = Val true -> M e = Fin z -> z <> 0.
    Proof.
      intros K H E. apply bind_inv in H as (i & H & Q). destruct (where_ok _ _ _ _ _ K H E) as (z' & I & (x & y & A & B & C & D)).
      destruct (ok_true _ _ _ OK _ Q) as (_ & T). rewrite A in T. assert (x <> 0) by congruence. tauto.
    Qed.
    Lemma prove_false_ok p st e z : sok st -> prove_false P mut p st e = Val true -> M e = Fin z -> z = 0.
    Proof.
      intros K H E. apply bind_inv in H as (i & H & Q). destruct (where_ok _ _ _ _ _ K H E) as (z' & I & (x & y & A & B & C & D)).
      pose proof (ok_false _ _ _ OK _ Q) as T. rewrite B in T. injection T as ->. destruct (Z.eq_dec z 0); tauto.
    Qed.
    Lemma attempt_to_prove_ok p st e z q : sok st -> attempt_to_prove P mut p st e = Val (Some q) -> M e = Fin z -> if q then z <> 0 else z = 0.
    Proof.
      intros K H E. apply bind_inv in H as (i & H & Q). destruct (where_ok _ _ _ _ _ K H E) as (z' & I & T).
      pose proof (attempt_ok _ _ _ T Q). destruct q; tauto.
    Qed.

    (** *** variables and fields *)
    Lemma symbol_ok st s p : sok st -> r s = Fin p -> r (visit_symbol st s) = Fin p.
    Proof.
      intros (_ & V & _) E. unfold visit_symbol. destruct (s_vars st s) as [i|] eqn:Ei; [|exact E].
      destruct (V s i Ei p E) as (_ & _ & _ & K). destruct (x_known i) as [|s' f d| | | | | |]; try exact E. destruct f; try exact E.
      exact (K eq_refl).
    Qed.
    Lemma field_inv s f d z : f <> f_none -> M (EVar s f d) = Fin z -> exists p b, r s = Fin p /\ w_buf W p = Some b /\ z = field_value b f d p.
    Proof.
      intros N E. cbn [meaning] in E. destruct f; [contradiction| | | | | | |]; destruct (r s) as [p| | |]; try discriminate;
        destruct (w_buf W p) as [b|] eqn:Eb; try discriminate; injection E as <-; exists p, b; auto.
    Qed.
    Lemma field_mean s s' f d : f <> f_none -> r s' = r s -> M (EVar s' f d) = M (EVar s f d).
    Proof. intros N E. cbn [meaning]. destruct f; [contradiction| | | | | | |]; rewrite E; reflexivity. Qed.
    Lemma elem_dim s d d' : M (EVar s f_elem_size d) = M (EVar s f_elem_size d'). Proof. reflexivity. Qed.
    Lemma value_ok i v z : info_wf i -> info_holds W r v i -> M v = Fin z -> defined (info_value i) = true -> M (info_value i) = Fin z.
    Proof.
      intros (Ok & _) H E D. destruct (H z E) as (L & U & _ & K). unfold info_value in *. destruct (defined (x_known i)) eqn:Dk; [auto|].
      unfold as_point in *. destruct (i_point (x_bounds i)) eqn:Pt; [|discriminate]. destruct (Ok Pt) as (E1 & D1). rewrite E1 in *.
      exact (lower_upper_eq _ _ (L D1) (U D1)).
    Qed.
    Lemma defaults_ok v i e lo z b : info_holds W r v i -> M v = Fin z -> M e = Fin z -> lower (M lo) z ->
      enc (Interval (or_else (i_min (x_bounds i)) lo) (or_else (i_max (x_bounds i)) e) b) z /\ mr_in (x_align i) z.
    Proof.
      intros H E Ee L. destruct (H z E) as (A & B & C & _). split; [|exact C]. split; cbn [i_min i_max]; unfold or_else.
      - destruct (defined (i_min (x_bounds i))); auto.
      - destruct (defined (i_max (x_bounds i))); auto. rewrite Ee. cbn; lia.
    Qed.
    Lemma dim_wf b n f : buffer_wf b -> (n < length (b_dims b))%nat -> info_wf (Knowledge_Model.dim_field (nth n (b_dims b) dim_empty) f).
    Proof.
      intros (_ & F) L. rewrite Forall_forall in F. destruct (F (nth n (b_dims b) dim_empty) (nth_In _ _ L)) as (A & B & C & D).
      destruct f; assumption.
    Qed.
    Lemma known_field_ok st s b f d z fi imp : sok st -> s_bufs st s = Some b -> f <> f_none -> M (EVar s f d) = Fin z -> known_field b f d = Val (fi, imp) ->
      (imp = true -> z = 0) /\ (forall i, fi = Some i -> info_wf i /\ exists v, M v = Fin z /\ info_holds W r v i).
    Proof.
      intros (_ & _ & Bw & Bh) Eb N E H. specialize (Bw s b Eb). destruct (Bh s b Eb) as (He & Hd & Hr).
      assert (Dm : is_dim_field f = true -> (if (0 <=? b_rank b) && (b_rank b <=? d) then Val (None, true)
          else if d <? Z.of_nat (length (b_dims b)) then
            if d <? 0 then UB else Val (Some (Knowledge_Model.dim_field (nth (Z.to_nat d) (b_dims b) dim_empty) f), false)
          else Val (None, false)) = Val (fi, imp) ->
          (imp = true -> z = 0) /\ (forall i, fi = Some i -> info_wf i /\ exists v, M v = Fin z /\ info_holds W r v i)).
      { clear H. intros If H. destruct ((0 <=? b_rank b) && (b_rank b <=? d)) eqn:Rk.
        - injection H as <- <-. split; [|discriminate]. intros _. apply andb_true_iff in Rk as (R0 & R1). apply Z.leb_le in R0, R1.
          destruct (field_inv _ _ _ _ N E) as (p & bf & Es & Ew & ->). specialize (Hr R0 (Z.of_nat (rank bf))).
          cbn [meaning] in Hr. rewrite Es, Ew in Hr. specialize (Hr eq_refl).
          assert (dim_int bf d = broadcast) as D. { unfold dim_int. destruct (Z.ltb_spec d 0); [reflexivity|]. unfold dim_at. apply nth_overflow. unfold rank in Hr. lia. }
          destruct f; try discriminate If; cbn [field_value]; rewrite D; reflexivity.
        - destruct (Z.ltb_spec d (Z.of_nat (length (b_dims b)))); [|injection H as <- <-; split; [discriminate|intros ? Q; discriminate Q]].
          destruct (Z.ltb_spec d 0); [discriminate|]. injection H as <- <-. split; [discriminate|]. intros i Q. injection Q as <-.
          assert (L : (Z.to_nat d < length (b_dims b))%nat) by lia. split; [apply dim_wf; assumption|].
          exists (EVar s f d). split; [exact E|]. specialize (Hd (Z.to_nat d) f If L). rewrite Z2Nat.id in Hd by lia. exact Hd. }
      destruct f; try contradiction; cbn [known_field] in H; try (apply Dm; [reflexivity|exact H]); injection H as <- <-; (split; [discriminate|]); try (intros ? Q; discriminate Q).
      intros i Q. injection Q as <-. split; [exact (proj1 Bw)|]. exists (EVar s f_elem_size (-1)). split; [exact E|exact He].
    Qed.
    Lemma visit_field_ok p st s f d e' i z : f <> f_none -> sok st -> visit_field mut p st s f d = Val (e', i) -> M (EVar s f d) = Fin z -> good e' i z.
    Proof.
      intros N K H E. unfold visit_field in H. destruct (field_inv _ _ _ _ N E) as (pt & bf & Es & Ew & Ez).
      pose proof (symbol_ok _ _ _ K Es) as Es'. set (s' := visit_symbol st s) in *.
      assert (E' : M (EVar s' f d) = Fin z) by (rewrite (field_mean s s') by congruence; exact E).
      apply bind_inv in H as ((fi, imp) & Hk & H).
      assert (Q : (imp = true -> z = 0) /\ (forall i, fi = Some i -> info_wf i /\ exists v, M v = Fin z /\ info_holds W r v i)).
      { destruct (s_bufs st s') as [b|] eqn:Eb; [eapply known_field_ok; eauto|]. injection Hk as <- <-. split; [discriminate|intros ? Q; discriminate Q]. }
      destruct Q as (Qi & Qf). destruct imp.
      { rewrite (Qi eq_refl). refine (IH _ _ _ _ _ _ K H eq_refl). }
      destruct (defined (match fi with Some i => info_value i | None => EUndef end) && _ && _) eqn:C.
      { apply andb_true_iff in C as (C & _). apply andb_true_iff in C as (C & _). destruct fi as [j|]; [|discriminate].
        destruct (Qf j eq_refl) as (Wf & v & Ev & Hv). exact (IH _ _ _ _ _ _ K H (value_ok _ _ _ Wf Hv Ev C)). }
      apply bind_inv in H as (j & Hj & H). refine (set_result_ok _ _ _ _ _ H _). injection Hj as <-.
      assert (Lo : lower (M (match f with f_rank | f_elem_size => EConst 0 | _ => EVar s' f d end)) z).
      { destruct f; try (rewrite E'; cbn; lia); cbn [meaning lower]; rewrite Ez; cbn [field_value]; [lia|]. exact (sane _ _ Ew). }
      assert (NB : is_boolean (EVar s' f d) = true -> False) by discriminate.
      destruct fi as [j|].
      - destruct (Qf j eq_refl) as (Wf & v & Ev & Hv). destruct (defaults_ok v j (EVar s' f d) _ z (i_point (x_bounds j)) Hv Ev E' Lo) as (A & B).
        split; [exact E'|]. split; [exact A|]. split; [exact B|]. intros Q. destruct (NB Q).
      - split; [exact E'|]. split; [|split; [apply mr_in_all|intros Q; destruct (NB Q)]]. split; cbn [x_bounds i_min i_max i_undef or_else defined]; [exact Lo|].
        rewrite E'. cbn; lia.
    Qed.
    Lemma visit_variable_ok p st s d e' i z : sok st -> visit_variable mut p st s d = Val (e', i) -> M (EVar s f_none d) = Fin z -> good e' i z.
    Proof.
      intros K H E. unfold visit_variable in H. destruct (s_vars st s) as [j|] eqn:Ej.
      - destruct K as (Vw & V & Bb). pose proof (V s j Ej) as Hj. destruct (Hj z E) as (L & U & A & Kn).
        destruct (defined (x_known j)) eqn:Dk; [exact (IH _ _ _ _ _ _ (conj Vw (conj V Bb)) H (Kn eq_refl))|].
        destruct (as_constant (as_point (x_bounds j))) as [c|] eqn:C.
        + refine (set_result_ok _ _ _ _ _ H _). apply good_point; [|apply mr_in_all]. unfold as_point in C.
          destruct (i_point (x_bounds j)) eqn:Pt; [|discriminate]. destruct (proj1 (Vw s j Ej) Pt) as (E1 & D1). rewrite E1 in *.
          exact (lower_upper_eq _ _ (L D1) (U D1)).
        + refine (set_result_ok _ _ _ _ _ H _).
          destruct (defaults_ok _ j (EVar s f_none d) (EVar s f_none d) z (i_point (x_bounds j) || (negb (defined (i_min (x_bounds j))) && negb (defined (i_max (x_bounds j))))) Hj E E) as (B & D); [rewrite E; cbn; lia|].
          split; [exact E|]. split; [exact B|]. split; [exact D|discriminate].
      - refine (set_result_ok _ _ _ _ _ H _). apply good_point; [exact E|apply mr_in_all].
    Qed.

    (** *** min and max *)
    Lemma cmp_ok x y v w : (e <- p_bin P Less x y ;; p_false P e) = Val true -> lower (M x) v -> upper (M y) w -> w <= v.
    Proof.
      intros H L U. apply bind_inv in H as (e & He & H). pose proof (ok_bin _ _ _ OK _ _ _ _ He) as R. rewrite (ok_false _ _ _ OK _ H) in R.
      cbn [xbin] in R. destruct (M x) as [a| | |]; cbn [lower] in L; try tauto; destruct (M y) as [b| | |]; cbn [upper] in U; try tauto;
        destruct R as [R|R]; cbn [xcmp of_bool] in R; try discriminate R. injection R as R. destruct (Z.ltb_spec a b); cbn [of_bool] in R; lia.
    Qed.
    Lemma fin_lower e v : M e = Fin v -> lower (M e) v. Proof. intros ->. cbn; lia. Qed.
    Lemma fin_upper e v : M e = Fin v -> upper (M e) v. Proof. intros ->. cbn; lia. Qed.
    Lemma less_equal_ok a a_max b b_min va vb : less_equal P a a_max b b_min = Val true -> M a = Fin va -> M b = Fin vb ->
      upper (M a_max) va -> lower (M b_min) vb -> va <= vb.
    Proof.
      intros H A B U L. unfold less_equal, or_false in H. apply bind_inv in H as (q & Hq & H). destruct q; [exact (cmp_ok _ _ _ _ Hq L U)|].
      apply bind_inv in H as (q & Hq' & H). destruct q.
      - destruct (match_expr a a_max); [discriminate|]. exact (cmp_ok _ _ _ _ Hq' L (fin_upper _ _ A)).
      - destruct (match_expr b b_min); [discriminate|]. exact (cmp_ok _ _ _ _ H (fin_lower _ _ B) U).
    Qed.
    Lemma same_eq p a b : same_as P p a b = true -> a = b.
    Proof. intros H. apply andb_true_iff in H as (H & _). apply match_eq. exact H. Qed.
    Lemma bin_value o a b e x y : p_bin P o a b = Val e -> M a = Fin x -> M b = Fin y -> M e = Fin (zop o x y).
    Proof. intros H A B. pose proof (ok_bin _ _ _ OK _ _ _ _ H) as R. rewrite A, B, zop_fin in R. exact (exact _ _ _ R eq_refl). Qed.

    Lemma visit_min_max_ok p st o ea eb e' i z : sok st -> o = Min \/ o = Max -> p_visit P (EBin o ea eb) = true ->
      visit_min_max P mut p st o ea eb = Val (e', i) -> M (EBin o ea eb) = Fin z -> good e' i z.
    Proof.
      intros K O V H E. destruct (ok_visit _ _ _ OK _ _ _ _ V E) as (x & y & Ex & Ey). unfold visit_min_max in H.
      apply bind_inv in H as ((a, ai) & Ha & H). apply bind_inv in H as ((b, bi) & Hb & H).
      destruct (IH _ _ _ _ _ _ K Ha Ex) as (Ea & Ba & Aa & Ta). destruct (IH _ _ _ _ _ _ K Hb Ey) as (Eb & Bb & Ab & Tb).
      assert (Ez : z = zop o x y) by (cbn [meaning] in E; rewrite Ex, Ey, zop_fin in E; congruence). clear E.
      rewrite (fin_defined _ _ Ea), (fin_defined _ _ Eb) in H. cbn [negb orb] in H.
      apply bind_inv in H as (ab & Hab & H). destruct ab.
      { pose proof (less_equal_ok _ _ _ _ _ _ Hab Ea Eb (proj2 Ba) (proj1 Bb)) as Le.
        destruct O as [->| ->]; cbn [zop] in Ez; refine (set_result_ok _ _ _ _ _ H _).
        - replace z with x by lia. split; [|split]; auto.
        - replace z with y by lia. split; [|split]; auto. }
      apply bind_inv in H as (ba & Hba & H). destruct ba.
      { pose proof (less_equal_ok _ _ _ _ _ _ Hba Eb Ea (proj2 Bb) (proj1 Ba)) as Le.
        destruct O as [->| ->]; cbn [zop] in Ez; refine (set_result_ok _ _ _ _ _ H _).
        - replace z with y by lia. split; [|split]; auto.
        - replace z with x by lia. split; [|split]; auto. }
      apply bind_inv in H as (e & He & H). pose proof (bin_value _ _ _ _ _ _ He Ea Eb) as Ee. rewrite <- Ez in Ee.
      destruct (same_as P p e (EBin o ea eb)) eqn:Sa; [|exact (IH _ _ _ _ _ _ K H Ee)].
      apply same_eq in Sa. apply bind_inv in H as (bo & Hbo & H). apply bind_inv in H as (al & Hal & H).
      refine (set_result_ok _ _ _ _ _ H _).
      assert (Lo : logic_op o = false) by (destruct O as [->| ->]; reflexivity).
      assert (Ar : arith_op o = false) by (destruct O as [->| ->]; reflexivity).
      destruct (ok_bounds_bin _ _ _ OK _ _ _ _ _ _ _ x y Lo Hbo) as (B & _); auto.
      { intros; eapply closure_ok; eauto. }
      { rewrite Ar. discriminate. }
      rewrite <- Ez in B. split; [exact Ee|]. split; [exact B|]. split.
      - apply (ok_union _ _ _ OK _ _ _ _ _ Ar Hal). cbn [x_align]. destruct O as [->| ->]; cbn [zop] in Ez.
        + destruct (Z.min_spec x y) as [(_ & Q)|(_ & Q)]; rewrite Ez, Q; auto.
        + destruct (Z.max_spec x y) as [(_ & Q)|(_ & Q)]; rewrite Ez, Q; auto.
      - intros Q. subst e. destruct O as [->| ->]; discriminate Q.
    Qed.

    (** *** arithmetic *)
    Lemma aligned_product_ok p st o a b e x y : sok st -> aligned_product mut p st o a b = Val (Some e) -> M a = Fin x -> M b = Fin y -> M e = Fin (zop o x y).
    Proof.
      intros K H A B. unfold aligned_product in H. destruct o; try discriminate. destruct b as [| | | | | | |c1]; try discriminate.
      destruct a as [| | |o da db| | | |]; try discriminate. destruct o; try discriminate. destruct db as [| | | | | | |c0]; try discriminate.
      destruct (Z.eqb_spec c0 0) as [|N]; [discriminate|]. apply bind_inv in H as ((q, qi) & Hq & H). cbn [fst snd] in H.
      destruct (Z.leb_spec (modulus (x_align qi)) 0); [discriminate|].
      apply bind_inv in H as (m & Hm & H). destruct (Z.eqb_spec m 0) as [->|]; [|discriminate]. cbn [negb] in H.
      apply bind_inv in H as (rm & Hr & H). destruct (Z.eqb_spec rm 0) as [->|]; [|discriminate]. injection H as <-.
      assert (Eu : exists u, M da = Fin u).
      { cbn [meaning xbin] in A. destruct (M da) as [u| | |]; [exists u; reflexivity| | |]; cbn [xdiv] in A; try discriminate; unfold xinf in A;
          [destruct (c0 =? 0), (0 <? c0)|destruct (- c0 =? 0), (0 <? - c0)]; discriminate. }
      destruct Eu as (u & Eu).
      destruct (IH _ _ _ _ _ _ K Hq Eu) as (Eq & _ & (k & Al) & _).
      cbn [meaning] in A, B. injection B as <-. rewrite Eu in A. cbn [xbin xdiv] in A. injection A as <-.
      assert (D : (c0 | u)).
      { unfold crem in Hm, Hr. destruct (Z.eqb_spec c0 0); [contradiction|].
        destruct (in_range 64 (Z.quot (modulus (x_align qi)) c0)); [|discriminate]. destruct (in_range 64 (Z.quot (remainder (x_align qi)) c0)); [|discriminate].
        injection Hm as Hm. injection Hr as Hr. apply Z.rem_divide in Hm; [|exact N]. apply Z.rem_divide in Hr; [|exact N].
        rewrite Al. apply Z.divide_add_r; [apply Z.divide_mul_l; exact Hm|exact Hr]. }
      destruct D as (v & ->). unfold e_div, e_mul. rewrite make_bin_mean. cbn [meaning]. rewrite make_bin_mean. cbn [meaning]. rewrite Eq.
      cbn [xbin xmul xdiv zop]. f_equal. rewrite (ediv_exact v c0 N). replace (v * c0 * c1) with (v * c1 * c0) by lia. rewrite (ediv_exact _ _ N). reflexivity.
    Qed.
    Lemma visit_binary_ok p st o ea eb e' i z : sok st -> arith_op o = true -> p_visit P (EBin o ea eb) = true ->
      visit_binary P mut p st o ea eb = Val (e', i) -> M (EBin o ea eb) = Fin z -> good e' i z.
    Proof.
      intros K O V H E. destruct (ok_visit _ _ _ OK _ _ _ _ V E) as (x & y & Ex & Ey). unfold visit_binary in H.
      apply bind_inv in H as ((a, ai) & Ha & H). apply bind_inv in H as ((b, bi) & Hb & H).
      destruct (IH _ _ _ _ _ _ K Ha Ex) as (Ea & Ba & Aa & Ta). destruct (IH _ _ _ _ _ _ K Hb Ey) as (Eb & Bb & Ab & Tb).
      assert (Ez : z = zop o x y) by (cbn [meaning] in E; rewrite Ex, Ey, zop_fin in E; congruence). clear E.
      rewrite (fin_defined _ _ Ea), (fin_defined _ _ Eb) in H. cbn [negb orb] in H.
      apply bind_inv in H as (m & Hm & H). destruct m as [e|].
      { apply (aligned_product_ok _ _ _ _ _ _ x y K) in Hm; auto. rewrite <- Ez in Hm. exact (IH _ _ _ _ _ _ K H Hm). }
      apply bind_inv in H as (rr & Hrr & H). destruct rr as [e|].
      { pose proof (ok_aligned _ _ _ OK _ _ _ _ _ _ _ Hrr Ea Eb Aa) as Ee. rewrite <- Ez in Ee. exact (IH _ _ _ _ _ _ K H Ee). }
      apply bind_inv in H as (e & He & H). pose proof (bin_value _ _ _ _ _ _ He Ea Eb) as Ee. rewrite <- Ez in Ee.
      destruct (same_as P p e (EBin o ea eb)) eqn:Sa; [|exact (IH _ _ _ _ _ _ K H Ee)].
      apply same_eq in Sa. apply bind_inv in H as (bo & Hbo & H). apply bind_inv in H as (al & Hal & H). apply bind_inv in H as (j & Hj & H).
      refine (set_result_ok _ _ _ _ _ H _).
      assert (Lo : logic_op o = false) by (destruct o; try discriminate; reflexivity).
      destruct (ok_bounds_bin _ _ _ OK _ _ _ _ _ _ _ x y Lo Hbo) as (B & _); auto.
      { intros; eapply closure_ok; eauto. }
      { intros _ ? ? Q. injection Q as <- <-. auto. }
      pose proof (ok_align _ _ _ OK _ _ _ _ _ _ O Hal Aa Ab) as A. rewrite <- Ez in A, B.
      destruct (trim_ok _ _ _ _ _ B A Hj) as (B' & A'). split; [exact Ee|]. split; [exact B'|]. split; [exact A'|].
      intros Q. subst e. destruct o; discriminate.
    Qed.
    Lemma visit_add_ok p st ea eb e' i z : sok st -> p_visit P (EBin Add ea eb) = true ->
      visit_add P mut p st ea eb = Val (e', i) -> M (EBin Add ea eb) = Fin z -> good e' i z.
    Proof.
      intros K V H E. unfold visit_add in H. destruct (as_constant eb) as [c|] eqn:C; [|exact (visit_binary_ok _ _ Add _ _ _ _ _ K eq_refl V H E)].
      apply bind_inv in H as (e & He & H). destruct (defined e) eqn:D; [|exact (visit_binary_ok _ _ Add _ _ _ _ _ K eq_refl V H E)].
      destruct eb as [| | | | | | |c']; try discriminate. injection C as ->. pose proof (ok_add_constant _ _ _ OK _ _ _ He D) as R.
      exact (IH _ _ _ _ _ _ K H (exact _ _ _ R E)).
    Qed.

    (** *** truth values *)
    Lemma logical_constant_ok v e' i z : logical_constant v = Val (e', i) -> z = of_bool v -> good e' i z.
    Proof. intros H ->. refine (set_result_ok _ _ _ _ _ H _). apply good_point; [reflexivity|apply mr_in_all]. Qed.
    Lemma zop_truth o x y x' y' : logic_op o = true -> (x' = 0 <-> x = 0) -> (y' = 0 <-> y = 0) -> zop o x' y' = zop o x y.
    Proof.
      intros L A B. destruct o; try discriminate; cbn [zop]; destruct (Z.eqb_spec x 0), (Z.eqb_spec y 0), (Z.eqb_spec x' 0), (Z.eqb_spec y' 0); tauto.
    Qed.
    Lemma zop_bool o x y v : logic_op o || compare_op o = true -> (if v : bool then zop o x y <> 0 else zop o x y = 0) -> zop o x y = of_bool v.
    Proof.
      intros L H. destruct o; try discriminate; cbn [zop] in *; destruct v; cbn [of_bool]; auto.
      - destruct (x =? y); congruence. - destruct (x =? y); congruence. - destruct (x <? y); congruence. - destruct (x <=? y); congruence.
      - destruct ((x =? 0) || (y =? 0)); congruence. - destruct ((x =? 0) && (y =? 0)); congruence.
    Qed.
    Lemma visit_logical_ok p st o ea eb e' i z : sok st -> logic_op o || compare_op o = true -> p_visit P (EBin o ea eb) = true ->
      visit_logical P mut p st o ea eb = Val (e', i) -> M (EBin o ea eb) = Fin z -> good e' i z.
    Proof.
      intros K O V H E. destruct (ok_visit _ _ _ OK _ _ _ _ V E) as (x & y & Ex & Ey). unfold visit_logical in H.
      change (match o with And | Or => true | _ => false end) with (logic_op o) in H.
      apply bind_inv in H as ((a, ai) & Ha & H). apply bind_inv in H as ((b, bi) & Hb & H).
      assert (Ez : z = zop o x y) by (cbn [meaning] in E; rewrite Ex, Ey, zop_fin in E; congruence). clear E.
      set (Q := fun i v => if logic_op o then truth i v else enc i v).
      assert (F : exists x' y', M a = Fin x' /\ M b = Fin y' /\ Q (x_bounds ai) x' /\ Q (x_bounds bi) y' /\ zop o x' y' = z).
      { unfold Q. destruct (logic_op o) eqn:L.
        - destruct (boolean_ok _ _ _ _ _ _ K Ha Ex) as (x' & Ea & Ia & Ta). destruct (boolean_ok _ _ _ _ _ _ K Hb Ey) as (y' & Eb & Ib & Tb).
          exists x', y'. repeat (split; [assumption|]). rewrite Ez. apply zop_truth; auto.
        - destruct (IH _ _ _ _ _ _ K Ha Ex) as (Ea & Ba & _). destruct (IH _ _ _ _ _ _ K Hb Ey) as (Eb & Bb & _). exists x, y. auto 6. }
      destruct F as (x' & y' & Ea & Eb & Qa & Qb & Ez').
      assert (Qp : forall e v, M e = Fin v -> Q (point e) v) by (unfold Q; intros; destruct (logic_op o); [apply truth_point|apply enc_fin]; assumption).
      assert (B : forall u w bo, p_bounds_bin P p (fun x => y <- mut (2 :: p)%nat empty_state x ;; Val (fst y)) o (Some (ea, eb)) u w = Val bo ->
        Q u x' -> Q w y' -> enc bo z /\ truth bo z).
      { intros u w bo Hbo Qu Qw. unfold Q in Qu, Qw. rewrite <- Ez'. destruct (logic_op o) eqn:L.
        - exact (ok_bounds_logic _ _ _ OK _ _ _ _ _ _ _ _ _ L Hbo Qu Qw).
        - assert (Ar : arith_op o = false) by (destruct o; try discriminate; reflexivity).
          assert (C : compare_op o = true) by (destruct o; try discriminate; reflexivity).
          destruct (ok_bounds_bin _ _ _ OK _ _ _ _ _ _ _ x' y' L Hbo) as (B1 & B2); auto.
          + intros; eapply closure_ok; eauto.
          + rewrite Ar. discriminate. }
      rewrite (fin_defined _ _ Ea), (fin_defined _ _ Eb) in H. cbn [negb orb] in H.
      apply bind_inv in H as (e & He & H). pose proof (bin_value _ _ _ _ _ _ He Ea Eb) as Ee. rewrite Ez' in Ee.
      destruct (same_as P p e (EBin o ea eb)) eqn:Sa; [|exact (IH _ _ _ _ _ _ K H Ee)]. apply same_eq in Sa.
      assert (Cn : forall bo v, truth bo z -> attempt P bo = Val (Some v) -> logical_constant v = Val (e', i) -> good e' i z).
      { intros bo v T At Hc. apply (logical_constant_ok v); [exact Hc|]. rewrite Ez. apply zop_bool; [exact O|]. rewrite <- Ez. exact (attempt_ok _ _ _ T At). }
      apply bind_inv in H as (bo & Hbo & H). destruct (B _ _ _ Hbo Qa Qb) as (B1 & B2).
      apply bind_inv in H as (q & Hq & H). destruct q as [v|]; [exact (Cn _ _ B2 Hq H)|].
      apply bind_inv in H as (bo1 & Hbo1 & H). destruct (B _ _ _ Hbo1 (Qp _ _ Ea) Qb) as (_ & B3). clear Hq.
      apply bind_inv in H as (q & Hq & H). destruct q as [v|]; [exact (Cn _ _ B3 Hq H)|].
      apply bind_inv in H as (bo2 & Hbo2 & H). destruct (B _ _ _ Hbo2 Qa (Qp _ _ Eb)) as (_ & B4). clear Hq.
      apply bind_inv in H as (q & Hq & H). destruct q as [v|]; [exact (Cn _ _ B4 Hq H)|].
      refine (set_result_ok _ _ _ _ _ H _). split; [exact Ee|]. split; [exact B1|]. split; [apply mr_in_all|]. intros _. exact B2.
    Qed.
    Lemma visit_not_ok p st ea e' i z : sok st -> visit_not P mut p st ea = Val (e', i) -> M (ENot ea) = Fin z -> good e' i z.
    Proof.
      intros K H E. unfold visit_not in H. apply bind_inv in H as ((a, ai) & Ha & H).
      assert (Ex : exists x, M ea = Fin x /\ z = znot x).
      { cbn [meaning] in E. destruct (M ea) as [x| | |]; try discriminate. exists x. split; [reflexivity|]. injection E as <-. unfold znot. destruct (x =? 0); reflexivity. }
      destruct Ex as (x & Ex & Ez). destruct (boolean_ok _ _ _ _ _ _ K Ha Ex) as (x' & Ea & Ia & Ta).
      assert (Ez' : z = znot x') by (rewrite Ez; unfold znot; destruct (Z.eqb_spec x 0), (Z.eqb_spec x' 0); tauto).
      rewrite (fin_defined _ _ Ea) in H. cbn [negb] in H. apply bind_inv in H as (q & Hq & H). destruct q as [v|].
      { apply (logical_constant_ok (negb v)); [exact H|]. pose proof (attempt_ok _ _ _ Ta Hq) as At. rewrite Ez'. unfold znot.
        destruct v, (Z.eqb_spec x' 0); cbn [negb of_bool]; tauto. }
      apply bind_inv in H as (e & He & H). pose proof (ok_not _ _ _ OK _ _ He) as R. rewrite Ea in R.
      assert (Ee : M e = Fin z). { apply (exact _ _ _ R). cbn [xnot]. rewrite Ez'. unfold znot. destruct (x' =? 0); reflexivity. }
      destruct (same_as P p e (ENot ea)) eqn:Sa; [|exact (IH _ _ _ _ _ _ K H Ee)]. apply same_eq in Sa.
      apply bind_inv in H as (bo & Hbo & H). refine (set_result_ok _ _ _ _ _ H _).
      destruct (ok_bounds_not _ _ _ OK _ _ _ _ _ x' Hbo Ex) as (B1 & B2); [tauto|exact Ta|]. rewrite <- Ez' in B1, B2.
      split; [exact Ee|]. split; [exact B1|]. split; [apply mr_in_all|]. intros _. exact B2.
    Qed.

    (** *** select *)
    Lemma apply_facts_ok l : Forall (fact_holds W r) l -> forall x y z, apply_facts P l x = Val y -> M x = Fin z -> M y = Fin z.
    Proof.
      induction 1 as [|(a, b) l F _ IHl]; intros x y z H E; cbn [apply_facts] in H; [injection H as <-; exact E|].
      apply bind_inv in H as (x1 & H1 & H). exact (IHl _ _ _ H (ok_subst _ _ _ OK _ _ _ _ _ H1 F E)).
    Qed.
    Lemma visit_branch_ok p st pos c e t ti vc z : sok st -> M c = Fin vc -> (if pos : bool then vc <> 0 else vc = 0) ->
      visit_branch P mut p st pos c e = Val (t, ti) -> M e = Fin z -> good t ti z.
    Proof.
      intros K C Hc H E. unfold visit_branch in H. apply bind_inv in H as (k & Hk & H).
      assert (Kn : knows W r k). { apply (ok_learn _ _ _ OK _ _ _ _ _ Hk); [exact K|]. exists vc. auto. }
      destruct Kn as (K1 & K2 & K3 & K4 & Fs).
      assert (K' : sok (State (k_vars k) (k_bufs k) (s_proving st))) by (split; [|split; [|split]]; assumption).
      apply bind_inv in H as ((t1, i1) & H1 & H). pose proof (IH _ _ _ _ _ _ K' H1 E) as G1.
      apply bind_inv in H as (l & Hl & H). pose proof (apply_facts_ok _ Fs _ _ _ Hl (proj1 G1)) as El.
      destruct (same_as P p l t1); [injection H as <- <-; exact G1|]. exact (IH _ _ _ _ _ _ K' H El).
    Qed.
    Lemma visit_select_ok p st ec et ef e' i z : sok st -> visit_select P mut p st ec et ef = Val (e', i) -> M (ESelect ec et ef) = Fin z -> good e' i z.
    Proof.
      intros K H E. unfold visit_select in H. apply bind_inv in H as ((c, ci) & Hc & H).
      assert (Ex : exists x, M ec = Fin x /\ M (if truthy x then et else ef) = Fin z).
      { cbn [meaning xselect] in E. destruct (M ec) as [x| | |]; try discriminate. exists x. split; [reflexivity|]. cbn [xselect] in E. destruct (truthy x); exact E. }
      destruct Ex as (x & Ex & Ev). destruct (boolean_ok _ _ _ _ _ _ K Hc Ex) as (x' & Ec & Ic & Tc).
      assert (Tr : truthy x = truthy x') by (unfold truthy; destruct (Z.eqb_spec x 0), (Z.eqb_spec x' 0); tauto). rewrite Tr in Ev. clear Tr.
      rewrite (fin_defined _ _ Ec) in H. cbn [negb] in H. apply bind_inv in H as (q & Hq & H). destruct q as [v|].
      { pose proof (attempt_ok _ _ _ Tc Hq) as At. refine (IH _ _ _ _ _ _ K H _). unfold truthy in Ev.
        destruct v, (Z.eqb_spec x' 0); cbn [negb] in Ev; tauto. }
      apply bind_inv in H as ((t, ti) & Ht & H). apply bind_inv in H as ((f, fi) & Hf & H).
      assert (Gt : x' <> 0 -> good t ti z).
      { intros N. unfold truthy in Ev. rewrite (proj2 (Z.eqb_neq x' 0) N) in Ev. exact (visit_branch_ok _ _ true _ _ _ _ _ _ K Ec N Ht Ev). }
      assert (Gf : x' = 0 -> good f fi z).
      { intros N. unfold truthy in Ev. rewrite (proj2 (Z.eqb_eq x' 0) N) in Ev. exact (visit_branch_ok _ _ false _ _ _ _ _ _ K Ec N Hf Ev). }
      assert (D : negb (defined t) && negb (defined f) = false).
      { destruct (Z.eq_dec x' 0) as [N|N]; [rewrite (fin_defined _ _ (proj1 (Gf N)))|rewrite (fin_defined _ _ (proj1 (Gt N)))]; [apply andb_false_r|reflexivity]. }
      rewrite D in H. apply bind_inv in H as (e & He & H). pose proof (ok_select _ _ _ OK _ _ _ _ He) as R. rewrite Ec in R.
      assert (Ee : M e = Fin z).
      { apply (exact _ _ _ R). cbn [xselect]. unfold truthy. destruct (Z.eqb_spec x' 0) as [N|N]; [exact (proj1 (Gf N))|exact (proj1 (Gt N))]. }
      destruct (same_as P p e (ESelect ec et ef)) eqn:Sa; [|exact (IH _ _ _ _ _ _ K H Ee)]. apply same_eq in Sa.
      apply bind_inv in H as (bo & Hbo & H). apply bind_inv in H as (al & Hal & H). apply bind_inv in H as (j & Hj & H).
      refine (set_result_ok _ _ _ _ _ H _).
      assert (B : enc bo z).
      { apply (ok_bounds_select _ _ _ OK _ _ _ _ _ _ _ Hbo Tc); intros N; [exact (proj1 (proj2 (Gt N)))|exact (proj1 (proj2 (Gf N)))]. }
      assert (A : mr_in al z).
      { apply (ok_union _ _ _ OK Min _ _ _ _ eq_refl Hal). destruct (Z.eq_dec x' 0) as [N|N]; [right; apply (Gf N)|left; apply (Gt N)]. }
      destruct (trim_ok _ _ _ _ _ B A Hj) as (B' & A'). split; [exact Ee|]. split; [exact B'|]. split; [exact A'|].
      intros Q. subst e. discriminate.
    Qed.

    (** *** calls *)
    Notation pair a := (defined a, M a).
    Definition keeps (a a' : expr) : Prop := (a = EUndef -> a' = EUndef) /\ (forall z, M a = Fin z -> M a' = Fin z).
    Lemma undefined_eq a : defined a = false -> a = EUndef. Proof. destruct a; discriminate || reflexivity. Qed.
    Lemma mutate_args_ok p st l : sok st -> forall n xs, mutate_args mut p n st l = Val xs ->
      Forall2 keeps l (map fst xs) /\ Forall2 (fun a x => forall z, M a = Fin z -> good (fst x) (snd x) z) l xs.
    Proof.
      intros K. induction l as [|a l IHl]; intros n xs H; cbn [mutate_args] in H; [injection H as <-; split; constructor|].
      apply bind_inv in H as ((a', ai) & Ha & H). apply bind_inv in H as (xs' & Hx & H). injection H as <-. destruct (IHl _ _ Hx) as (A & B).
      assert (G : forall z, M a = Fin z -> good a' ai z) by (intros z E; exact (IH _ _ _ _ _ _ K Ha E)).
      split; constructor; auto. split; cbn [fst]; [|intros z E; exact (proj1 (G z E))].
      intros ->. apply mut_undef in Ha. congruence.
    Qed.
    Lemma xargs_keeps l l' : Forall2 keeps l l' -> forall vs, xargs (map (fun a => pair a) l) = Some vs -> xargs (map (fun a => pair a) l') = Some vs.
    Proof.
      induction 1 as [|a a' l l' (U & F) _ IHl]; intros vs H; [exact H|]. cbn [map xargs] in *. destruct (defined a) eqn:D.
      - destruct (M a) as [z| | |] eqn:E; try discriminate. specialize (F z eq_refl). rewrite F, (fin_defined _ _ F).
        destruct (xargs _); [|discriminate]. rewrite (IHl _ eq_refl). exact H.
      - rewrite (U (undefined_eq _ D)). cbn [defined]. destruct (xargs _); [|discriminate]. rewrite (IHl _ eq_refl). exact H.
    Qed.
    Lemma xshort_keeps stop l l' : Forall2 keeps l l' -> forall z, xshort stop (map M l) = Fin z -> xshort stop (map M l') = Fin z.
    Proof.
      induction 1 as [|a a' l l' (_ & F) _ IHl]; intros z H; [exact H|]. cbn [map xshort] in *. destruct (M a) as [x| | |] eqn:E; try discriminate.
      rewrite (F x eq_refl). destruct (Bool.eqb _ _); [exact H|auto].
    Qed.
    Lemma call_keeps fn t l l' z : fn <> i_buffer_at -> Forall2 keeps l l' -> M (ECall fn t l) = Fin z -> M (ECall fn t l') = Fin z.
    Proof.
      intros N K H. cbn [meaning] in *.
      assert (X : forall f, match xargs (map (fun a => pair a) l) with Some q => Fin (f q) | None => Bad end = Fin z ->
        match xargs (map (fun a => pair a) l') with Some q => Fin (f q) | None => Bad end = Fin z).
      { intros f Q. destruct (xargs (map (fun a => pair a) l)) eqn:E; [|discriminate]. rewrite (xargs_keeps _ _ K _ E). exact Q. }
      assert (Y : forall stop, xshort stop (map snd (map (fun a => pair a) l)) = Fin z -> xshort stop (map snd (map (fun a => pair a) l')) = Fin z).
      { intros stop. rewrite !map_map. cbn [snd]. exact (xshort_keeps _ _ _ K _). }
      destruct fn; cbn [xcall] in *; try discriminate; try contradiction; auto.
      - destruct t as [n|]; [|discriminate]. exact (X _ H).
      - inversion K as [|a a' ? ? (_ & F) K']; subst; [discriminate|]. inversion K'; subst; [|discriminate]. cbn [map] in *.
        destruct (M a) as [x| | |]; try discriminate. rewrite (F x eq_refl). exact H.
    Qed.

    Lemma prove_undefined p st a : prove_true P mut p st (e_eq a EUndef) = Val true -> False.
    Proof.
      intros H. apply bind_inv in H as (i & H & Q). apply bind_inv in H as (x & H & Q'). injection Q' as <-.
      apply bind_inv in H as (y & H & Q'). assert (y = (EUndef, info_empty)) as ->.
      { revert H. unfold e_eq, make_bin. destruct (commutative Equal && should_commute a EUndef); apply mut_equal; auto. }
      cbn [strip_boolean bind is_boolean is_boolean_node is_one is_zero as_constant orb info_empty x_bounds] in Q'.
      apply bind_inv in Q' as (b & Hb & Q'). injection Q' as <-. cbn [snd x_bounds repoint i_min] in Q.
      pose proof (ok_undefined _ _ _ OK _ _ _ _ Hb Q). discriminate.
    Qed.
    Lemma dim_value st s bi p b n d f v : sok st -> s_bufs st s = Some bi -> r s = Fin p -> w_buf W p = Some b ->
      nth_error (b_dims bi) n = Some d -> is_dim_field f = true -> v = info_value (Knowledge_Model.dim_field d f) -> defined v = true ->
      M v = Fin (field_value b f (Z.of_nat n) p).
    Proof.
      intros (_ & _ & Bw & Bh) Eb Es Ew En If -> D. assert (L : (n < length (b_dims bi))%nat) by (apply nth_error_Some; congruence).
      pose proof (dim_wf _ n f (Bw s bi Eb) L) as Wf. destruct (Bh s bi Eb) as (_ & Hd & _). specialize (Hd n f If L).
      rewrite (nth_error_nth _ _ dim_empty En) in *. apply (value_ok _ _ _ Wf Hd); [|exact D].
      cbn [meaning]. destruct f; try discriminate; rewrite Es, Ew; reflexivity.
    Qed.
    Lemma default_index_ok q st s bi p b n d rd a a' x : sok st -> s_bufs st s = Some bi -> r s = Fin p -> w_buf W p = Some b ->
      nth_error (b_dims bi) n = Some d -> nth_error (dims b) n = Some rd -> M a = Fin x ->
      default_index P mut q st s n d a = Val a' -> a' = a \/ (a' = EUndef /\ d_contains rd x = true /\ d_offset rd x = 0).
    Proof.
      intros K Eb Es Ew En Er Ea H. unfold default_index in H. apply bind_inv in H as (pr & Hp & H).
      assert (Dn : dim_int b (Z.of_nat n) = rd).
      { unfold dim_int. destruct (Z.ltb_spec (Z.of_nat n) 0); [lia|]. rewrite Nat2Z.id. unfold dim_at. exact (nth_error_nth _ _ _ Er). }
      destruct pr.
      - destruct (p_at P s n (negb (defined (info_value (di_fold d))))) eqn:At; [|discriminate]. injection H as <-. right. split; [reflexivity|].
        pose proof (ok_at _ _ _ OK _ _ _ _ _ _ At Es Ew Er) as Q. cbn zeta in Q.
        destruct (defined (info_value (di_fold d))); cbn [negb] in Q.
        + assert (x = 0) as ->; [|exact Q]. assert (M (e_eq a (EConst 0)) = Fin (if x =? 0 then 1 else 0)) as Me.
          { unfold e_eq. rewrite make_bin_mean, Ea. cbn [meaning]. rewrite zop_fin. reflexivity. }
          apply (prove_true_ok _ _ _ _ K Hp) in Me. destruct (Z.eqb_spec x 0); congruence.
        + destruct (defined (info_value (di_min d))) eqn:D.
          * pose proof (dim_value _ _ _ _ _ _ _ f_min _ K Eb Es Ew En eq_refl eq_refl D) as Mv. cbn [field_value Knowledge_Model.dim_field] in Mv. rewrite Dn in Mv.
            assert (x = d_min rd) as ->; [|exact Q]. assert (M (e_eq a (info_value (di_min d))) = Fin (if x =? d_min rd then 1 else 0)) as Me.
            { unfold e_eq. rewrite make_bin_mean, Ea, Mv. rewrite zop_fin. reflexivity. }
            apply (prove_true_ok _ _ _ _ K Hp) in Me. destruct (Z.eqb_spec x (d_min rd)); congruence.
          * rewrite (undefined_eq _ D) in Hp. destruct (prove_undefined _ _ _ Hp).
      - apply bind_inv in H as (z & Hz & H). destruct z; injection H as <-; [|auto]. right. split; [reflexivity|].
        destruct (ok_true _ _ _ OK _ Hz) as (NB & NZ). unfold dim_is_broadcast, e_and, e_eq in NB, NZ. rewrite !make_bin_mean in NB, NZ. cbn [meaning xbin] in NB, NZ.
        set (v := info_value (di_stride d)) in *. destruct (defined v) eqn:D.
        + pose proof (dim_value _ _ _ _ _ _ _ f_stride v K Eb Es Ew En eq_refl eq_refl D) as Mv. cbn [field_value] in Mv. rewrite Dn in Mv. rewrite Mv in NB, NZ.
          destruct (xbool2 andb (xcmp Z.eqb false false (M (info_value (di_min d))) (Fin 0)) (xcmp Z.eqb false false (M (info_value (di_max d))) (Fin 0))) as [y| | |];
            cbn [xcmp xbool2] in NB, NZ; try congruence.
          assert (d_stride rd = 0) as S0.
          { destruct (Z.eqb_spec (d_stride rd) 0); [assumption|]. cbn [of_bool] in NZ. unfold truthy in NZ. cbn [Z.eqb negb] in NZ. rewrite andb_false_r in NZ. cbn [of_bool] in NZ. congruence. }
          unfold d_contains, d_contains2, d_offset. rewrite S0. cbn [Z.eqb orb]. split; [reflexivity|lia].
        + rewrite (undefined_eq _ D) in NB. cbn [meaning xcmp] in NB. rewrite xbool2_bad in NB. congruence.
    Qed.
    Lemma default_indices_ok q st s bi p b : sok st -> s_bufs st s = Some bi -> r s = Fin p -> w_buf W p = Some b ->
      forall l n ds rds l' vs, (forall k d, nth_error ds k = Some d -> nth_error (b_dims bi) (n + k) = Some d) ->
      (forall k d, nth_error rds k = Some d -> nth_error (dims b) (n + k) = Some d) ->
      default_indices P mut q st s n ds l = Val l' -> xargs (firstn (length rds) (map (fun a => pair a) l)) = Some vs ->
      exists vs', xargs (firstn (length rds) (map (fun a => pair a) l')) = Some vs' /\ forall o, buffer_at_loop o rds vs' = buffer_at_loop o rds vs.
    Proof.
      intros K Eb Es Ew. induction l as [|a l IHl]; intros n ds rds l' vs Hd Hr H X.
      { destruct ds; cbn [default_indices] in H; injection H as <-; exists vs; auto. }
      destruct ds as [|d ds]; cbn [default_indices] in H; [injection H as <-; exists vs; auto|].
      apply bind_inv in H as (a' & Ha & H). apply bind_inv in H as (l1 & Hl & H). injection H as <-.
      destruct rds as [|rd rds]; [exists vs; cbn [length firstn] in *; auto|].
      cbn [length firstn map] in *.
      assert (R : forall vs0, xargs (firstn (length rds) (map (fun a => pair a) l)) = Some vs0 ->
        exists vs', xargs (firstn (length rds) (map (fun a => pair a) l1)) = Some vs' /\ forall o, buffer_at_loop o rds vs' = buffer_at_loop o rds vs0).
      { intros vs0 X0. apply (IHl (S n) ds rds); auto; intros k x Hk; [specialize (Hd (S k) x Hk)|specialize (Hr (S k) x Hk)]; rewrite <- plus_n_Sm in *; assumption. }
      cbn [xargs] in X |- *. destruct (defined a) eqn:D.
      - destruct (M a) as [x| | |] eqn:Ea; try discriminate. destruct (xargs (firstn (length rds) (map _ l))) as [vs0|]; [|discriminate]. injection X as <-.
        destruct (R _ eq_refl) as (vs' & X' & Lo). clear R.
        pose proof (Hd 0%nat d eq_refl) as En. pose proof (Hr 0%nat rd eq_refl) as Er. rewrite Nat.add_0_r in En, Er.
        destruct (default_index_ok _ _ _ _ _ _ _ _ _ _ _ _ K Eb Es Ew En Er Ea Ha) as [->|(-> & C & O)].
        + rewrite D, Ea, X'. exists (Some x :: vs'). split; [reflexivity|]. intros o. cbn [buffer_at_loop]. apply Lo.
        + cbn [defined]. rewrite X'. exists (None :: vs'). split; [reflexivity|]. intros o. cbn [buffer_at_loop]. rewrite Lo, C, O.
          destruct o; [rewrite Z.add_0_r|]; reflexivity.
      - apply undefined_eq in D. subst a. assert (a' = EUndef) as ->.
        { unfold default_index in Ha. apply bind_inv in Ha as (pr & _ & Ha). destruct pr; [destruct (p_at _ _ _ _); [congruence|discriminate]|].
          apply bind_inv in Ha as (z & _ & Ha). injection Ha as <-. destruct z; reflexivity. }
        cbn [defined]. destruct (xargs (firstn (length rds) (map _ l))) as [vs0|]; [|discriminate]. injection X as <-.
        destruct (R _ eq_refl) as (vs' & X' & Lo). rewrite X'. exists (None :: vs'). split; [reflexivity|]. intros o. cbn [buffer_at_loop]. apply Lo.
    Qed.
    Lemma buffer_at_ok p st t eargs args args' z : sok st -> Forall2 keeps eargs args -> visit_buffer_at P mut p st args = Val args' ->
      M (ECall i_buffer_at t eargs) = Fin z -> M (ECall i_buffer_at t args') = Fin z.
    Proof.
      intros K F H E. cbn [meaning xcall] in E. destruct eargs as [|e0 el]; [discriminate|]. destruct e0 as [|s0 f0 d0| | | | | |]; try discriminate.
      destruct f0; try discriminate. cbn [map] in E. destruct (r s0) as [pt| | |] eqn:Es0; try discriminate.
      destruct (w_buf W pt) as [b|] eqn:Ew; [|discriminate]. destruct (xargs (firstn (rank b) (map (fun a => pair a) el))) as [vs|] eqn:X; [|discriminate].
      injection E as <-. inversion F as [|? a0 ? l (_ & F0) Fl]; subst. specialize (F0 pt Es0).
      destruct a0 as [|s f d| | | | | |]; try discriminate H. destruct f; try discriminate H. cbn [meaning] in F0. cbn [visit_buffer_at] in H.
      assert (X1 : xargs (firstn (rank b) (map (fun a => pair a) l)) = Some vs).
      { rewrite firstn_map in X |- *. apply (xargs_keeps _ _ (Forall2_firstn _ _ _ _ Fl) _ X). }
      destruct (s_bufs st s) as [bi|] eqn:Eb.
      - apply bind_inv in H as (l' & Hl & H). injection H as <-. cbn [meaning xcall map]. rewrite F0, Ew.
        assert (X2 : xargs (firstn (rank b) (map (fun a => pair a) (if 0 <=? b_rank bi then firstn (Z.to_nat (b_rank bi)) l else l))) = Some vs).
        { destruct (Z.leb_spec 0 (b_rank bi)) as [R0|]; [|exact X1]. destruct K as (_ & _ & _ & Bh). destruct (Bh s bi Eb) as (_ & _ & Hr).
          specialize (Hr R0 (Z.of_nat (rank b))). cbn [meaning] in Hr. rewrite F0, Ew in Hr. specialize (Hr eq_refl). rewrite <- Hr, Nat2Z.id.
          rewrite <- firstn_map, firstn_firstn, Nat.min_id. exact X1. }
        unfold rank in X2. destruct (default_indices_ok _ _ _ _ _ _ K Eb F0 Ew _ 0 (b_dims bi) (dims b) _ _ (fun k d h => h) (fun k d h => h) Hl X2) as (vs' & X' & Lo).
        unfold rank. rewrite X'. unfold buffer_at. rewrite Lo. reflexivity.
      - injection H as <-. cbn [meaning xcall map]. rewrite F0, Ew, X1. reflexivity.
    Qed.
    Lemma finish_call_ok p st fn t eargs args bs e' i z : sok st -> M (ECall fn t eargs) = Fin z -> M (ECall fn t args) = Fin z ->
      (fn = i_abs -> exists b va, bs = [b] /\ enc b va /\ z = Z.abs va) ->
      finish_visit_call P mut p st fn t eargs args bs = Val (e', i) -> good e' i z.
    Proof.
      intros K E E' Ab H. unfold finish_visit_call in H. apply bind_inv in H as (e & He & H). pose proof (ok_call _ _ _ OK _ _ _ _ _ He E') as Ee.
      destruct (same_as P p e (ECall fn t eargs)) eqn:Sa; [|exact (IH _ _ _ _ _ _ K H Ee)]. apply same_eq in Sa.
      apply bind_inv in H as (bo & Hbo & H). refine (set_result_ok _ _ _ _ _ H _). split; [exact Ee|].
      split; [exact (ok_bounds_call _ _ _ OK _ _ _ _ _ _ Hbo E Ab)|]. split; [apply mr_in_all|]. intros Q. subst e. discriminate.
    Qed.
    Lemma visit_call_ok p st fn t eargs e' i z : sok st -> visit_call P mut p st fn t eargs = Val (e', i) -> M (ECall fn t eargs) = Fin z -> good e' i z.
    Proof.
      intros K H E. unfold visit_call in H. apply bind_inv in H as (xs & Hx & H). destruct (mutate_args_ok _ _ _ K _ _ Hx) as (F & G).
      assert (NA : fn <> i_abs -> fn <> i_buffer_at -> finish_visit_call P mut p st fn t eargs (map fst xs) (map (fun x => x_bounds (snd x)) xs) = Val (e', i) -> good e' i z).
      { intros N1 N2 Q. refine (finish_call_ok _ _ _ _ _ _ _ _ _ _ K E _ _ Q); [exact (call_keeps _ _ _ _ _ N2 F E)|intros ->; contradiction]. }
      destruct fn; try (apply NA; [discriminate|discriminate|exact H]).
      - (* abs *)
        assert (Ev : exists a va, eargs = [a] /\ M a = Fin va /\ z = Z.abs va).
        { cbn [meaning xcall] in E. destruct eargs as [|a [|? ?]]; cbn [map] in E; try discriminate. destruct (M a) as [va| | |] eqn:Ma; try discriminate.
          injection E as <-. exists a, va. auto. }
        destruct Ev as (a & va & -> & Ma & ->). inversion G as [|? x ? ? Gx Gr]; subst. inversion Gr; subst. destruct x as (a', ai). cbn [map fst snd] in *.
        destruct (Gx va Ma) as (Ea & Ba & Aa & Ta). apply bind_inv in H as (pos & Hp & H). destruct pos.
        { refine (set_result_ok _ _ _ _ _ H _). destruct (ok_true _ _ _ OK _ Hp) as (NB & NZ). unfold e_ge in NB, NZ. rewrite make_bin_mean in NB, NZ. cbn [meaning xbin] in NB, NZ.
          assert (0 <= va).
          { destruct Ba as (L & _). destruct (M (i_min (x_bounds ai))) as [lo| | |]; cbn [lower] in L; try tauto; cbn [xcmp of_bool] in NB, NZ; try congruence.
            destruct (Z.leb_spec 0 lo); cbn [of_bool] in NZ; [lia|congruence]. }
          rewrite Z.abs_eq by assumption. split; [exact Ea|]. split; [exact Ba|]. split; [apply mr_in_all|exact Ta]. }
        apply bind_inv in H as (neg & Hn & H). destruct neg.
        { refine (IH _ _ _ _ _ _ K H _). destruct (ok_true _ _ _ OK _ Hn) as (NB & NZ). unfold e_le in NB, NZ. rewrite make_bin_mean in NB, NZ. cbn [meaning xbin] in NB, NZ.
          assert (va <= 0).
          { destruct Ba as (_ & U). destruct (M (i_max (x_bounds ai))) as [hi| | |]; cbn [upper] in U; try tauto; cbn [xcmp of_bool] in NB, NZ; try congruence.
            destruct (Z.leb_spec hi 0); cbn [of_bool] in NZ; [lia|congruence]. }
          unfold e_sub. rewrite make_bin_mean. cbn [meaning]. rewrite Ea, zop_fin. cbn [zop]. f_equal. lia. }
        refine (finish_call_ok _ _ _ _ _ _ _ _ _ _ K E (call_keeps _ _ _ _ _ _ F E) _ H); [discriminate|]. intros _. exists (x_bounds ai), va. auto.
      - (* buffer_at *)
        destruct xs as [|(x0, xi) xs]; [inversion F; subst; cbn [meaning xcall] in E; discriminate|]. cbn [map fst] in H.
        assert (D0 : x0 <> EUndef).
        { intros ->. cbn [meaning xcall] in E. destruct eargs as [|e0 el]; [discriminate|]. destruct e0 as [|s0 f0 d0| | | | | |]; try discriminate. destruct f0; try discriminate.
          destruct (r s0) as [pt| | |] eqn:Es0; try discriminate. inversion F as [|? ? ? ? (_ & F0) _]; subst. specialize (F0 pt Es0). discriminate. }
        assert (H' : (args' <- visit_buffer_at P mut p st (x0 :: map fst xs);; finish_visit_call P mut p st i_buffer_at t eargs args' (x_bounds (snd (x0, xi)) :: map (fun x => x_bounds (snd x)) xs)) = Val (e', i)).
        { destruct x0; try exact H. contradiction. }
        clear H. apply bind_inv in H' as (args' & Hat & H). refine (finish_call_ok _ _ _ _ _ _ _ _ _ _ K E (buffer_at_ok _ _ _ _ _ _ _ K F Hat E) _ H). discriminate.
    Qed.

    Lemma visit_ok p st e e' i z : sok st -> p_visit P e = true -> visit P mut p st e = Val (e', i) -> M e = Fin z -> good e' i z.
    Proof.
      intros K V H E. destruct e as [|s f d|lets body|o a b|a|q t f|fn t args|c]; cbn [visit] in H.
      - discriminate.
      - assert (N : f = f_none \/ f <> f_none) by (destruct f; auto; right; discriminate). destruct N as [->|N]; [eapply visit_variable_ok; eauto|].
        refine (visit_field_ok p _ _ _ _ _ _ _ N K _ E). destruct f; try exact H. contradiction.
      - discriminate.
      - destruct o; first [exact (visit_add_ok _ _ _ _ _ _ _ K V H E)|refine (visit_binary_ok _ _ _ _ _ _ _ _ K _ V H E); reflexivity
          |refine (visit_min_max_ok _ _ _ _ _ _ _ _ K _ V H E); auto; fail|refine (visit_logical_ok _ _ _ _ _ _ _ _ K _ V H E); reflexivity].
      - eapply visit_not_ok; eauto.
      - eapply visit_select_ok; eauto.
      - eapply visit_call_ok; eauto.
      - refine (set_result_ok _ _ _ _ _ H _). apply good_point; [exact E|]. cbn [meaning] in E. injection E as ->. exists 0. cbn [modulus remainder]. lia.
    Qed.
  End Visit.

  (** ** mutate *)
  Lemma mutate_undef n p st x : mutate P n p st EUndef = Val x -> x = (EUndef, info_empty).
  Proof. destruct n; [discriminate|]. cbn [mutate defined]. unfold nothing. congruence. Qed.
  Lemma mutate_equal n p st a b x : a = EUndef \/ b = EUndef -> mutate P n p st (EBin Equal a b) = Val x -> x = (EUndef, info_empty).
  Proof.
    intros U H. destruct n; [discriminate|]. cbn [mutate defined] in H. destruct (p_visit P (EBin Equal a b)); [|discriminate].
    cbn [visit] in H. unfold visit_logical in H. apply bind_inv in H as ((a', ai) & Ha & H). apply bind_inv in H as ((b', bi) & Hb & H).
    assert (D : negb (defined a') || negb (defined b') = true).
    { destruct U as [->| ->]; [apply mutate_undef in Ha; injection Ha as -> _; reflexivity|apply mutate_undef in Hb; injection Hb as -> _; apply orb_true_r]. }
    rewrite D in H. unfold nothing in H. congruence.
  Qed.
  Theorem mutate_ok n : forall p st e e' i z, sok st -> mutate P n p st e = Val (e', i) -> M e = Fin z -> good e' i z.
  Proof.
    induction n as [|n IHn]; intros p st e e' i z K H E; [discriminate|]. cbn [mutate] in H. rewrite (fin_defined _ _ E) in H.
    destruct (p_visit P e) eqn:V; [|discriminate].
    exact (visit_ok (mutate P n) IHn (mutate_undef n) (mutate_equal n) _ _ _ _ _ _ K V H E).
  Qed.
End Sound.
