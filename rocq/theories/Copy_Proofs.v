(** Proofs about copying and padding buffers. *)
From Coq Require Import ZArith List Bool Lia Permutation Arith.
From Verif Require Import Buf_Model Buf_Spec Buf_Proofs ForEach_Model ForEach_Spec ForEach_Proofs ForEachPlan_Proofs ForEach_Props BufDims_Spec BufDims_Proofs
  Copy_Model Copy_Spec.
Import ListNotations.
Open Scope Z_scope.

(** ** sets of assignments *)
Definition clean (es : Z) (ops : list (ptr * ptr)) : Prop :=
  (forall o, In o ops -> fst o <> None /\ snd o <> None) /\
  (forall o o', In o ops -> In o' ops -> o = o' \/ apart es (fst o) (fst o')) /\
  (forall o o', In o ops -> In o' ops -> apart es (fst o) (snd o')).

Lemma clean_incl : forall es A B, (forall o, In o A -> In o B) -> clean es B -> clean es A.
Proof. intros es A B H (C1 & C2 & C3). repeat split; intros; try (apply C1; auto); auto. Qed.
Lemma assigned_equiv : forall es A B m m', (forall o, In o A <-> In o B) -> assigned es A m m' -> assigned es B m m'.
Proof.
  intros es A B m m' H [H1 H2]. split.
  - intros d s k Hi Hk. apply H1; [now apply H|assumption].
  - intros a Ha. apply H2. intros d s Hi. apply (Ha d s). now apply H.
Qed.
Lemma assigned_nil : forall es m, assigned es [] m m.
Proof. intros. split; [intros ? ? ? []|reflexivity]. Qed.
Lemma in_elem_dec : forall es (ops : list (ptr * ptr)) a,
  (exists d s, In (Some d, s) ops /\ d <= a < d + es) \/ (forall d s, In (Some d, s) ops -> ~ (d <= a < d + es)).
Proof.
  induction ops as [|[[d|] s] ops IH]; intros a.
  - right. intros d s [].
  - destruct (Z_le_dec d a) as [L|L]; [destruct (Z_lt_dec a (d + es)) as [L2|L2]|].
    + left. exists d, s. split; [now left|lia].
    + destruct (IH a) as [(d' & s' & H1 & H2)|H]; [left; exists d', s'; split; [now right|assumption]|right].
      intros d' s' [E|Hi]; [inversion E; subst; lia|now apply (H d' s')].
    + destruct (IH a) as [(d' & s' & H1 & H2)|H]; [left; exists d', s'; split; [now right|assumption]|right].
      intros d' s' [E|Hi]; [inversion E; subst; lia|now apply (H d' s')].
  - destruct (IH a) as [(d' & s' & H1 & H2)|H]; [left; exists d', s'; split; [now right|assumption]|right].
    intros d' s' [E|Hi]; [inversion E|now apply (H d' s')].
Qed.

Lemma assigned_app : forall es A B m m1 m2, clean es (A ++ B) ->
  assigned es A m m1 -> assigned es B m1 m2 -> assigned es (A ++ B) m m2.
Proof.
  intros es A B m m1 m2 (C1 & C2 & C3) [A1 A2] [B1 B2]. split.
  - intros d s k Hi Hk.
    (* sources are not written *)
    assert (Hs : m1 (s + k) = m (s + k)).
    { apply A2. intros d' s' Hi'. specialize (C3 (Some d', s') (Some d, Some s)). cbn [fst snd apart] in C3.
      rewrite in_app_iff in C3. specialize (C3 (or_introl Hi') Hi). lia. }
    apply in_app_iff in Hi. destruct (in_elem_dec es B (d + k)) as [(d' & s' & H1 & H2)|H].
    + assert (Hd : (Some d, Some s) = (Some d', s') \/ apart es (Some d) (Some d')).
      { apply (C2 (Some d, Some s) (Some d', s')); rewrite in_app_iff; auto. }
      destruct Hd as [E|E]; [|cbn [apart] in E; lia]. inversion E. subst d' s'.
      rewrite (B1 d s k H1 Hk). assumption.
    + destruct Hi as [Hi|Hi]; [|exfalso; apply (H d (Some s) Hi); lia].
      rewrite B2 by assumption. now apply A1.
  - intros a Ha. rewrite B2; [apply A2|]; intros d s Hi; apply (Ha d s); rewrite in_app_iff; auto.
Qed.

(** ** blocks of consecutive elements *)
Definition block (es : Z) (n : Z) (d s : ptr) (step : Z) : list (ptr * ptr) :=
  map (fun k => (offset_bytes d (k * es), offset_bytes s (k * step))) (range 0 (n - 1)).

Lemma in_block : forall es n d s step o, In o (block es n d s step) <->
  exists k, 0 <= k < n /\ o = (offset_bytes d (k * es), offset_bytes s (k * step)).
Proof.
  intros. unfold block. rewrite in_map_iff. split.
  - intros (k & <- & H). apply in_range in H. exists k. split; [lia|reflexivity].
  - intros (k & H & ->). exists k. split; [reflexivity|]. apply in_range. lia.
Qed.
Lemma block_index : forall es n j, 0 < es -> 0 <= j < n * es -> exists k r, 0 <= k < n /\ 0 <= r < es /\ j = k * es + r.
Proof.
  intros es n j Hes Hj. exists (j / es), (j mod es).
  pose proof (Z.div_mod j es ltac:(lia)). pose proof (Z.mod_pos_bound j es Hes). split; [|split; [lia|lia]].
  split; [apply Z.div_pos; lia|]. apply Z.div_lt_upper_bound; lia.
Qed.

(** memory whose bytes from [d] on are those of a block *)
Lemma assigned_block : forall es n d s step m m', 0 < es -> 0 <= n ->
  (forall k r, 0 <= k < n -> 0 <= r < es -> m' (d + (k * es + r)) = m (s + k * step + r)) ->
  (forall a, ~ (d <= a < d + n * es) -> m' a = m a) ->
  assigned es (block es n (Some d) (Some s) step) m m'.
Proof.
  intros es n d s step m m' Hes Hn H1 H2. split.
  - intros d' s' k Hi Hk. apply in_block in Hi. destruct Hi as (j & Hj & E). cbn [offset_bytes] in E. inversion E. subst.
    rewrite <- Z.add_assoc. now apply H1.
  - intros a Ha. apply H2. intros X. destruct (block_index es n (a - d) Hes ltac:(lia)) as (k & r & K1 & K2 & K3).
    apply (Ha (d + k * es) (Some (s + k * step))); [|lia]. apply in_block. exists k. auto.
Qed.

Lemma memcpy_block : forall es n d s m, 0 < es -> 0 <= n ->
  clean es (block es n (Some d) (Some s) es) ->
  exists m', memcpy m (Some d) (Some s) (n * es) = Some m' /\ assigned es (block es n (Some d) (Some s) es) m m'.
Proof.
  intros es n d s m Hes Hn (_ & _ & C3). unfold memcpy.
  replace (n * es <? 0) with false by (symmetry; apply Z.ltb_ge; nia).
  destruct ((0 <? n * es) && (d <? s + n * es) && (s <? d + n * es)) eqn:E.
  - exfalso. (* a common byte *)
    set (a := Z.max d s).
    assert (Ha : 0 <= a - d < n * es /\ 0 <= a - s < n * es) by (subst a; lia). destruct Ha as [Ha1 Ha2].
    destruct (block_index es n (a - d) Hes Ha1) as (k & r & K1 & K2 & K3).
    destruct (block_index es n (a - s) Hes Ha2) as (k' & r' & K1' & K2' & K3').
    specialize (C3 (Some (d + k * es), Some (s + k * es)) (Some (d + k' * es), Some (s + k' * es))).
    cbn [fst snd apart] in C3.
    assert (In (Some (d + k * es), Some (s + k * es)) (block es n (Some d) (Some s) es)) by (apply in_block; exists k; auto).
    assert (In (Some (d + k' * es), Some (s + k' * es)) (block es n (Some d) (Some s) es)) by (apply in_block; exists k'; auto).
    specialize (C3 ltac:(assumption) ltac:(assumption)). lia.
  - eexists. split; [reflexivity|]. apply assigned_block; [assumption|assumption| |].
    + intros k r Hk Hr. cbn beta. replace ((d <=? d + (k * es + r)) && (d + (k * es + r) <? d + n * es)) with true by (symmetry; nia).
      f_equal. lia.
    + intros a Ha. cbn beta. replace ((d <=? a) && (a <? d + n * es)) with false by lia. reflexivity.
Qed.

(** ** fill *)
Lemma is_repeated_from_inv : forall m p n i, is_repeated_from m p i n = true ->
  forall k, i <= k < i + Z.of_nat n -> m (p + k) = m p.
Proof.
  induction n as [|n IH]; intros i H k Hk; [lia|]. cbn [is_repeated_from] in H.
  destruct (m p =? m (p + i)) eqn:E; [|discriminate]. cbn [negb] in H.
  destruct (Z.eq_dec k i) as [->|]; [lia|]. apply (IH (i + 1) H k). lia.
Qed.
Lemma is_repeated_byte_inv : forall m p es, is_repeated_byte m p es = true -> forall k, 0 <= k < es -> m (p + k) = m p.
Proof.
  intros m p es H k Hk. destruct (Z.eq_dec k 0) as [->|]; [now rewrite Z.add_0_r|].
  eapply is_repeated_from_inv; [exact H|]. lia.
Qed.

(** What a fill value stands for: the [es] bytes at [s], repeated [e / es] times, or the
    byte at [s] if they are all the same. *)
Definition value_byte (m : mem) (v : value) (j : Z) : Z :=
  match v with VPtr (Some p) => m (p + j) | VPtr None => 0 | VArray l => nth (Z.to_nat j) l 0 end.
Definition stands_for (m : mem) (es s : Z) (v : value) (e : Z) : Prop :=
  (match v with VPtr p => p = Some s | VArray l => Z.of_nat (length l) = e end) /\
  ((e = 1 /\ (forall k, 0 <= k < es -> m (s + k) = m s) /\ v = VPtr (Some s)) \/
   (exists q, 1 <= q /\ e = q * es /\ match v with VPtr _ => q = 1 | _ => True end /\ forall j, 0 <= j < e -> value_byte m v j = m (s + j mod es))).

Lemma read_bytes_nth : forall m p n j, 0 <= j < n -> nth (Z.to_nat j) (read_bytes m p n) 0 = m (p + j).
Proof.
  intros m p n j H. unfold read_bytes. rewrite (nth_indep _ 0 (m (p + Z.of_nat 0))) by (rewrite map_length, seq_length; lia).
  rewrite (map_nth (fun k => m (p + Z.of_nat k))). rewrite seq_nth by lia. f_equal. lia.
Qed.
Lemma read_bytes_length : forall m p n, length (read_bytes m p n) = Z.to_nat n.
Proof. intros. unfold read_bytes. now rewrite map_length, seq_length. Qed.

Lemma double_loop_ok : forall m es s fuel arr e target arr' e', 0 < es ->
  (exists q, 1 <= q /\ e = q * es) -> Z.of_nat (length arr) = e ->
  (forall j, 0 <= j < e -> nth (Z.to_nat j) arr 0 = m (s + j mod es)) ->
  double_loop fuel arr e target = (arr', e') ->
  (exists q, 1 <= q /\ e' = q * es) /\ Z.of_nat (length arr') = e' /\
  (forall j, 0 <= j < e' -> nth (Z.to_nat j) arr' 0 = m (s + j mod es)).
Proof.
  intros m es s. induction fuel as [|fuel IH]; intros arr e target arr' e' Hes (q & Hq & Eq) HL Hn E; cbn [double_loop] in E.
  - injection E as <- <-. split; [exists q; auto|auto].
  - destruct (e * 2 <=? target).
    + rewrite firstn_all2 in E by lia. apply IH in E; auto.
      * exists (q * 2). split; lia.
      * rewrite app_length. lia.
      * intros j Hj. destruct (Z_lt_le_dec j e) as [L|L].
        { rewrite app_nth1 by lia. now apply Hn. }
        { rewrite app_nth2 by lia. replace (Z.to_nat j - length arr)%nat with (Z.to_nat (j - e)) by lia.
          rewrite Hn by lia. f_equal. f_equal. subst e. replace j with ((j - q * es) + q * es) at 2 by lia.
          now rewrite Z.mod_add by lia. }
    + injection E as <- <-. split; [exists q; auto|auto].
Qed.

Lemma optimize_fill_ok : forall m es s size, 0 < es ->
  exists v e, optimize_fill_value m (Some s) es size = Some (v, e) /\ stands_for m es s v e.
Proof.
  intros m es s size Hes. unfold optimize_fill_value.
  destruct (is_repeated_byte m s es) eqn:ER.
  - exists (VPtr (Some s)), 1. split; [reflexivity|]. split; [reflexivity|]. left. split; [reflexivity|]. split; [|reflexivity].
    now apply is_repeated_byte_inv.
  - destruct (es * 2 <=? Z.min 64 size).
    + destruct (double_loop _ _ _ _) as [arr e'] eqn:ED.
      apply (double_loop_ok m es s) in ED; [| assumption | exists 1; lia | rewrite read_bytes_length; lia |].
      * destruct ED as ((q & Hq & Eq) & HL & Hn). exists (VArray arr), e'. split; [reflexivity|]. split; [assumption|].
        right. exists q. split; [assumption|]. split; [assumption|]. split; [exact I|]. exact Hn.
      * intros j Hj. rewrite read_bytes_nth by assumption. now rewrite Z.mod_small by assumption.
    + exists (VPtr (Some s)), es. split; [reflexivity|]. split; [reflexivity|]. right. exists 1. split; [lia|]. split; [lia|]. split; [reflexivity|].
      intros j Hj. cbn [value_byte]. now rewrite Z.mod_small by lia.
Qed.

Lemma memcpy_value_ok : forall m es s v e d n, 0 < es -> stands_for m es s v e -> e <> 1 \/ es = 1 -> 0 <= n <= e ->
  (forall a, d <= a < d + n -> ~ (s <= a < s + es)) ->
  exists m', memcpy_value m (Some d) v n = Some m' /\
    (forall j, 0 <= j < n -> m' (d + j) = m (s + j mod es)) /\ (forall a, ~ (d <= a < d + n) -> m' a = m a).
Proof.
  intros m es s v e d n Hes [Hv Hb] He Hn Ha.
  assert (Hby : forall j, 0 <= j < e -> value_byte m v j = m (s + j mod es)).
  { destruct Hb as [(E1 & E2 & E3)|(q & _ & _ & _ & Hb)]; [|exact Hb].
    intros j Hj. assert (j = 0) by lia. subst j v. cbn [value_byte]. rewrite Z.mod_0_l by lia. reflexivity. }
  destruct v as [p|l].
  - subst p. cbn [memcpy_value memcpy].
    assert (n <= es).
    { destruct Hb as [(E1 & _)|(q & Hq & Eq & Eq1 & _)]; [lia|]. subst q. lia. }
    replace (n <? 0) with false by lia.
    destruct ((0 <? n) && (d <? s + n) && (s <? d + n)) eqn:E.
    { exfalso. apply (Ha (Z.max d s)); lia. }
    eexists. split; [reflexivity|]. split.
    + intros j Hj. cbn beta. replace ((d <=? d + j) && (d + j <? d + n)) with true by lia.
      replace (d + j - d) with j by lia. now rewrite Z.mod_small by lia.
    + intros a Hna. cbn beta. replace ((d <=? a) && (a <? d + n)) with false by lia. reflexivity.
  - cbn [memcpy_value]. replace ((n <? 0) || (Z.of_nat (length l) <? n)) with false by lia.
    eexists. split; [reflexivity|]. split.
    + intros j Hj. cbn beta. replace ((d <=? d + j) && (d + j <? d + n)) with true by lia.
      replace (d + j - d) with j by lia. apply (Hby j). lia.
    + intros a Hna. cbn beta. replace ((d <=? a) && (a <? d + n)) with false by lia. reflexivity.
Qed.
Lemma stands_for_same : forall m m' es s v e, 0 < es -> (forall a, s <= a < s + es -> m' a = m a) ->
  stands_for m es s v e -> stands_for m' es s v e.
Proof.
  intros m m' es s v e Hes Hm [Hv Hb]. split; [assumption|]. destruct Hb as [(E1 & E2 & E3)|(q & Hq & Eq & Eq1 & Hb)].
  - left. split; [assumption|]. split; [|assumption]. intros k Hk. rewrite !Hm by lia. auto.
  - right. exists q. split; [assumption|]. split; [assumption|]. split; [assumption|]. intros j Hj.
    pose proof (Z.mod_pos_bound j es Hes).
    rewrite (Hm (s + j mod es)) by lia. rewrite <- (Hb j Hj).
    destruct v as [p|l]; [|reflexivity]. subst p q. cbn [value_byte]. apply Hm. lia.
Qed.

Lemma fill_loop_ok : forall es s v e, 0 < es -> 1 <= e -> e <> 1 \/ es = 1 -> (exists q, e = q * es) ->
  forall fuel m d size, stands_for m es s v e -> (Z.to_nat size < fuel)%nat -> 0 <= size ->
  (forall a, d <= a < d + size -> ~ (s <= a < s + es)) ->
  exists m', fill_loop fuel m (Some d) v e size = Some m' /\
    (forall j, 0 <= j < size -> m' (d + j) = m (s + j mod es)) /\ (forall a, ~ (d <= a < d + size) -> m' a = m a).
Proof.
  intros es s v e Hes He He1 (q & Hq). induction fuel as [|fuel IH]; intros m d size Hst Hf Hs Ha; [lia|]. cbn [fill_loop].
  destruct (Z.leb_spec e size).
  - destruct (memcpy_value_ok m es s v e d e Hes Hst He1 ltac:(lia)) as (m1 & E1 & M1 & M2).
    { intros a H1. apply Ha. lia. }
    rewrite E1. cbn [offset_bytes].
    destruct (IH m1 (d + e) (size - e)) as (m2 & E2 & N1 & N2).
    + apply (stands_for_same m); [assumption| |assumption]. intros a H1. apply M2. intros X. apply (Ha a); lia.
    + lia.
    + lia.
    + intros a H1. apply Ha. lia.
    + exists m2. split; [exact E2|]. split.
      * intros j Hj. destruct (Z_lt_le_dec j e) as [L|L].
        { rewrite N2 by lia. now apply M1. }
        { replace (d + j) with (d + e + (j - e)) by lia. rewrite N1 by lia.
          rewrite M2; [|intros X; apply (Ha (s + (j - e) mod es)); [lia|]; pose proof (Z.mod_pos_bound (j - e) es Hes); lia].
          f_equal. f_equal. subst e. replace j with ((j - q * es) + q * es) at 2 by lia. now rewrite Z.mod_add by lia. }
      * intros a H1. rewrite N2 by lia. apply M2. lia.
  - apply (memcpy_value_ok m es s v e d size Hes Hst He1 ltac:(lia)). exact Ha.
Qed.

Lemma fill_ok : forall m es s v e d size, 0 < es -> stands_for m es s v e -> 0 <= size ->
  (forall a, d <= a < d + size -> ~ (s <= a < s + es)) ->
  exists m', fill m (Some d) v e size = Some m' /\
    (forall j, 0 <= j < size -> m' (d + j) = m (s + j mod es)) /\ (forall a, ~ (d <= a < d + size) -> m' a = m a).
Proof.
  intros m es s v e d size Hes Hst Hs Ha. unfold fill. destruct (Z.eqb_spec e 1) as [E|E].
  - assert (HB : exists b, first_byte m v = Some b /\ forall j, 0 <= j -> m (s + j mod es) = b).
    { destruct Hst as [Hv [(E1 & E2 & ->)|(q & Hq & Eq & Eq1 & Hb)]].
      - exists (m s). split; [reflexivity|]. intros j Hj. apply E2. apply Z.mod_pos_bound. lia.
      - assert (es = 1) by nia. subst es. exists (value_byte m v 0). split.
        + destruct v as [p|l]; [subst p; cbn [first_byte value_byte]; now rewrite Z.add_0_r|].
          cbn [first_byte value_byte]. destruct l as [|b l]; [cbn [length] in Hv; lia|reflexivity].
        + intros j Hj. rewrite Hb by lia. now rewrite !Z.mod_1_r. }
    destruct HB as (b & EB & HB). rewrite EB. cbn [memset]. replace (size <? 0) with false by lia.
    eexists. split; [reflexivity|]. split.
    + intros j Hj. cbn beta. replace ((d <=? d + j) && (d + j <? d + size)) with true by lia. symmetry. apply HB. lia.
    + intros a Hna. cbn beta. replace ((d <=? a) && (a <? d + size)) with false by lia. reflexivity.
  - destruct Hst as [Hv Hb]. pose proof Hb as [(E1 & _)|(q & Hq & Eq & _)]; [contradiction|].
    replace (e <=? 0) with false by (symmetry; nia).
    apply (fill_loop_ok es s); try assumption; try lia; try nia; [now exists q|split; assumption].
Qed.

(** ** the callbacks, one after another *)
Lemma clean_app_l : forall es A B, clean es (A ++ B) -> clean es A.
Proof. intros es A B H. eapply clean_incl; [|exact H]. intros. rewrite in_app_iff. auto. Qed.
Lemma clean_app_r : forall es A B, clean es (A ++ B) -> clean es B.
Proof. intros es A B H. eapply clean_incl; [|exact H]. intros. rewrite in_app_iff. auto. Qed.

Definition slice_block (es : Z) (c : Z * list ptr) : list (ptr * ptr) :=
  match snd c with [d; s] => block es (fst c) d s es | _ => [] end.
Lemma block_nonnull : forall es n d s step, 0 < n -> clean es (block es n d s step) -> exists a b, d = Some a /\ s = Some b.
Proof.
  intros es n d s step Hn (C1 & _). specialize (C1 (offset_bytes d (0 * es), offset_bytes s (0 * step))).
  destruct C1 as [X Y]; [apply in_block; exists 0; split; [lia|reflexivity]|]. cbn [fst snd] in X, Y.
  destruct d as [a|]; [|exfalso; apply X; reflexivity]. destruct s as [b|]; [|exfalso; apply Y; reflexivity]. eauto.
Qed.
Lemma run_slices_ok : forall es calls m, 0 < es -> Forall (fun c => 1 <= fst c /\ length (snd c) = 2%nat) calls ->
  clean es (flat_map (slice_block es) calls) ->
  exists m', run_slices es calls m = Some m' /\ assigned es (flat_map (slice_block es) calls) m m'.
Proof.
  intros es calls. induction calls as [|[n ps] calls IH]; intros m Hes HF Hc.
  - exists m. split; [reflexivity|apply assigned_nil].
  - inversion HF as [|x l [Hn Hl] HF']. subst. cbn [fst snd] in *. clear HF.
    destruct ps as [|d [|s [|? ?]]]; cbn [length] in Hl; try lia. cbn [flat_map slice_block snd fst] in Hc |- *.
    pose proof (clean_app_l _ _ _ Hc) as Hc1.
    destruct (block_nonnull es n d s es ltac:(lia) Hc1) as (a & b & -> & ->).
    destruct (memcpy_block es n a b m Hes ltac:(lia) Hc1) as (m1 & E1 & A1).
    destruct (IH m1 Hes HF' (clean_app_r _ _ _ Hc)) as (m2 & E2 & A2).
    exists m2. cbn [run_slices]. rewrite E1. split; [exact E2|]. eapply assigned_app; eassumption.
Qed.

Definition copy_block (es n : Z) (c : list ptr) : list (ptr * ptr) :=
  match c with [d; s] => block es n d s es | _ => [] end.
Lemma run_copies_ok : forall es n calls m, 0 < es -> 1 <= n -> Forall (fun c => length c = 2%nat) calls ->
  clean es (flat_map (copy_block es n) calls) ->
  exists m', run_copies (n * es) calls m = Some m' /\ assigned es (flat_map (copy_block es n) calls) m m'.
Proof.
  intros es n calls. induction calls as [|ps calls IH]; intros m Hes Hn HF Hc.
  - exists m. split; [reflexivity|apply assigned_nil].
  - inversion HF as [|x l Hl HF']. subst. clear HF.
    destruct ps as [|d [|s [|? ?]]]; cbn [length] in Hl; try lia. cbn [flat_map copy_block] in Hc |- *.
    pose proof (clean_app_l _ _ _ Hc) as Hc1.
    destruct (block_nonnull es n d s es ltac:(lia) Hc1) as (a & b & -> & ->).
    destruct (memcpy_block es n a b m Hes ltac:(lia) Hc1) as (m1 & E1 & A1).
    destruct (IH m1 Hes Hn HF' (clean_app_r _ _ _ Hc)) as (m2 & E2 & A2).
    exists m2. cbn [run_copies]. rewrite E1. split; [exact E2|]. eapply assigned_app; eassumption.
Qed.

Definition fill_block (es n : Z) (c : list ptr) : list (ptr * ptr) :=
  match c with [d; s] => block es n d s 0 | _ => [] end.
Lemma run_fills_ok : forall es n calls cached val m, 0 < es -> 1 <= n -> Forall (fun c => length c = 2%nat) calls ->
  clean es (flat_map (fill_block es n) calls) ->
  (forall s, cached = Some s -> exists v e, val = Some (v, e) /\ stands_for m es s v e /\
     forall d, (exists t, In (Some d, t) (flat_map (fill_block es n) calls)) -> apart es (Some d) (Some s)) ->
  exists m', run_fills es (n * es) calls cached val m = Some m' /\ assigned es (flat_map (fill_block es n) calls) m m'.
Proof.
  intros es n calls. induction calls as [|ps calls IH]; intros cached val m Hes Hn HF Hc Hcache.
  - exists m. split; [reflexivity|apply assigned_nil].
  - inversion HF as [|x l Hl HF']. subst. clear HF.
    destruct ps as [|d [|s [|? ?]]]; cbn [length] in Hl; try lia. cbn [flat_map fill_block] in Hc, Hcache |- *.
    pose proof (clean_app_l _ _ _ Hc) as Hc1.
    destruct (block_nonnull es n d s 0 ltac:(lia) Hc1) as (a & b & -> & ->).
    cbn [run_fills].
    set (X := if ptr_eqb cached (Some b) then _ else _).
    assert (HV : exists v e, X = (Some b : ptr, Some (v, e)) /\ stands_for m es b v e).
    { subst X. destruct (ptr_eqb cached (Some b)) eqn:EC.
      - destruct cached as [c|]; [|discriminate]. cbn [ptr_eqb] in EC. assert (c = b) by lia. subst c.
        destruct (Hcache b eq_refl) as (v & e & -> & Hst & _). exists v, e. auto.
      - destruct (optimize_fill_ok m es b (n * es) Hes) as (v & e & -> & Hst). exists v, e. auto. }
    destruct HV as (v & e & -> & Hst).
    assert (Hap : forall d', (exists t, In (Some d', t) (block es n (Some a) (Some b) 0 ++ flat_map (fill_block es n) calls)) -> apart es (Some d') (Some b)).
    { intros d' (t & Hd'). destruct Hc as (_ & _ & C3).
      specialize (C3 (Some d', t) (Some (a + 0 * es), Some (b + 0 * 0)) Hd'). cbn [fst snd] in C3.
      replace (b + 0 * 0) with b in C3 by lia. apply C3. apply in_app_iff. left. apply in_block. exists 0. split; [lia|].
      cbn [offset_bytes]. f_equal. f_equal. lia. }
    destruct (fill_ok m es b v e a (n * es) Hes Hst ltac:(nia)) as (m1 & E1 & M1 & M2).
    { intros x Hx. destruct (block_index es n (x - a) Hes ltac:(lia)) as (k & r & K1 & K2 & K3).
      specialize (Hap (a + k * es)). cbn [apart] in Hap. destruct Hap as [Hap|Hap]; [|lia|lia].
      exists (Some (b + k * 0)). apply in_app_iff. left. apply in_block. exists k. auto. }
    rewrite E1.
    assert (A1 : assigned es (block es n (Some a) (Some b) 0) m m1).
    { apply assigned_block; try assumption; try lia. intros k r Hk Hr. rewrite M1 by nia.
      replace (b + k * 0 + r) with (b + r) by lia. f_equal. f_equal. rewrite Z.add_comm, Z.mod_add by lia. apply Z.mod_small. lia. }
    destruct (IH (Some b) (Some (v, e)) m1 Hes Hn HF' (clean_app_r _ _ _ Hc)) as (m2 & E2 & A2).
    { intros s' Es. inversion Es. subst s'. exists v, e. split; [reflexivity|]. split.
      - apply (stands_for_same m); try assumption. intros x Hx. apply M2. intros X.
        destruct (block_index es n (x - a) Hes ltac:(lia)) as (k & r & K1 & K2 & K3).
        specialize (Hap (a + k * es)). cbn [apart] in Hap. destruct Hap as [Hap|Hap]; [|lia|lia].
        exists (Some (b + k * 0)). apply in_app_iff. left. apply in_block. exists k. auto.
      - intros d' (t & Ht). apply Hap. exists t. apply in_app_iff. auto. }
    exists m2. split; [exact E2|]. eapply assigned_app; eassumption.
Qed.

(** ** shapes of the calls of for_each *)
Section Shapes.
Context (skip : bool) (nulls : list bool) (es : list Z).
Definition odd (c : call) : list unit :=
  if (1 <=? c_slice_extent c) && (length (c_bases c) =? length nulls)%nat && (1 <=? c_extent c) then [] else [tt].
Lemma odd_calls : forall plan v se, length es = length nulls -> Forall (loop_ok skip es nulls) plan -> respects nulls v -> 1 <= se ->
  flat_map odd (run_plan plan v se) = [].
Proof.
  intros plan v se Hes HP. revert v se. induction HP as [|l plan Hl HP IH]; intros v se HR Hse; pose proof (respects_length _ _ HR) as HL.
  - cbn [run_plan flat_map]. unfold odd. cbn [c_slice_extent c_bases c_strides c_extent length Nat.leb Z.leb Z.compare].
    rewrite HL, Nat.eqb_refl. replace (1 <=? se) with true by lia. reflexivity.
  - destruct l as [e s|f ds c]; cbn [loop_ok run_plan] in *.
    + destruct Hl as [He Hs]. assert (HLs : length v = length s) by congruence. destruct plan as [|l plan].
      * cbn [flat_map]. unfold odd. cbn [c_slice_extent c_bases c_strides c_extent]. rewrite HL, Nat.eqb_refl.
        replace (1 <=? e) with true by lia. replace (1 <=? se) with true by lia. reflexivity.
      * rewrite call_impl_linear_flat by assumption. rewrite flat_map_flat_map.
        rewrite (flat_map_ext_in _ _ _ (fun _ => [])); [apply flat_map_nil|]. intros k _. apply IH; [|assumption]. apply respects_vadd; [assumption|now rewrite scale_length].
    + destruct Hl as (Hd & HF & _ & _).
      destruct ds as [|d0 ds]; [reflexivity|]. destruct v as [|p0 ps]; [cbn [length] in *; lia|].
      rewrite nonlinear_loop_flat.
      pose proof (fun H1 H3 => nonlinear_loop_ok false f d0 ds c p0 ps
        (fun b e n => flat_map odd
           match plan with [] => [Call (n * se) b e (map d_stride (d0 :: ds))] | _ => call_impl_linear e b (map d_stride (d0 :: ds)) (fun b' => run_plan plan b' (n * se)) end)
        (fun _ => @nil unit) H1 HF H3) as Q. cbn [R] in Q.
      rewrite Q; [apply flat_map_nil| |].
      * cbn [length] in *. unfold ptr in *. lia.
      * intros x n Hn Hx. rewrite flat_map_nil.
        assert (HRx : respects nulls (vadd (p0 :: ps) x)) by (apply respects_vadd; [assumption|congruence]).
        pose proof (respects_length _ _ HRx) as HLx.
        assert (X1 : 1 <= (if c then n else 1) * se) by (destruct c; nia).
        assert (X2 : 1 <= (if c then 1 else n)) by (destruct c; lia).
        revert X1 X2. generalize (if c then n else 1) (if c then 1 else n). intros a b X1 X2.
        destruct plan as [|l plan].
        { cbn [flat_map]. unfold odd. cbn [c_slice_extent c_bases c_strides c_extent]. rewrite HLx, Nat.eqb_refl.
          replace (1 <=? b) with true by lia. replace (1 <=? a * se) with true by lia. reflexivity. }
        { rewrite call_impl_linear_flat; [|rewrite map_length; congruence|lia]. rewrite flat_map_flat_map.
          rewrite (flat_map_ext_in _ _ _ (fun _ => [])); [apply flat_map_nil|]. intros k _. apply IH; [|assumption]. apply respects_vadd; [assumption|].
          rewrite scale_length, map_length. congruence. }
Qed.
Lemma odd_inv : forall c, odd c = [] -> 1 <= c_slice_extent c /\ length (c_bases c) = length nulls /\ 1 <= c_extent c.
Proof.
  intros c H. unfold odd in H. destruct ((1 <=? c_slice_extent c) && _ && _) eqn:E; [|discriminate].
  rewrite !andb_true_iff in E. destruct E as [[E1 E2] E3]. apply Nat.eqb_eq in E2. lia.
Qed.
End Shapes.

Lemma increment_length : forall v s, length (increment_bases v s) = length v.
Proof. induction v; intros [|x s]; cbn [increment_bases length]; auto. Qed.
Lemma slices_shape : forall b0 bs, flags_ok b0 bs -> dims_ok b0 -> Forall (fun p => dims_ok (snd p)) bs -> one_contiguous_dim b0 ->
  Forall (fun c => 1 <= fst c /\ length (snd c) = S (length bs)) (for_each_contiguous_slice b0 bs).
Proof.
  intros b0 bs Hf Hok0 Hok Hone. unfold for_each_contiguous_slice, for_each_impl.
  destruct (plan_loop true b0 bs (for_each_rank b0 bs) (base b0) (map (fun p => base (snd p)) bs) 1 1) as [[plan [q0 qs]] se] eqn:EP.
  pose proof (bases_respect b0 bs) as HR.
  destruct (plan_loop_ok true b0 bs Hf Hok0 Hok (fun _ => Hone) _ _ _ 1 1 (for_each_rank b0 bs) false _ _ _ _ HR ltac:(lia) ltac:(lia)
     ltac:(congruence) ltac:(auto) (Nat.le_refl _) eq_refl ltac:(congruence) EP) as (A1 & A2 & A3 & A4 & A5 & A6).
  pose proof (odd_calls true (nulls bs) (sizes b0 bs) plan (q0 :: qs) se (sizes_length b0 bs) A1 A4 A2) as Q.
  rewrite Forall_forall. intros c Hc. apply in_flat_map in Hc. destruct Hc as (cl & Hcl & Hc).
  assert (Ho : odd (nulls bs) cl = []).
  { clear - Q Hcl. induction (run_plan plan (q0 :: qs) se) as [|c' l IH]; [destruct Hcl|]. cbn [flat_map] in Q. apply app_eq_nil in Q.
    destruct Q, Hcl; [now subst|auto]. }
  apply odd_inv in Ho. destruct Ho as (O1 & O2 & O3). rewrite nulls_length in O2.
  unfold unroll, call_impl_linear in Hc. revert Hc. generalize (Z.to_nat (Z.max 1 (c_extent cl))). intros n.
  revert O2. generalize (c_bases cl). induction n as [|n IH]; intros v Hv Hc; cbn [linear_loop] in Hc; [destruct Hc|].
  apply in_app_iff in Hc. destruct Hc as [[<-|[]]|Hc]; [cbn [fst snd]; auto|].
  destruct n as [|n]; [destruct Hc|]. apply (IH (increment_bases v (c_strides cl))); [now rewrite increment_length|exact Hc].
Qed.

(** no calls at all when a dimension of the first buffer is empty *)
Definition has_empty (l : loop) : Prop := match l with Nonlinear _ (d0 :: _) _ => d_max d0 < d_min d0 | _ => False end.
Lemma nonlinear_empty : forall A f d0 ds c v (body : list ptr -> Z -> Z -> list A), d_max d0 < d_min d0 -> nonlinear_loop f (d0 :: ds) c v body = [].
Proof.
  intros A f d0 ds c v body H. unfold nonlinear_loop. destruct v as [|p v]; [reflexivity|].
  assert (G : forall a b, b < a -> run_one_fold (size a b) d0 ds c p v a b body = []).
  { intros a b Hab. unfold size. replace (Z.to_nat (b - a + 1)) with O by lia. reflexivity. }
  destruct (Z.leb_spec f 0); [apply G; lia|].
  assert (Hal : d_min d0 <= align_up (d_min d0) f).
  { unfold align_up. pose proof (Z.div_mod (d_min d0 + f - 1) f ltac:(lia)). pose proof (Z.mod_pos_bound (d_min d0 + f - 1) f ltac:(lia)). nia. }
  unfold size at 2. replace (Z.to_nat (d_max d0 - align_up (d_min d0) f + 1)) with O by lia. cbn [fold_loop]. rewrite app_nil_r.
  destruct (negb _); [|reflexivity]. apply G. lia.
Qed.
Lemma linear_nil : forall A n v s (f : list ptr -> list A), (forall v, f v = []) -> linear_loop n v s f = [].
Proof.
  intros A n. induction n as [|n IH]; intros v s f Hf; cbn [linear_loop]; [reflexivity|]. rewrite Hf. cbn [app].
  destruct n as [|n]; [reflexivity|]. now apply IH.
Qed.
Lemma run_one_fold_nil : forall A fuel d0 ds c p0 ps i max (body : list ptr -> Z -> Z -> list A), (forall v e n, body v e n = []) ->
  run_one_fold fuel d0 ds c p0 ps i max body = [].
Proof.
  induction fuel as [|fuel IH]; intros d0 ds c p0 ps i max body Hb; cbn [run_one_fold]; [reflexivity|].
  destruct (i <=? max); [|reflexivity]. destruct (chunk_bases ps ds i max) as [bi m]. rewrite Hb. cbn [app]. now apply IH.
Qed.
Lemma nonlinear_nil : forall A f ds c v (body : list ptr -> Z -> Z -> list A), (forall v e n, body v e n = []) -> nonlinear_loop f ds c v body = [].
Proof.
  intros A f ds c v body Hb. unfold nonlinear_loop. destruct ds as [|d0 ds]; [reflexivity|]. destruct v as [|p v]; [reflexivity|].
  destruct (f <=? 0); [now apply run_one_fold_nil|].
  assert (G : forall fuel i mx, fold_loop fuel f i mx (fun a b => run_one_fold (size a b) d0 ds c p v a b body) = []).
  { induction fuel as [|fuel IH]; intros i mx; cbn [fold_loop]; [reflexivity|]. destruct (i <=? mx); [|reflexivity].
    rewrite run_one_fold_nil by assumption. apply IH. }
  rewrite G, app_nil_r. destruct (negb _); [|reflexivity]. now apply run_one_fold_nil.
Qed.
Lemma run_plan_empty : forall plan v se, Exists has_empty plan -> run_plan plan v se = [].
Proof.
  induction plan as [|l plan IH]; intros v se H; [inversion H|].
  inversion H as [x y Hl|x y Hp]; subst.
  - destruct l as [e s|f [|d0 ds] c]; cbn [has_empty] in Hl; try contradiction. cbn [run_plan]. now apply nonlinear_empty.
  - destruct plan as [|l' plan]; [inversion Hp|]. destruct l as [e s|f ds c]; cbn [run_plan].
    + unfold call_impl_linear. apply linear_nil. intros v'. now apply IH.
    + apply nonlinear_nil. intros v' e n. unfold call_impl_linear. apply linear_nil. intros v2. now apply IH.
Qed.
Lemma plan_loop_empty : forall skip b0 bs d k p0 ps ext se, (k < d)%nat -> empty (dim_at b0 k) = true ->
  Exists has_empty (fst (fst (plan_loop skip b0 bs d p0 ps ext se))).
Proof.
  intros skip b0 bs. induction d as [|d IH]; intros k p0 ps ext se Hk He; [lia|]. cbn [plan_loop].
  destruct (Nat.eq_dec k d) as [->|Hne].
  - unfold empty in He. replace (d_min (dim_at b0 d) =? d_max (dim_at b0 d)) with false by lia. rewrite He. cbn [negb andb orb].
    destruct (plan_loop skip b0 bs d p0 ps 1 se) as [[plan bb] se']. cbn [fst]. left. cbn [has_empty loop_dims]. unfold loop_dims. lia.
  - assert (Hkd : (k < d)%nat) by lia.
    repeat match goal with |- context [if ?c then _ else _] => destruct c end;
    try (now apply (IH k)).
    all: match goal with |- context [plan_loop ?a ?b ?c ?d ?e ?f ?g ?h] =>
           pose proof (IH k e f g h Hkd He) as G; destruct (plan_loop a b c d e f g h) as [[plan bb] se'] end;
         cbn [fst] in *; now right.
Qed.
Lemma slices_empty : forall b0 bs, box (dims b0) = [] -> for_each_contiguous_slice b0 bs = [].
Proof.
  intros b0 bs H.
  assert (HE : exists k, (k < rank b0)%nat /\ empty (dim_at b0 k) = true).
  { unfold rank, dim_at. revert H. generalize (dims b0). induction l as [|d l IH]; intros H; [discriminate|].
    cbn [box] in H. destruct (box l) as [|i rest] eqn:EB.
    - destruct (IH eq_refl) as (k & K1 & K2). exists (S k). cbn [length nth]. split; [lia|assumption].
    - cbn [flat_map] in H. apply app_eq_nil in H. destruct H as [H _]. apply map_eq_nil in H.
      exists O. cbn [length nth]. split; [lia|]. unfold empty. destruct (Z.ltb_spec (d_max d) (d_min d)); [reflexivity|].
      exfalso. assert (X : In (d_min d) (range (d_min d) (d_max d))) by (apply in_range; lia). rewrite H in X. destruct X. }
  destruct HE as (k & K1 & K2). unfold for_each_contiguous_slice, for_each_impl.
  pose proof (plan_loop_empty true b0 bs (for_each_rank b0 bs) k (base b0) (map (fun p => base (snd p)) bs) 1 1) as G.
  destruct (plan_loop true b0 bs (for_each_rank b0 bs) (base b0) (map (fun p => base (snd p)) bs) 1 1) as [[plan [q0 qs]] se].
  cbn [fst] in G. rewrite run_plan_empty; [reflexivity|]. apply G; [|assumption]. pose proof (rank_bound0 bs (rank b0)). unfold for_each_rank. lia.
Qed.

(** ** copy_impl *)
Definition pair_of (l : list ptr) : ptr * ptr := match l with [d; s] => (d, s) | _ => (None, None) end.
Lemma elementwise_addresses : forall dst src, elementwise dst src = map pair_of (map (addresses dst [(false, src)]) (box (dims dst))).
Proof. intros. unfold elementwise. rewrite map_map. reflexivity. Qed.
Lemma offset_oadd : forall p k, offset_bytes p k = oadd p (Some k).
Proof. intros [a|] k; reflexivity. Qed.
Lemma locate_cons : forall b d ds i rest, dims b = d :: ds ->
  locate b (index (i :: rest)) = oadd (locate (Buf (base b) (elem_size b) ds) (index rest)) (place d i).
Proof.
  intros b d ds i rest H. unfold locate. cbn [base dims]. rewrite H. cbn [place_all].
  change (index (i :: rest) 0) with i. change (fun k => index (i :: rest) (S k)) with (index rest).
  rewrite (oadd_comm (place d i)). apply oadd_assoc.
Qed.

Lemma copy_impl_ok : forall m src dst, 0 < elem_size dst -> elem_size src = elem_size dst -> dims_ok dst -> dims_ok src ->
  (box (dims dst) = [] \/ one_contiguous_dim dst) -> clean (elem_size dst) (elementwise dst src) ->
  exists m', copy_impl m src dst = Some m' /\ assigned (elem_size dst) (elementwise dst src) m m'.
Proof.
  intros m src dst Hes Hsz Hd Hs Hone Hc. unfold copy_impl.
  destruct (empty (dim_at dst 0)) eqn:EE.
  { exists m. split; [reflexivity|]. unfold elementwise, dim_at in *. destruct (dims dst) as [|d0 ds]; [cbn in EE; discriminate|].
    cbn [nth] in EE. unfold empty in EE. cbn [box]. rewrite range_empty by lia. cbn [map].
    rewrite flat_map_nil. apply assigned_nil. }
  destruct ((0 <? d_fold (dim_at dst 0)) || _ || _ || _) eqn:EP.
  - destruct (list_eq_dec (list_eq_dec Z.eq_dec) (box (dims dst)) []) as [HB|HB].
    + rewrite slices_empty by assumption. exists m. split; [reflexivity|]. unfold elementwise. rewrite HB. apply assigned_nil.
    + destruct Hone as [Hone|Hone]; [contradiction|].
      assert (Fl : flags_ok dst [(false, src)]) by (intros b [X|[]]; inversion X).
      assert (Fs : Forall (fun p => dims_ok (snd p)) [(false, src)]) by (repeat constructor; assumption).
      pose proof (slices_shape dst [(false, src)] Fl Hd Fs Hone) as Sh. cbn [length] in Sh.
      pose proof (C23_for_each_contiguous_slice dst [(false, src)] Fl Hd Fs Hone) as P.
      apply (Permutation_map pair_of) in P. rewrite <- elementwise_addresses in P.
      assert (E : map pair_of (flat_map (fun q => map (fun k => nth_of_run dst [(false, src)] k (snd q)) (range 0 (fst q - 1)))
         (for_each_contiguous_slice dst [(false, src)])) = flat_map (slice_block (elem_size dst)) (for_each_contiguous_slice dst [(false, src)])).
      { rewrite map_flat_map. apply flat_map_ext_in. intros [n ps] Hin. rewrite Forall_forall in Sh. specialize (Sh _ Hin). cbn [fst snd] in *.
        destruct Sh as [_ Sh]. destruct ps as [|p [|q [|? ?]]]; cbn [length] in Sh; try lia.
        unfold slice_block, block. cbn [fst snd]. rewrite map_map. apply map_ext. intros k. unfold nth_of_run. cbn [map snd combine fst pair_of].
        now rewrite Hsz. }
      rewrite E in P.
      destruct (run_slices_ok (elem_size dst) (for_each_contiguous_slice dst [(false, src)]) m Hes Sh) as (m' & E1 & A1).
      { eapply clean_incl; [|exact Hc]. intros o Ho. eapply Permutation_in; eassumption. }
      exists m'. split; [exact E1|]. eapply assigned_equiv; [|exact A1]. intros o. split; intros Ho.
      * eapply Permutation_in; eassumption.
      * eapply Permutation_in; [apply Permutation_sym; eassumption|assumption].
  - apply orb_false_iff in EP. destruct EP as [EP E4]. apply orb_false_iff in EP. destruct EP as [EP E3].
    apply orb_false_iff in EP. destruct EP as [E1 E2].
    assert (Sd : d_stride (dim_at dst 0) = elem_size dst) by (destruct (Z.eqb_spec (d_stride (dim_at dst 0)) (elem_size dst)); [assumption|discriminate]).
    destruct (dims dst) as [|d0 ds] eqn:ED.
    { unfold dim_at in Sd. rewrite ED in Sd. cbn in Sd. lia. }
    assert (D0 : dim_at dst 0 = d0) by (unfold dim_at; now rewrite ED). rewrite D0 in *.
    assert (Hdo : dim_ok d0 /\ Forall dim_ok ds) by (unfold dims_ok in Hd; rewrite ED in Hd; inversion Hd; auto).
    destruct Hdo as [Hd0 Hds].
    assert (Fd : d_fold d0 = unfolded) by (destruct Hd0 as [X|[X|X]]; [lia|assumption|lia]).
    set (n := extent d0). assert (Hn : n = d_max d0 - d_min d0 + 1 /\ 1 <= n).
    { subst n. unfold extent, d_begin, d_end, empty in *. destruct (Z.ltb_spec (d_min d0) (d_max d0 + 1)); lia. }
    set (es := elem_size dst) in *.
    (* the rows of the destination *)
    assert (Hrow : forall i rest, d_min d0 <= i <= d_max d0 ->
      locate dst (index (i :: rest)) = offset_bytes (locate (slice_dim0 dst) (index rest)) ((i - d_min d0) * es)).
    { intros i rest Hi. rewrite (locate_cons dst d0 ds) by assumption. unfold slice_dim0. rewrite ED. cbn [tl].
      rewrite offset_oadd. f_equal. rewrite place_some by assumption. rewrite Sd, Fd, Z.eqb_refl. replace (es =? 0) with false by lia. reflexivity. }
    assert (Helem : elementwise dst src = flat_map (fun rest => map (fun i => (locate dst (index (i :: rest)), locate src (index (i :: rest)))) (range (d_min d0) (d_max d0))) (box ds)).
    { unfold elementwise. rewrite ED. cbn [box]. rewrite map_flat_map. apply flat_map_ext. intros rest. now rewrite map_map. }
    assert (Hnn : forall i rest, In rest (box ds) -> d_min d0 <= i <= d_max d0 -> locate src (index (i :: rest)) <> None).
    { intros i rest Hr Hi. destruct Hc as (C1 & _). specialize (C1 (locate dst (index (i :: rest)), locate src (index (i :: rest)))).
      apply C1. rewrite Helem. apply in_flat_map. exists rest. split; [assumption|]. apply in_map_iff. exists i. split; [reflexivity|]. now apply in_range. }
    assert (Hokd : dims_ok (slice_dim0 dst)) by (unfold slice_dim0, dims_ok; rewrite ED; exact Hds).
    assert (Hoks : Forall dim_ok (tl (dims src))) by (unfold dims_ok in Hs; destruct (dims src); [constructor|inversion Hs; assumption]).
    assert (Hds' : dims (slice_dim0 dst) = ds) by (unfold slice_dim0; now rewrite ED).
    assert (Hshape : forall b, Forall (fun c : list ptr => length c = 2%nat) (map (addresses (slice_dim0 dst) [(false, b)]) (box ds))).
    { intros b. rewrite Forall_forall. intros c Hin. apply in_map_iff in Hin. destruct Hin as (? & <- & _). reflexivity. }
    destruct (Z.eqb_spec (d_stride (dim_at src 0)) 0) as [S0|S0].
    + (* fill *)
      rewrite C23_for_each_element; [|intros b [X|[]]; inversion X|assumption|repeat constructor; exact Hoks]. rewrite Hds'.
      assert (EQ : flat_map (fill_block es n) (map (addresses (slice_dim0 dst) [(false, slice_dim0 src)]) (box ds)) = elementwise dst src).
      { rewrite Helem, flat_map_map. apply flat_map_ext. intros rest. unfold addresses. cbn [map snd fill_block].
        unfold block. rewrite (range_zseq (d_min d0) (d_max d0)), map_map.
        replace (range 0 (n - 1)) with (zseq (d_max d0 - d_min d0 + 1)) by (unfold range, zseq; f_equal; f_equal; lia).
        apply map_ext_in. intros k Hk. apply in_zseq in Hk. rewrite Hrow by lia. f_equal; [f_equal; f_equal; lia|].
        rewrite offset_oadd. destruct (dims src) as [|s0 ss] eqn:ES.
        - unfold locate, slice_dim0. rewrite ES. cbn [tl base dims place_all]. rewrite !oadd_0_r.
          replace (k * 0) with 0 by lia. now rewrite oadd_0_r.
        - rewrite (locate_cons src s0 ss) by assumption. unfold dim_at in S0. rewrite ES in S0. cbn [nth] in S0.
          unfold slice_dim0. rewrite ES. cbn [tl]. f_equal. rewrite place_stride0 by assumption. f_equal. lia. }
      rewrite <- EQ in *.
      apply (run_fills_ok es n _ None None m Hes ltac:(lia) (Hshape _) Hc). intros s X. discriminate.
    + (* memcpy *)
      assert (Ss : d_stride (dim_at src 0) = es).
      { cbn [negb andb] in E4. destruct (Z.eqb_spec (d_stride (dim_at src 0)) es); [assumption|discriminate]. }
      destruct (dims src) as [|s0 ss] eqn:ES.
      { unfold dim_at in Ss. rewrite ES in Ss. cbn in Ss. lia. }
      assert (D1 : dim_at src 0 = s0) by (unfold dim_at; now rewrite ES). rewrite D1 in *.
      assert (Fs : d_fold s0 = unfolded).
      { unfold dims_ok in Hs. rewrite ES in Hs. inversion Hs as [|x l Hx Hl]. subst. destruct Hx as [X|[X|X]]; [lia|assumption|lia]. }
      set (src'' := Buf (offset_bytes (base (slice_dim0 src)) (d_offset s0 (d_min d0))) (elem_size (slice_dim0 src)) (dims (slice_dim0 src))).
      rewrite C23_for_each_element; [|intros b [X|[]]; inversion X|assumption|].
      2:{ repeat constructor. unfold dims_ok, src'', slice_dim0. cbn [snd dims]. rewrite ES. exact Hoks. }
      rewrite Hds'.
      assert (EQ : flat_map (copy_block es n) (map (addresses (slice_dim0 dst) [(false, src'')]) (box ds)) = elementwise dst src).
      { rewrite Helem, flat_map_map. apply flat_map_ext_in. intros rest Hr. unfold addresses. cbn [map snd copy_block].
        unfold block. rewrite (range_zseq (d_min d0) (d_max d0)), map_map.
        replace (range 0 (n - 1)) with (zseq (d_max d0 - d_min d0 + 1)) by (unfold range, zseq; f_equal; f_equal; lia).
        assert (Hin : forall i, d_min d0 <= i <= d_max d0 -> d_min s0 <= i <= d_max s0).
        { intros i Hi. specialize (Hnn i rest Hr Hi). rewrite (locate_cons src s0 ss) in Hnn by assumption.
          destruct (Z_le_dec (d_min s0) i); [destruct (Z_le_dec i (d_max s0)); [lia|]|];
            exfalso; apply Hnn; rewrite (place_none s0 i) by lia; apply oadd_none_r. }
        apply map_ext_in. intros k Hk. apply in_zseq in Hk. rewrite Hrow by lia. f_equal; [f_equal; f_equal; lia|].
        rewrite offset_oadd. rewrite (locate_cons src s0 ss) by assumption. unfold src'', slice_dim0. rewrite ES. cbn [tl dims base elem_size].
        unfold locate. cbn [base dims]. rewrite offset_oadd, <- !oadd_assoc. f_equal.
        rewrite (oadd_swap (Some (d_offset s0 (d_min d0)))). f_equal.
        rewrite place_in by (apply Hin; lia).
        assert (X := place_in s0 (d_min d0) (Hin (d_min d0) ltac:(lia))). assert (Y := place_in s0 (k + d_min d0) (Hin (k + d_min d0) ltac:(lia))).
        rewrite (place_some s0) in X, Y by (apply Hin; lia). rewrite Ss, Fs, Z.eqb_refl in X, Y. replace (es =? 0) with false in X, Y by lia.
        injection X as X. injection Y as Y. rewrite <- X, <- Y. cbn [oadd]. f_equal. lia. }
      rewrite <- EQ in *.
      apply (run_copies_ok es n _ m Hes ltac:(lia) (Hshape _) Hc).
Qed.
