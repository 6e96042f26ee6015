(** slice(span) of several dimensions, and the buffer statements of the evaluator. *)
From Coq Require Import ZArith List Bool Lia Arith Sorting.Sorted Permutation.
From Verif Require Import Buf_Model Buf_Spec Buf_Proofs.
Import ListNotations.
Open Scope nat_scope.

(** The dims whose position (counted from c) is not in ds. *)
Fixpoint remove_all (c : nat) (l : list dim) (ds : list nat) : list dim :=
  match l with
  | [] => []
  | x :: l' => if existsb (Nat.eqb c) ds then remove_all (S c) l' ds else x :: remove_all (S c) l' ds
  end.

Lemma existsb_false : forall c ds, (forall d, In d ds -> c < d) -> existsb (Nat.eqb c) ds = false.
Proof.
  intros c ds H. destruct (existsb (Nat.eqb c) ds) eqn:E; [|reflexivity].
  apply existsb_exists in E. destruct E as (d & I & Q). apply Nat.eqb_eq in Q. specialize (H d I). lia.
Qed.
Lemma remove_all_nil : forall l c, remove_all c l [] = l.
Proof. induction l as [|x l IH]; intros c; cbn; [reflexivity|]. rewrite IH. reflexivity. Qed.
Lemma remove_all_irrelevant : forall l c ds d, d < c -> remove_all c l (d :: ds) = remove_all c l ds.
Proof.
  induction l as [|x l IH]; intros c ds d L; cbn [remove_all existsb]; [reflexivity|].
  destruct (Nat.eqb_spec c d); [lia|]. cbn [orb]. rewrite !IH by lia. reflexivity.
Qed.
Lemma remove_all_cons : forall l c d ds, c <= d -> (forall e, In e ds -> d < e) ->
  remove_all c l (d :: ds) = remove_nth (remove_all c l ds) (d - c).
Proof.
  induction l as [|x l IH]; intros c d ds L G; cbn [remove_all].
  - destruct (d - c); reflexivity.
  - destruct (Nat.eq_dec c d) as [->|N].
    + cbn [existsb]. rewrite Nat.eqb_refl. cbn [orb].
      rewrite existsb_false by exact G. rewrite Nat.sub_diag. cbn [remove_nth].
      apply remove_all_irrelevant. lia.
    + cbn [existsb]. destruct (Nat.eqb_spec c d); [contradiction|]. cbn [orb].
      rewrite existsb_false by (intros e I; specialize (G e I); lia).
      rewrite IH by (auto; lia). replace (d - c) with (S (d - S c)) by lia. reflexivity.
Qed.
Lemma fold_slice_remove_all : forall ds b, StronglySorted lt ds ->
  dims (fold_left slice1 (rev ds) b) = remove_all 0 (dims b) ds.
Proof.
  induction ds as [|d ds IH]; intros b S.
  - cbn. symmetry. apply remove_all_nil.
  - apply StronglySorted_inv in S. destruct S as [S F]. rewrite Forall_forall in F.
    cbn [rev]. rewrite fold_left_app. cbn [fold_left]. rewrite slice1_dims, IH by exact S.
    rewrite remove_all_cons by (auto; lia). rewrite Nat.sub_0_r. reflexivity.
Qed.
Lemma fold_slice_base : forall ds b, base (fold_left slice1 ds b) = base b /\ elem_size (fold_left slice1 ds b) = elem_size b.
Proof.
  induction ds as [|d ds IH]; intros b; cbn; [auto|]. destruct (IH (slice1 b d)) as [A B].
  rewrite A, B, slice1_base, slice1_elem. auto.
Qed.

Lemma nth_error_mid : forall A (l : list A) x r, nth_error (l ++ x :: r) (length l) = Some x.
Proof. intros. rewrite nth_error_app2, Nat.sub_diag by lia. reflexivity. Qed.
Lemma set_nth_mid : forall A (l : list A) x r v, set_nth (l ++ x :: r) (length l) v = l ++ v :: r.
Proof. induction l as [|y l IH]; intros x r v; cbn; [reflexivity|]. rewrite IH. reflexivity. Qed.

Lemma move_loop_spec : forall M P J x R,
  exists J', length J' = S (length J) /\
    move_loop (P ++ J ++ x :: M ++ R) (length J) (length P + length J) (length M) = Some (P ++ M ++ J' ++ R).
Proof.
  induction M as [|m M IH]; intros P J x R; cbn [length move_loop].
  - exists (J ++ [x]). split; [rewrite app_length; cbn; lia|]. rewrite <- app_assoc. reflexivity.
  - replace (nth_error (P ++ J ++ x :: (m :: M) ++ R) (S (length P + length J))) with (Some m).
    2:{ symmetry. replace (P ++ J ++ x :: (m :: M) ++ R) with ((P ++ J ++ [x]) ++ m :: M ++ R)
          by (rewrite <- !app_assoc; reflexivity).
        replace (S (length P + length J)) with (length (P ++ J ++ [x])) by (rewrite !app_length; cbn; lia).
        apply nth_error_mid. }
    replace (length P + length J - length J) with (length P) by lia.
    destruct (Nat.leb_spec (length J) (length P + length J)); [|lia].
    destruct (Nat.ltb_spec (length P) (length (P ++ J ++ x :: (m :: M) ++ R))) as [_|G];
      [|rewrite !app_length in G; cbn in G; rewrite app_length in G; lia].
    cbn [andb]. destruct J as [|y J1].
    + cbn [app length]. rewrite set_nth_mid.
      destruct (IH (P ++ [m]) [] m R) as (J' & LJ & E). exists J'. split; [exact LJ|].
      cbn [app length] in E. rewrite <- !app_assoc in E. cbn [app] in E. rewrite app_length in E. cbn [length] in E.
      replace (S (length P + 0)) with (length P + 1 + 0) by lia. exact E.
    + cbn [app length]. rewrite set_nth_mid.
      destruct (IH (P ++ [m]) (J1 ++ [x]) m R) as (J' & LJ & E). exists J'.
      rewrite app_length in LJ. cbn [length] in LJ. split; [lia|].
      rewrite <- !app_assoc in E. cbn [app] in E. rewrite !app_length in E. cbn [length] in E.
      replace (S (length P + S (length J1))) with (length P + 1 + (length J1 + 1)) by lia.
      replace (S (length J1)) with (length J1 + 1) by lia. exact E.
Qed.

Lemma remove_all_none : forall l c ds, (forall d, In d ds -> c + length l <= d) -> remove_all c l ds = l.
Proof.
  induction l as [|x l IH]; intros c ds H; cbn [remove_all]; [reflexivity|].
  rewrite existsb_false by (intros d I; specialize (H d I); cbn in H; lia).
  f_equal. apply IH. intros d I. specialize (H d I). cbn in H. lia.
Qed.
Lemma remove_all_app : forall l1 l2 c ds, remove_all c (l1 ++ l2) ds = remove_all c l1 ds ++ remove_all (c + length l1) l2 ds.
Proof.
  induction l1 as [|x l1 IH]; intros l2 c ds; cbn [app remove_all length].
  - rewrite Nat.add_0_r. reflexivity.
  - rewrite IH. replace (S c + length l1) with (c + S (length l1)) by lia. destruct (existsb _ _); reflexivity.
Qed.

Lemma slice_many_loop_cons : forall r a off d ds t,
  slice_many_loop r a off (d :: ds) t =
  if (r <=? d)%nat then Some (a, t)
  else match move_loop a off d ((match ds with d2 :: _ => d2 | [] => r end) - 1 - d) with
       | None => None
       | Some a' => slice_many_loop r a' (S off) ds (S t)
       end.
Proof. reflexivity. Qed.

Lemma slice_many_loop_spec : forall ds d r P J T total,
  StronglySorted lt (d :: ds) -> (forall e, In e (d :: ds) -> e < r) ->
  length P + length J = d -> r = d + length T ->
  exists J', length J' = length J + S (length ds) /\
    slice_many_loop r (P ++ J ++ T) (length J) (d :: ds) total
    = Some (P ++ remove_all d T (d :: ds) ++ J', total + S (length ds)).
Proof.
  induction ds as [|e ds IH]; intros d r P J T total S B LP LT.
  - cbn [slice_many_loop]. destruct (Nat.leb_spec r d) as [Q|_]; [specialize (B d (or_introl eq_refl)); lia|].
    assert (d < r) by (apply B; left; reflexivity).
    destruct T as [|x M]; [cbn in LT; lia|]. cbn [length] in LT.
    destruct (move_loop_spec M P J x []) as (J' & LJ & E). rewrite !app_nil_r in E.
    replace (r - 1 - d) with (length M) by lia. rewrite LP in E. rewrite E.
    exists J'. split; [cbn; lia|]. cbn [remove_all existsb]. rewrite Nat.eqb_refl. cbn [orb].
    rewrite remove_all_irrelevant, remove_all_nil by lia. cbn. f_equal. f_equal. lia.
  - pose proof S as S'. apply StronglySorted_inv in S'. destruct S' as [S1 F]. rewrite Forall_forall in F.
    rewrite slice_many_loop_cons. destruct (Nat.leb_spec r d) as [Q|_]; [specialize (B d (or_introl eq_refl)); lia|].
    assert (d < e) as DE by (apply F; left; reflexivity).
    assert (e < r) as ER by (apply B; right; left; reflexivity).
    destruct T as [|x T1]; [cbn in LT; lia|]. cbn [length] in LT.
    set (M := firstn (e - 1 - d) T1). set (R := skipn (e - 1 - d) T1).
    assert (T1 = M ++ R) as ET by (symmetry; apply firstn_skipn).
    assert (length M = e - 1 - d) as LM by (unfold M; rewrite firstn_length; lia).
    destruct (move_loop_spec M P J x R) as (J' & LJ & E).
    rewrite LP, LM, <- ET in E. rewrite E.
    assert (length P + length M + length J' = e) as LP2 by lia.
    assert (r = e + length R) as LT2.
    { rewrite ET, app_length in LT. lia. }
    destruct (IH e r (P ++ M) J' R (Datatypes.S total) S1) as (J'' & LJ'' & E2).
    { intros q I. apply B. right. exact I. }
    { rewrite app_length. lia. }
    { exact LT2. }
    rewrite <- app_assoc in E2. rewrite LJ in E2. rewrite E2.
    exists J''. split; [cbn [length]; lia|].
    f_equal. f_equal; [|cbn [length]; lia].

    rewrite <- app_assoc. f_equal. rewrite ET.
    replace (remove_all d (x :: M ++ R) (d :: e :: ds)) with (M ++ remove_all e R (e :: ds)).
    { rewrite <- app_assoc. reflexivity. }
    cbn [remove_all]. replace (existsb (Nat.eqb d) (d :: e :: ds)) with true
      by (cbn [existsb]; rewrite Nat.eqb_refl; reflexivity).
    rewrite (remove_all_irrelevant (M ++ R) (Datatypes.S d) (e :: ds) d) by lia. rewrite remove_all_app.
    assert (forall q, In q (e :: ds) -> e <= q) as GE.
    { intros q [->|I]; [lia|]. apply StronglySorted_inv in S1. destruct S1 as [_ F1]. rewrite Forall_forall in F1.
      specialize (F1 q I). lia. }
    rewrite (remove_all_none M) by (intros q I; specialize (GE q I); lia).
    f_equal. f_equal. lia.
Qed.

Lemma count_leading_spec : forall ds k, exists n rest,
  ds = seq k n ++ rest /\ count_leading ds k = k + n /\ (forall d rest', rest = d :: rest' -> d <> k + n).
Proof.
  induction ds as [|d ds IH]; intros k.
  - exists 0, []. cbn. repeat split; auto. intros; discriminate.
  - cbn [count_leading]. destruct (Nat.eqb_spec d k) as [->|N].
    + destruct (IH (S k)) as (n & rest & E & C & G). exists (S n), rest. cbn [seq app]. rewrite <- E.
      split; [reflexivity|]. split; [lia|]. intros d' r' Hr. specialize (G d' r' Hr). lia.
    + exists 0, (d :: ds). cbn. repeat split; auto. intros d' r' [= <- <-]. lia.
Qed.

Lemma ss_app_inv : forall l1 l2, StronglySorted lt (l1 ++ l2) -> StronglySorted lt l2 /\ (forall a b, In a l1 -> In b l2 -> a < b).
Proof.
  induction l1 as [|x l1 IH]; intros l2 S; cbn in *; [split; [exact S|intros a b []]|].
  apply StronglySorted_inv in S. destruct S as [S F]. destruct (IH l2 S) as [A B]. split; [exact A|].
  rewrite Forall_forall in F. intros a b [->|I] J; [apply F; apply in_or_app; auto|eauto].
Qed.

Lemma remove_all_seq : forall n l c ds, (forall d, In d ds -> c + n <= d) -> n <= length l ->
  remove_all c l (seq c n ++ ds) = remove_all (c + n) (skipn n l) ds.
Proof.
  induction n as [|n IH]; intros l c ds H L; cbn [seq app skipn].
  - rewrite Nat.add_0_r. reflexivity.
  - destruct l as [|x l]; [cbn in L; lia|]. cbn [remove_all]. 
    replace (existsb (Nat.eqb c) (c :: seq (S c) n ++ ds)) with true
      by (cbn [existsb]; rewrite Nat.eqb_refl; reflexivity).
    rewrite remove_all_irrelevant by lia. rewrite IH by (cbn in L; try lia; intros d I; specialize (H d I); lia).
    f_equal. lia.
Qed.

Lemma move_loop_length : forall m a off j a', move_loop a off j m = Some a' -> length a' = length a.
Proof.
  induction m as [|m IH]; intros a off j a' H; cbn [move_loop] in H; [injection H as <-; reflexivity|].
  destruct (nth_error a (S j)); [|discriminate]. destruct ((off <=? j) && _)%bool; [|discriminate].
  apply IH in H. rewrite H. apply set_nth_length.
Qed.
Lemma slice_many_loop_length : forall ds r a off t a' t', slice_many_loop r a off ds t = Some (a', t') -> length a' = length a.
Proof.
  induction ds as [|e ds IH]; intros r a off t a' t' H; cbn [slice_many_loop] in H; [injection H as <- <-; reflexivity|].
  destruct (r <=? e); [injection H as <- <-; reflexivity|].
  destruct (move_loop a off e _) as [a2|] eqn:M; [|discriminate]. apply IH in H. apply move_loop_length in M. congruence.
Qed.

Lemma slice_many_spec : forall b ds, StronglySorted lt ds -> (forall d, In d ds -> d < rank b) ->
  slice_many b ds = Some (fold_left slice1 (rev ds) b).
Proof.
  intros b ds SO B.
  assert (forall b', dims b' = remove_all 0 (dims b) ds -> base b' = base b -> elem_size b' = elem_size b ->
          b' = fold_left slice1 (rev ds) b) as FIN.
  { intros b' D1 D2 D3. pose proof (fold_slice_remove_all ds b SO) as F1.
    destruct (fold_slice_base (rev ds) b) as [F2 F3].
    destruct b', (fold_left slice1 (rev ds) b). cbn in *. subst. reflexivity. }
  destruct ds as [|d0 [|d1 ds]].
  - cbn [slice_many count_leading Nat.min skipn slice_many_loop rev fold_left]. f_equal. rewrite Nat.sub_0_r. unfold rank. rewrite firstn_all. destruct b; reflexivity.
  - reflexivity.
  - set (l := d0 :: d1 :: ds) in *. change (slice_many b l) with
      (let lead := Nat.min (count_leading l 0) (rank b) in
         match slice_many_loop (rank b) (dims b) 0 (skipn lead l) lead with
         | None => None
         | Some (a, total) => Some (Buf (base b) (elem_size b) (firstn (rank b - total) (skipn lead a)))
         end).
    destruct (count_leading_spec l 0) as (n & rest & E & C & G). cbn [Nat.add] in C. rewrite C. cbn zeta.
    assert (n <= rank b) as NR.
    { destruct n as [|n]; [lia|]. assert (In n l) as I by (rewrite E; apply in_or_app; left; apply in_seq; lia).
      specialize (B n I). lia. }
    rewrite Nat.min_l by exact NR.
    assert (skipn n l = rest) as ->.
    { rewrite E, skipn_app, seq_length, Nat.sub_diag, skipn_O.
      rewrite (skipn_all2 (seq 0 n)) by (rewrite seq_length; lia). reflexivity. }
    rewrite E in SO. destruct (ss_app_inv _ _ SO) as [Sr Lt].
    assert (remove_all 0 (dims b) l = remove_all n (skipn n (dims b)) rest) as RA.
    { rewrite E. rewrite remove_all_seq; [reflexivity| |exact NR].
      intros d I. destruct n as [|n]; [lia|]. specialize (Lt n d). assert (n < d) by (apply Lt; [apply in_seq; lia|exact I]). lia. }
    destruct rest as [|d rest].
    + cbn [slice_many_loop]. f_equal. apply FIN; [|reflexivity|reflexivity]. cbn [dims].
      rewrite RA, remove_all_nil, firstn_all2; [reflexivity|]. rewrite skipn_length. unfold rank. lia.
    + assert (n <= d) as ND.
      { destruct n as [|n]; [lia|]. assert (n < d) by (apply Lt; [apply in_seq; lia|left; reflexivity]). lia. }
      assert (d < rank b) as DR by (apply B; rewrite E; apply in_or_app; right; left; reflexivity).
      unfold rank in DR, NR.
      assert (length (firstn d (dims b)) = d) as LF by (rewrite firstn_length; lia).
      destruct (slice_many_loop_spec rest d (rank b) (firstn d (dims b)) [] (skipn d (dims b)) n Sr) as (J' & LJ & EQ).
      { intros e I. apply B. rewrite E. apply in_or_app. right. exact I. }
      { rewrite LF. cbn. lia. }
      { rewrite skipn_length. unfold rank. lia. }
      cbn [app length] in EQ. rewrite firstn_skipn in EQ. rewrite EQ. f_equal.
      apply FIN; [|reflexivity|reflexivity]. cbn [dims]. rewrite RA.
      assert (skipn n (dims b) = skipn n (firstn d (dims b)) ++ skipn d (dims b)) as SK.
      { rewrite <- (firstn_skipn d (dims b)) at 1. rewrite skipn_app, LF.
        replace (n - d) with 0 by lia. rewrite skipn_O. reflexivity. }
      rewrite SK, remove_all_app.
      rewrite (remove_all_none (skipn n (firstn d (dims b)))).
      2:{ intros e I. rewrite skipn_length, LF. destruct I as [->|I]; [lia|].
          apply StronglySorted_inv in Sr. destruct Sr as [_ F]. rewrite Forall_forall in F. specialize (F e I). lia. }
      rewrite skipn_length, LF. replace (n + (d - n)) with d by lia.
      rewrite skipn_app, LF. replace (n - d) with 0 by lia. rewrite skipn_O.
      rewrite app_assoc. rewrite firstn_app.
      set (K := skipn n (firstn d (dims b)) ++ remove_all d (skipn d (dims b)) (d :: rest)).
      assert (length K = rank b - (n + S (length rest))) as LK.
      { assert (length (firstn d (dims b) ++ remove_all d (skipn d (dims b)) (d :: rest) ++ J') = rank b) as LL.
        { clear - EQ DR LF. 
          apply slice_many_loop_length in EQ. rewrite EQ. reflexivity. }
        unfold K. rewrite !app_length in *. rewrite skipn_length, LF in *. cbn [length] in LJ. lia. }
      rewrite <- LK. rewrite firstn_all, Nat.sub_diag, firstn_O, app_nil_r. reflexivity.
Qed.

(** slice_buffer statement: [fill_in] puts the sliced coordinates in place; the
    other dimensions take the coordinates of the result in order. *)
Fixpoint fill_in (at_ : list (option Z)) (f : nat -> Z) : nat -> Z :=
  match at_ with
  | [] => f
  | Some x :: at' => fun k => match k with O => x | S k' => fill_in at' f k' end
  | None :: at' => fun k => match k with O => f 0 | S k' => fill_in at' (fun q => f (S q)) k' end
  end.

Lemma slice_buffer_loop_spec : forall ds at_ p f,
  oadd (fst (slice_buffer_loop p ds at_)) (place_all (snd (slice_buffer_loop p ds at_)) f)
  = oadd p (place_all ds (fill_in at_ f)).
Proof.
  induction ds as [|d ds IH]; intros at_ p f.
  - cbn. reflexivity.
  - destruct at_ as [|[x|] at_]; cbn [slice_buffer_loop].
    + specialize (IH [] p (fun k => f (S k))). destruct (slice_buffer_loop p ds []) as [r l]. cbn [fst snd place_all fill_in] in *.
      rewrite oadd_swap, IH. apply oadd_swap.
    + rewrite IH, place_step. cbn [place_all fill_in]. symmetry. apply oadd_assoc.
    + specialize (IH at_ p (fun k => f (S k))). destruct (slice_buffer_loop p ds at_) as [r l]. cbn [fst snd place_all fill_in] in *.
      rewrite oadd_swap, IH. apply oadd_swap.
Qed.

(** transpose *)
Lemma place_broadcast : forall d x, is_broadcast d = true -> place d x = Some 0%Z.
Proof.
  intros d x H. unfold is_broadcast in H. apply andb_true_iff in H. destruct H as [_ H].
  unfold place. rewrite H. reflexivity.
Qed.
Lemma place_all_snoc : forall l d f, place_all (l ++ [d]) f = oadd (place_all l f) (place d (f (length l))).
Proof.
  induction l as [|x l IH]; intros d f; cbn [app place_all length].
  - rewrite oadd_0_l, oadd_0_r. reflexivity.
  - rewrite IH. apply oadd_assoc.
Qed.
Lemma place_all_trailing : forall ds f, place_all (remove_trailing_broadcasts ds) f = place_all ds f.
Proof.
  intros ds f. unfold remove_trailing_broadcasts. rewrite <- (rev_involutive ds) at 2.
  induction (rev ds) as [|d l IH]; [reflexivity|]. cbn [rev].
  destruct (is_broadcast d) eqn:B; [|reflexivity].
  rewrite IH, place_all_snoc, (place_broadcast d _ B), oadd_0_r. reflexivity.
Qed.
(** Summing over a list of dimensions. *)
Fixpoint place_list (b : buf) (p : list nat) (g : nat -> Z) : option Z :=
  match p with [] => Some 0%Z | d :: p' => oadd (place (dim_at b d) (g d)) (place_list b p' g) end.
Lemma place_list_perm : forall b p q g, Permutation p q -> place_list b p g = place_list b q g.
Proof.
  intros b p q g H. induction H; cbn [place_list]; auto.
  - rewrite IHPermutation. reflexivity.
  - apply oadd_swap.
  - congruence.
Qed.
Lemma place_list_app : forall b p q g, place_list b (p ++ q) g = oadd (place_list b p g) (place_list b q g).
Proof.
  intros b p q g. induction p as [|d p IH]; cbn [app place_list]; [symmetry; apply oadd_0_l|].
  rewrite IH. apply oadd_assoc.
Qed.
Lemma place_list_seq : forall ds k g, 
  place_all ds (fun i => g (k + i)) =
  fold_right (fun i acc => oadd (place (nth (i - k) ds broadcast) (g i)) acc) (Some 0%Z) (seq k (length ds)).
Proof.
  induction ds as [|d ds IH]; intros k g; cbn [place_all length seq fold_right]; [reflexivity|].
  rewrite Nat.add_0_r, Nat.sub_diag. cbn [nth]. f_equal.
  specialize (IH (S k) g). rewrite (place_all_ext ds _ (fun i => g (S k + i))) by (intros; f_equal; lia).
  rewrite IH. clear. 
  assert (forall n j, S k <= j -> fold_right (fun i acc => oadd (place (nth (i - S k) ds broadcast) (g i)) acc) (Some 0%Z) (seq j n)
     = fold_right (fun i acc => oadd (place (nth (i - k) (d :: ds) broadcast) (g i)) acc) (Some 0%Z) (seq j n)) as H.
  { induction n as [|n IHn]; intros j Hj; cbn [seq fold_right]; [reflexivity|]. rewrite IHn by lia.
    replace (j - k) with (S (j - S k)) by lia. reflexivity. }
  apply H. lia.
Qed.
Lemma place_all_list : forall b g, place_all (dims b) g = place_list b (seq 0 (rank b)) g.
Proof.
  intros b g. pose proof (place_list_seq (dims b) 0 g) as H. cbn [Nat.add] in H.
  change (place_all (dims b) g) with (place_all (dims b) (fun i => g i)). rewrite H. unfold rank. clear H.
  induction (seq 0 (length (dims b))) as [|i l IH]; cbn [fold_right place_list]; [reflexivity|].
  rewrite Nat.sub_0_r. f_equal. exact IH.
Qed.
Lemma place_all_map : forall b p f g, (forall i, i < length p -> f i = g (nth i p 0)) ->
  place_all (map (dim_at b) p) f = place_list b p g.
Proof.
  intros b p. induction p as [|d p IH]; intros f g H; cbn [map place_all place_list]; [reflexivity|].
  rewrite (H 0) by (cbn; lia). cbn [nth]. f_equal. apply IH. intros i L. specialize (H (S i)). cbn in H. apply H. lia.
Qed.
Lemma place_list_broadcast : forall b l g, (forall d, In d l -> rank b <= d) -> place_list b l g = Some 0%Z.
Proof.
  intros b l g. induction l as [|d l IH]; intros H; cbn [place_list]; [reflexivity|].
  rewrite IH by (intros e I; apply H; right; exact I). rewrite oadd_0_r.
  unfold dim_at. rewrite nth_overflow by (apply H; left; reflexivity). reflexivity.
Qed.
Lemma filter_split_perm : forall (P : nat -> bool) l, Permutation l (filter P l ++ filter (fun x => negb (P x)) l).
Proof.
  induction l as [|x l IH]; cbn; [constructor|]. destruct (P x); cbn.
  - constructor. exact IH.
  - eapply Permutation_trans; [constructor; exact IH|]. apply Permutation_middle.
Qed.
Lemma locate_transpose : forall b p f g, NoDup p -> (forall d, d < rank b -> In d p) ->
  (forall i, i < length p -> f i = g (nth i p 0)) ->
  locate (transpose b p) f = locate b g.
Proof.
  intros b p f g ND COV FG. unfold locate, transpose. cbn [base dims].
  rewrite place_all_trailing, (place_all_map b p f g FG), place_all_list. f_equal.
  rewrite (place_list_perm b p _ g (filter_split_perm (fun d => d <? rank b) p)), place_list_app.
  rewrite (place_list_broadcast b (filter (fun x => negb (x <? rank b)) p)).
  2:{ intros d I. apply filter_In in I. destruct I as [_ I]. apply negb_true_iff, Nat.ltb_ge in I. exact I. }
  rewrite oadd_0_r. apply place_list_perm. apply NoDup_Permutation.
  - apply NoDup_filter. exact ND.
  - apply seq_NoDup.
  - intros d. rewrite filter_In, in_seq. split.
    + intros [_ H]. apply Nat.ltb_lt in H. lia.
    + intros [_ H]. split; [apply COV; lia|apply Nat.ltb_lt; lia].
Qed.
