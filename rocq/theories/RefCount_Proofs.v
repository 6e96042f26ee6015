(** Proofs about RefCount_Model: the invariant. *)
From Coq Require Import ZArith List Bool Arith Lia.
From Verif Require Import RefCount_Model.
Import ListNotations.

(** ** Lists *)
Lemma upd_length : forall A (l : list A) i x, length (upd l i x) = length l.
Proof. induction l; destruct i; cbn [upd length]; intros; auto. Qed.
Lemma nth_upd : forall A (l : list A) i x j,
  nth_error (upd l i x) j = if (j =? i) && (i <? length l) then Some x else nth_error l j.
Proof.
  induction l as [|a l IH]; intros i x j.
  - cbn [upd length]. rewrite andb_false_r. reflexivity.
  - destruct i, j; cbn [upd nth_error length]; try reflexivity.
    rewrite IH. reflexivity.
Qed.
Lemma nth_upd_same : forall A (l : list A) i x, i < length l -> nth_error (upd l i x) i = Some x.
Proof. intros. rewrite nth_upd, Nat.eqb_refl. destruct (Nat.ltb_spec i (length l)); [reflexivity | lia]. Qed.
Lemma nth_upd_other : forall A (l : list A) i x j, j <> i -> nth_error (upd l i x) j = nth_error l j.
Proof. intros. rewrite nth_upd. destruct (Nat.eqb_spec j i); [congruence | reflexivity]. Qed.
Lemma nth_len : forall A (l : list A) i x, nth_error l i = Some x -> i < length l.
Proof. intros. apply nth_error_Some. congruence. Qed.

Definition count {A} (f : A -> bool) (l : list A) : nat := length (filter f l).
Lemma count_app : forall A (f : A -> bool) l l', count f (l ++ l') = count f l + count f l'.
Proof. intros. unfold count. rewrite filter_app, app_length. reflexivity. Qed.
Lemma count_cons : forall A (f : A -> bool) x l, count f (x :: l) = (if f x then 1 else 0) + count f l.
Proof. intros. unfold count. cbn [filter]. destruct (f x); reflexivity. Qed.
Lemma count_nil : forall A (f : A -> bool), count f [] = 0.
Proof. reflexivity. Qed.
Lemma count_in : forall A (f : A -> bool) l x, In x l -> f x = true -> 1 <= count f l.
Proof.
  intros A f l x I F. unfold count.
  assert (In x (filter f l)) as J by (apply filter_In; auto).
  destruct (filter f l); [contradiction J | cbn [length]; lia].
Qed.
Lemma count_pos : forall A (f : A -> bool) l, 1 <= count f l -> exists x, In x l /\ f x = true.
Proof.
  intros A f l. unfold count. destruct (filter f l) as [|x r] eqn:E; cbn [length]; [lia|].
  intros _. exists x. apply filter_In. rewrite E. left; reflexivity.
Qed.
Lemma count_0 : forall A (f : A -> bool) l x, count f l = 0 -> In x l -> f x = false.
Proof. intros A f l x C I. destruct (f x) eqn:F; [|reflexivity]. pose proof (count_in _ f l x I F). lia. Qed.
Lemma existsb_count : forall A (f : A -> bool) l, existsb f l = false <-> count f l = 0.
Proof.
  induction l as [|x l IH]; cbn [existsb]; [rewrite count_nil; split; auto|].
  rewrite count_cons, orb_false_iff, IH. destruct (f x); split; intros; [destruct H; discriminate | lia | destruct H; lia | split; [auto | lia]].
Qed.
Lemma count_upd : forall A (f : A -> bool) (l : list A) i x y,
  nth_error l i = Some y -> count f (upd l i x) + (if f y then 1 else 0) = count f l + (if f x then 1 else 0).
Proof.
  induction l as [|a l IH]; intros i x y H; destruct i; cbn [nth_error upd] in *; try discriminate.
  - injection H as <-. rewrite !count_cons. lia.
  - rewrite !count_cons. specialize (IH i x y H). lia.
Qed.
Lemma count_concat_upd : forall A (f : A -> bool) (l : list (list A)) i x y,
  nth_error l i = Some y -> count f (concat (upd l i x)) + count f y = count f (concat l) + count f x.
Proof.
  induction l as [|a l IH]; intros i x y H; destruct i; cbn [nth_error upd concat] in *; try discriminate.
  - injection H as <-. rewrite !count_app. lia.
  - rewrite !count_app. specialize (IH i x y H). lia.
Qed.
Lemma in_concat_upd : forall A (l : list (list A)) i x y m,
  nth_error l i = Some y -> In m (concat (upd l i x)) -> In m x \/ In m (concat l).
Proof.
  induction l as [|a l IH]; intros i x y m H I; destruct i; cbn [nth_error upd concat] in *; try discriminate.
  - apply in_app_or in I. destruct I; [left; auto | right; apply in_or_app; auto].
  - apply in_app_or in I. destruct I; [right; apply in_or_app; auto|].
    destruct (IH _ _ _ _ H H0); [auto | right; apply in_or_app; auto].
Qed.
Lemma in_concat_nth : forall A (l : list (list A)) i y m, nth_error l i = Some y -> In m y -> In m (concat l).
Proof. intros. apply in_concat. exists y. split; [eapply nth_error_In; eauto | auto]. Qed.
Lemma in_concat_upd_new : forall A (l : list (list A)) i x y m, nth_error l i = Some y -> In m x -> In m (concat (upd l i x)).
Proof. intros. apply in_concat_nth with i x; [apply nth_upd_same; eapply nth_len; eauto | auto]. Qed.

(** ** Counting handles and pending operations *)
Definition has (o : nat) (x : slot) : bool := eq_value (s_value x) (Some o).
Definition is_add (o : nat) (m : micro) : bool := match m with MAdd o' _ _ => o' =? o | _ => false end.
Definition is_rel (o : nat) (m : micro) : bool := match m with MRel o' => o' =? o | _ => false end.
Definition is_free (o : nat) (m : micro) : bool := match m with MFree o' => o' =? o | _ => false end.
Definition reads (m : micro) (s : nat) : bool :=
  match m with MAdd _ _ (Some g) => g =? s | _ => false end.

Definition pend (st : state) := concat (threads st).
Definition nslots (st : state) (o : nat) := count (has o) (slots st).
Definition nadd (st : state) (o : nat) := count (is_add o) (pend st).
Definition nrel (st : state) (o : nat) := count (is_rel o) (pend st).
Definition nfree (st : state) (o : nat) := count (is_free o) (pend st).
Definition nraw (st : state) (o : nat) := count (Nat.eqb o) (raw st).
Definition nw (st : state) (s : nat) := count (fun m => writes m s) (pend st).
Definition nr (st : state) (s : nat) := count (fun m => reads m s) (pend st).

Lemma eq_value_true : forall a b, eq_value a b = true <-> a = b.
Proof.
  destruct a, b; cbn [eq_value]; split; intros; try congruence.
  - apply Nat.eqb_eq in H. congruence.
  - injection H as ->. apply Nat.eqb_refl.
Qed.
Lemma has_true : forall o x, has o x = true <-> s_value x = Some o.
Proof. intros. apply eq_value_true. Qed.

(** [l] lists different handles that all refer to [o] *)
Lemma nslots_ge : forall sl o l,
  NoDup l -> (forall i, In i l -> exists x, nth_error sl i = Some x /\ s_value x = Some o) -> length l <= count (has o) sl.
Proof.
  induction sl as [|x sl IH]; intros o l N H.
  - destruct l as [|i l]; [cbn [length]; lia|]. destruct (H i (or_introl eq_refl)) as (y & E & _). destruct i; discriminate E.
  - rewrite count_cons.
    set (l' := filter (fun i => negb (i =? 0)) l).
    assert (length l <= (if in_dec Nat.eq_dec 0 l then 1 else 0) + length l') as L.
    { unfold l'. clear H l'. induction l as [|i l IHl]; [cbn [length filter]; lia|].
      inversion N as [|? ? NI N']; subst. specialize (IHl N'). cbn [filter length].
      destruct (Nat.eqb_spec i 0) as [->|Hi]; cbn [negb].
      - destruct (in_dec Nat.eq_dec 0 l) as [A|A]; [contradiction|].
        destruct (in_dec Nat.eq_dec 0 (0 :: l)) as [B|B]; [lia|]. exfalso. apply B. left; reflexivity.
      - cbn [length]. destruct (in_dec Nat.eq_dec 0 (i :: l)) as [A|A]; destruct (in_dec Nat.eq_dec 0 l) as [B|B]; try lia.
        exfalso. apply A. right; exact B. }
    assert (length (map pred l') <= count (has o) sl) as M.
    { apply IH.
      - assert (NoDup l') as N' by (apply NoDup_filter; exact N).
        assert (forall i, In i l' -> i <> 0) as Z.
        { intros i I. apply filter_In in I. destruct I as [_ I]. destruct (Nat.eqb_spec i 0); [discriminate I | auto]. }
        clear L. induction l' as [|i r IHr]; cbn [map]; constructor.
        + intros I. apply in_map_iff in I. destruct I as (j & Ej & Ij). inversion N' as [|? ? NI ?]; subst.
          assert (i <> 0) by (apply Z; left; reflexivity). assert (j <> 0) by (apply Z; right; auto).
          apply NI. replace i with j by lia. exact Ij.
        + inversion N'; subst. apply IHr; auto. intros; apply Z; right; auto.
      - intros i I. apply in_map_iff in I. destruct I as (j & Ej & Ij). apply filter_In in Ij. destruct Ij as [Ij Zj].
        destruct (H j Ij) as (y & Ey & Vy). destruct j; [discriminate Zj|]. cbn [pred] in Ej. subst i. exists y. auto. }
    rewrite map_length in M.
    destruct (in_dec Nat.eq_dec 0 l) as [A|A]; [|lia].
    destruct (H 0 A) as (y & Ey & Vy). cbn [nth_error] in Ey. injection Ey as ->.
    assert (has o y = true) as -> by (apply has_true; exact Vy). lia.
Qed.

Definition owner_of (st : state) (s : nat) : option nat :=
  match nth_error (slots st) s with Some x => s_owner x | None => None end.
Definition phase_of (st : state) (o : nat) : option phase := option_map o_phase (nth_error (objects st) o).
Definition count_of (st : state) (o : nat) : option Z := option_map o_count (nth_error (objects st) o).

(** ** The invariant; [b] is an object just made, not yet referenced *)
Record Inv (b : option nat) (st : state) : Prop := {
  i_bound_slot : forall s o, value st s = Some o -> o < length (objects st);
  i_bound_owner : forall s o, owner_of st s = Some o -> o < length (objects st);
  i_bound_pend : forall o, 1 <= nadd st o + nrel st o + nraw st o -> o < length (objects st);
  i_count : forall o c, count_of st o = Some c ->
      (c = Z.of_nat (nslots st o) + Z.of_nat (nrel st o) + Z.of_nat (nraw st o) - Z.of_nat (nadd st o))%Z;
  i_dead : forall o p, phase_of st o = Some p -> p <> Alive ->
      nslots st o = 0 /\ nrel st o = 0 /\ nraw st o = 0 /\ nadd st o = 0;
  i_add : forall o h g, In (MAdd o h g) (pend st) ->
      value st h = Some o /\
      match g with
      | Some g => value st g = Some o /\ g <> h
      | None => nslots st o = 1 /\ nrel st o = 0 /\ nraw st o = 0 /\ nadd st o = 1
      end;
  i_lock : forall s, nw st s = 0 \/ (nw st s = 1 /\ nr st s = 0);
  i_live : forall o c, count_of st o = Some c -> phase_of st o = Some Alive -> b <> Some o ->
      (1 <= c)%Z \/ exists h, In (MAdd o h None) (pend st);
  i_free : forall o p, phase_of st o = Some p -> nfree st o = match p with Dying => 1 | _ => 0 end;
  i_free_bound : forall o, 1 <= nfree st o -> o < length (objects st);
  i_drop : forall t stk l1 o l2 s, nth_error (threads st) t = Some stk -> stk = l1 ++ MFree o :: l2 ->
      owner_of st s = Some o -> value st s <> None -> In (MDrop s) l1;
  i_freed : forall s o, owner_of st s = Some o -> phase_of st o = Some Freed -> value st s = None;
  i_destroyed : forall o, In o (destroyed st) <-> exists p, phase_of st o = Some p /\ p <> Alive;
  i_once : NoDup (destroyed st)
}.

Lemma init_inv : forall n, Inv None (init n).
Proof.
  intros n.
  assert (pend (init n) = []) as P.
  { unfold pend, init. cbn [threads]. induction n; cbn [repeat concat]; auto. }
  assert (forall s, value (init n) s = None) as V by (intros; unfold value; cbn [slots init]; destruct s; reflexivity).
  assert (forall s, owner_of (init n) s = None) as W by (intros; unfold owner_of; cbn [slots init]; destruct s; reflexivity).
  assert (forall o, phase_of (init n) o = None) as F by (intros; unfold phase_of; cbn [objects init]; destruct o; reflexivity).
  assert (forall o, count_of (init n) o = None) as C by (intros; unfold count_of; cbn [objects init]; destruct o; reflexivity).
  constructor; intros; unfold nadd, nrel, nfree, nw, nr in *; rewrite ?P, ?V, ?W, ?F, ?C in *; try discriminate.
  - cbn in H. lia.
  - contradiction H.
  - left; reflexivity.
  - cbn in H. lia.
  - split; [intros [] | intros (p & E & _); specialize (F o); congruence].
  - constructor.
Qed.

(** ** Consequences of the invariant *)
Lemma nslots_has : forall st s o, value st s = Some o -> 1 <= nslots st o.
Proof.
  intros st s o V. unfold value in V. destruct (nth_error (slots st) s) as [x|] eqn:E; [|discriminate].
  apply count_in with x; [eapply nth_error_In; eauto | apply has_true; exact V].
Qed.
Definition added (o : nat) (l : list micro) : list nat :=
  flat_map (fun m => match m with MAdd o' h _ => if o' =? o then [h] else [] | _ => [] end) l.
Lemma added_length : forall o l, length (added o l) = count (is_add o) l.
Proof.
  induction l as [|m l IH]; [reflexivity|]. unfold added in *. cbn [flat_map]. rewrite app_length, IH, count_cons. f_equal.
  destruct m; cbn [is_add length]; try reflexivity. destruct (o0 =? o); reflexivity.
Qed.
Lemma added_in : forall o l h, In h (added o l) -> exists g, In (MAdd o h g) l.
Proof.
  intros o l h I. apply in_flat_map in I. destruct I as (m & Im & I). destruct m; try contradiction I.
  destruct (Nat.eqb_spec o0 o); [|contradiction I]. destruct I as [->|[]]. subst. eauto.
Qed.
Lemma added_nodup : forall o l, (forall s, count (fun m => writes m s) l <= 1) -> NoDup (added o l).
Proof.
  induction l as [|m l IH]; intros H; [constructor|].
  assert (NoDup (added o l)) as N.
  { apply IH. intros s. specialize (H s). rewrite count_cons in H. lia. }
  unfold added in *. cbn [flat_map]. destruct m as [o' h g|o'|s|o']; cbn [app]; auto.
  destruct (Nat.eqb_spec o' o); cbn [app]; auto. constructor; [|auto].
  intros I. apply added_in in I. destruct I as (g' & I). specialize (H h). rewrite count_cons in H. cbn [writes] in H.
  rewrite Nat.eqb_refl in H. pose proof (count_in _ (fun m => writes m h) l _ I (Nat.eqb_refl h)). lia.
Qed.

Lemma value_nth : forall st s o, value st s = Some o -> exists x, nth_error (slots st) s = Some x /\ s_value x = Some o.
Proof. intros st s o V. unfold value in V. destruct (nth_error (slots st) s) as [x|]; [eauto | discriminate]. Qed.

Lemma lock_le : forall b st, Inv b st -> forall s, nw st s <= 1.
Proof. intros b st I s. destruct (i_lock _ _ I s); lia. Qed.

Lemma room0 : forall b st, Inv b st -> forall o, nadd st o <= nslots st o.
Proof.
  intros b st I o. unfold nadd. rewrite <- added_length. apply nslots_ge.
  - apply added_nodup. apply (lock_le _ _ I).
  - intros h J. apply added_in in J. destruct J as (g & J). apply value_nth. apply (i_add _ _ I _ _ _ J).
Qed.
Lemma room1 : forall b st, Inv b st -> forall o h g, In (MAdd o h (Some g)) (pend st) -> nadd st o + 1 <= nslots st o.
Proof.
  intros b st I o h g A. unfold nadd. rewrite <- added_length.
  destruct (i_add _ _ I _ _ _ A) as (V & Vg & NE).
  assert (length (g :: added o (pend st)) <= nslots st o) as L; [|cbn [length] in L; lia].
  apply nslots_ge.
  - constructor; [|apply added_nodup; apply (lock_le _ _ I)].
    intros J. apply added_in in J. destruct J as (g' & J).
    assert (1 <= nw st g) by (eapply count_in; [exact J | cbn [writes]; apply Nat.eqb_refl]).
    assert (1 <= nr st g) by (eapply count_in; [exact A | cbn [reads]; apply Nat.eqb_refl]).
    destruct (i_lock _ _ I g); lia.
  - intros i [<-|J]; [apply value_nth; exact Vg|]. apply added_in in J. destruct J as (g' & J). apply value_nth. apply (i_add _ _ I _ _ _ J).
Qed.

(** an object with a pending release has a positive count, and the last release leaves
    nothing that refers to it *)
Lemma rel_alive : forall b st o, Inv b st -> 1 <= nslots st o + nrel st o + nraw st o + nadd st o -> exists c, nth_error (objects st) o = Some (Object c Alive).
Proof.
  intros b st o I H.
  assert (o < length (objects st)) as L.
  { destruct (Nat.eq_dec (nslots st o) 0) as [Z|Z].
    - apply (i_bound_pend _ _ I). lia.
    - destruct (count_pos _ (has o) (slots st)) as (x & Ix & Hx); [unfold nslots in Z; lia|].
      apply In_nth_error in Ix. destruct Ix as (s & E). apply (i_bound_slot _ _ I s). unfold value. rewrite E. apply has_true; exact Hx. }
  apply nth_error_Some in L. destruct (nth_error (objects st) o) as [[c p]|] eqn:E; [|congruence].
  assert (phase_of st o = Some p) as P by (unfold phase_of; rewrite E; reflexivity).
  destruct p; [eauto| |]; exfalso; destruct (i_dead _ _ I o _ P); try discriminate; lia.
Qed.
Lemma count_pos_rel : forall b st o c, Inv b st -> 1 <= nrel st o -> count_of st o = Some c ->
  (1 <= c)%Z /\ (c = 1%Z -> nslots st o = 0 /\ nrel st o = 1 /\ nraw st o = 0 /\ nadd st o = 0).
Proof.
  intros b st o c I R C. pose proof (i_count _ _ I o c C) as E. pose proof (room0 _ _ I o) as R0.
  destruct (Nat.eq_dec (nadd st o) 0) as [Z|Z]; [split; lia|].
  destruct (count_pos _ (is_add o) (pend st)) as (m & Im & Hm); [unfold nadd in Z; lia|].
  destruct m as [o' h g| | |]; cbn [is_add] in Hm; try discriminate. apply Nat.eqb_eq in Hm. subst o'.
  destruct g as [g|].
  - pose proof (room1 _ _ I _ _ _ Im). split; lia.
  - destruct (i_add _ _ I _ _ _ Im) as (_ & _ & ? & _). lia.
Qed.

(** ** Effects of the updates *)
Lemma value_set : forall st s v s', s < length (slots st) -> value (set_value st s v) s' = if s' =? s then v else value st s'.
Proof.
  intros st s v s' L. unfold set_value, value. destruct (nth_error (slots st) s) as [x|] eqn:E.
  - cbn [slots]. rewrite nth_upd. destruct (Nat.eqb_spec s' s); cbn [andb]; [|reflexivity].
    destruct (Nat.ltb_spec s (length (slots st))); [reflexivity | lia].
  - apply nth_error_None in E. lia.
Qed.
Lemma owner_set : forall st s v s', owner_of (set_value st s v) s' = owner_of st s'.
Proof.
  intros st s v s'. unfold set_value, owner_of. destruct (nth_error (slots st) s) as [x|] eqn:E; [|reflexivity].
  cbn [slots]. rewrite nth_upd. destruct (Nat.eqb_spec s' s); cbn [andb]; [|reflexivity]. subst.
  rewrite E. destruct (s <? length (slots st)); reflexivity.
Qed.
Lemma nslots_set : forall st s v o, s < length (slots st) ->
  nslots (set_value st s v) o + (if eq_value (value st s) (Some o) then 1 else 0) = nslots st o + (if eq_value v (Some o) then 1 else 0).
Proof.
  intros st s v o L. unfold set_value, value, nslots. destruct (nth_error (slots st) s) as [x|] eqn:E; [|apply nth_error_None in E; lia].
  cbn [slots]. apply (count_upd _ (has o) _ _ (Slot (s_owner x) v) _ E).
Qed.
Lemma set_value_same : forall st s v, objects (set_value st s v) = objects st /\ threads (set_value st s v) = threads st /\
  raw (set_value st s v) = raw st /\ destroyed (set_value st s v) = destroyed st /\ length (slots (set_value st s v)) = length (slots st).
Proof. intros. unfold set_value. destruct (nth_error (slots st) s); cbn [objects threads raw destroyed slots]; rewrite ?upd_length; auto. Qed.

(** ** Two states that differ in ways that matter little *)
(** Rather than follow each update through every clause, the invariant of the new state
    is derived from facts about what changed. *)
Ltac uo := unfold nadd, nrel, nfree, nw, nr, nraw, nslots, pend, phase_of, count_of in *.

Lemma count_of_upd : forall st o x o', o < length (objects st) ->
  count_of (set_object st o x) o' = if o' =? o then Some (o_count x) else count_of st o'.
Proof.
  intros. unfold count_of, set_object. cbn [objects]. rewrite nth_upd. destruct (Nat.eqb_spec o' o); cbn [andb]; [|reflexivity].
  destruct (Nat.ltb_spec o (length (objects st))); [reflexivity | lia].
Qed.
Lemma phase_of_upd : forall st o x o', o < length (objects st) ->
  phase_of (set_object st o x) o' = if o' =? o then Some (o_phase x) else phase_of st o'.
Proof.
  intros. unfold phase_of, set_object. cbn [objects]. rewrite nth_upd. destruct (Nat.eqb_spec o' o); cbn [andb]; [|reflexivity].
  destruct (Nat.ltb_spec o (length (objects st))); [reflexivity | lia].
Qed.

Lemma split_cons : forall (m : micro) rest l1 o l2, m :: rest = l1 ++ MFree o :: l2 -> m <> MFree o ->
  exists l1', l1 = m :: l1' /\ rest = l1' ++ MFree o :: l2.
Proof.
  intros m rest [|x l1] o l2 E N; cbn [app] in E; injection E; intros; subst; [contradiction N; reflexivity|]. eauto.
Qed.
Lemma split_opt : forall (f : nat -> micro) v rest l1 o l2, opt f v ++ rest = l1 ++ MFree o :: l2 -> (forall x, f x <> MFree o) ->
  exists l1', l1 = opt f v ++ l1' /\ rest = l1' ++ MFree o :: l2.
Proof.
  intros f [x|] rest l1 o l2 E N; cbn [opt app] in *; [|eauto].
  destruct (split_cons _ _ _ _ _ E (N x)) as (l1' & -> & ->). eauto.
Qed.

(** Replacing a stack: what i_drop needs *)
Definition drops_ok (st : state) (stk : list micro) : Prop :=
  forall l1 o l2 s, stk = l1 ++ MFree o :: l2 -> owner_of st s = Some o -> value st s <> None -> In (MDrop s) l1.

Lemma pend_upd : forall st t stk f old, nth_error (threads st) t = Some old ->
  count f (pend (set_thread st t stk)) + count f old = count f (pend st) + count f stk.
Proof. intros. unfold pend, set_thread. cbn [threads]. apply count_concat_upd; auto. Qed.

(** *** add_ref *)
Lemma add_inv : forall st t o h g rest, Inv None st -> nth_error (threads st) t = Some (MAdd o h g :: rest) ->
  exists st', micro_step st t (MAdd o h g) rest = Next st' /\ Inv None st'.
Proof.
  intros st t o h g rest I T.
  assert (In (MAdd o h g) (pend st)) as A by (eapply in_concat_nth; [exact T | left; reflexivity]).
  assert (1 <= nadd st o) as A1 by (eapply count_in; [exact A | apply Nat.eqb_refl]).
  destruct (rel_alive _ _ o I ltac:(lia)) as (c & E).
  cbn [micro_step]. rewrite E. eexists. split; [reflexivity|].
  set (st' := set_thread _ t rest).
  assert (o < length (objects st)) as L by (eapply nth_len; eauto).
  assert (forall f, count f (pend st') + (if f (MAdd o h g) then 1 else 0) = count f (pend st)) as P.
  { intros f. unfold st'. pose proof (pend_upd (set_object st o (Object (c + 1) Alive)) t rest f _ T) as Q.
    rewrite count_cons in Q. unfold pend, set_object in *. cbn [threads] in *. lia. }
  assert (forall m, In m (pend st') -> In m (pend st)) as PI.
  { intros m J. unfold st', pend, set_thread, set_object in J. cbn [threads] in J.
    destruct (in_concat_upd _ _ _ _ _ _ T J) as [J'|J']; [|exact J']. eapply in_concat_nth; [exact T | right; exact J']. }
  assert (forall o', nadd st' o' + (if o =? o' then 1 else 0) = nadd st o') as PA by (intros; apply (P (is_add o'))).
  assert (forall o', nrel st' o' = nrel st o') as PR by (intros; pose proof (P (is_rel o')) as Q; cbn [is_rel] in Q; unfold nrel; lia).
  assert (forall o', nfree st' o' = nfree st o') as PF by (intros; pose proof (P (is_free o')) as Q; cbn [is_free] in Q; unfold nfree; lia).
  assert (forall s, nw st' s <= nw st s) as PW by (intros s; pose proof (P (fun m => writes m s)) as Q; cbn beta in Q; unfold nw; destruct (writes _ s) in Q; lia).
  assert (forall s, nr st' s <= nr st s) as PRd by (intros s; pose proof (P (fun m => reads m s)) as Q; cbn beta in Q; unfold nr; destruct (reads _ s) in Q; lia).
  assert (forall o', nraw st' o' = nraw st o') as PWr by reflexivity.
  assert (forall o', nslots st' o' = nslots st o') as PS by reflexivity.
  assert (forall s, value st' s = value st s) as PV by reflexivity.
  assert (forall s, owner_of st' s = owner_of st s) as PO by reflexivity.
  assert (forall o', count_of st' o' = if o' =? o then Some (c + 1)%Z else count_of st o') as PC by (intros; apply count_of_upd; exact L).
  assert (forall o', phase_of st' o' = phase_of st o') as PP.
  { intros o'. unfold st'. change (phase_of (set_thread (set_object st o (Object (c + 1) Alive)) t rest) o') with (phase_of (set_object st o (Object (c + 1) Alive)) o').
    rewrite phase_of_upd by exact L. destruct (Nat.eqb_spec o' o); [subst; unfold phase_of; rewrite E; reflexivity | reflexivity]. }
  assert (length (objects st') = length (objects st)) as PL by (unfold st', set_thread, set_object; cbn [objects]; apply upd_length).
  assert (count_of st o = Some c) as Co by (unfold count_of; rewrite E; reflexivity).
  constructor.
  - intros s o' V. rewrite PL. apply (i_bound_slot _ _ I s). exact V.
  - intros s o' V. rewrite PL. apply (i_bound_owner _ _ I s). exact V.
  - intros o' H. rewrite PL. apply (i_bound_pend _ _ I). specialize (PA o'). specialize (PR o'). specialize (PWr o'). lia.
  - intros o' c' H. rewrite PC in H. rewrite PS, PR, PWr. specialize (PA o'). destruct (Nat.eqb_spec o' o) as [->|N].
    + injection H as <-. rewrite Nat.eqb_refl in PA. pose proof (i_count _ _ I o c Co). lia.
    + destruct (Nat.eqb_spec o o'); [congruence|]. pose proof (i_count _ _ I o' c' H). lia.
  - intros o' p H N. rewrite PP in H. rewrite PS, PR, PWr. specialize (PA o'). destruct (i_dead _ _ I o' p H N) as (? & ? & ? & ?). lia.
  - intros o' h' g' J. pose proof (PI _ J) as J0. destruct (i_add _ _ I _ _ _ J0) as (V & M). split; [exact V|].
    destruct g' as [g'|]; [exact M|]. destruct M as (M1 & M2 & M3 & M4). rewrite PS, PR, PWr. specialize (PA o').
    assert (1 <= nadd st' o') by (eapply count_in; [exact J | apply Nat.eqb_refl]). destruct (o =? o'); lia.
  - intros s. specialize (PW s). specialize (PRd s). destruct (i_lock _ _ I s); lia.
  - intros o' c' H H1 _. rewrite PC in H. rewrite PP in H1. destruct (Nat.eqb_spec o' o) as [->|N].
    + injection H as <-. left. pose proof (i_count _ _ I o c Co). pose proof (room0 _ _ I o). lia.
    + destruct (i_live _ _ I o' c' H H1 ltac:(discriminate)) as [|(h' & J)]; [left; auto|]. right. exists h'.
      assert (1 <= count (fun m => match m with MAdd a b None => (a =? o') && (b =? h') | _ => false end) (pend st')) as Q.
      { pose proof (P (fun m => match m with MAdd a b None => (a =? o') && (b =? h') | _ => false end)) as Q. cbn beta iota in Q.
        assert (1 <= count (fun m => match m with MAdd a b None => (a =? o') && (b =? h') | _ => false end) (pend st)) by
          (eapply count_in; [exact J | cbn beta iota; rewrite !Nat.eqb_refl; reflexivity]).
        destruct (Nat.eqb_spec o o'); [congruence|]. cbn [andb] in Q. destruct g; lia. }
      apply count_pos in Q. destruct Q as (m & Jm & Hm). destruct m as [a bb [x|]| | |]; try discriminate Hm.
      apply andb_true_iff in Hm. destruct Hm as [Ha Hb]. apply Nat.eqb_eq in Ha. apply Nat.eqb_eq in Hb. subst. exact Jm.
  - intros o' p H. rewrite PP in H. rewrite PF. apply (i_free _ _ I). exact H.
  - intros o' H. rewrite PL. rewrite PF in H. apply (i_free_bound _ _ I). exact H.
  - intros t' stk l1 o' l2 s Ht Es Ho Hv. unfold st', set_thread, set_object in Ht. cbn [threads] in Ht. rewrite nth_upd in Ht.
    destruct ((t' =? t) && (t <? length (threads st))) eqn:B.
    + injection Ht as <-. assert (In (MDrop s) (MAdd o h g :: l1)) as J.
      { eapply (i_drop _ _ I t _ (MAdd o h g :: l1) o' l2 s T); [rewrite Es; reflexivity | exact Ho | exact Hv]. }
      destruct J as [J|J]; [discriminate J | exact J].
    + eapply (i_drop _ _ I t'); eauto.
  - intros s o' Ho Hp. rewrite PP in Hp. apply (i_freed _ _ I s o' Ho Hp).
  - intros o'. change (destroyed st') with (destroyed st). rewrite (i_destroyed _ _ I o'). split; intros (p & Hp & N); exists p; rewrite PP in *; auto.
  - apply (i_once _ _ I).
Qed.

(** *** release *)
Lemma rel_inv : forall st t o rest, Inv None st -> nth_error (threads st) t = Some (MRel o :: rest) ->
  exists st', micro_step st t (MRel o) rest = Next st' /\ Inv None st'.
Proof.
  intros st t o rest I T.
  assert (In (MRel o) (pend st)) as A by (eapply in_concat_nth; [exact T | left; reflexivity]).
  assert (1 <= nrel st o) as A1 by (eapply count_in; [exact A | apply Nat.eqb_refl]).
  destruct (rel_alive _ _ o I ltac:(lia)) as (c & E).
  assert (o < length (objects st)) as L by (eapply nth_len; eauto).
  assert (count_of st o = Some c) as Co by (unfold count_of; rewrite E; reflexivity).
  assert (phase_of st o = Some Alive) as Po by (unfold phase_of; rewrite E; reflexivity).
  destruct (count_pos_rel _ _ _ _ I A1 Co) as (C1 & C0).
  pose proof (i_count _ _ I o c Co) as CE.
  cbn [micro_step]. rewrite E. destruct (Z.eqb_spec c 1) as [Ec|Ec].
  - (* the last reference *)
    destruct (C0 Ec) as (Z1 & Z2 & Z3 & Z4). eexists. split; [reflexivity|]. cbv zeta.
    set (new := map MDrop (members st o) ++ MFree o :: rest).
    match goal with |- Inv None ?s => set (st' := s) end.
    assert (forall f, (forall x, f (MDrop x) = false) -> count f (pend st') + (if f (MRel o) then 1 else 0) = count f (pend st) + (if f (MFree o) then 1 else 0)) as P.
    { intros f Hf. pose proof (count_concat_upd _ f (threads st) t new _ T) as Q. unfold new in Q. rewrite count_app, !count_cons in Q.
      assert (count f (map MDrop (members st o)) = 0) as M.
      { clear - Hf. induction (members st o) as [|x l IH]; [reflexivity|]. cbn [map]. rewrite count_cons, Hf, IH. reflexivity. }
      fold new in Q. change (pend st') with (concat (upd (threads st) t new)). change (pend st) with (concat (threads st)). destruct (f (MRel o)), (f (MFree o)); lia. }
    assert (forall m, In m (pend st') -> (exists x, m = MDrop x) \/ m = MFree o \/ In m (pend st)) as PI.
    { intros m J. unfold st', pend in J. cbn [threads objects set_object] in J. destruct (in_concat_upd _ _ _ _ _ _ T J) as [J'|J'].
      - unfold new in J'. apply in_app_or in J'. destruct J' as [J'|[J'|J']].
        + apply in_map_iff in J'. destruct J' as (x & <- & _). left; eauto.
        + auto.
        + right; right. eapply in_concat_nth; [exact T | right; exact J'].
      - auto. }
    assert (forall o', nadd st' o' = nadd st o') as PA by (intros o'; pose proof (P (is_add o') ltac:(reflexivity)) as Q; cbn [is_add] in Q; unfold nadd; lia).
    assert (forall o', nrel st' o' + (if o =? o' then 1 else 0) = nrel st o') as PR by (intros o'; pose proof (P (is_rel o') ltac:(reflexivity)) as Q; cbn [is_rel] in Q; unfold nrel; lia).
    assert (forall o', nfree st' o' = nfree st o' + (if o =? o' then 1 else 0)) as PF by (intros o'; pose proof (P (is_free o') ltac:(reflexivity)) as Q; cbn [is_free] in Q; unfold nfree; lia).
    assert (forall s, nw st' s = nw st s) as PW by (intros s; pose proof (P (fun m => writes m s) ltac:(reflexivity)) as Q; cbn [writes] in Q; unfold nw; lia).
    assert (forall s, nr st' s = nr st s) as PRd by (intros s; pose proof (P (fun m => reads m s) ltac:(reflexivity)) as Q; cbn [reads] in Q; unfold nr; lia).
    assert (forall o', nraw st' o' = nraw st o') as PWr by reflexivity.
    assert (forall o', nslots st' o' = nslots st o') as PS by reflexivity.
    assert (forall o', count_of st' o' = if o' =? o then Some (c - 1)%Z else count_of st o') as PC by (intros; apply count_of_upd; exact L).
    assert (forall o', phase_of st' o' = if o' =? o then Some Dying else phase_of st o') as PP by (intros; apply (phase_of_upd st o (Object (c - 1) Dying)); exact L).
    assert (length (objects st') = length (objects st)) as PL by (unfold st'; cbn [objects set_object]; apply upd_length).
    constructor.
    + intros s o' V. rewrite PL. apply (i_bound_slot _ _ I s). exact V.
    + intros s o' V. rewrite PL. apply (i_bound_owner _ _ I s). exact V.
    + intros o' H. rewrite PL. apply (i_bound_pend _ _ I). specialize (PA o'). specialize (PR o'). specialize (PWr o'). destruct (o =? o'); lia.
    + intros o' c' H. rewrite PC in H. rewrite PS, PA, PWr. specialize (PR o'). destruct (Nat.eqb_spec o' o) as [->|N].
      * injection H as <-. rewrite Nat.eqb_refl in PR. lia.
      * destruct (Nat.eqb_spec o o'); [congruence|]. pose proof (i_count _ _ I o' c' H). lia.
    + intros o' p H N. rewrite PP in H. rewrite PS, PA, PWr. specialize (PR o'). destruct (Nat.eqb_spec o' o) as [->|NE].
      * rewrite Nat.eqb_refl in PR. lia.
      * destruct (i_dead _ _ I o' p H N) as (? & ? & ? & ?). destruct (o =? o'); lia.
    + intros o' h' g' J. destruct (PI _ J) as [(x & X)|[X|J0]]; try discriminate X. destruct (i_add _ _ I _ _ _ J0) as (V & M). split; [exact V|].
      destruct g' as [g'|]; [exact M|]. destruct M as (M1 & M2 & M3 & M4). rewrite PS, PA, PWr. specialize (PR o'). destruct (o =? o'); lia.
    + intros s. rewrite PW, PRd. apply (i_lock _ _ I).
    + intros o' c' H H1 _. rewrite PC in H. rewrite PP in H1. destruct (Nat.eqb_spec o' o) as [->|N]; [discriminate H1|].
      destruct (i_live _ _ I o' c' H H1 ltac:(discriminate)) as [|(h' & J)]; [left; auto|]. right. exists h'.
      pose proof (P (fun m => match m with MAdd a b None => (a =? o') && (b =? h') | _ => false end) ltac:(reflexivity)) as Q. cbn beta iota in Q.
      assert (1 <= count (fun m => match m with MAdd a b None => (a =? o') && (b =? h') | _ => false end) (pend st)) as Q1 by
          (eapply count_in; [exact J | cbn beta iota; rewrite !Nat.eqb_refl; reflexivity]).
      assert (1 <= count (fun m => match m with MAdd a b None => (a =? o') && (b =? h') | _ => false end) (pend st')) as Q2 by lia.
      apply count_pos in Q2. destruct Q2 as (m & Jm & Hm). destruct m as [a bb [x|]| | |]; try discriminate Hm.
      apply andb_true_iff in Hm. destruct Hm as [Ha Hb]. apply Nat.eqb_eq in Ha. apply Nat.eqb_eq in Hb. subst. exact Jm.
    + intros o' p H. rewrite PP in H. rewrite PF. destruct (Nat.eqb_spec o' o) as [->|N].
      * injection H as <-. rewrite Nat.eqb_refl. pose proof (i_free _ _ I o Alive Po). cbn beta iota in H. lia.
      * destruct (Nat.eqb_spec o o'); [congruence|]. rewrite (i_free _ _ I o' p H). lia.
    + intros o' H. rewrite PL. rewrite PF in H. destruct (Nat.eq_dec o o') as [Eo|Eo]; [rewrite <- Eo; exact L|]. apply Nat.eqb_neq in Eo. rewrite Eo in H. apply (i_free_bound _ _ I). lia.
    + intros t' stk l1 o' l2 s Ht Es Ho Hv.
      change (owner_of st s = Some o') in Ho. change (value st s <> None) in Hv.
      unfold st' in Ht. cbn [threads objects set_object] in Ht. rewrite nth_upd in Ht.
      destruct ((t' =? t) && (t <? length (threads st))) eqn:B.
      * assert (new = stk) as X by congruence. subst stk. unfold new in X.
        assert (o' = o -> In (MDrop s) (map MDrop (members st o))) as M.
        { intros ->. apply in_map. apply filter_In. unfold owner_of in Ho. destruct (nth_error (slots st) s) as [x|] eqn:Es'; [|discriminate Ho].
          split; [apply in_seq; pose proof (nth_len _ _ _ _ Es'); lia | rewrite Ho; apply Nat.eqb_refl]. }
        assert (forall pre l1, pre ++ MFree o :: rest = l1 ++ MFree o' :: l2 -> (forall x, In x pre -> exists y, x = MDrop y) ->
                  (l1 = pre /\ o' = o) \/ exists l, l1 = pre ++ MFree o :: l /\ rest = l ++ MFree o' :: l2) as Sp.
        { clear. induction pre as [|x pre IH]; intros l1 E Hp.
          - destruct l1 as [|y l1]; cbn [app] in E; injection E; intros; subst; [left; auto | right; exists l1; auto].
          - destruct (Hp x (or_introl eq_refl)) as (y & ->). destruct l1 as [|z l1]; cbn [app] in E; [discriminate E|].
            injection E; intros E' <-. destruct (IH l1 E') as [(-> & ->)|(l & -> & ->)]; [intros; apply Hp; right; auto | left; auto | right; exists l; auto]. }
        destruct (Sp (map MDrop (members st o)) l1 X) as [(El & Eo)|(l & El & Er)].
        { intros x Jx. apply in_map_iff in Jx. destruct Jx as (y & <- & _). eauto. }
        { subst l1. apply M. exact Eo. }
        { subst l1. assert (In (MDrop s) (MRel o :: l)) as J.
          { eapply (i_drop _ _ I t _ (MRel o :: l) o' l2 s T); [rewrite Er; reflexivity | exact Ho | exact Hv]. }
          destruct J as [J|J]; [discriminate J|]. apply in_or_app. right. right. exact J. }
      * eapply (i_drop _ _ I t'); eauto.
    + intros s o' Ho Hp. rewrite PP in Hp. destruct (Nat.eqb_spec o' o); [discriminate Hp|]. apply (i_freed _ _ I s o' Ho Hp).
    + intros o'. change (destroyed st') with (o :: destroyed st). cbn [In]. rewrite (i_destroyed _ _ I o'). rewrite PP.
      destruct (Nat.eqb_spec o' o) as [->|N].
      * split; [intros _; exists Dying; split; [reflexivity | discriminate] | auto].
      * split; [intros [X|X]; [congruence | exact X] | auto].
    + change (destroyed st') with (o :: destroyed st). constructor; [|apply (i_once _ _ I)].
      intros J. apply (i_destroyed _ _ I) in J. destruct J as (p & Hp & N). congruence.
  - (* other references remain *)
    eexists. split; [reflexivity|].
    set (st' := set_thread _ t rest).
    assert (forall f, count f (pend st') + (if f (MRel o) then 1 else 0) = count f (pend st)) as P.
    { intros f. pose proof (count_concat_upd _ f (threads st) t rest _ T) as Q. rewrite count_cons in Q.
      unfold pend, st'. cbn [threads set_thread set_object]. lia. }
    assert (forall m, In m (pend st') -> In m (pend st)) as PI.
    { intros m J. unfold st', pend, set_thread, set_object in J. cbn [threads] in J.
      destruct (in_concat_upd _ _ _ _ _ _ T J) as [J'|J']; [|exact J']. eapply in_concat_nth; [exact T | right; exact J']. }
    assert (forall o', nadd st' o' = nadd st o') as PA by (intros o'; pose proof (P (is_add o')) as Q; cbn [is_add] in Q; unfold nadd; lia).
    assert (forall o', nrel st' o' + (if o =? o' then 1 else 0) = nrel st o') as PR by (intros o'; apply (P (is_rel o'))).
    assert (forall o', nfree st' o' = nfree st o') as PF by (intros o'; pose proof (P (is_free o')) as Q; cbn [is_free] in Q; unfold nfree; lia).
    assert (forall s, nw st' s = nw st s) as PW by (intros s; pose proof (P (fun m => writes m s)) as Q; cbn [writes] in Q; unfold nw; lia).
    assert (forall s, nr st' s = nr st s) as PRd by (intros s; pose proof (P (fun m => reads m s)) as Q; cbn [reads] in Q; unfold nr; lia).
    assert (forall o', nraw st' o' = nraw st o') as PWr by reflexivity.
    assert (forall o', nslots st' o' = nslots st o') as PS by reflexivity.
    assert (forall o', count_of st' o' = if o' =? o then Some (c - 1)%Z else count_of st o') as PC by (intros; apply count_of_upd; exact L).
    assert (forall o', phase_of st' o' = phase_of st o') as PP.
    { intros o'. change (phase_of st' o') with (phase_of (set_object st o (Object (c - 1) Alive)) o').
      rewrite phase_of_upd by exact L. destruct (Nat.eqb_spec o' o); [subst; rewrite Po; reflexivity | reflexivity]. }
    assert (length (objects st') = length (objects st)) as PL by (unfold st', set_thread, set_object; cbn [objects]; apply upd_length).
    constructor.
    + intros s o' V. rewrite PL. apply (i_bound_slot _ _ I s). exact V.
    + intros s o' V. rewrite PL. apply (i_bound_owner _ _ I s). exact V.
    + intros o' H. rewrite PL. apply (i_bound_pend _ _ I). specialize (PA o'). specialize (PR o'). specialize (PWr o'). destruct (o =? o'); lia.
    + intros o' c' H. rewrite PC in H. rewrite PS, PA, PWr. specialize (PR o'). destruct (Nat.eqb_spec o' o) as [->|N].
      * injection H as <-. rewrite Nat.eqb_refl in PR. lia.
      * destruct (Nat.eqb_spec o o'); [congruence|]. pose proof (i_count _ _ I o' c' H). lia.
    + intros o' p H N. rewrite PP in H. rewrite PS, PA, PWr. specialize (PR o'). destruct (i_dead _ _ I o' p H N) as (? & ? & ? & ?). destruct (o =? o'); lia.
    + intros o' h' g' J. pose proof (PI _ J) as J0. destruct (i_add _ _ I _ _ _ J0) as (V & M). split; [exact V|].
      destruct g' as [g'|]; [exact M|]. destruct M as (M1 & M2 & M3 & M4). rewrite PS, PA, PWr. specialize (PR o'). destruct (o =? o'); lia.
    + intros s. rewrite PW, PRd. apply (i_lock _ _ I).
    + intros o' c' H H1 _. rewrite PC in H. rewrite PP in H1. destruct (Nat.eqb_spec o' o) as [->|N].
      * injection H as <-. left. lia.
      * destruct (i_live _ _ I o' c' H H1 ltac:(discriminate)) as [|(h' & J)]; [left; auto|]. right. exists h'.
        pose proof (P (fun m => match m with MAdd a b None => (a =? o') && (b =? h') | _ => false end)) as Q. cbn beta iota in Q.
        assert (1 <= count (fun m => match m with MAdd a b None => (a =? o') && (b =? h') | _ => false end) (pend st)) as Q1 by
            (eapply count_in; [exact J | cbn beta iota; rewrite !Nat.eqb_refl; reflexivity]).
        assert (1 <= count (fun m => match m with MAdd a b None => (a =? o') && (b =? h') | _ => false end) (pend st')) as Q2 by lia.
        apply count_pos in Q2. destruct Q2 as (m & Jm & Hm). destruct m as [a bb [x|]| | |]; try discriminate Hm.
        apply andb_true_iff in Hm. destruct Hm as [Ha Hb]. apply Nat.eqb_eq in Ha. apply Nat.eqb_eq in Hb. subst. exact Jm.
    + intros o' p H. rewrite PP in H. rewrite PF. apply (i_free _ _ I). exact H.
    + intros o' H. rewrite PL. rewrite PF in H. apply (i_free_bound _ _ I). exact H.
    + intros t' stk l1 o' l2 s Ht Es Ho Hv. unfold st', set_thread, set_object in Ht. cbn [threads] in Ht. rewrite nth_upd in Ht.
      destruct ((t' =? t) && (t <? length (threads st))) eqn:B.
      * injection Ht as <-. assert (In (MDrop s) (MRel o :: l1)) as J.
        { eapply (i_drop _ _ I t _ (MRel o :: l1) o' l2 s T); [rewrite Es; reflexivity | exact Ho | exact Hv]. }
        destruct J as [J|J]; [discriminate J | exact J].
      * eapply (i_drop _ _ I t'); eauto.
    + intros s o' Ho Hp. rewrite PP in Hp. apply (i_freed _ _ I s o' Ho Hp).
    + intros o'. change (destroyed st') with (destroyed st). rewrite (i_destroyed _ _ I o'). split; intros (p & Hp & N); exists p; rewrite PP in *; auto.
    + apply (i_once _ _ I).
Qed.

(** *** the end of a destructor *)
Lemma free_inv : forall st t o rest, Inv None st -> nth_error (threads st) t = Some (MFree o :: rest) ->
  exists st', micro_step st t (MFree o) rest = Next st' /\ Inv None st'.
Proof.
  intros st t o rest I T.
  assert (In (MFree o) (pend st)) as A by (eapply in_concat_nth; [exact T | left; reflexivity]).
  assert (1 <= nfree st o) as A1 by (eapply count_in; [exact A | apply Nat.eqb_refl]).
  pose proof (i_free_bound _ _ I o A1) as L.
  destruct (nth_error (objects st) o) as [[c p]|] eqn:E; [|apply nth_error_None in E; lia].
  assert (phase_of st o = Some p) as Po by (unfold phase_of; rewrite E; reflexivity).
  assert (count_of st o = Some c) as Co by (unfold count_of; rewrite E; reflexivity).
  pose proof (i_free _ _ I o p Po) as F1.
  destruct p; [exfalso; lia| |exfalso; lia].
  cbn [micro_step]. rewrite E. eexists. split; [reflexivity|].
  set (st' := set_thread _ t rest).
  assert (forall f, count f (pend st') + (if f (MFree o) then 1 else 0) = count f (pend st)) as P.
  { intros f. pose proof (count_concat_upd _ f (threads st) t rest _ T) as Q. rewrite count_cons in Q.
    unfold pend, st'. cbn [threads set_thread set_object]. lia. }
  assert (forall m, In m (pend st') -> In m (pend st)) as PI.
  { intros m J. unfold st', pend, set_thread, set_object in J. cbn [threads] in J.
    destruct (in_concat_upd _ _ _ _ _ _ T J) as [J'|J']; [|exact J']. eapply in_concat_nth; [exact T | right; exact J']. }
  assert (forall o', nadd st' o' = nadd st o') as PA by (intros o'; pose proof (P (is_add o')) as Q; cbn [is_add] in Q; unfold nadd; lia).
  assert (forall o', nrel st' o' = nrel st o') as PR by (intros o'; pose proof (P (is_rel o')) as Q; cbn [is_rel] in Q; unfold nrel; lia).
  assert (forall o', nfree st' o' + (if o =? o' then 1 else 0) = nfree st o') as PF by (intros o'; apply (P (is_free o'))).
  assert (forall s, nw st' s = nw st s) as PW by (intros s; pose proof (P (fun m => writes m s)) as Q; cbn [writes] in Q; unfold nw; lia).
  assert (forall s, nr st' s = nr st s) as PRd by (intros s; pose proof (P (fun m => reads m s)) as Q; cbn [reads] in Q; unfold nr; lia).
  assert (forall o', nraw st' o' = nraw st o') as PWr by reflexivity.
  assert (forall o', nslots st' o' = nslots st o') as PS by reflexivity.
  assert (forall o', count_of st' o' = count_of st o') as PC.
  { intros o'. change (count_of st' o') with (count_of (set_object st o (Object c Freed)) o').
    rewrite count_of_upd by exact L. destruct (Nat.eqb_spec o' o); [subst; rewrite Co; reflexivity | reflexivity]. }
  assert (forall o', phase_of st' o' = if o' =? o then Some Freed else phase_of st o') as PP by (intros; apply (phase_of_upd st o (Object c Freed)); exact L).
  assert (length (objects st') = length (objects st)) as PL by (unfold st', set_thread, set_object; cbn [objects]; apply upd_length).
  constructor.
  - intros s o' V. rewrite PL. apply (i_bound_slot _ _ I s). exact V.
  - intros s o' V. rewrite PL. apply (i_bound_owner _ _ I s). exact V.
  - intros o' H. rewrite PL. rewrite PA, PR, PWr in H. apply (i_bound_pend _ _ I). exact H.
  - intros o' c' H. rewrite PC in H. rewrite PS, PA, PWr, PR. apply (i_count _ _ I). exact H.
  - intros o' p H N. rewrite PP in H. rewrite PS, PA, PWr, PR. destruct (Nat.eqb_spec o' o) as [->|NE].
    + apply (i_dead _ _ I o Dying Po). discriminate.
    + apply (i_dead _ _ I o' p H N).
  - intros o' h' g' J. destruct (i_add _ _ I _ _ _ (PI _ J)) as (V & M). split; [exact V|].
    destruct g' as [g'|]; [exact M|]. rewrite PS, PA, PWr, PR. exact M.
  - intros s. rewrite PW, PRd. apply (i_lock _ _ I).
  - intros o' c' H H1 _. rewrite PC in H. rewrite PP in H1. destruct (Nat.eqb_spec o' o) as [->|N]; [discriminate H1|].
    destruct (i_live _ _ I o' c' H H1 ltac:(discriminate)) as [|(h' & J)]; [left; auto|]. right. exists h'.
    pose proof (P (fun m => match m with MAdd a b None => (a =? o') && (b =? h') | _ => false end)) as Q. cbn beta iota in Q.
    assert (1 <= count (fun m => match m with MAdd a b None => (a =? o') && (b =? h') | _ => false end) (pend st)) as Q1 by
        (eapply count_in; [exact J | cbn beta iota; rewrite !Nat.eqb_refl; reflexivity]).
    assert (1 <= count (fun m => match m with MAdd a b None => (a =? o') && (b =? h') | _ => false end) (pend st')) as Q2 by lia.
    apply count_pos in Q2. destruct Q2 as (m & Jm & Hm). destruct m as [a bb [x|]| | |]; try discriminate Hm.
    apply andb_true_iff in Hm. destruct Hm as [Ha Hb]. apply Nat.eqb_eq in Ha. apply Nat.eqb_eq in Hb. subst. exact Jm.
  - intros o' p H. rewrite PP in H. specialize (PF o'). destruct (Nat.eqb_spec o' o) as [->|N].
    + injection H as <-. rewrite Nat.eqb_refl in PF. lia.
    + destruct (Nat.eqb_spec o o'); [congruence|]. pose proof (i_free _ _ I o' p H). lia.
  - intros o' H. rewrite PL. specialize (PF o'). apply (i_free_bound _ _ I). lia.
  - intros t' stk l1 o' l2 s Ht Es Ho Hv. unfold st', set_thread, set_object in Ht. cbn [threads] in Ht. rewrite nth_upd in Ht.
    destruct ((t' =? t) && (t <? length (threads st))) eqn:B.
    + injection Ht as <-. assert (In (MDrop s) (MFree o :: l1)) as J.
      { eapply (i_drop _ _ I t _ (MFree o :: l1) o' l2 s T); [rewrite Es; reflexivity | exact Ho | exact Hv]. }
      destruct J as [J|J]; [discriminate J | exact J].
    + eapply (i_drop _ _ I t'); eauto.
  - intros s o' Ho Hp. rewrite PP in Hp. change (value st s = None). change (owner_of st s = Some o') in Ho. destruct (Nat.eqb_spec o' o) as [->|N].
    + destruct (value st s) as [v|] eqn:V; [|reflexivity]. exfalso.
      eapply (i_drop _ _ I t _ [] o rest s T); [reflexivity | exact Ho | congruence].
    + apply (i_freed _ _ I s o' Ho Hp).
  - intros o'. change (destroyed st') with (destroyed st). rewrite (i_destroyed _ _ I o'). rewrite PP.
    destruct (Nat.eqb_spec o' o) as [->|N]; [|reflexivity].
    split; intros _; [exists Freed | exists Dying]; split; auto; discriminate.
  - apply (i_once _ _ I).
Qed.

(** *** Steps that change one handle *)
Definition all4 (st : state) (o : nat) : nat := nslots st o + nrel st o + nraw st o + nadd st o.
Definition no_fresh (st : state) (o : nat) : Prop := forall h, ~ In (MAdd o h None) (pend st).
Definition owner_alive (st : state) (s : nat) : Prop := forall o, owner_of st s = Some o -> phase_of st o = Some Alive.

Lemma change_inv : forall b st st' s v,
  Inv b st ->
  s < length (slots st) -> nw st s = 0 -> nr st s = 0 ->
  objects st' = objects st -> destroyed st' = destroyed st -> slots st' = slots (set_value st s v) ->
  (forall o, nslots st' o + nrel st' o + nraw st' o + nadd st o = nslots st o + nrel st o + nraw st o + nadd st' o) ->
  (forall o, 1 <= all4 st' o -> 1 <= all4 st o \/ b = Some o) ->
  (forall o, value st s <> Some o -> v <> Some o -> nrel st' o = nrel st o /\ nraw st' o = nraw st o /\ nadd st' o = nadd st o) ->
  (forall o, v = Some o -> no_fresh st o) ->
  (forall o h g, In (MAdd o h g) (pend st') -> In (MAdd o h g) (pend st) \/
     (h = s /\ v = Some o /\ match g with
                             | Some g => value st g = Some o /\ g <> s
                             | None => b = Some o /\ nslots st' o = 1 /\ nrel st' o = 0 /\ nraw st' o = 0 /\ nadd st' o = 1
                             end)) ->
  (forall x, nw st' x = 0 \/ (nw st' x = 1 /\ nr st' x = 0)) ->
  (forall o h, In (MAdd o h None) (pend st) -> In (MAdd o h None) (pend st')) ->
  (forall o, b = Some o -> phase_of st o = Some Alive /\ In (MAdd o s None) (pend st')) ->
  (forall o, nfree st' o = nfree st o) ->
  (v <> None -> owner_alive st s) ->
  (forall t stk, nth_error (threads st') t = Some stk -> exists stk0, nth_error (threads st) t = Some stk0 /\
     forall l1 o l2, stk = l1 ++ MFree o :: l2 -> exists l1', stk0 = l1' ++ MFree o :: l2 /\
       forall x, In (MDrop x) l1' -> In (MDrop x) l1 \/ (x = s /\ v = None)) ->
  Inv None st'.
Proof.
  intros b st st' s v I Ls W0 R0 EO ED ES Bal Dead Other NF Adds Lock Keep Fresh Free Own Stk.
  assert (forall x, value st' x = if x =? s then v else value st x) as PV.
  { intros x. rewrite <- value_set by exact Ls. unfold value. rewrite ES. reflexivity. }
  assert (forall x, owner_of st' x = owner_of st x) as PO.
  { intros x. rewrite <- (owner_set st s v). unfold owner_of. rewrite ES. reflexivity. }
  assert (forall o, nslots st' o + (if eq_value (value st s) (Some o) then 1 else 0) = nslots st o + (if eq_value v (Some o) then 1 else 0)) as PS.
  { intros o. rewrite <- (nslots_set st s v o Ls). unfold nslots. rewrite ES. reflexivity. }
  assert (forall o, phase_of st' o = phase_of st o) as PP by (intros; unfold phase_of; rewrite EO; reflexivity).
  assert (forall o, count_of st' o = count_of st o) as PC by (intros; unfold count_of; rewrite EO; reflexivity).
  assert (forall o, 1 <= all4 st o \/ b = Some o -> o < length (objects st)) as Bound.
  { intros o [H|H].
    - destruct (rel_alive _ _ o I) as (c & E); [unfold all4 in H; lia | eapply nth_len; eauto].
    - destruct (Fresh o H) as (P & _). unfold phase_of in P. destruct (nth_error (objects st) o) eqn:E; [|discriminate P]. eapply nth_len; eauto. }
  assert (forall o h g, In (MAdd o h g) (pend st) -> h <> s /\ g <> Some s) as Away.
  { intros o h g J. split; intros ->.
    - assert (1 <= nw st s) by (eapply count_in; [exact J | apply Nat.eqb_refl]). lia.
    - assert (1 <= nr st s) by (eapply count_in; [exact J | apply Nat.eqb_refl]). lia. }
  constructor.
  - intros x o V. rewrite EO. apply Bound, Dead. unfold all4. pose proof (nslots_has _ _ _ V). lia.
  - intros x o V. rewrite EO. rewrite PO in V. apply (i_bound_owner _ _ I x o V).
  - intros o H. rewrite EO. apply Bound, Dead. unfold all4. lia.
  - intros o c H. rewrite PC in H. pose proof (i_count _ _ I o c H). specialize (Bal o). lia.
  - intros o p H N. rewrite PP in H.
    assert (all4 st' o = 0) as Z; [|unfold all4 in Z; lia].
    destruct (all4 st' o) eqn:A; [reflexivity|]. exfalso. destruct (Dead o ltac:(lia)) as [D|D].
    + destruct (i_dead _ _ I o p H N) as (? & ? & ? & ?). unfold all4 in D. lia.
    + destruct (Fresh o D) as (P & _). congruence.
  - intros o h g J. destruct (Adds o h g J) as [J0|(-> & Ev & M)].
    + destruct (Away _ _ _ J0) as (Nh & Ng). destruct (i_add _ _ I _ _ _ J0) as (V & M). rewrite PV.
      destruct (Nat.eqb_spec h s); [congruence|]. split; [exact V|]. destruct g as [g|].
      * rewrite PV. destruct (Nat.eqb_spec g s); [congruence|]. exact M.
      * destruct M as (M1 & M2 & M3 & M4).
        assert (value st s <> Some o) as N1.
        { intros E. assert (2 <= nslots st o); [|lia]. apply (nslots_ge (slots st) o [h; s]).
          - constructor; [intros [X|[]]; congruence | constructor; [intros [] | constructor]].
          - intros i [<-|[<-|[]]]; apply value_nth; auto. }
        assert (v <> Some o) as N2 by (intros E; exact (NF o E h J0)).
        destruct (Other o N1 N2) as (O1 & O2 & O3). specialize (PS o).
        destruct (eq_value (value st s) (Some o)) eqn:E1; [apply eq_value_true in E1; congruence|].
        destruct (eq_value v (Some o)) eqn:E2; [apply eq_value_true in E2; congruence|]. lia.
    + rewrite PV, Nat.eqb_refl. split; [exact Ev|]. destruct g as [g|].
      * rewrite PV. destruct M as (M1 & M2). destruct (Nat.eqb_spec g s); [congruence|]. auto.
      * destruct M as (_ & M). exact M.
  - exact Lock.
  - intros o c H H1 _. rewrite PC in H. rewrite PP in H1.
    destruct b as [o0|] eqn:Eb.
    + destruct (Nat.eq_dec o0 o) as [->|N].
      * right. exists s. apply (Fresh o eq_refl).
      * destruct (i_live _ _ I o c H H1 ltac:(congruence)) as [|(h & J)]; [left; auto | right; exists h; auto].
    + destruct (i_live _ _ I o c H H1 ltac:(discriminate)) as [|(h & J)]; [left; auto | right; exists h; auto].
  - intros o p H. rewrite PP in H. rewrite Free. apply (i_free _ _ I o p H).
  - intros o H. rewrite Free in H. rewrite EO. apply (i_free_bound _ _ I o H).
  - intros t stk l1 o l2 x Ht Es Ho Hv. destruct (Stk t stk Ht) as (stk0 & Ht0 & Hs). destruct (Hs l1 o l2 Es) as (l1' & E0 & Hd).
    rewrite PO in Ho. rewrite PV in Hv. destruct (Nat.eqb_spec x s) as [->|N].
    + exfalso. pose proof (Own Hv o Ho) as Al. pose proof (i_free _ _ I o Alive Al) as F. cbn beta iota in F.
      assert (1 <= nfree st o); [|lia]. eapply count_in; [eapply in_concat_nth; [exact Ht0 | rewrite E0; apply in_or_app; right; left; reflexivity] | apply Nat.eqb_refl].
    + destruct (Hd x) as [J|(J & _)]; [|exact J | congruence]. eapply (i_drop _ _ I t stk0 l1' o l2 x Ht0 E0 Ho Hv).
  - intros x o Ho Hp. rewrite PO in Ho. rewrite PP in Hp. rewrite PV. destruct (Nat.eqb_spec x s) as [->|N].
    + destruct v as [v|]; [|reflexivity]. exfalso. pose proof (Own ltac:(discriminate) o Ho). congruence.
    + apply (i_freed _ _ I x o Ho Hp).
  - intros o. rewrite ED, (i_destroyed _ _ I o). split; intros (p & Hp & N); exists p; rewrite PP in *; auto.
  - rewrite ED. apply (i_once _ _ I).
Qed.

Lemma in_use_counts : forall st s, in_use st s = false -> nw st s = 0 /\ nr st s = 0.
Proof.
  intros st s H. unfold in_use in H. apply existsb_count in H. unfold nw, nr, pend.
  assert (forall l, count (fun m => uses m s) l = 0 -> count (fun m => writes m s) l = 0 /\ count (fun m => reads m s) l = 0) as G; [|auto].
  induction l as [|m l IH]; [auto|]. rewrite !count_cons. intros E. destruct (uses m s) eqn:U; [lia|]. destruct IH as [A B]; [lia|].
  destruct m as [o h [g|]| | |]; cbn [uses writes reads] in *; try (apply orb_false_iff in U; destruct U as [U1 U2]; rewrite U1, ?U2); lia.
Qed.
Lemma written_counts : forall st s, being_written st s = false -> nw st s = 0.
Proof. intros st s H. apply existsb_count in H. exact H. Qed.
Lemma exists_slot_inv : forall st s, exists_slot st s = true -> s < length (slots st) /\ owner_alive st s.
Proof.
  intros st s H. unfold exists_slot in H. destruct (nth_error (slots st) s) as [x|] eqn:E; [|discriminate]. split; [eapply nth_len; eauto|].
  intros o Ho. unfold owner_of in Ho. rewrite E in Ho. rewrite Ho in H. unfold phase_of.
  destruct (nth_error (objects st) o) as [[c p]|]; [|discriminate]. destruct p; [reflexivity | discriminate | discriminate].
Qed.
Lemma can_write_inv : forall st s, can_write st s = true -> s < length (slots st) /\ owner_alive st s /\ nw st s = 0 /\ nr st s = 0.
Proof.
  intros st s H. apply andb_true_iff in H. destruct H as [H1 H2]. apply negb_true_iff in H2.
  destruct (exists_slot_inv _ _ H1) as (X & Y). destruct (in_use_counts _ _ H2). auto.
Qed.
Lemma can_read_inv : forall st s, can_read st s = true -> s < length (slots st) /\ nw st s = 0.
Proof.
  intros st s H. apply andb_true_iff in H. destruct H as [H1 H2]. apply negb_true_iff in H2.
  destruct (exists_slot_inv _ _ H1) as (X & Y). pose proof (written_counts _ _ H2). auto.
Qed.
Lemma fresh_slot : forall b st o h s, Inv b st -> In (MAdd o h None) (pend st) -> value st s = Some o -> s = h.
Proof.
  intros b st o h s I J V. destruct (i_add _ _ I _ _ _ J) as (Vh & M1 & _).
  destruct (Nat.eq_dec s h) as [|N]; [auto|]. exfalso.
  assert (2 <= nslots st o); [|lia]. apply (nslots_ge (slots st) o [s; h]).
  - constructor; [intros [X|[]]; congruence | constructor; [intros [] | constructor]].
  - intros i [<-|[<-|[]]]; apply value_nth; auto.
Qed.

Ltac ev_cases :=
  repeat match goal with
  | H : context [if eq_value ?a ?b then _ else _] |- _ => let E := fresh "EV" in destruct (eq_value a b) eqn:E;
      [apply eq_value_true in E | assert (a <> b) by (intros X; apply eq_value_true in X; congruence)]
  end.

Lemma eqb_opt : forall o o', eq_value (Some o) (Some o') = (o =? o').
Proof. reflexivity. Qed.

(** *** a member of an object that is being destroyed *)
Lemma drop_inv : forall st t s rest, Inv None st -> nth_error (threads st) t = Some (MDrop s :: rest) ->
  micro_step st t (MDrop s) rest = Race \/ exists st', micro_step st t (MDrop s) rest = Next st' /\ Inv None st'.
Proof.
  intros st t s rest I T. cbn [micro_step]. destruct (in_use st s) eqn:U; [left; reflexivity|]. right. eexists. split; [reflexivity|].
  destruct (in_use_counts _ _ U) as (W0 & R0).
  destruct (le_lt_dec (length (slots st)) s) as [Ls|Ls].
  - (* no such handle *)
    assert (nth_error (slots st) s = None) as E by (apply nth_error_None; exact Ls).
    unfold value at 1, set_value. rewrite E. cbn [opt app].
    set (st' := set_thread st t rest).
    assert (forall f, count f (pend st') + (if f (MDrop s) then 1 else 0) = count f (pend st)) as P.
    { intros f. pose proof (count_concat_upd _ f (threads st) t rest _ T) as Q. rewrite count_cons in Q.
      change (pend st') with (concat (upd (threads st) t rest)). unfold pend. lia. }
    assert (forall o', nadd st' o' = nadd st o') as PA by (intros o'; pose proof (P (is_add o')) as Q; cbn [is_add] in Q; unfold nadd; lia).
    assert (forall o', nrel st' o' = nrel st o') as PR by (intros o'; pose proof (P (is_rel o')) as Q; cbn [is_rel] in Q; unfold nrel; lia).
    assert (forall o', nfree st' o' = nfree st o') as PF by (intros o'; pose proof (P (is_free o')) as Q; cbn [is_free] in Q; unfold nfree; lia).
    assert (forall s, nw st' s = nw st s) as PW by (intros x; pose proof (P (fun m => writes m x)) as Q; cbn [writes] in Q; unfold nw; lia).
    assert (forall s, nr st' s = nr st s) as PRd by (intros x; pose proof (P (fun m => reads m x)) as Q; cbn [reads] in Q; unfold nr; lia).
    assert (forall m, In m (pend st') -> In m (pend st)) as PI.
    { intros m J. destruct (in_concat_upd _ _ _ _ _ _ T J) as [J'|J']; [|exact J']. eapply in_concat_nth; [exact T | right; exact J']. }
    constructor.
    + apply (i_bound_slot _ _ I).
    + apply (i_bound_owner _ _ I).
    + intros o H. rewrite PA, PR in H. apply (i_bound_pend _ _ I o H).
    + intros o c H. rewrite PA, PR. apply (i_count _ _ I o c H).
    + intros o p H N. rewrite PA, PR. apply (i_dead _ _ I o p H N).
    + intros o h g J. destruct (i_add _ _ I _ _ _ (PI _ J)) as (V & M). split; [exact V|]. destruct g; [exact M|]. rewrite PA, PR. exact M.
    + intros x. rewrite PW, PRd. apply (i_lock _ _ I).
    + intros o c H H1 Hb. destruct (i_live _ _ I o c H H1 Hb) as [|(h & J)]; [left; auto|]. right. exists h.
      pose proof (P (fun m => match m with MAdd a b None => (a =? o) && (b =? h) | _ => false end)) as Q. cbn beta iota in Q.
      assert (1 <= count (fun m => match m with MAdd a b None => (a =? o) && (b =? h) | _ => false end) (pend st)) as Q1 by
          (eapply count_in; [exact J | cbn beta iota; rewrite !Nat.eqb_refl; reflexivity]).
      assert (1 <= count (fun m => match m with MAdd a b None => (a =? o) && (b =? h) | _ => false end) (pend st')) as Q2 by lia.
      apply count_pos in Q2. destruct Q2 as (m & Jm & Hm). destruct m as [a bb [x|]| | |]; try discriminate Hm.
      apply andb_true_iff in Hm. destruct Hm as [Ha Hb']. apply Nat.eqb_eq in Ha. apply Nat.eqb_eq in Hb'. subst. exact Jm.
    + intros o p H. rewrite PF. apply (i_free _ _ I o p H).
    + intros o H. rewrite PF in H. apply (i_free_bound _ _ I o H).
    + intros t' stk l1 o l2 x Ht Es Ho Hv. unfold st', set_thread in Ht. cbn [threads] in Ht. rewrite nth_upd in Ht.
      destruct ((t' =? t) && (t <? length (threads st))) eqn:B.
      * injection Ht as <-. assert (In (MDrop x) (MDrop s :: l1)) as J.
        { eapply (i_drop _ _ I t _ (MDrop s :: l1) o l2 x T); [rewrite Es; reflexivity | exact Ho | exact Hv]. }
        destruct J as [J|J]; [|exact J]. injection J as <-. exfalso. apply Hv. change (value st s = None). unfold value. rewrite E. reflexivity.
      * eapply (i_drop _ _ I t'); eauto.
    + apply (i_freed _ _ I).
    + apply (i_destroyed _ _ I).
    + apply (i_once _ _ I).
  - set (old := value st s). set (st' := set_thread _ t _).
    destruct (set_value_same st s None) as (S1 & S2 & S3 & S4 & S5).
    assert (threads st' = upd (threads st) t (opt MRel old ++ rest)) as ET by (unfold st', set_thread; cbn [threads]; rewrite S2; reflexivity).
    assert (forall f, count f (pend st') + (if f (MDrop s) then 1 else 0) = count f (pend st) + count f (opt MRel old)) as P.
    { intros f. pose proof (count_concat_upd _ f (threads st) t (opt MRel old ++ rest) _ T) as Q. rewrite count_app, count_cons in Q.
      unfold pend. rewrite ET. lia. }
    assert (forall o', nadd st' o' = nadd st o') as PA.
    { intros o'. pose proof (P (is_add o')) as Q. cbn [is_add] in Q. unfold nadd. destruct old; cbn [opt] in Q; rewrite ?count_cons, ?count_nil in Q; cbn [is_add] in Q; lia. }
    assert (forall o', nrel st' o' = nrel st o' + if eq_value old (Some o') then 1 else 0) as PR.
    { intros o'. pose proof (P (is_rel o')) as Q. cbn [is_rel] in Q. unfold nrel. destruct old; cbn [opt eq_value] in *; rewrite ?count_cons, ?count_nil in Q; cbn [is_rel] in Q; lia. }
    assert (forall o', nfree st' o' = nfree st o') as PF.
    { intros o'. pose proof (P (is_free o')) as Q. cbn [is_free] in Q. unfold nfree. destruct old; cbn [opt] in Q; rewrite ?count_cons, ?count_nil in Q; cbn [is_free] in Q; lia. }
    assert (forall x, nw st' x = nw st x) as PW.
    { intros x. pose proof (P (fun m => writes m x)) as Q. cbn [writes] in Q. unfold nw. destruct old; cbn [opt] in Q; rewrite ?count_cons, ?count_nil in Q; cbn [writes] in Q; lia. }
    assert (forall x, nr st' x = nr st x) as PRd.
    { intros x. pose proof (P (fun m => reads m x)) as Q. cbn [reads] in Q. unfold nr. destruct old; cbn [opt] in Q; rewrite ?count_cons, ?count_nil in Q; cbn [reads] in Q; lia. }
    assert (forall o, nslots st' o + (if eq_value old (Some o) then 1 else 0) = nslots st o) as PS.
    { intros o. pose proof (nslots_set st s None o Ls) as Q. cbn [eq_value] in Q. unfold old.
      change (nslots st' o) with (nslots (set_value st s None) o). lia. }
    assert (forall o', nraw st' o' = nraw st o') as PWr by (intros; unfold nraw, st', set_thread; cbn [raw]; rewrite S3; reflexivity).
    apply (change_inv None st st' s None I Ls W0 R0).
    + exact S1.
    + exact S4.
    + reflexivity.
    + intros o. rewrite PA, PR, PWr. specialize (PS o). lia.
    + intros o H. left. unfold all4 in *. rewrite PA, PR, PWr in H. specialize (PS o). lia.
    + intros o N1 _. rewrite PA, PR, PWr. destruct (eq_value old (Some o)) eqn:E; [apply eq_value_true in E; contradiction|]. lia.
    + discriminate.
    + intros o h g J. left. unfold pend in J. rewrite ET in J. destruct (in_concat_upd _ _ _ _ _ _ T J) as [J'|J']; [|exact J'].
      apply in_app_or in J'. destruct J' as [J'|J'].
      * destruct old; cbn [opt] in J'; [destruct J' as [J'|[]]; discriminate J' | contradiction J'].
      * eapply in_concat_nth; [exact T | right; exact J'].
    + intros x. rewrite PW, PRd. apply (i_lock _ _ I).
    + intros o h J.
      pose proof (P (fun m => match m with MAdd a b None => (a =? o) && (b =? h) | _ => false end)) as Q. cbn beta iota in Q.
      assert (1 <= count (fun m => match m with MAdd a b None => (a =? o) && (b =? h) | _ => false end) (pend st)) as Q1 by
          (eapply count_in; [exact J | cbn beta iota; rewrite !Nat.eqb_refl; reflexivity]).
      assert (1 <= count (fun m => match m with MAdd a b None => (a =? o) && (b =? h) | _ => false end) (pend st')) as Q2 by lia.
      apply count_pos in Q2. destruct Q2 as (m & Jm & Hm). destruct m as [a bb [x|]| | |]; try discriminate Hm.
      apply andb_true_iff in Hm. destruct Hm as [Ha Hb']. apply Nat.eqb_eq in Ha. apply Nat.eqb_eq in Hb'. subst. exact Jm.
    + discriminate.
    + exact PF.
    + intros X; congruence.
    + intros t' stk Ht. rewrite ET, nth_upd in Ht. destruct ((t' =? t) && (t <? length (threads st))) eqn:B.
      * apply andb_true_iff in B. destruct B as [B _]. apply Nat.eqb_eq in B. subst t'. exists (MDrop s :: rest). split; [exact T|].
        intros l1 o l2 Es. injection Ht as <-. destruct (split_opt MRel old rest l1 o l2 Es ltac:(discriminate)) as (l1' & -> & ->).
        exists (MDrop s :: l1'). split; [reflexivity|]. intros x [X|X]; [injection X as <-; right; auto | left; apply in_or_app; auto].
      * exists stk. split; [exact Ht|]. intros l1 o l2 Es. exists l1. split; [exact Es | auto].
Qed.

(** *** operator= *)
(** where the new value comes from: nothing, another handle, or a new object *)
Definition source (b : option nat) (st : state) (v g : option nat) : Prop :=
  match v, g with
  | None, None => b = None
  | None, Some g' => b = None /\ value st g' = None
  | Some o, Some g' => b = None /\ value st g' = Some o /\ nw st g' = 0
  | Some o, None => b = Some o /\ phase_of st o = Some Alive /\ all4 st o = 0
  end.

Lemma assign_inv : forall b st t h v g, Inv b st -> nth_error (threads st) t = Some [] ->
  h < length (slots st) -> owner_alive st h -> nw st h = 0 -> nr st h = 0 -> source b st v g ->
  Inv None (assign st t h v g).
Proof.
  intros b st t h v g I T Ls Own W0 R0 Src. unfold assign. set (old := value st h).
  destruct (eq_value old v) eqn:EQ.
  { apply eq_value_true in EQ. assert (b = None) as ->; [|exact I].
    destruct v as [o|], g as [g|]; cbn [source] in Src; try tauto.
    destruct Src as (_ & _ & Z). pose proof (nslots_has st h o EQ). unfold all4 in Z. lia. }
  assert (old <> v) as NE by (intros X; apply eq_value_true in X; congruence).
  set (st' := set_thread _ t _).
  destruct (set_value_same st h v) as (S1 & S2 & S3 & S4 & S5).
  set (new := opt (fun o => MAdd o h g) v ++ opt MRel old) in *.
  assert (threads st' = upd (threads st) t new) as ET by (unfold st', set_thread; cbn [threads]; rewrite S2; reflexivity).
  assert (forall f, count f (pend st') = count f (pend st) + count f (opt (fun o => MAdd o h g) v) + count f (opt MRel old)) as P.
  { intros f. pose proof (count_concat_upd _ f (threads st) t new _ T) as Q. rewrite count_nil in Q. unfold new in Q. rewrite count_app in Q. fold new in Q.
    unfold pend. rewrite ET. lia. }
  assert (forall o', nadd st' o' = nadd st o' + if eq_value v (Some o') then 1 else 0) as PA.
  { intros o'. pose proof (P (is_add o')) as Q. unfold nadd. destruct v, old; cbn [opt eq_value] in *; rewrite ?count_cons, ?count_nil in Q; cbn [is_add] in Q; lia. }
  assert (forall o', nrel st' o' = nrel st o' + if eq_value old (Some o') then 1 else 0) as PR.
  { intros o'. pose proof (P (is_rel o')) as Q. unfold nrel. destruct v, old; cbn [opt eq_value] in *; rewrite ?count_cons, ?count_nil in Q; cbn [is_rel] in Q; lia. }
  assert (forall o', nfree st' o' = nfree st o') as PF.
  { intros o'. pose proof (P (is_free o')) as Q. unfold nfree. destruct v, old; cbn [opt eq_value] in *; rewrite ?count_cons, ?count_nil in Q; cbn [is_free] in Q; lia. }
  assert (forall x, nw st' x = nw st x + match v with Some _ => if h =? x then 1 else 0 | None => 0 end) as PW.
  { intros x. pose proof (P (fun m => writes m x)) as Q. unfold nw. destruct v, old; cbn [opt eq_value] in *; rewrite ?count_cons, ?count_nil in Q; cbn [writes] in Q; lia. }
  assert (forall x, nr st' x = nr st x + match v, g with Some _, Some g' => if g' =? x then 1 else 0 | _, _ => 0 end) as PRd.
  { intros x. pose proof (P (fun m => reads m x)) as Q. unfold nr. destruct v, old, g; cbn [opt eq_value] in *; rewrite ?count_cons, ?count_nil in Q; cbn [reads] in Q; lia. }
  assert (forall o, nslots st' o + (if eq_value old (Some o) then 1 else 0) = nslots st o + (if eq_value v (Some o) then 1 else 0)) as PS.
  { intros o. apply (nslots_set st h v o Ls). }
  assert (forall o', nraw st' o' = nraw st o') as PWr by (intros; unfold nraw, st', set_thread; cbn [raw]; rewrite S3; reflexivity).
  assert (forall m, In m (pend st') -> In m (pend st) \/ In m new) as PI.
  { intros m J. unfold pend in J. rewrite ET in J. destruct (in_concat_upd _ _ _ _ _ _ T J); auto. }
  apply (change_inv b st st' h v I Ls W0 R0).
  - exact S1.
  - exact S4.
  - reflexivity.
  - intros o. rewrite PA, PR, PWr. specialize (PS o). lia.
  - intros o H. unfold all4 in *. rewrite PA, PR, PWr in H. specialize (PS o).
    destruct v as [o'|]; [|left; cbn [eq_value] in *; lia].
    destruct (Nat.eq_dec o' o) as [->|N].
    + destruct g as [g|]; cbn [source] in Src.
      * left. destruct Src as (_ & V & _). pose proof (nslots_has _ _ _ V). lia.
      * right. tauto.
    + cbn [eq_value] in *. apply Nat.eqb_neq in N. rewrite N in *. left. lia.
  - intros o N1 N2. rewrite PA, PR, PWr.
    destruct (eq_value old (Some o)) eqn:E1; [apply eq_value_true in E1; contradiction|].
    destruct (eq_value v (Some o)) eqn:E2; [apply eq_value_true in E2; contradiction|]. lia.
  - intros o Ev h' J. subst v. destruct g as [g|]; cbn [source] in Src.
    + destruct Src as (_ & V & W). pose proof (fresh_slot _ _ _ _ _ I J V). subst h'.
      assert (1 <= nw st g) by (eapply count_in; [exact J | apply Nat.eqb_refl]). lia.
    + destruct Src as (_ & _ & Z). unfold all4 in Z. destruct (i_add _ _ I _ _ _ J) as (_ & _ & _ & _ & ?). lia.
  - intros o h' g' J. destruct (PI _ J) as [J0|J0]; [left; exact J0|]. unfold new in J0. apply in_app_or in J0. destruct J0 as [J0|J0].
    + right. destruct v as [o'|]; cbn [opt] in J0; [|contradiction J0]. destruct J0 as [J0|[]]. injection J0; intros; subst.
      split; [reflexivity|]. split; [reflexivity|]. destruct g' as [g'|]; cbn [source] in Src.
      * destruct Src as (_ & V & _). split; [exact V|]. intros ->. apply NE. exact V.
      * destruct Src as (Eb & _ & Z). split; [exact Eb|]. unfold all4 in Z. specialize (PS o). rewrite PA, PR, PWr. cbn [eq_value] in *. rewrite Nat.eqb_refl in *.
        assert (eq_value old (Some o) = false) as E1; [|rewrite E1 in *; lia].
        destruct (eq_value old (Some o)) eqn:E1; [|reflexivity]. apply eq_value_true in E1. congruence.
    + destruct old; cbn [opt] in J0; [destruct J0 as [J0|[]]; discriminate J0 | contradiction J0].
  - intros x. rewrite PW, PRd. destruct v as [o|]; [|rewrite !Nat.add_0_r; apply (i_lock _ _ I)].
    destruct (Nat.eqb_spec h x) as [<-|N].
    + right. rewrite W0, R0. destruct g as [g|]; [|lia]. destruct (Nat.eqb_spec g h) as [->|]; [|lia].
      cbn [source] in Src. destruct Src as (_ & V & _). exfalso. apply NE. exact V.
    + destruct g as [g|]; [|rewrite !Nat.add_0_r; apply (i_lock _ _ I)].
      destruct (Nat.eqb_spec g x) as [<-|N']; [|rewrite !Nat.add_0_r; apply (i_lock _ _ I)].
      cbn [source] in Src. destruct Src as (_ & V & W). left. lia.
  - intros o h' J. unfold pend. rewrite ET.
    assert (1 <= count (fun m => match m with MAdd a b None => (a =? o) && (b =? h') | _ => false end) (pend st)) as Q1 by
        (eapply count_in; [exact J | cbn beta iota; rewrite !Nat.eqb_refl; reflexivity]).
    pose proof (P (fun m => match m with MAdd a b None => (a =? o) && (b =? h') | _ => false end)) as Q.
    assert (1 <= count (fun m => match m with MAdd a b None => (a =? o) && (b =? h') | _ => false end) (pend st')) as Q2 by lia.
    apply count_pos in Q2. destruct Q2 as (m & Jm & Hm). destruct m as [a bb [x|]| | |]; try discriminate Hm.
    apply andb_true_iff in Hm. destruct Hm as [Ha Hb']. apply Nat.eqb_eq in Ha. apply Nat.eqb_eq in Hb'. subst.
    unfold pend in Jm. rewrite ET in Jm. exact Jm.
  - intros o Eb. destruct v as [o'|], g as [g|]; cbn [source] in Src; try (destruct Src; congruence); try congruence.
    destruct Src as (Eb' & Al & _). assert (o' = o) as -> by congruence. split; [exact Al|].
    unfold pend. rewrite ET. eapply in_concat_upd_new; [exact T|]. left. reflexivity.
  - exact PF.
  - intros _. exact Own.
  - intros t' stk Ht. rewrite ET, nth_upd in Ht. destruct ((t' =? t) && (t <? length (threads st))) eqn:B.
    + apply andb_true_iff in B. destruct B as [B _]. apply Nat.eqb_eq in B. subst t'. exists []. split; [exact T|].
      intros l1 o l2 Es. exfalso. assert (new = stk) as X by congruence. rewrite <- X in Es.
      assert (In (MFree o) new) as J by (rewrite Es; apply in_or_app; right; left; reflexivity).
      unfold new in J. apply in_app_or in J. destruct J as [J|J]; [destruct v | destruct old]; cbn [opt] in J; try contradiction J; destruct J as [J|[]]; discriminate J.
    + exists stk. split; [exact Ht|]. intros l1 o l2 Es. exists l1. split; [exact Es | auto].
Qed.

(** *** new variables and objects *)
Lemma pend_count_same : forall st st', threads st' = threads st -> raw st' = raw st ->
  (forall o, nadd st' o = nadd st o) /\ (forall o, nrel st' o = nrel st o) /\ (forall o, nraw st' o = nraw st o) /\
  (forall o, nfree st' o = nfree st o) /\ (forall s, nw st' s = nw st s) /\ (forall s, nr st' s = nr st s).
Proof. intros st st' E1 E2. unfold nadd, nrel, nraw, nfree, nw, nr, pend. rewrite E1, E2. repeat split. Qed.

Lemma nth_app_slot : forall (l : list slot) n w s x, nth_error (l ++ repeat (Slot w None) n) s = Some x -> nth_error l s = Some x \/ (length l <= s /\ x = Slot w None).
Proof.
  intros l n w s x H. destruct (le_lt_dec (length l) s) as [L|L].
  - right. split; [exact L|]. rewrite nth_error_app2 in H by exact L. apply nth_error_In in H. apply repeat_spec in H. exact H.
  - left. rewrite nth_error_app1 in H by exact L. exact H.
Qed.

(** [nobj] objects of count zero and [n] null handles that belong to [w] *)
Lemma grow_inv : forall st w n (fresh : bool) st',
  Inv None st ->
  objects st' = (if fresh then objects st ++ [Object 0 Alive] else objects st) ->
  slots st' = slots st ++ repeat (Slot w None) n ->
  threads st' = threads st -> raw st' = raw st -> destroyed st' = destroyed st ->
  (forall o, w = Some o -> fresh = true /\ o = length (objects st)) ->
  Inv (if fresh then Some (length (objects st)) else None) st' /\
  (forall s, value st' s = value st s) /\
  (fresh = true -> phase_of st' (length (objects st)) = Some Alive /\ all4 st' (length (objects st)) = 0).
Proof.
  intros st w n fresh st' I EO ES ET ER ED Ow.
  destruct (pend_count_same st st' ET ER) as (PA & PR & PWr & PF & PW & PRd).
  assert (pend st' = pend st) as PP by (unfold pend; rewrite ET; reflexivity).
  assert (forall s, value st' s = value st s) as PV.
  { intros s. unfold value. rewrite ES. destruct (nth_error (slots st ++ repeat (Slot w None) n) s) as [x|] eqn:E.
    - destruct (nth_app_slot _ _ _ _ _ E) as [E'|(L & ->)]; [rewrite E'; reflexivity|].
      destruct (nth_error (slots st) s) eqn:E'; [apply nth_len in E'; lia | reflexivity].
    - apply nth_error_None in E. rewrite app_length in E. destruct (nth_error (slots st) s) eqn:E'; [apply nth_len in E'; lia | reflexivity]. }
  assert (forall s o, owner_of st' s = Some o -> owner_of st s = Some o \/ (fresh = true /\ o = length (objects st))) as PO.
  { intros s o H. unfold owner_of in *. rewrite ES in H. destruct (nth_error (slots st ++ repeat (Slot w None) n) s) as [x|] eqn:E; [|discriminate].
    destruct (nth_app_slot _ _ _ _ _ E) as [E'|(L & ->)]; [rewrite E'; auto | right; apply Ow; exact H]. }
  assert (forall o, nslots st' o = nslots st o) as PS.
  { intros o. unfold nslots. rewrite ES, count_app. assert (count (has o) (repeat (Slot w None) n) = 0) as ->; [|lia].
    clear. induction n as [|n IH]; [reflexivity|]. cbn [repeat]. rewrite count_cons, IH. reflexivity. }
  assert (forall o x, nth_error (objects st') o = Some x -> nth_error (objects st) o = Some x \/ (fresh = true /\ o = length (objects st) /\ x = Object 0 Alive)) as PN.
  { intros o x H. rewrite EO in H. destruct fresh; [|auto]. destruct (le_lt_dec (length (objects st)) o) as [L|L].
    - right. rewrite nth_error_app2 in H by exact L. destruct (o - length (objects st)) as [|k] eqn:K; cbn [nth_error] in H.
      + injection H as <-. split; [reflexivity|]. split; [lia | reflexivity].
      + destruct k; discriminate H.
    - left. rewrite nth_error_app1 in H by exact L. exact H. }
  assert (forall o x, nth_error (objects st) o = Some x -> nth_error (objects st') o = Some x) as PN'.
  { intros o x H. rewrite EO. destruct fresh; [|exact H]. rewrite nth_error_app1; [exact H | eapply nth_len; eauto]. }
  assert (length (objects st) <= length (objects st')) as PL by (rewrite EO; destruct fresh; [rewrite app_length; lia | lia]).
  assert (all4 st (length (objects st)) = 0) as Z.
  { destruct (all4 st (length (objects st))) eqn:A; [reflexivity|]. exfalso.
    destruct (rel_alive _ _ (length (objects st)) I) as (c & E); [unfold all4 in A; lia|]. apply nth_len in E. lia. }
  assert (forall o, all4 st' o = all4 st o) as PA4 by (intros; unfold all4; rewrite PA, PR, PWr, PS; reflexivity).
  assert (nfree st (length (objects st)) = 0) as Zf.
  { destruct (nfree st (length (objects st))) eqn:A; [reflexivity|]. exfalso. pose proof (i_free_bound _ _ I (length (objects st)) ltac:(lia)). lia. }
  assert (forall o p, phase_of st' o = Some p -> phase_of st o = Some p \/ (fresh = true /\ o = length (objects st) /\ p = Alive)) as PH.
  { intros o p H. unfold phase_of in *. destruct (nth_error (objects st') o) as [x|] eqn:E; [|discriminate H]. cbn [option_map] in H.
    destruct (PN o x E) as [E'|(F & -> & ->)]; [rewrite E'; left; exact H | right]. cbn [o_phase] in H. injection H as <-. auto. }
  assert (forall o p, phase_of st o = Some p -> phase_of st' o = Some p) as PH'.
  { intros o p H. unfold phase_of in *. destruct (nth_error (objects st) o) as [x|] eqn:E; [|discriminate H]. rewrite (PN' o x E). exact H. }
  split; [constructor|split; [exact PV|]].
  - intros s o V. rewrite PV in V. pose proof (i_bound_slot _ _ I s o V). lia.
  - intros s o H. destruct (PO s o H) as [H'|(F & ->)]; [pose proof (i_bound_owner _ _ I s o H'); lia|].
    rewrite EO, F, app_length. cbn [length]. lia.
  - intros o H. rewrite PA, PR, PWr in H. pose proof (i_bound_pend _ _ I o H). lia.
  - intros o c H. rewrite PS, PA, PR, PWr. unfold count_of in H. destruct (nth_error (objects st') o) as [x|] eqn:E; [|discriminate H]. cbn [option_map] in H.
    destruct (PN o x E) as [E'|(F & -> & ->)].
    + apply (i_count _ _ I). unfold count_of. rewrite E'. exact H.
    + cbn [o_count] in H. injection H as <-. unfold all4 in Z. lia.
  - intros o p H N. rewrite PS, PA, PR, PWr. destruct (PH o p H) as [H'|(F & -> & ->)]; [apply (i_dead _ _ I o p H' N) | congruence].
  - intros o h g J. rewrite PP in J. destruct (i_add _ _ I _ _ _ J) as (V & M). rewrite PV. split; [exact V|].
    destruct g; [rewrite PV; exact M|]. rewrite PS, PA, PR, PWr. exact M.
  - intros s. rewrite PW, PRd. apply (i_lock _ _ I).
  - intros o c H H1 Hb. rewrite PP. destruct (PH o _ H1) as [H1'|(F & -> & _)].
    + apply (i_live _ _ I o c); [|exact H1' | discriminate]. unfold count_of, phase_of in *.
      destruct (nth_error (objects st) o) as [x|] eqn:E; [|discriminate H1']. rewrite (PN' o x E) in H. exact H.
    + exfalso. apply Hb. rewrite F. reflexivity.
  - intros o p H. rewrite PF. destruct (PH o p H) as [H'|(F & -> & ->)]; [apply (i_free _ _ I o p H') | exact Zf].
  - intros o H. rewrite PF in H. pose proof (i_free_bound _ _ I o H). lia.
  - intros t stk l1 o l2 s Ht Es Ho Hv. rewrite ET in Ht. rewrite PV in Hv. destruct (PO s o Ho) as [H'|(F & ->)].
    + eapply (i_drop _ _ I t); eauto.
    + exfalso. assert (1 <= nfree st (length (objects st))); [|lia].
      eapply count_in; [eapply in_concat_nth; [exact Ht | rewrite Es; apply in_or_app; right; left; reflexivity] | apply Nat.eqb_refl].
  - intros s o Ho Hp. rewrite PV. destruct (PH o _ Hp) as [Hp'|(_ & _ & X)]; [|discriminate X].
    destruct (PO s o Ho) as [H'|(F & ->)]; [apply (i_freed _ _ I s o H' Hp')|].
    unfold phase_of in Hp'. destruct (nth_error (objects st) (length (objects st))) eqn:E; [apply nth_len in E; lia | discriminate Hp'].
  - intros o. rewrite ED, (i_destroyed _ _ I o). split; intros (p & Hp & N).
    + exists p. auto.
    + destruct (PH o p Hp) as [Hp'|(_ & _ & ->)]; [eauto | congruence].
  - rewrite ED. apply (i_once _ _ I).
  - intros F. split; [|rewrite PA4; exact Z]. unfold phase_of. rewrite EO, F, nth_error_app2, Nat.sub_diag by lia. reflexivity.
Qed.

(** *** moving a value *)
Lemma swap_inv : forall st h g, Inv None st -> h < length (slots st) -> g < length (slots st) ->
  owner_alive st h -> owner_alive st g -> nw st h = 0 -> nr st h = 0 -> nw st g = 0 -> nr st g = 0 ->
  Inv None (set_value (set_value st h (value st g)) g (value st h)).
Proof.
  intros st h g I Lh Lg Oh Og Wh Rh Wg Rg.
  set (st1 := set_value st h (value st g)). set (st' := set_value st1 g (value st h)).
  destruct (set_value_same st h (value st g)) as (S1 & S2 & S3 & S4 & S5). fold st1 in S1, S2, S3, S4, S5.
  destruct (set_value_same st1 g (value st h)) as (T1 & T2 & T3 & T4 & T5). fold st' in T1, T2, T3, T4, T5.
  assert (g < length (slots st1)) as Lg1 by (rewrite S5; exact Lg).
  assert (forall s, value st' s = if s =? g then value st h else if s =? h then value st g else value st s) as PV.
  { intros s. unfold st'. rewrite value_set by exact Lg1. unfold st1. rewrite value_set by exact Lh. reflexivity. }
  assert (forall s, owner_of st' s = owner_of st s) as PO by (intros s; unfold st', st1; rewrite !owner_set; reflexivity).
  assert (forall o, nslots st' o = nslots st o) as PS.
  { intros o. pose proof (nslots_set st1 g (value st h) o Lg1) as Q1. fold st' in Q1. pose proof (nslots_set st h (value st g) o Lh) as Q2. fold st1 in Q2.
    assert (value st1 g = if g =? h then value st g else value st g) as V1 by (unfold st1; rewrite value_set by exact Lh; reflexivity).
    rewrite V1 in Q1. destruct (g =? h); lia. }
  destruct (pend_count_same st st' ltac:(congruence) ltac:(congruence)) as (PA & PR & PWr & PF & PW & PRd).
  assert (pend st' = pend st) as PP by (unfold pend; rewrite T2, S2; reflexivity).
  assert (forall o, phase_of st' o = phase_of st o) as PH by (intros; unfold phase_of; rewrite T1, S1; reflexivity).
  assert (forall o, count_of st' o = count_of st o) as PC by (intros; unfold count_of; rewrite T1, S1; reflexivity).
  assert (forall s, value st' s <> value st s -> s = h \/ s = g) as Ch.
  { intros s. rewrite PV. destruct (Nat.eqb_spec s g); [auto|]. destruct (Nat.eqb_spec s h); [auto | congruence]. }
  assert (forall s o, owner_of st s = Some o -> phase_of st o <> Some Alive -> value st' s = value st s) as Dead.
  { intros s o Ho N. destruct (option_map (fun x => x) (value st' s)) eqn:X; clear X;
      (destruct (eq_value (value st' s) (value st s)) eqn:E; [apply eq_value_true in E; exact E|];
       assert (value st' s <> value st s) as NE by (intros Y; apply eq_value_true in Y; congruence);
       exfalso; destruct (Ch s NE) as [->| ->]; [apply N, Oh; exact Ho | apply N, Og; exact Ho]). }
  assert (forall o h' g', In (MAdd o h' g') (pend st) -> value st' h' = value st h' /\ (forall x, g' = Some x -> value st' x = value st x)) as Pin.
  { intros o h' g' J. split.
    - destruct (eq_value (value st' h') (value st h')) eqn:E; [apply eq_value_true in E; exact E|].
      assert (value st' h' <> value st h') as NE by (intros Y; apply eq_value_true in Y; congruence).
      assert (1 <= nw st h') by (eapply count_in; [exact J | apply Nat.eqb_refl]). destruct (Ch h' NE) as [->| ->]; lia.
    - intros x ->. destruct (eq_value (value st' x) (value st x)) eqn:E; [apply eq_value_true in E; exact E|].
      assert (value st' x <> value st x) as NE by (intros Y; apply eq_value_true in Y; congruence).
      assert (1 <= nr st x) by (eapply count_in; [exact J | apply Nat.eqb_refl]). destruct (Ch x NE) as [->| ->]; lia. }
  constructor.
  - intros s o V. rewrite T1, S1. rewrite PV in V. destruct (s =? g); [apply (i_bound_slot _ _ I h o V)|].
    destruct (s =? h); [apply (i_bound_slot _ _ I g o V) | apply (i_bound_slot _ _ I s o V)].
  - intros s o H. rewrite PO in H. rewrite T1, S1. apply (i_bound_owner _ _ I s o H).
  - intros o H. rewrite PA, PR, PWr in H. rewrite T1, S1. apply (i_bound_pend _ _ I o H).
  - intros o c H. rewrite PS, PA, PR, PWr. rewrite PC in H. apply (i_count _ _ I o c H).
  - intros o p H N. rewrite PS, PA, PR, PWr. rewrite PH in H. apply (i_dead _ _ I o p H N).
  - intros o h' g' J. rewrite PP in J. destruct (i_add _ _ I _ _ _ J) as (V & M). destruct (Pin _ _ _ J) as (Q1 & Q2).
    rewrite Q1. split; [exact V|]. destruct g' as [g'|]; [rewrite (Q2 g' eq_refl); exact M|]. rewrite PS, PA, PR, PWr. exact M.
  - intros s. rewrite PW, PRd. apply (i_lock _ _ I).
  - intros o c H H1 Hb. rewrite PP. rewrite PC in H. rewrite PH in H1. apply (i_live _ _ I o c H H1 Hb).
  - intros o p H. rewrite PF. rewrite PH in H. apply (i_free _ _ I o p H).
  - intros o H. rewrite PF in H. rewrite T1, S1. apply (i_free_bound _ _ I o H).
  - intros t stk l1 o l2 s Ht Es Ho Hv. rewrite T2, S2 in Ht. rewrite PO in Ho.
    assert (phase_of st o <> Some Alive) as NA.
    { intros A. pose proof (i_free _ _ I o Alive A) as F. cbn beta iota in F.
      assert (1 <= nfree st o); [|lia]. eapply count_in; [eapply in_concat_nth; [exact Ht | rewrite Es; apply in_or_app; right; left; reflexivity] | apply Nat.eqb_refl]. }
    rewrite (Dead s o Ho NA) in Hv. eapply (i_drop _ _ I t); eauto.
  - intros s o Ho Hp. rewrite PO in Ho. rewrite PH in Hp. rewrite (Dead s o Ho) by congruence. apply (i_freed _ _ I s o Ho Hp).
  - intros o. rewrite T4, S4, (i_destroyed _ _ I o). split; intros (p & Hp & N); exists p; rewrite PH in *; auto.
  - rewrite T4, S4. apply (i_once _ _ I).
Qed.

Lemma remove_one_count : forall x l r y, remove_one x l = Some r -> count (Nat.eqb y) l = (if y =? x then 1 else 0) + count (Nat.eqb y) r.
Proof.
  induction l as [|a l IH]; intros r y H; cbn [remove_one] in H; [discriminate|].
  destruct (Nat.eqb_spec a x) as [->|N].
  - injection H as <-. rewrite count_cons. reflexivity.
  - destruct (remove_one x l) as [r'|] eqn:E; [|discriminate]. injection H as <-. rewrite !count_cons, (IH _ _ eq_refl). lia.
Qed.

(** ** Every step *)
Theorem step_inv : forall st t a, Inv None st -> step st t a = Race \/ exists st', step st t a = Next st' /\ Inv None st'.
Proof.
  intros st t a I. unfold step. destruct (nth_error (threads st) t) as [[|m rest]|] eqn:T; [| |left; reflexivity].
  2:{ destruct a; try (left; reflexivity). destruct m as [o h g|o|s|o].
      - right. apply (add_inv st t o h g rest I T).
      - right. apply (rel_inv st t o rest I T).
      - apply (drop_inv st t s rest I T).
      - right. apply (free_inv st t o rest I T). }
  destruct a as [|h n|h g|h|h g|h|h o|].
  - right. eexists. split; [reflexivity|].
    destruct (grow_inv st None 1 false (State (objects st) (slots st ++ [Slot None None]) (threads st) (raw st) (destroyed st)) I) as (J & _); try reflexivity; [discriminate | exact J].
  - destruct (can_write st h) eqn:CW; [|left; reflexivity]. right. eexists. split; [reflexivity|]. cbv zeta.
    destruct (can_write_inv _ _ CW) as (L & Ow & W0 & R0).
    set (st1 := State _ _ _ _ _).
    destruct (grow_inv st (Some (length (objects st))) n true st1 I) as (J & V & F); try reflexivity; [intros o E; split; [reflexivity | congruence]|].
    destruct (F eq_refl) as (F1 & F2).
    destruct (pend_count_same st st1 eq_refl eq_refl) as (PA & PR & PWr & PF & PW & PRd).
    apply (assign_inv (Some (length (objects st))) st1 t h (Some (length (objects st))) None J); auto.
    + unfold st1. cbn [slots]. rewrite app_length. lia.
    + intros o H. unfold owner_of, st1 in H. cbn [slots] in H. rewrite nth_error_app1 in H by exact L.
      pose proof (Ow o H) as A. unfold phase_of, st1 in *. cbn [objects]. destruct (nth_error (objects st) o) as [x|] eqn:E; [|discriminate A].
      rewrite nth_error_app1 by (eapply nth_len; eauto). rewrite E. exact A.
    + cbn [source]. auto.
  - destruct (can_write st h) eqn:CW; cbn [andb]; [|left; reflexivity]. destruct (can_read st g) eqn:CR; [|left; reflexivity].
    right. eexists. split; [reflexivity|]. destruct (can_write_inv _ _ CW) as (L & Ow & W0 & R0). destruct (can_read_inv _ _ CR) as (Lg & Wg).
    apply (assign_inv None st t h _ _ I T L Ow W0 R0). cbn [source]. destruct (value st g) as [o|] eqn:V; cbn [source]; auto.
  - destruct (can_write st h) eqn:CW; [|left; reflexivity]. right. eexists. split; [reflexivity|].
    destruct (can_write_inv _ _ CW) as (L & Ow & W0 & R0). apply (assign_inv None st t h _ _ I T L Ow W0 R0). reflexivity.
  - destruct (can_write st h) eqn:CW; cbn [andb]; [|left; reflexivity]. destruct (can_write st g) eqn:CG; [|left; reflexivity].
    right. eexists. split; [reflexivity|]. cbv zeta.
    destruct (can_write_inv _ _ CW) as (L & Ow & W0 & R0). destruct (can_write_inv _ _ CG) as (Lg & Owg & Wg & Rg).
    pose proof (swap_inv st h g I L Lg Ow Owg W0 R0 Wg Rg) as J.
    set (st1 := set_value (set_value st h (value st g)) g (value st h)) in *.
    destruct (set_value_same st h (value st g)) as (S1 & S2 & S3 & S4 & S5).
    destruct (set_value_same (set_value st h (value st g)) g (value st h)) as (T1 & T2 & T3 & T4 & T5). fold st1 in T1, T2, T3, T4, T5.
    destruct (pend_count_same st st1 ltac:(congruence) ltac:(congruence)) as (PA & PR & PWr & PF & PW & PRd).
    apply (assign_inv None st1 t g None None J).
    + rewrite T2, S2. exact T.
    + rewrite T5, S5. exact Lg.
    + intros o H. unfold st1 in H. rewrite !owner_set in H. unfold phase_of. rewrite T1, S1. apply Owg. exact H.
    + rewrite PW. exact Wg.
    + rewrite PRd. exact Rg.
    + reflexivity.
  - destruct (can_write st h) eqn:CW; [|left; reflexivity]. right. eexists. split; [reflexivity|].
    destruct (can_write_inv _ _ CW) as (L & Ow & W0 & R0). set (st' := State _ _ _ _ _).
    assert (forall o, nraw st' o = nraw st o + if eq_value (value st h) (Some o) then 1 else 0) as PRw.
    { intros o. unfold nraw, st'. cbn [raw]. rewrite count_app. destruct (value st h) as [v|]; cbn [opt eq_value]; rewrite ?count_cons, ?count_nil; [rewrite (Nat.eqb_sym o v)|]; lia. }
    assert (forall o, nslots st' o + (if eq_value (value st h) (Some o) then 1 else 0) = nslots st o) as PS.
    { intros o. pose proof (nslots_set st h None o L) as Q. cbn [eq_value] in Q. change (nslots st' o) with (nslots (set_value st h None) o). lia. }
    apply (change_inv None st st' h None I L W0 R0); try reflexivity.
    + intros o. specialize (PRw o). specialize (PS o). change (nrel st' o) with (nrel st o). change (nadd st' o) with (nadd st o). lia.
    + intros o H. left. unfold all4 in *. specialize (PRw o). specialize (PS o). change (nrel st' o) with (nrel st o) in H. change (nadd st' o) with (nadd st o) in H. lia.
    + intros o N1 _. specialize (PRw o). destruct (eq_value (value st h) (Some o)) eqn:E; [apply eq_value_true in E; contradiction|].
      split; [reflexivity|]. split; [lia | reflexivity].
    + discriminate.
    + intros o h' g' J. left. exact J.
    + intros x. apply (i_lock _ _ I x).
    + intros o h' J. exact J.
    + discriminate.
    + intros X. congruence.
    + intros t' stk Ht. exists stk. split; [exact Ht|]. intros l1 o l2 Es. exists l1. auto.
  - destruct (remove_one o (raw st)) as [raw'|] eqn:RO; [|left; reflexivity]. destruct (value st h) eqn:V; [left; reflexivity|].
    destruct (can_write st h) eqn:CW; [|left; reflexivity]. right. eexists. split; [reflexivity|].
    destruct (can_write_inv _ _ CW) as (L & Ow & W0 & R0). set (st' := State _ _ _ _ _).
    assert (forall x, nraw st x = nraw st' x + if eq_value (Some o) (Some x) then 1 else 0) as PRw.
    { intros x. unfold nraw, st'. cbn [raw eq_value]. rewrite (remove_one_count _ _ _ x RO). rewrite (Nat.eqb_sym o x). lia. }
    assert (forall x, nslots st' x = nslots st x + (if eq_value (Some o) (Some x) then 1 else 0)) as PS.
    { intros x. pose proof (nslots_set st h (Some o) x L) as Q. rewrite V in Q. cbn [eq_value] in *. change (nslots st' x) with (nslots (set_value st h (Some o)) x). lia. }
    apply (change_inv None st st' h (Some o) I L W0 R0); try reflexivity.
    + intros x. specialize (PRw x). specialize (PS x). change (nrel st' x) with (nrel st x). change (nadd st' x) with (nadd st x). lia.
    + intros x H. left. unfold all4 in *. specialize (PRw x). specialize (PS x). change (nrel st' x) with (nrel st x) in H. change (nadd st' x) with (nadd st x) in H. lia.
    + intros x _ N2. specialize (PRw x). destruct (eq_value (Some o) (Some x)) eqn:E; [apply eq_value_true in E; contradiction|].
      split; [reflexivity|]. split; [lia | reflexivity].
    + intros x E h' J. injection E as <-. specialize (PRw o). rewrite (proj2 (eq_value_true (Some o) (Some o)) eq_refl) in PRw.
      destruct (i_add _ _ I _ _ _ J) as (_ & _ & _ & ? & _). lia.
    + intros x h' g' J. left. exact J.
    + intros x. apply (i_lock _ _ I x).
    + intros x h' J. exact J.
    + discriminate.
    + intros _. exact Ow.
    + intros t' stk Ht. exists stk. split; [exact Ht|]. intros l1 x l2 Es. exists l1. auto.
  - left; reflexivity.
Qed.

Theorem run_inv : forall l st, Inv None st -> run st l = Race \/ exists st', run st l = Next st' /\ Inv None st'.
Proof.
  induction l as [|(t, a) l IH]; intros st I; cbn [run]; [right; eauto|].
  destruct (step_inv st t a I) as [->|(st' & -> & I')]; [left; reflexivity | apply IH; exact I'].
Qed.
