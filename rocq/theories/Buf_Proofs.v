(** Lemmas about Buf_Model.v relative to Buf_Spec.v. *)
From Coq Require Import ZArith List Bool Lia Arith.
From Verif Require Import Buf_Model Buf_Spec.
Import ListNotations.
Open Scope Z_scope.

Lemma oadd_assoc : forall a b c, oadd a (oadd b c) = oadd (oadd a b) c.
Proof. intros [a|] [b|] [c|]; cbn; auto. f_equal. lia. Qed.
Lemma oadd_comm : forall a b, oadd a b = oadd b a.
Proof. intros [a|] [b|]; cbn; auto. f_equal. lia. Qed.
Lemma oadd_0_l : forall a, oadd (Some 0) a = a.
Proof. intros [a|]; reflexivity. Qed.
Lemma oadd_0_r : forall a, oadd a (Some 0) = a.
Proof. intros [a|]; cbn; auto. f_equal. lia. Qed.
Lemma oadd_none_r : forall a, oadd a None = None.
Proof. intros [a|]; reflexivity. Qed.
Lemma oadd_swap : forall a b c, oadd a (oadd b c) = oadd b (oadd a c).
Proof. intros. rewrite !oadd_assoc. f_equal. apply oadd_comm. Qed.

Lemma d_contains_place : forall d x, place d x = if d_contains d x then Some (d_offset d x) else None.
Proof.
  intros d x. unfold place, d_contains, d_contains2, d_offset.
  destruct (Z.eqb_spec (d_stride d) 0) as [E|E]; cbn [orb].
  - rewrite E. f_equal. lia.
  - destruct ((d_min d <=? x) && (x <=? d_max d)); reflexivity.
Qed.

Lemma place_step : forall (p : ptr) d x,
  match p with Some a => if d_contains d x then Some (a + d_offset d x) else None | None => None end = oadd p (place d x).
Proof. intros p d x. rewrite d_contains_place. destruct p; [|reflexivity]. destruct (d_contains d x); reflexivity. Qed.

Lemma place_all_ext : forall ds f g, (forall k, (k < length ds)%nat -> f k = g k) -> place_all ds f = place_all ds g.
Proof.
  induction ds as [|d ds IH]; intros f g E; cbn [place_all]; [reflexivity|].
  rewrite (E O) by (cbn; lia). f_equal. apply IH. intros k H. apply E. cbn. lia.
Qed.
Lemma locate_ext : forall b f g, (forall k, (k < rank b)%nat -> f k = g k) -> locate b f = locate b g.
Proof. intros b f g E. unfold locate. f_equal. apply place_all_ext. exact E. Qed.

(** Splitting out dimension [d]. *)
Lemma place_all_insert : forall ds d x f, (d < length ds)%nat ->
  place_all ds (insert_at d x f) = oadd (place (nth d ds broadcast) x) (place_all (remove_nth ds d) f).
Proof.
  induction ds as [|e ds IH]; intros d x f L; [cbn in L; lia|].
  destruct d as [|d]; cbn [place_all remove_nth nth].
  - change (insert_at 0 x f O) with x. f_equal. apply place_all_ext. intros k _.
    unfold insert_at. cbn. f_equal. lia.
  - cbn [length] in L. rewrite oadd_swap.
    change (insert_at (S d) x f O) with (f O). f_equal.
    rewrite <- (IH d x (fun k => f (S k))) by lia.
    apply place_all_ext. intros k _. unfold insert_at.
    destruct (Nat.ltb_spec (S k) (S d)), (Nat.ltb_spec k d); try lia; auto.
    destruct (Nat.eqb_spec (S k) (S d)), (Nat.eqb_spec k d); try lia; auto.
    f_equal. lia.
Qed.
Lemma place_all_insert_out : forall ds d x f, (length ds <= d)%nat ->
  place_all ds (insert_at d x f) = place_all ds f.
Proof.
  intros ds d x f L. apply place_all_ext. intros k H. unfold insert_at.
  destruct (Nat.ltb_spec k d); [reflexivity|lia].
Qed.
(** Any index is an insertion. *)
Lemma insert_at_delete : forall d (f : nat -> Z) k,
  insert_at d (f d) (fun q => if (q <? d)%nat then f q else f (S q)) k = f k.
Proof.
  intros d f k. unfold insert_at. destruct (Nat.ltb_spec k d); [reflexivity|].
  destruct (Nat.eqb_spec k d); [subst; reflexivity|].
  destruct (Nat.ltb_spec (k - 1) d); [lia|]. f_equal. lia.
Qed.

Lemma set_nth_length : forall A (l : list A) d v, length (set_nth l d v) = length l.
Proof. induction l as [|x l IH]; intros [|d] v; cbn; auto. Qed.
Lemma nth_set_nth : forall A (l : list A) d v k def, (d < length l)%nat ->
  nth k (set_nth l d v) def = if (k =? d)%nat then v else nth k l def.
Proof.
  induction l as [|x l IH]; intros d v k def L; [cbn in L; lia|].
  destruct d as [|d], k as [|k]; cbn in *; auto. apply IH. lia.
Qed.
Lemma remove_set_nth : forall A (l : list A) d v, remove_nth (set_nth l d v) d = remove_nth l d.
Proof. induction l as [|x l IH]; intros [|d] v; cbn; auto. f_equal. apply IH. Qed.
Lemma remove_nth_length : forall A (l : list A) d, (d < length l)%nat -> length (remove_nth l d) = (length l - 1)%nat.
Proof.
  induction l as [|x l IH]; intros [|d] L; cbn in *; try lia. rewrite IH by lia. lia.
Qed.
Lemma nth_remove_nth : forall A (l : list A) d k def,
  nth k (remove_nth l d) def = if (k <? d)%nat then nth k l def else nth (S k) l def.
Proof.
  induction l as [|x l IH]; intros d k def.
  - destruct d, k; cbn [remove_nth nth]; match goal with |- context [(?a <? ?b)%nat] => destruct (a <? b)%nat end; reflexivity.
  - destruct d as [|d], k as [|k]; cbn [remove_nth nth]; auto.
    rewrite IH. destruct (Nat.ltb_spec k d), (Nat.ltb_spec (S k) (S d)); try lia; reflexivity.
Qed.
Lemma remove_nth_out : forall A (l : list A) d, (length l <= d)%nat -> remove_nth l d = l.
Proof. induction l as [|x l IH]; intros [|d] L; cbn in *; auto; try lia. rewrite IH by lia. reflexivity. Qed.

(** slice1 removes dimension d. *)
Lemma nth_shift_loop : forall n ds i k, (i + n < length ds)%nat ->
  nth k (shift_loop ds i n) broadcast =
  if ((i <=? k) && (k <? i + n))%nat then nth (S k) ds broadcast else nth k ds broadcast.
Proof.
  induction n as [|n IH]; intros ds i k L; cbn [shift_loop].
  - destruct (Nat.leb_spec i k), (Nat.ltb_spec k (i + 0)); cbn; try lia; reflexivity.
  - rewrite IH by (rewrite set_nth_length; lia). rewrite !nth_set_nth by lia.
    destruct (Nat.leb_spec i k), (Nat.ltb_spec k (i + S n)), (Nat.leb_spec (S i) k), (Nat.ltb_spec k (S i + n));
      cbn [andb]; try lia;
      destruct (Nat.eqb_spec k i), (Nat.eqb_spec (S k) i); try lia; subst; auto.
Qed.
Lemma shift_loop_length : forall n ds i, length (shift_loop ds i n) = length ds.
Proof. induction n as [|n IH]; intros ds i; cbn; auto. rewrite IH. apply set_nth_length. Qed.

Lemma nth_firstn_lt : forall A (l : list A) n k def, (k < n)%nat -> nth k (firstn n l) def = nth k l def.
Proof.
  induction l as [|x l IH]; intros [|n] [|k] def L; cbn; auto; try lia. apply IH. lia.
Qed.

Lemma slice1_dims : forall b d, dims (slice1 b d) = remove_nth (dims b) d.
Proof.
  intros b d. unfold slice1, rank. destruct (Nat.leb_spec (length (dims b)) d) as [L|L].
  - symmetry. apply remove_nth_out. exact L.
  - destruct (Nat.eqb_spec d 0) as [->|N]; cbn [dims].
    + destruct (dims b); reflexivity.
    + apply nth_ext with (d := broadcast) (d' := broadcast).
      * rewrite firstn_length, shift_loop_length, remove_nth_length by exact L. lia.
      * intros k Hk. rewrite firstn_length, shift_loop_length in Hk.
        rewrite nth_firstn_lt by lia. rewrite nth_shift_loop by lia. rewrite nth_remove_nth.
        destruct (Nat.leb_spec d k), (Nat.ltb_spec k d); try lia; cbn [andb]; [|reflexivity].
        destruct (Nat.ltb_spec k (d + (length (dims b) - 1 - d))); [reflexivity|lia].
Qed.
Lemma slice1_base : forall b d, base (slice1 b d) = base b.
Proof. intros b d. unfold slice1. destruct (rank b <=? d)%nat; [reflexivity|]. destruct (d =? 0)%nat; reflexivity. Qed.
Lemma slice1_elem : forall b d, elem_size (slice1 b d) = elem_size b.
Proof. intros b d. unfold slice1. destruct (rank b <=? d)%nat; [reflexivity|]. destruct (d =? 0)%nat; reflexivity. Qed.

Lemma locate_slice_at : forall b d x f, locate (slice_at b d x) f = locate b (insert_at d x f).
Proof.
  intros b d x f. unfold slice_at. destruct (Nat.leb_spec (rank b) d) as [L|L]; unfold rank in L.
  - unfold locate. rewrite place_all_insert_out by exact L. reflexivity.
  - unfold locate. rewrite slice1_base, slice1_dims, place_all_insert by exact L. cbn [base dims].
    rewrite place_step. unfold dim_at. symmetry. apply oadd_assoc.
Qed.

Lemma oadd_place_contained : forall b d x, d_contains d x = true -> offset_bytes b (d_offset d x) = oadd b (place d x).
Proof. intros b d x C. rewrite d_contains_place, C. destruct b; reflexivity. Qed.

(** crop *)
Definition dim_ok (d : dim) : Prop := d_stride d = 0 \/ d_fold d = unfolded \/ 0 < d_fold d.

Lemma place_all_set : forall ds d e f, (d < length ds)%nat ->
  place_all (set_nth ds d e) f = oadd (place e (f d)) (place_all (remove_nth ds d) (fun q => if (q <? d)%nat then f q else f (S q))).
Proof.
  intros ds d e f L.
  rewrite (place_all_ext _ f (insert_at d (f d) (fun q => if (q <? d)%nat then f q else f (S q))))
    by (intros k _; symmetry; apply insert_at_delete).
  rewrite place_all_insert by (rewrite set_nth_length; exact L).
  rewrite remove_set_nth, nth_set_nth, Nat.eqb_refl by exact L. reflexivity.
Qed.
Lemma place_all_split : forall ds d f, (d < length ds)%nat ->
  place_all ds f = oadd (place (nth d ds broadcast) (f d)) (place_all (remove_nth ds d) (fun q => if (q <? d)%nat then f q else f (S q))).
Proof.
  intros ds d f L.
  rewrite (place_all_ext _ f (insert_at d (f d) (fun q => if (q <? d)%nat then f q else f (S q))))
    by (intros k _; symmetry; apply insert_at_delete).
  rewrite place_all_insert by exact L. reflexivity.
Qed.

Lemma locate_crop : forall b d lo hi f, (d < rank b)%nat ->
  locate (crop b d lo hi) f =
  let e := dim_at b d in
  let lo' := Z.max lo (d_min e) in let hi' := Z.min hi (d_max e) in
  if (lo' <=? hi') && ((d_stride e =? 0) || ((lo <=? f d) && (f d <=? hi))) then locate b f else None.
Proof.
  intros b d lo hi f L. unfold crop. destruct (Nat.leb_spec (rank b) d); [lia|].
  cbn zeta. set (e := dim_at b d) in *. set (lo' := Z.max lo (d_min e)). set (hi' := Z.min hi (d_max e)).
  unfold locate. cbn [base dims]. rewrite place_all_set by exact L.
  rewrite (place_all_split (dims b) d f) by exact L. fold (dim_at b d). fold e.
  set (rest := place_all (remove_nth (dims b) d) _).
  destruct (base b) as [a|]; [|destruct (_ && _); reflexivity].
  destruct (Z.leb_spec lo' hi') as [NE|NE]; [|reflexivity]. cbn [andb].
  assert (place (set_bounds e lo' hi') (f d) =
          if d_stride e =? 0 then Some 0
          else if (lo' <=? f d) && (f d <=? hi')
               then Some (if d_fold e =? unfolded then (f d - lo') * d_stride e else (f d mod d_fold e) * d_stride e)
               else None) as -> by reflexivity.
  unfold place at 1, d_offset.
  destruct (Z.eqb_spec (d_stride e) 0) as [S0|S0]; cbn [orb].
  { rewrite S0. destruct (d_fold e =? unfolded); [|reflexivity].
    replace (a + (lo' - d_min e) * 0) with a by lia. reflexivity. }
  destruct (Z.leb_spec lo (f d)) as [A|A], (Z.leb_spec (f d) hi) as [B|B]; cbn [andb].
  - destruct (Z.leb_spec lo' (f d)), (Z.leb_spec (d_min e) (f d)); try lia; cbn [andb]; [|destruct (d_fold e =? unfolded); reflexivity].
    destruct (Z.leb_spec (f d) hi'), (Z.leb_spec (f d) (d_max e)); try lia; cbn [andb]; [|destruct (d_fold e =? unfolded); reflexivity].
    destruct (d_fold e =? unfolded); [|reflexivity].
    destruct rest; cbn; [|reflexivity]. f_equal. nia.
  - destruct (Z.leb_spec (f d) hi'); [lia|]. rewrite andb_false_r. destruct (d_fold e =? unfolded); reflexivity.
  - destruct (Z.leb_spec lo' (f d)); [lia|]. destruct (d_fold e =? unfolded); reflexivity.
  - destruct (Z.leb_spec lo' (f d)); [lia|]. destruct (d_fold e =? unfolded); reflexivity.
Qed.

Lemma crop_dims : forall b d lo hi, (d < rank b)%nat ->
  dims (crop b d lo hi) = set_nth (dims b) d
    (set_bounds (dim_at b d) (Z.max lo (d_min (dim_at b d))) (Z.min hi (d_max (dim_at b d)))).
Proof. intros b d lo hi L. unfold crop. destruct (Nat.leb_spec (rank b) d); [lia|]. reflexivity. Qed.
Lemma crop_rank : forall b d lo hi, rank (crop b d lo hi) = rank b.
Proof.
  intros b d lo hi. destruct (le_lt_dec (rank b) d) as [L|L].
  - unfold crop. destruct (Nat.leb_spec (rank b) d); [reflexivity|lia].
  - unfold rank at 1. rewrite crop_dims by exact L. apply set_nth_length.
Qed.

(** buffer_at *)
Lemma buffer_at_loop_none : forall ds args, buffer_at_loop None ds args = None.
Proof.
  induction ds as [|d ds IH]; intros args; cbn; [reflexivity|].
  destruct args as [|[x|] args]; auto.
Qed.

(** translate *)
Lemma translate_place : forall d o x, d_fold d = unfolded \/ d_stride d = 0 ->
  place (d_translate d o) (x + o) = place d x.
Proof.
  intros d o x U. unfold place, d_translate, set_bounds. cbn [d_stride d_min d_max d_fold].
  destruct (Z.eqb_spec (d_stride d) 0); [reflexivity|].
  destruct U as [->|]; [|contradiction]. rewrite Z.eqb_refl.
  destruct (Z.leb_spec (d_min d + o) (x + o)), (Z.leb_spec (d_min d) x); try lia; cbn [andb]; [|reflexivity].
  destruct (Z.leb_spec (x + o) (d_max d + o)), (Z.leb_spec x (d_max d)); try lia; cbn [andb]; [|reflexivity].
  f_equal. f_equal. lia.
Qed.
