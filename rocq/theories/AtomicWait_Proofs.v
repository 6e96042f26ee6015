From Coq Require Import ZArith List Bool Lia.
From Verif Require Import AtomicWait_Model.
Import ListNotations.
Open Scope Z_scope.

Lemma nth_In {A} (l : list A) i c : nth_error l i = Some c -> In c l. Proof. apply nth_error_In. Qed.
Lemma In_upd {A} (l : list A) i x y : In y (upd l i x) -> y = x \/ In y l.
Proof. revert i. induction l as [|a l IH]; intros [|i]; cbn; try tauto; intros [H|H]; auto. apply IH in H. destruct H; auto. Qed.
Lemma In_new {A} (l : list A) i c x : nth_error l i = Some c -> In x (upd l i x).
Proof. revert i. induction l as [|a l IH]; intros [|i]; cbn; try discriminate; eauto. Qed.
Lemma In_keep {A} (l : list A) i c x y : nth_error l i = Some c -> In y l -> y <> c -> In y (upd l i x).
Proof.
  revert i. induction l as [|a l IH]; intros [|i]; cbn; try tauto; try discriminate.
  - intros E [->|H] N; [congruence|auto].
  - intros E [->|H] N; eauto.
Qed.
Lemma nth_upd_same {A} (l : list A) i c x : nth_error l i = Some c -> nth_error (upd l i x) i = Some x.
Proof. revert i. induction l as [|a l IH]; intros [|i]; cbn; try discriminate; auto. Qed.
Lemma nth_upd_other {A} (l : list A) i j x : i <> j -> nth_error (upd l i x) j = nth_error l j.
Proof. revert i j. induction l as [|a l IH]; intros [|i] [|j] N; cbn; auto; congruence. Qed.
Lemma nth_upd {A} (l : list A) i j x y : nth_error (upd l i x) j = Some y -> (i = j /\ y = x) \/ (i <> j /\ nth_error l j = Some y).
Proof.
  destruct (Nat.eq_dec i j) as [->|N]; [|rewrite nth_upd_other by exact N; auto].
  intros H. left. split; [reflexivity|]. revert j H. induction l as [|a l IH]; intros [|j]; cbn; try discriminate; [congruence|]. apply IH.
Qed.
Lemma put_same {A} (f : Z -> A) k v : put f k v k = v. Proof. unfold put. rewrite Z.eqb_refl. reflexivity. Qed.
Lemma put_other {A} (f : Z -> A) k v x : x <> k -> put f k v x = f x. Proof. unfold put. intros H. rewrite (proj2 (Z.eqb_neq _ _) H). reflexivity. Qed.
Lemma slot_same {A} (f : nat -> A) k v : put_slot f k v k = v. Proof. unfold put_slot. rewrite Nat.eqb_refl. reflexivity. Qed.
Lemma slot_other {A} (f : nat -> A) k v x : x <> k -> put_slot f k v x = f x. Proof. unfold put_slot. intros H. rewrite (proj2 (Nat.eqb_neq _ _) H). reflexivity. Qed.


(** sums over the threads *)
Section Sum.
  Context {A : Type}.
  Definition sum (w : A -> nat) (l : list A) : nat := fold_right (fun c t => w c + t)%nat 0%nat l.
  Lemma sum_upd w l i c x : nth_error l i = Some c -> (sum w (upd l i x) + w c = sum w l + w x)%nat.
  Proof.
    revert i. induction l as [|a l IH]; intros [|i] H; cbn [nth_error upd sum fold_right] in *; try discriminate.
    - injection H as ->. lia.
    - specialize (IH i H). fold (sum w l) in *. fold (sum w (upd l i x)) in *. lia.
  Qed.
  Lemma sum_map w f l : (forall c, w (f c) = w c) -> sum w (map f l) = sum w l.
  Proof. intros H. induction l as [|a l IH]; cbn [map sum fold_right]; [reflexivity|]. fold (sum w (map f l)) (sum w l). rewrite H, IH. reflexivity. Qed.
End Sum.

(** pairs of numbers in lexicographic order *)
Definition less2 (a b : nat * nat) : Prop := (fst a < fst b)%nat \/ fst a = fst b /\ (snd a < snd b)%nat.
Lemma less2_wf : well_founded less2.
Proof.
  intros [a b]. revert b. induction a as [a IHa] using (well_founded_induction Wf_nat.lt_wf).
  induction b as [b IHb] using (well_founded_induction Wf_nat.lt_wf). constructor. intros [c d] [H|[H K]]; cbn [fst snd] in *.
  - apply IHa. exact H.
  - subst. apply IHb. exact K.
Qed.
Lemma no_descent {S : Type} (R : S -> S -> Prop) (w : S -> nat * nat) : (forall s s', R s s' -> less2 (w s') (w s)) ->
  forall f : nat -> S, ~ forall k, R (f k) (f (Datatypes.S k)).
Proof.
  intros D f H.
  assert (X : forall a k, w (f k) = a -> False).
  { intros a. induction a as [a IH] using (well_founded_induction less2_wf). intros k E.
    eapply (IH (w (f (Datatypes.S k)))); [rewrite <- E; apply D, H|reflexivity]. }
  eapply (X _ O). reflexivity.
Qed.
