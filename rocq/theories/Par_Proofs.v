(** Proofs for Par_Props.v. *)
From Coq Require Import List Bool Arith Permutation Lia.
From Verif Require Import Par_Model Par_Spec.
Import ListNotations.

(** ** The same actions *)

Lemma independent_sym a b : independent a b -> independent b a.
Proof.
  intros (A & B & C & D & E). repeat split; auto; unfold disjoint in *; eauto.
Qed.

Lemma same_app_l l a b : same a b -> same (l ++ a) (l ++ b).
Proof.
  induction 1.
  - apply same_refl.
  - rewrite !app_assoc. apply same_swap; auto.
  - eapply same_trans; eauto.
Qed.
Lemma same_app_r r a b : same a b -> same (a ++ r) (b ++ r).
Proof.
  induction 1.
  - apply same_refl.
  - rewrite <- !app_assoc. cbn [app]. apply same_swap; auto.
  - eapply same_trans; eauto.
Qed.
Lemma same_app a b c d : same a b -> same c d -> same (a ++ c) (b ++ d).
Proof. intros A B. eapply same_trans; [apply same_app_r, A|apply same_app_l, B]. Qed.
Lemma same_cons x a b : same a b -> same (x :: a) (x :: b).
Proof. apply (same_app_l [x]). Qed.
Lemma same_perm a b : same a b -> Permutation a b.
Proof.
  induction 1; auto.
  - apply Permutation_app_head. constructor.
  - etransitivity; eauto.
Qed.
Lemma same_in a b x : same a b -> In x a -> In x b.
Proof. intros S. apply Permutation_in, same_perm, S. Qed.
Lemma same_in' a b x : same a b -> In x b -> In x a.
Proof. intros S. apply Permutation_in, Permutation_sym, same_perm, S. Qed.

(** An action moves behind others *)
Lemma same_move x l r : (forall y, In y l -> independent x y) -> same (x :: l ++ r) (l ++ x :: r).
Proof.
  induction l as [|y l IH]; intros H; cbn [app].
  - apply same_refl.
  - eapply same_trans.
    + apply (same_swap [] x y (l ++ r)). apply H. left; auto.
    + cbn [app]. apply same_cons, IH. intros z Hz. apply H. right; auto.
Qed.

Lemma same_concat (l l' : list (list action)) : length l = length l' -> (forall k, k < length l -> same (nth k l []) (nth k l' [])) -> same (concat l) (concat l').
Proof.
  revert l'. induction l as [|a l IH]; intros [|b l']; cbn [length concat]; try discriminate.
  - intros _ _. apply same_refl.
  - intros L H. apply same_app.
    + apply (H 0). lia.
    + apply IH; [lia|]. intros k K. apply (H (S k)). lia.
Qed.

(** ** Traces with the number of the stage each action is from *)

Definition proj (i : nat) (T : list (nat * action)) : list action :=
  map snd (filter (fun x => fst x =? i) T).

Lemma proj_app i a b : proj i (a ++ b) = proj i a ++ proj i b.
Proof. unfold proj. rewrite filter_app, map_app. auto. Qed.
Lemma proj_none i T : (forall x, In x T -> fst x <> i) -> proj i T = [].
Proof.
  unfold proj. induction T as [|x T IH]; cbn [filter map]; auto. intros H.
  destruct (Nat.eqb_spec (fst x) i) as [E|E].
  - exfalso. apply (H x); auto. left; auto.
  - apply IH. intros y Hy. apply H. right; auto.
Qed.
Lemma proj_in i T a : In a (proj i T) <-> In (i, a) T.
Proof.
  unfold proj. rewrite in_map_iff. split.
  - intros ([j b] & E & H). apply filter_In in H as (H & F). apply Nat.eqb_eq in F. cbn [fst snd] in *. subst; auto.
  - intros H. exists (i, a). split; auto. apply filter_In. split; auto. apply Nat.eqb_refl.
Qed.
Lemma proj_pair i tr : proj i (map (pair i) tr) = tr.
Proof.
  unfold proj. induction tr as [|a tr IH]; cbn [map filter]; auto.
  cbn [fst]. rewrite Nat.eqb_refl. cbn [map snd]. congruence.
Qed.

Inductive fop {A} (P : A -> A -> Prop) : list A -> Prop :=
  | fop_nil : fop P []
  | fop_cons : forall x l, (forall y, In y l -> P x y) -> fop P l -> fop P (x :: l).

Lemma fop_impl {A} (P Q : A -> A -> Prop) l : (forall x y, In x l -> In y l -> P x y -> Q x y) -> fop P l -> fop Q l.
Proof.
  induction l as [|x l IH]; intros H F; inversion F; subst; constructor.
  - intros y Hy. apply H; [left; auto|right; auto|auto].
  - apply IH; auto. intros a b Ha Hb. apply H; right; auto.
Qed.
Lemma fop_app {A} (P : A -> A -> Prop) a b : fop P a -> fop P b -> (forall x y, In x a -> In y b -> P x y) -> fop P (a ++ b).
Proof.
  induction 1 as [|x l Hx Fl IH]; intros Fb H; cbn [app]; auto. constructor.
  - intros y Hy. apply in_app_iff in Hy as [Hy|Hy]; auto. apply H; auto. left; auto.
  - apply IH; auto. intros; apply H; auto. right; auto.
Qed.

Lemma shuffle_in {A} (a b c : list A) x : shuffle a b c -> (In x c <-> In x a \/ In x b).
Proof. induction 1; cbn [In]; tauto. Qed.
Lemma shuffle_nil_l {A} (b c : list A) : shuffle [] b c -> c = b.
Proof. revert b. induction c as [|x c IH]; intros b H; inversion H; subst; auto. f_equal; auto. Qed.
Lemma shuffle_nil_r {A} (a c : list A) : shuffle a [] c -> c = a.
Proof. revert a. induction c as [|x c IH]; intros b H; inversion H; subst; auto. f_equal; auto. Qed.
Lemma shuffle_app {A} (a b : list A) : shuffle a b (a ++ b).
Proof.
  induction a; cbn [app]; [|constructor; auto].
  induction b; constructor; auto.
Qed.
Lemma fop_shuffle {A} (P : A -> A -> Prop) a b c : shuffle a b c -> fop P a -> fop P b ->
  (forall x y, In x a -> In y b -> P x y /\ P y x) -> fop P c.
Proof.
  induction 1; intros Fa Fb H0.
  - constructor.
  - inversion Fa; subst. constructor.
    + intros y Hy. apply (shuffle_in _ _ _ _ H) in Hy as [Hy|Hy]; auto. destruct (H0 x y); auto. left; auto.
    + apply IHshuffle; auto. intros; apply H0; auto. right; auto.
  - inversion Fb; subst. constructor.
    + intros y Hy. apply (shuffle_in _ _ _ _ H) in Hy as [Hy|Hy]; auto. destruct (H0 y x); auto. left; auto.
    + apply IHshuffle; auto. intros; apply H0; auto. right; auto.
Qed.
Lemma shuffle_filter {A} (f : A -> bool) a b c : shuffle a b c -> shuffle (filter f a) (filter f b) (filter f c).
Proof. induction 1; cbn [filter]; try destruct (f x); try constructor; auto. Qed.
Lemma shuffle_map {A B} (f : A -> B) a b c : shuffle a b c -> shuffle (map f a) (map f b) (map f c).
Proof. induction 1; cbn [map]; constructor; auto. Qed.
Lemma shuffle_lift {A B} (f : A -> B) : forall tr a b, shuffle (map f a) (map f b) tr -> exists T, map f T = tr /\ shuffle a b T.
Proof.
  induction tr as [|x tr IH]; intros a b H; inversion H; subst.
  - destruct a; [|discriminate]. destruct b; [|discriminate]. exists []. split; auto. constructor.
  - destruct a as [|y a]; [discriminate|]. cbn [map] in *.
    match goal with E : _ :: _ = _ :: _ |- _ => injection E as E1 E2 end. subst.
    destruct (IH a b) as (T & E & S0); auto. exists (y :: T). split; [cbn [map]; congruence|constructor; auto].
  - destruct b as [|y b]; [discriminate|]. cbn [map] in *.
    match goal with E : _ :: _ = _ :: _ |- _ => injection E as E1 E2 end. subst.
    destruct (IH a b) as (T & E & S0); auto. exists (y :: T). split; [cbn [map]; congruence|constructor; auto].
Qed.

Lemma concat_seq_app {A} (f : nat -> list A) a b c : concat (map f (seq a (b + c))) = concat (map f (seq a b)) ++ concat (map f (seq (a + b) c)).
Proof. rewrite seq_app, map_app, concat_app. auto. Qed.

(** A run whose actions are only out of order if they are independent is the same as the
    stages one after the other. *)
Lemma sort_stages n T :
  (forall x, In x T -> fst x < n) ->
  fop (fun x y => fst y < fst x -> independent (snd x) (snd y)) T ->
  same (map snd T) (concat (map (fun i => proj i T) (seq 0 n))).
Proof.
  induction T as [|[i a] T IH]; intros L F.
  - cbn [map]. replace (concat _) with (@nil action); [apply same_refl|].
    induction (seq 0 n) as [|k l IHl]; cbn [map concat]; auto.
  - inversion F as [|? ? Hx F']; subst. cbn [map snd].
    assert (Li : i < n) by (apply (L (i, a)); left; auto).
    eapply same_trans.
    { apply same_cons, IH; auto. intros x Hx'. apply L. right; auto. }
    replace n with (i + S (n - S i)) by lia.
    rewrite !concat_seq_app. cbn [seq map concat Nat.add].
    replace (map (fun k => proj k ((i, a) :: T)) (seq 0 i)) with (map (fun k => proj k T) (seq 0 i)).
    2:{ apply map_ext_in. intros k Hk. apply in_seq in Hk. unfold proj. cbn [filter fst].
        destruct (Nat.eqb_spec i k); [lia|auto]. }
    replace (map (fun k => proj k ((i, a) :: T)) (seq (S i) (n - S i))) with (map (fun k => proj k T) (seq (S i) (n - S i))).
    2:{ apply map_ext_in. intros k Hk. apply in_seq in Hk. unfold proj. cbn [filter fst].
        destruct (Nat.eqb_spec i k); [lia|auto]. }
    replace (proj i ((i, a) :: T)) with (a :: proj i T).
    2:{ unfold proj. cbn [filter fst]. rewrite Nat.eqb_refl. auto. }
    cbn [app]. apply same_move. intros y Hy. apply in_concat in Hy as (l & Hl & Hy).
    apply in_map_iff in Hl as (k & <- & Hk). apply in_seq in Hk. apply proj_in in Hy.
    apply (Hx (k, y)); auto. cbn [fst]. lia.
Qed.

(** ** Shapes of statements made from stages *)

Inductive shape := HStage (i : nat) | HNil | HSeq (a b : shape) | HPar (a b : shape).
Fixpoint labels (s : shape) : list nat :=
  match s with
  | HStage i => [i]
  | HNil => []
  | HSeq a b | HPar a b => labels a ++ labels b
  end.
Fixpoint before (s : shape) (i j : nat) : Prop :=
  match s with
  | HStage _ | HNil => False
  | HSeq a b => (In i (labels a) /\ In j (labels b)) \/ before a i j \/ before b i j
  | HPar a b => before a i j \/ before b i j
  end.
Inductive shaped (bodies : nat -> tree) : tree -> shape -> Prop :=
  | shaped_stage : forall i, shaped bodies (bodies i) (HStage i)
  | shaped_nil : shaped bodies (TBlock []) HNil
  | shaped_cons : forall t ts a b, shaped bodies t a -> shaped bodies (TBlock ts) b -> shaped bodies (TBlock (t :: ts)) (HSeq a b)
  | shaped_async : forall t u a b, shaped bodies t a -> shaped bodies u b -> shaped bodies (TAsync t u) (HPar a b).

Fixpoint traces (R : nat -> list action -> Prop) (s : shape) (T : list (nat * action)) : Prop :=
  match s with
  | HStage i => exists tr, R i tr /\ T = map (pair i) tr
  | HNil => T = []
  | HSeq a b => exists U V, traces R a U /\ traces R b V /\ T = U ++ V
  | HPar a b => exists U V, traces R a U /\ traces R b V /\ shuffle U V T
  end.

Lemma before_in s i j : before s i j -> In i (labels s) /\ In j (labels s).
Proof.
  induction s; cbn [before labels]; try tauto.
  - intros [(A & B)|[H|H]]; rewrite !in_app_iff; [tauto|apply IHs1 in H; tauto|apply IHs2 in H; tauto].
  - intros [H|H]; rewrite !in_app_iff; [apply IHs1 in H; tauto|apply IHs2 in H; tauto].
Qed.

Lemma traces_labels R s T : traces R s T -> forall x, In x T -> In (fst x) (labels s).
Proof.
  revert T. induction s; cbn [traces labels]; intros T H x Hx.
  - destruct H as (tr & _ & ->). apply in_map_iff in Hx as (a & <- & _). left; auto.
  - subst. destruct Hx.
  - destruct H as (U & V & A & B & ->). apply in_app_iff in Hx. rewrite in_app_iff. destruct Hx; eauto.
  - destruct H as (U & V & A & B & C). apply (shuffle_in _ _ _ _ C) in Hx. rewrite in_app_iff. destruct Hx; eauto.
Qed.

Lemma NoDup_app_parts {A} (a b : list A) : NoDup (a ++ b) -> NoDup a /\ NoDup b /\ (forall x, In x a -> In x b -> False).
Proof.
  induction a as [|x a IH]; cbn [app]; intros N.
  - repeat split; auto. constructor.
  - apply NoDup_cons_iff in N as (N1 & N2). destruct (IH N2) as (A1 & A2 & A3).
    rewrite in_app_iff in N1. split; [constructor; tauto|]. split; auto.
    intros y [<-|Hy] Hb; [tauto|]. eauto.
Qed.

Lemma traces_proj R s T : NoDup (labels s) -> traces R s T -> forall i, In i (labels s) -> R i (proj i T).
Proof.
  revert T. induction s; cbn [traces labels]; intros T N H k Hk.
  - destruct Hk as [<-|[]]. destruct H as (tr & A & ->). rewrite proj_pair. auto.
  - destruct Hk.
  - destruct H as (U & V & A & B & ->). apply NoDup_app_parts in N as (N1 & N2 & N3). rewrite proj_app.
    apply in_app_iff in Hk as [Hk|Hk].
    + rewrite (proj_none k V), app_nil_r; auto. intros x Hx E. subst. apply (N3 (fst x)); auto. eapply traces_labels; eauto.
    + rewrite (proj_none k U); [apply IHs2; auto|]. intros x Hx E. subst. apply (N3 (fst x)); auto. eapply traces_labels; eauto.
  - destruct H as (U & V & A & B & C). apply NoDup_app_parts in N as (N1 & N2 & N3).
    pose proof (shuffle_map snd _ _ _ (shuffle_filter (fun x => fst x =? k) _ _ _ C)) as Sh.
    change (shuffle (proj k U) (proj k V) (proj k T)) in Sh.
    apply in_app_iff in Hk as [Hk|Hk].
    + rewrite (proj_none k V) in Sh.
      * apply shuffle_nil_r in Sh. rewrite Sh. auto.
      * intros x Hx E. subst. apply (N3 (fst x)); auto. eapply traces_labels; eauto.
    + rewrite (proj_none k U) in Sh.
      * apply shuffle_nil_l in Sh. rewrite Sh. auto.
      * intros x Hx E. subst. apply (N3 (fst x)); auto. eapply traces_labels; eauto.
Qed.

Lemma fop_all {A} (P : A -> A -> Prop) l : (forall x y, P x y) -> fop P l.
Proof. intros H. induction l; constructor; auto. Qed.

Lemma traces_order R s T : NoDup (labels s) -> traces R s T -> fop (fun x y => ~ before s (fst y) (fst x)) T.
Proof.
  revert T. induction s; cbn [traces labels]; intros T N H.
  - apply fop_all. cbn [before]. auto.
  - apply fop_all. cbn [before]. auto.
  - destruct H as (U & V & A & B & ->). apply NoDup_app_parts in N as (N1 & N2 & N3).
    pose proof (traces_labels _ _ _ A) as LA. pose proof (traces_labels _ _ _ B) as LB.
    apply fop_app.
    + eapply fop_impl; [|apply IHs1; auto]. cbn beta. intros x y Hx Hy K [(C & D)|[C|C]].
      * apply (N3 (fst x)); auto.
      * auto.
      * apply before_in in C as (C & _). apply (N3 (fst y)); auto.
    + eapply fop_impl; [|apply IHs2; auto]. cbn beta. intros x y Hx Hy K [(C & D)|[C|C]].
      * apply (N3 (fst y)); auto.
      * apply before_in in C as (C & _). apply (N3 (fst y)); auto.
      * auto.
    + intros x y Hx Hy [(C & D)|[C|C]].
      * apply (N3 (fst x)); auto.
      * apply before_in in C as (C & _). apply (N3 (fst y)); auto.
      * apply before_in in C as (_ & C). apply (N3 (fst x)); auto.
  - destruct H as (U & V & A & B & C). apply NoDup_app_parts in N as (N1 & N2 & N3).
    pose proof (traces_labels _ _ _ A) as LA. pose proof (traces_labels _ _ _ B) as LB.
    eapply fop_shuffle; [exact C| | |].
    + eapply fop_impl; [|apply IHs1; auto]. cbn beta. intros x y Hx Hy K [D|D]; auto.
      apply before_in in D as (D & _). apply (N3 (fst y)); auto.
    + eapply fop_impl; [|apply IHs2; auto]. cbn beta. intros x y Hx Hy K [D|D]; auto.
      apply before_in in D as (D & _). apply (N3 (fst y)); auto.
    + intros x y Hx Hy. split; cbn [before]; intros [D|D]; apply before_in in D as (D1 & D2).
      * apply (N3 (fst y)); auto.
      * apply (N3 (fst x)); auto.
      * apply (N3 (fst y)); auto.
      * apply (N3 (fst x)); auto.
Qed.

Lemma shaped_traces st ct bodies t s it env tr : shaped bodies t s -> runs st ct t it env tr ->
  exists T, map snd T = tr /\ traces (fun i => runs st ct (bodies i) it env) s T.
Proof.
  intros H. revert tr. induction H; intros tr R.
  - exists (map (pair i) tr). split.
    + rewrite map_map. cbn [snd]. apply map_id.
    + cbn [traces]. eauto.
  - cbn [runs] in R. subst. exists []. split; auto. reflexivity.
  - destruct R as (x & y & Rx & Ry & ->). destruct (IHshaped1 _ Rx) as (T1 & E1 & K1).
    destruct (IHshaped2 y Ry) as (T2 & E2 & K2). exists (T1 ++ T2). rewrite map_app. split; [congruence|].
    cbn [traces]. eauto 6.
  - destruct R as (x & y & Rx & Ry & Sh). destruct (IHshaped1 _ Rx) as (T1 & E1 & K1).
    destruct (IHshaped2 y Ry) as (T2 & E2 & K2). subst x y. apply shuffle_lift in Sh as (T & E & Sh).
    exists T. split; auto. cbn [traces]. eauto 6.
Qed.
