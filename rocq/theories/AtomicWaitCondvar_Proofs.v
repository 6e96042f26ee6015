From Coq Require Import ZArith List Bool Lia.
From Verif Require Import AtomicWait_Model AtomicWait_Proofs AtomicWaitCondvar_Model AtomicWaitCondvar_Spec.
Import ListNotations.
Open Scope Z_scope.

Section Proofs.
  Variable slot : Z -> nat.

  Definition holds (e : nat) (c : pc) : Prop :=
    match c with WMark p _ | WCheck p _ | WSleep p _ | WUnlock p _ | Unlock p => slot p = e | _ => False end.
  Record inv (s : state) : Prop := {
    m_owner : forall e i, owner s e = Some i -> exists c, nth_error (threads s) i = Some c /\ holds e c;
    m_holds : forall e i c, nth_error (threads s) i = Some c -> holds e c -> owner s e = Some i;
    s_check : forall p v, In (WCheck p v) (threads s) \/ In (WSleep p v) (threads s) -> credit s (slot p) = 0 ->
      exists q, slot q = slot p /\ In (Lock q) (threads s);
    s_asleep : forall p v, In (Asleep p v) (threads s) -> credit s (slot p) = 0 ->
      exists q, slot q = slot p /\ (In (Lock q) (threads s) \/ In (Unlock q) (threads s) \/ In (Bcast q) (threads s));
    v_sleep : forall p v, In (WSleep p v) (threads s) -> mem s p <> v ->
      In (Owe p) (threads s) \/ In (Exch p) (threads s) \/ exists q, slot q = slot p /\ In (Lock q) (threads s);
    v_asleep : forall p v, In (Asleep p v) (threads s) -> mem s p <> v ->
      In (Owe p) (threads s) \/ In (Exch p) (threads s) \/
      exists q, slot q = slot p /\ (In (Lock q) (threads s) \/ In (Unlock q) (threads s) \/ In (Bcast q) (threads s)) }.

  Lemma In_woken e l x : In x (map (woken slot e) l) ->
    (In x l /\ forall p v, x = Asleep p v -> slot p <> e) \/ exists p v, x = WRelock p v /\ In (Asleep p v) l.
  Proof.
    rewrite in_map_iff. intros (c & E & I). destruct c; cbn [woken] in E; try (left; subst x; split; [exact I|discriminate]).
    destruct (Nat.eqb _ _) eqn:Q; subst x.
    - right. eauto.
    - left. split; [exact I|]. intros p' v' N. injection N as -> ->. apply Nat.eqb_neq. exact Q.
  Qed.
  Lemma woken_keep e l x : In x l -> (forall p v, x <> Asleep p v) -> In x (map (woken slot e) l).
  Proof.
    intros I N. apply in_map_iff. exists x. split; [|exact I]. destruct x; cbn [woken]; try reflexivity. exfalso. eapply N. reflexivity.
  Qed.
  Lemma holds_woken k e c : holds e (woken slot k c) <-> holds e c.
  Proof. destruct c; cbn [woken]; try reflexivity. destruct (Nat.eqb _ _); reflexivity. Qed.

  Ltac old H :=
    match type of H with
    | In _ (map (woken _ _) _) => apply In_woken in H; destruct H as [[H ?]|(? & ? & ? & H)]; [|try discriminate]; old H
    | In _ (upd _ _ _) => apply In_upd in H; destruct H as [H|H]; [try discriminate|old H]
    | _ => idtac
    end.
  Ltac new :=
    match goal with
    | |- In _ (map (woken _ _) _) => apply woken_keep; [new|congruence]
    | |- In ?x (upd _ _ ?x) => eapply In_new; eassumption
    | |- In _ (upd _ _ _) => eapply In_keep; [eassumption|new|congruence]
    | |- _ => eassumption
    end.
  Ltac cases T := destruct T as [?c ?s' T|?s' T|?s' T]; destruct T; cbn [mem credit owner threads] in *.

  (* a step of thread i that does not touch the mutexes *)
  Lemma owner_keep s i c x : inv s -> nth_error (threads s) i = Some c -> (forall e, holds e c <-> holds e x) ->
    (forall e j, owner s e = Some j -> exists c, nth_error (upd (threads s) i x) j = Some c /\ holds e c) /\
    (forall e j c, nth_error (upd (threads s) i x) j = Some c -> holds e c -> owner s e = Some j).
  Proof.
    intros IV N E. split.
    - intros e j O. destruct (m_owner s IV e j O) as (c' & N' & H'). destruct (Nat.eq_dec i j) as [->|NE].
      + exists x. split; [eapply nth_upd_same, N|]. apply E. congruence.
      + exists c'. split; [rewrite nth_upd_other by exact NE; exact N'|exact H'].
    - intros e j c' N' H'. apply nth_upd in N'. destruct N' as [[-> ->]|[NE N']].
      + eapply (m_holds s IV); [exact N|apply E; exact H'].
      + eapply (m_holds s IV); eassumption.
  Qed.
  Lemma owner_lock s i c x k : inv s -> nth_error (threads s) i = Some c -> (forall e, ~ holds e c) -> (forall e, holds e x <-> k = e) -> owner s k = None ->
    (forall e j, put_slot (owner s) k (Some i) e = Some j -> exists c, nth_error (upd (threads s) i x) j = Some c /\ holds e c) /\
    (forall e j c, nth_error (upd (threads s) i x) j = Some c -> holds e c -> put_slot (owner s) k (Some i) e = Some j).
  Proof.
    intros IV N E X O. split.
    - intros e j P. destruct (Nat.eq_dec e k) as [->|NK].
      + rewrite slot_same in P. injection P as <-. exists x. split; [eapply nth_upd_same, N|apply X; reflexivity].
      + rewrite slot_other in P by exact NK. destruct (m_owner s IV e j P) as (c' & N' & H'). exists c'. split; [|exact H'].
        rewrite nth_upd_other; [exact N'|]. intros ->. apply (E e). congruence.
    - intros e j c' N' H'. apply nth_upd in N'. destruct N' as [[-> ->]|[NE N']].
      + apply X in H'. subst. apply slot_same.
      + assert (P := m_holds s IV _ _ _ N' H'). rewrite slot_other; [exact P|]. congruence.
  Qed.
  Lemma owner_unlock s i c x k : inv s -> nth_error (threads s) i = Some c -> (forall e, holds e c <-> k = e) -> (forall e, ~ holds e x) ->
    (forall e j, put_slot (owner s) k None e = Some j -> exists c, nth_error (upd (threads s) i x) j = Some c /\ holds e c) /\
    (forall e j c, nth_error (upd (threads s) i x) j = Some c -> holds e c -> put_slot (owner s) k None e = Some j).
  Proof.
    intros IV N E X. split.
    - intros e j P. destruct (Nat.eq_dec e k) as [->|NK]; [rewrite slot_same in P; discriminate|].
      rewrite slot_other in P by exact NK. destruct (m_owner s IV e j P) as (c' & N' & H'). exists c'. split; [|exact H'].
      rewrite nth_upd_other; [exact N'|]. intros ->. apply NK. symmetry. apply E. congruence.
    - intros e j c' N' H'. apply nth_upd in N'. destruct N' as [[-> ->]|[NE N']]; [exfalso; exact (X e H')|].
      assert (P := m_holds s IV _ _ _ N' H'). rewrite slot_other; [exact P|]. intros ->.
      apply NE. assert (Q := m_holds s IV k i c N (proj2 (E k) eq_refl)). congruence.
  Qed.
  Lemma start_holds e c : ~ holds e (start c). Proof. destruct c; cbn; auto. Qed.
  Lemma owner_step s i s' : inv s -> trans slot s i s' ->
    (forall e i, owner s' e = Some i -> exists c, nth_error (threads s') i = Some c /\ holds e c) /\
    (forall e i c, nth_error (threads s') i = Some c -> holds e c -> owner s' e = Some i).
  Proof.
    intros IV T. cases T;
    try (eapply owner_keep; [exact IV|eassumption|intros e; cbn [holds]; try reflexivity]);
    try (eapply owner_lock; [exact IV|eassumption|intros e; cbn [holds]; tauto|intros e; cbn [holds]; reflexivity|assumption]);
    try (eapply owner_unlock; [exact IV|eassumption|intros e; cbn [holds]; reflexivity|intros e; cbn [holds]; tauto]).
    - destruct c; cbn; reflexivity.
    - assert (X : (forall e j, owner s e = Some j -> exists c, nth_error (upd (threads s) i Idle) j = Some c /\ holds e c) /\
        (forall e j c, nth_error (upd (threads s) i Idle) j = Some c -> holds e c -> owner s e = Some j))
        by (eapply owner_keep; [exact IV|eassumption|intros e; cbn [holds]; reflexivity]).
      destruct X as [X1 X2]. split.
      + intros e j O. destruct (X1 e j O) as (c & N & Hc). exists (woken slot (slot p) c). split; [rewrite nth_error_map, N; reflexivity|apply holds_woken; exact Hc].
      + intros e j c N Hc. rewrite nth_error_map in N. destruct (nth_error _ j) as [c'|] eqn:N'; [|discriminate]. injection N as <-.
        apply holds_woken in Hc. eapply X2; eassumption.
  Qed.

  (* a thread that holds the mutex keeps the others from locking it *)
  Lemma no_lock s p j c : inv s -> nth_error (threads s) j = Some c -> holds (slot p) c -> owner s (slot p) = None -> False.
  Proof. intros IV N Hc O. rewrite (m_holds s IV _ _ _ N Hc) in O. discriminate. Qed.
  Lemma no_lock_in s p c : inv s -> In c (threads s) -> holds (slot p) c -> owner s (slot p) = None -> False.
  Proof. intros IV N Hc O. apply In_nth_error in N. destruct N as [j N]. eapply no_lock; eassumption. Qed.
  (* only one thread holds it *)
  Lemma one_holds s e i j c d : inv s -> nth_error (threads s) i = Some c -> nth_error (threads s) j = Some d -> holds e c -> holds e d -> i = j.
  Proof. intros IV N M Hc Hd. pose proof (m_holds s IV _ _ _ N Hc). pose proof (m_holds s IV _ _ _ M Hd). congruence. Qed.

  Lemma check_step s i s' : inv s -> trans slot s i s' ->
    forall p v, In (WCheck p v) (threads s') \/ In (WSleep p v) (threads s') -> credit s' (slot p) = 0 ->
      exists q, slot q = slot p /\ In (Lock q) (threads s').
  Proof.
    intros IV T. assert (K := s_check s IV).
    cases T; intros p' v' A C.
    all: assert (A' : (In (WCheck p' v') (threads s) \/ In (WSleep p' v') (threads s)) \/ nth_error (threads s) i = Some (WMark p' v'))
      by (destruct A as [A|A]; old A; auto;
          first [destruct c; cbn [start] in A; discriminate
                |injection A as -> ->; right; assumption
                |injection A as -> ->; left; left; eapply nth_In; eassumption]); clear A.
    all: try (destruct A' as [A|A]; [|congruence]; destruct (K _ _ A C) as (q & Q & I); exists q; split; [exact Q|solve [new]]).
    - unfold put_slot in C. destruct (Nat.eqb (slot p') (slot p)) eqn:Q; [discriminate|].
      destruct A' as [A|A]; [|rewrite A in H; injection H as -> ->; rewrite Nat.eqb_refl in Q; discriminate].
      destruct (K _ _ A C) as (q & Q' & I). exists q. split; [exact Q'|new].
    - destruct A' as [A|A]; [|congruence]. destruct (Nat.eq_dec (slot p') (slot p)) as [Q|Q].
      + rewrite <- Q in H0. destruct (K _ _ A H0) as (q & Q' & I). exists q. split; [exact Q'|new].
      + rewrite slot_other in C by exact Q. destruct (K _ _ A C) as (q & Q' & I). exists q. split; [exact Q'|new].
    - destruct A' as [A|A]; [|congruence]. destruct (Nat.eq_dec (slot p') (slot p)) as [Q|Q].
      + exists p. split; [symmetry; exact Q|new].
      + rewrite slot_other in C by exact Q. destruct (K _ _ A C) as (q & Q' & I). exists q. split; [exact Q'|new].
    - destruct A' as [A|A]; [|congruence]. destruct (K _ _ A C) as (q & Q' & I). exists q. split; [exact Q'|].
      destruct (Z.eq_dec q p) as [->|NE]; [|new]. exfalso.
      destruct A as [A|A]; (eapply (no_lock_in s p); [exact IV|exact A|cbn [holds]; congruence|exact H0]).
  Qed.

  Lemma asleep_step s i s' : inv s -> trans slot s i s' ->
    forall p v, In (Asleep p v) (threads s') -> credit s' (slot p) = 0 ->
      exists q, slot q = slot p /\ (In (Lock q) (threads s') \/ In (Unlock q) (threads s') \/ In (Bcast q) (threads s')).
  Proof.
    intros IV T. assert (K := s_asleep s IV). assert (KC := s_check s IV).
    cases T; intros p' v' A C; old A.
    all: try (destruct (K _ _ A C) as (q & Q & [I|[I|I]]); exists q; (split; [exact Q|]);
       [left; solve [new]|right; left; solve [new]|right; right; solve [new]]).
    - destruct c; discriminate.
    - unfold put_slot in C. destruct (Nat.eqb (slot p') (slot p)) eqn:Q'; [discriminate|].
      destruct (K _ _ A C) as (q & Q & [I|[I|I]]); exists q; (split; [exact Q|]); [left; new|right; left; new|right; right; new].
    - injection A as -> ->. destruct (KC _ _ (or_intror (nth_In _ _ _ H)) C) as (q & Q & I). exists q. split; [exact Q|left; new].
    - assert (C' : credit s (slot p') = 0) by (unfold put_slot in C; destruct (Nat.eqb (slot p') (slot p)) eqn:Q; [apply Nat.eqb_eq in Q; rewrite Q; exact H0|exact C]).
      destruct (K _ _ A C') as (q & Q & [I|[I|I]]); exists q; (split; [exact Q|]); [left; new|right; left; new|right; right; new].
    - destruct (Nat.eq_dec (slot p') (slot p)) as [Q'|Q']; [exists p; split; [symmetry; exact Q'|left; new]|].
      rewrite slot_other in C by exact Q'.
      destruct (K _ _ A C) as (q & Q & [I|[I|I]]); exists q; (split; [exact Q|]); [left; new|right; left; new|right; right; new].
    - destruct (K _ _ A C) as (q & Q & [I|[I|I]]); exists q; (split; [exact Q|]);
        [destruct (Z.eq_dec q p) as [->|NE]; [right; left; new|left; new]|right; left; new|right; right; new].
    - destruct (K _ _ A C) as (q & Q & [I|[I|I]]); exists q; (split; [exact Q|]);
        [left; new|destruct (Z.eq_dec q p) as [->|NE]; [right; right; new|right; left; new]|right; right; new].
    - assert (NE := H0 _ _ eq_refl).
      destruct (K _ _ A C) as (q & Q & [I|[I|I]]); exists q; (split; [exact Q|]); [left; new|right; left; new|right; right; new].
  Qed.

  Lemma vsleep_step s i s' : inv s -> trans slot s i s' ->
    forall p v, In (WSleep p v) (threads s') -> mem s' p <> v ->
      In (Owe p) (threads s') \/ In (Exch p) (threads s') \/ exists q, slot q = slot p /\ In (Lock q) (threads s').
  Proof.
    intros IV T. assert (K := v_sleep s IV). assert (KC := s_check s IV).
    cases T; intros p' v' A M; old A.
    all: try (destruct (K _ _ A M) as [J|[J|(q & Q & J)]]; [left; solve [new]|right; left; solve [new]|right; right; exists q; split; [exact Q|solve [new]]]).
    - destruct c; discriminate.
    - assert (OLD : mem s p' <> v' -> In (Owe p') (upd (threads s) i (start c)) \/ In (Exch p') (upd (threads s) i (start c)) \/
         exists q, slot q = slot p' /\ In (Lock q) (upd (threads s) i (start c))).
      { intros M'. destruct (K _ _ A M') as [J|[J|(q & Q & J)]]; [left; solve [new]|right; left; solve [new]|right; right; exists q; split; [exact Q|solve [new]]]. }
      destruct c as [p v|p all|p v all]; [apply OLD; exact M|apply OLD; exact M|].
      cbn [written] in M. unfold put in M. destruct (p' =? p) eqn:Q; [|apply OLD; exact M]. apply Z.eqb_eq in Q. subst p'.
      cbn [start]. left. new.
    - congruence.
    - destruct (Z.eq_dec p' p) as [->|NE].
      + destruct (KC _ _ (or_intror A) H0) as (q & Q & J). right. right. exists q. split; [exact Q|new].
      + destruct (K _ _ A M) as [J|[J|(q & Q & J)]]; [left; new|right; left; new|right; right; exists q; split; [exact Q|new]].
    - destruct (Z.eq_dec p' p) as [->|NE]; [right; left; new|].
      destruct (K _ _ A M) as [J|[J|(q & Q & J)]]; [left; new|right; left; new|right; right; exists q; split; [exact Q|new]].
    - destruct (Z.eq_dec p' p) as [->|NE].
      + destruct (KC _ _ (or_intror A) H0) as (q & Q & J). right. right. exists q. split; [exact Q|new].
      + destruct (K _ _ A M) as [J|[J|(q & Q & J)]]; [left; new|right; left; new|right; right; exists q; split; [exact Q|new]].
    - destruct (Z.eq_dec p' p) as [->|NE]; [right; right; exists p; split; [reflexivity|new]|].
      destruct (K _ _ A M) as [J|[J|(q & Q & J)]]; [left; new|right; left; new|right; right; exists q; split; [exact Q|new]].
    - destruct (K _ _ A M) as [J|[J|(q & Q & J)]]; [left; new|right; left; new|right; right; exists q; split; [exact Q|]].
      destruct (Z.eq_dec q p) as [->|NE]; [|new]. exfalso. eapply (no_lock_in s p); [exact IV|exact A|cbn [holds]; congruence|exact H0].
  Qed.

  Lemma vasleep_step s i s' : inv s -> trans slot s i s' ->
    forall p v, In (Asleep p v) (threads s') -> mem s' p <> v ->
      In (Owe p) (threads s') \/ In (Exch p) (threads s') \/
      exists q, slot q = slot p /\ (In (Lock q) (threads s') \/ In (Unlock q) (threads s') \/ In (Bcast q) (threads s')).
  Proof.
    intros IV T. assert (K := v_asleep s IV). assert (KS := v_sleep s IV). assert (KC := s_asleep s IV).
    cases T; intros p' v' A M; old A.
    all: try (destruct (K _ _ A M) as [J|[J|(q & Q & [J|[J|J]])]]; [left; solve [new]|right; left; solve [new]|right; right; exists q; split; [exact Q|left; solve [new]]
       |right; right; exists q; split; [exact Q|right; left; solve [new]]|right; right; exists q; split; [exact Q|right; right; solve [new]]]).
    - destruct c; discriminate.
    - assert (OLD : mem s p' <> v' -> In (Owe p') (upd (threads s) i (start c)) \/ In (Exch p') (upd (threads s) i (start c)) \/
         exists q, slot q = slot p' /\ (In (Lock q) (upd (threads s) i (start c)) \/ In (Unlock q) (upd (threads s) i (start c)) \/ In (Bcast q) (upd (threads s) i (start c)))).
      { intros M'. destruct (K _ _ A M') as [J|[J|(q & Q & [J|[J|J]])]]; [left; solve [new]|right; left; solve [new]|right; right; exists q; split; [exact Q|left; solve [new]]
       |right; right; exists q; split; [exact Q|right; left; solve [new]]|right; right; exists q; split; [exact Q|right; right; solve [new]]]. }
      destruct c as [p v|p all|p v all]; [apply OLD; exact M|apply OLD; exact M|].
      cbn [written] in M. unfold put in M. destruct (p' =? p) eqn:Q; [|apply OLD; exact M]. apply Z.eqb_eq in Q. subst p'.
      cbn [start]. left. new.
    - injection A as -> ->. destruct (KS _ _ (nth_In _ _ _ H) M) as [J|[J|(q & Q & J)]]; [left; new|right; left; new|right; right; exists q; split; [exact Q|left; new]].
    - destruct (Z.eq_dec p' p) as [->|NE].
      + destruct (KC _ _ A H0) as (q & Q & [J|[J|J]]); right; right; exists q; (split; [exact Q|]); [left; new|right; left; new|right; right; new].
      + destruct (K _ _ A M) as [J|[J|(q & Q & [J|[J|J]])]]; [left; new|right; left; new|right; right; exists q; split; [exact Q|left; new]
          |right; right; exists q; split; [exact Q|right; left; new]|right; right; exists q; split; [exact Q|right; right; new]].
    - destruct (Z.eq_dec p' p) as [->|NE]; [right; left; new|].
      destruct (K _ _ A M) as [J|[J|(q & Q & [J|[J|J]])]]; [left; new|right; left; new|right; right; exists q; split; [exact Q|left; new]
          |right; right; exists q; split; [exact Q|right; left; new]|right; right; exists q; split; [exact Q|right; right; new]].
    - destruct (Z.eq_dec p' p) as [->|NE].
      + destruct (KC _ _ A H0) as (q & Q & [J|[J|J]]); right; right; exists q; (split; [exact Q|]); [left; new|right; left; new|right; right; new].
      + destruct (K _ _ A M) as [J|[J|(q & Q & [J|[J|J]])]]; [left; new|right; left; new|right; right; exists q; split; [exact Q|left; new]
          |right; right; exists q; split; [exact Q|right; left; new]|right; right; exists q; split; [exact Q|right; right; new]].
    - destruct (Z.eq_dec p' p) as [->|NE]; [right; right; exists p; split; [reflexivity|left; new]|].
      destruct (K _ _ A M) as [J|[J|(q & Q & [J|[J|J]])]]; [left; new|right; left; new|right; right; exists q; split; [exact Q|left; new]
          |right; right; exists q; split; [exact Q|right; left; new]|right; right; exists q; split; [exact Q|right; right; new]].
    - destruct (K _ _ A M) as [J|[J|(q & Q & [J|[J|J]])]]; [left; new|right; left; new|
          |right; right; exists q; split; [exact Q|right; left; new]|right; right; exists q; split; [exact Q|right; right; new]].
      right. right. exists q. split; [exact Q|]. destruct (Z.eq_dec q p) as [->|NE]; [right; left; new|left; new].
    - destruct (K _ _ A M) as [J|[J|(q & Q & [J|[J|J]])]]; [left; new|right; left; new|right; right; exists q; split; [exact Q|left; new]| |
          right; right; exists q; split; [exact Q|right; right; new]].
      right. right. exists q. split; [exact Q|]. destruct (Z.eq_dec q p) as [->|NE]; [right; right; new|right; left; new].
    - assert (NE := H0 _ _ eq_refl).
      destruct (K _ _ A M) as [J|[J|(q & Q & [J|[J|J]])]]; [left; new|right; left; new|right; right; exists q; split; [exact Q|left; new]
          |right; right; exists q; split; [exact Q|right; left; new]|right; right; exists q; split; [exact Q|right; right; new]].
  Qed.

  Lemma inv_initial m n : inv (initial m n).
  Proof.
    assert (X : forall c, In c (repeat Idle n) -> c = Idle) by (intros c; apply repeat_spec).
    split; unfold initial; cbn [mem credit owner threads]; intros; try discriminate;
      try (match goal with H : In _ _ |- _ => apply X in H; discriminate end).
    - apply nth_In, X in H. subst. destruct H0.
    - destruct H as [H|H]; apply X in H; discriminate.
  Qed.
  Lemma inv_step s i s' : inv s -> trans slot s i s' -> inv s'.
  Proof.
    intros IV T. split.
    - apply (owner_step s i s' IV T).
    - apply (owner_step s i s' IV T).
    - eapply check_step; eassumption.
    - eapply asleep_step; eassumption.
    - eapply vsleep_step; eassumption.
    - eapply vasleep_step; eassumption.
  Qed.
  Lemma inv_reach m n s : reachable slot m n s -> inv s.
  Proof. induction 1; [apply inv_initial|eapply inv_step; eassumption]. Qed.

  (* the thread that holds a mutex can go on *)
  Lemma quiet_free s e : inv s -> quiet slot s -> owner s e = None.
  Proof.
    intros IV Q. destruct (owner s e) as [i|] eqn:O; [|reflexivity]. exfalso. destruct (m_owner s IV e i O) as (c & N & Hc).
    destruct c; cbn [holds] in Hc; try contradiction.
    - eapply Q, step_unlock; eassumption.
    - eapply Q, step_mark; eassumption.
    - destruct (Z.eq_dec (mem s p) v); eapply Q; [eapply step_same|eapply step_changed]; eassumption.
    - eapply Q, step_sleep; eassumption.
    - eapply Q, step_wunlock; eassumption.
  Qed.
  Lemma quiet_pc s i c : inv s -> quiet slot s -> nth_error (threads s) i = Some c -> c = Idle \/ exists p v, c = Asleep p v.
  Proof.
    intros IV Q N. assert (F := fun e => quiet_free s e IV Q). destruct c; eauto; exfalso.
    - destruct (Z.eq_dec (credit s (slot p)) 0); eapply Q; [eapply step_no_credit|eapply step_credit]; eassumption.
    - destruct (Z.eq_dec (credit s (slot p)) 0); eapply Q; [eapply step_nobody|eapply step_somebody]; eassumption.
    - eapply Q, step_lock; [eassumption|apply F].
    - eapply Q, step_unlock; eassumption.
    - eapply Q, step_bcast; eassumption.
    - destruct (Z.eq_dec (mem s p) v); eapply Q; [eapply step_slow|eapply step_return]; eassumption.
    - eapply Q, step_wlock; [eassumption|apply F].
    - eapply Q, step_mark; eassumption.
    - destruct (Z.eq_dec (mem s p) v); eapply Q; [eapply step_same|eapply step_changed]; eassumption.
    - eapply Q, step_sleep; eassumption.
    - eapply Q, step_relock; [eassumption|apply F].
    - eapply Q, step_wunlock; eassumption.
  Qed.
  Theorem quiet_ok m n s : reachable slot m n s -> quiet slot s ->
    forall i c, nth_error (threads s) i = Some c -> c = Idle \/ exists p v, c = Asleep p v /\ mem s p = v.
  Proof.
    intros R Q i c N. apply inv_reach in R.
    assert (NO : forall c, In c (threads s) -> c = Idle \/ exists p v, c = Asleep p v).
    { intros c' I. apply In_nth_error in I. destruct I as [k I]. eapply quiet_pc; eassumption. }
    destruct (quiet_pc s i c R Q N) as [->|(p & v & ->)]; [auto|].
    right. exists p, v. split; [reflexivity|]. destruct (Z.eq_dec (mem s p) v) as [E|E]; [exact E|exfalso].
    destruct (v_asleep s R p v (nth_In _ _ _ N) E) as [J|[J|(q & _ & [J|[J|J]])]]; apply NO in J; destruct J as [J|(? & ? & J)]; discriminate.
  Qed.

  Lemma waits_woken q c : waits (woken slot q c) = waits c.
  Proof. destruct c; cbn [woken]; try reflexivity. destruct (Nat.eqb _ _); reflexivity. Qed.
  (** a call of wait goes on until it has seen another value *)
  Theorem wait_goes_on s i s' j c p v : trans slot s i s' -> nth_error (threads s) j = Some c -> waits c = Some (p, v) ->
    exists c', nth_error (threads s') j = Some c' /\ (waits c' = Some (p, v) \/ c' = Idle /\ mem s p <> v).
  Proof.
    intros T N W.
    assert (U : forall l k x c0, nth_error l j = Some c0 -> waits c0 = Some (p, v) -> (k = j -> waits x = Some (p, v)) ->
       exists c', nth_error (upd l k x) j = Some c' /\ waits c' = Some (p, v)).
    { intros l k x c0 N0 W0 E. destruct (Nat.eq_dec k j) as [->|NE].
      - exists x. split; [eapply nth_upd_same, N0|apply E; reflexivity].
      - exists c0. split; [rewrite nth_upd_other by exact NE; exact N0|exact W0]. }
    assert (D : (exists c', nth_error (threads s') j = Some c' /\ waits c' = Some (p, v)) \/ (nth_error (threads s') j = Some Idle /\ mem s p <> v)).
    { cases T;
      try (left; solve [eapply U; [exact N|exact W|intros <-; rewrite N in H; injection H as ->; first [discriminate|cbn [waits] in *; congruence]]]).
      - destruct (Nat.eq_dec i j) as [->|NE].
        + right. rewrite N in H. injection H as ->. injection W as -> ->. split; [eapply nth_upd_same, N|exact H0].
        + left. exists c. rewrite nth_upd_other by exact NE. auto.
      - left. destruct (U (threads s) i Idle c N W) as (c' & N' & W'); [intros <-; rewrite N in H; injection H as ->; discriminate|].
        exists (woken slot (slot p0) c'). split; [rewrite nth_error_map, N'; reflexivity|rewrite waits_woken; exact W']. }
    destruct D as [(c' & D1 & D2)|[D1 D2]]; eauto.
  Qed.
End Proofs.

Section Finite.
  Variable slot : Z -> nat.
  Definition told (c : pc) : nat := match c with Owe _ => 5 | Exch _ => 4 | Lock _ => 3 | Unlock _ => 2 | Bcast _ => 1 | _ => 0 end%nat.
  Definition waited (s : state) (c : pc) : nat :=
    match c with
    | Wait p v => if Z.eqb (mem s p) v then 6 else 1
    | WLock p v => if Z.eqb (mem s p) v then 5 else 5
    | WMark p v => if Z.eqb (mem s p) v then 4 else 4
    | WCheck p v => if Z.eqb (mem s p) v then 3 else 3
    | WSleep p v => if Z.eqb (mem s p) v then 2 else 4
    | Asleep p v => if Z.eqb (mem s p) v then 1 else 0
    | WRelock p v => if Z.eqb (mem s p) v then 8 else 3
    | WUnlock p v => if Z.eqb (mem s p) v then 7 else 2
    | _ => 0
    end%nat.
  Definition weight (s : state) : nat * nat := (sum told (threads s), sum (waited s) (threads s)).
  Lemma told_woken q c : told (woken slot q c) = told c.
  Proof. destruct c; cbn [woken]; try reflexivity. destruct (Nat.eqb _ _); reflexivity. Qed.
  Lemma step_less s i s' : step slot s i s' -> less2 (weight s') (weight s).
  Proof.
    intros T.
    assert (F1 : forall x l w v, nth_error (threads s) i = Some l -> (told x < told l)%nat -> less2 (sum told (upd (threads s) i x), v) (sum told (threads s), w)).
    { intros x l w v N L. left. cbn [fst]. pose proof (sum_upd told _ _ _ x N). lia. }
    assert (F2 : forall x l w, nth_error (threads s) i = Some l -> told x = told l -> (w x < w l)%nat ->
       less2 (sum told (upd (threads s) i x), sum w (upd (threads s) i x)) (sum told (threads s), sum w (threads s))).
    { intros x l w N E L. right. cbn [fst snd]. pose proof (sum_upd told _ _ _ x N). pose proof (sum_upd w _ _ _ x N). lia. }
    destruct T; unfold weight; cbn [threads];
      try (match goal with |- less2 (_, sum (waited (State ?m ?w ?v ?t)) ?l) _ => change (sum (waited (State m w v t)) l) with (sum (waited s) l) end);
      try (eapply F2; [eassumption|reflexivity|cbn [waited]]);
      try (rewrite ?sum_map by apply told_woken; eapply F1; [eassumption|cbn [told]; lia]).
    all: repeat match goal with H : mem _ _ = _ |- _ => apply Z.eqb_eq in H; rewrite H | H : mem _ _ <> _ |- _ => apply Z.eqb_neq in H; rewrite H end; try lia.
    all: destruct (Z.eqb (mem s p) v); lia.
  Qed.
  Theorem steps_end (f : nat -> state) : ~ forall k, exists i, step slot (f k) i (f (S k)).
  Proof.
    exact (no_descent (fun s s' => exists i, step slot s i s') weight (fun s s' H => match H with ex_intro _ i T => step_less s i s' T end) f).
  Qed.
End Finite.
