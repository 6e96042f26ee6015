From Coq Require Import ZArith List Bool Lia.
From Verif Require Import AtomicWait_Model AtomicWait_Spec AtomicWait_Proofs AtomicWaitFutex_Model AtomicWaitFutex_Spec.
Import ListNotations.
Open Scope Z_scope.

Section Count.
  Variable slot : Z -> nat.
  Definition counted (e : nat) (c : pc) : Z :=
    match c with Enter p _ | Asleep p _ | Leave p _ => if Nat.eqb (slot p) e then 1 else 0 | _ => 0 end.
  Definition total (e : nat) (l : list pc) : Z := fold_right (fun c t => counted e c + t) 0 l.
  Lemma counted_pos e c : 0 <= counted e c. Proof. destruct c; cbn [counted]; try lia; destruct (Nat.eqb _ _); lia. Qed.
  Lemma total_pos e l : 0 <= total e l. Proof. induction l as [|c l IH]; cbn [total fold_right]; [lia|]. pose proof (counted_pos e c). fold (total e l). lia. Qed.
  Lemma total_upd e l i c x : nth_error l i = Some c -> total e (upd l i x) = total e l - counted e c + counted e x.
  Proof.
    revert i. induction l as [|a l IH]; intros [|i]; cbn [nth_error upd total fold_right]; try discriminate; intros H.
    - injection H as ->. fold (total e l). lia.
    - fold (total e l). fold (total e (upd l i x)). rewrite (IH i H). lia.
  Qed.
  Lemma total_map e f l : (forall c, counted e (f c) = counted e c) -> total e (map f l) = total e l.
  Proof. intros H. induction l as [|a l IH]; cbn [map total fold_right]; [reflexivity|]. fold (total e (map f l)). fold (total e l). rewrite H, IH. reflexivity. Qed.
  Lemma total_in e l c : In c l -> counted e c <= total e l.
  Proof.
    induction l as [|a l IH]; [contradiction|]. intros [->|H]; cbn [total fold_right]; fold (total e l).
    - pose proof (total_pos e l). lia.
    - pose proof (counted_pos e a). specialize (IH H). lia.
  Qed.
  Lemma counted_woken p e c : counted e (woken p c) = counted e c.
  Proof. destruct c; cbn [woken]; try reflexivity. destruct (_ =? _); reflexivity. Qed.
  Lemma counted_twoken q e c : counted e (twoken slot q c) = counted e c.
  Proof. destruct c; cbn [twoken]; try reflexivity. destruct (Nat.eqb _ _); reflexivity. Qed.
  Lemma counted_cleared q e c : counted e (cleared slot q c) = counted e c.
  Proof. destruct c; cbn [cleared]; try reflexivity. destruct (Nat.eqb _ _); reflexivity. Qed.
End Count.

Section Proofs.
  Variable slot : Z -> nat.
  Variable direct : Z -> bool.
  Variable may : nat -> Z -> Prop.
  Hypothesis sep : separate slot direct.

  Definition kind_ok (c : pc) : Prop :=
    match c with
    | Idle | Wait _ _ => True
    | Owe p _ | Wake p _ | Slow p _ | Enter p _ | Asleep p _ | Leave p _ => direct p = true
    | TOwe p | TExch p | TWake p | TSlow p _ | TVersion p _ _ | TCheck p _ _ _ | TEnter p _ _ _ | TAsleep p _ _ => direct p = false
    end.
  (* thread k will wake thread i *)
  Definition can_wake (k i : nat) (p : Z) (all : bool) : Prop := all = true \/ forall l, may l p -> l = k \/ l = i.

  Record inv (s : state) : Prop := {
    i_kind : forall c, In c (threads s) -> kind_ok c;
    i_solo : forall i c p v, nth_error (threads s) i = Some c -> waits c = Some (p, v) -> may i p;
    i_count : forall p, direct p = true -> waiters s (slot p) = total slot (slot p) (threads s);
    (* a thread that sleeps although the value changed will be woken *)
    i_sleep : forall i p v, nth_error (threads s) i = Some (Asleep p v) -> mem s p <> v ->
      exists k all, can_wake k i p all /\ (nth_error (threads s) k = Some (Owe p all) \/ nth_error (threads s) k = Some (Wake p all));
    i_version : forall p v, In (TVersion p v false) (threads s) -> waiters s (slot p) <> 0;
    i_check : forall p v ver, In (TCheck p v ver false) (threads s) \/ In (TEnter p v ver false) (threads s) ->
      ver <= version s (slot p) /\
      (version s (slot p) = ver -> waiters s (slot p) <> 0 /\ forall q, In (TExch q) (threads s) -> slot q <> slot p);
    i_enter : forall p v ver, In (TEnter p v ver false) (threads s) -> mem s p <> v -> version s (slot p) = ver -> In (TOwe p) (threads s);
    i_asleep : forall p v, In (TAsleep p v false) (threads s) -> waiters s (slot p) = 0 -> exists q, slot q = slot p /\ In (TWake q) (threads s);
    i_tsleep : forall p v, In (TAsleep p v false) (threads s) -> mem s p <> v ->
      In (TOwe p) (threads s) \/ In (TExch p) (threads s) \/ exists q, slot q = slot p /\ In (TWake q) (threads s) }.

  Lemma In_woken p l x : In x (map (woken p) l) -> (In x l /\ forall v, x <> Asleep p v) \/ exists v, x = Leave p v /\ In (Asleep p v) l.
  Proof.
    rewrite in_map_iff. intros (c & E & I). destruct c; cbn [woken] in E; try (left; subst x; split; [exact I|discriminate]).
    destruct (_ =? _) eqn:Q; subst x.
    - apply Z.eqb_eq in Q. subst. right. eauto.
    - left. split; [exact I|]. intros w N. injection N as -> ->. rewrite Z.eqb_refl in Q. discriminate.
  Qed.
  Lemma woken_keep p l x : In x l -> (forall v, x <> Asleep p v) -> In x (map (woken p) l).
  Proof.
    intros I N. apply in_map_iff. exists x. split; [|exact I]. destruct x; cbn [woken]; try reflexivity.
    destruct (_ =? _) eqn:Q; [|reflexivity]. apply Z.eqb_eq in Q. subst. exfalso. eapply N. reflexivity.
  Qed.
  Lemma In_twoken e l x : In x (map (twoken slot e) l) ->
    (In x l /\ forall p v r, x = TAsleep p v r -> slot p <> e) \/ exists p v r, x = Wait p v /\ In (TAsleep p v r) l.
  Proof.
    rewrite in_map_iff. intros (c & E & I). destruct c; cbn [twoken] in E; try (left; subst x; split; [exact I|discriminate]).
    destruct (Nat.eqb _ _) eqn:Q; subst x.
    - right. eauto.
    - left. split; [exact I|]. intros p' v' r' N. injection N as -> -> ->. apply Nat.eqb_neq. exact Q.
  Qed.
  Lemma twoken_keep e l x : In x l -> (forall p v r, x <> TAsleep p v r) -> In x (map (twoken slot e) l).
  Proof.
    intros I N. apply in_map_iff. exists x. split; [|exact I]. destruct x; cbn [twoken]; try reflexivity. exfalso. eapply N. reflexivity.
  Qed.
  Lemma In_cleared e l x : In x (map (cleared slot e) l) ->
    (In x l /\ forall p v r, x = TVersion p v r -> slot p <> e) \/ exists p v r, x = TVersion p v true /\ In (TVersion p v r) l.
  Proof.
    rewrite in_map_iff. intros (c & E & I). destruct c; cbn [cleared] in E; try (left; subst x; split; [exact I|discriminate]).
    destruct (Nat.eqb _ _) eqn:Q; subst x.
    - right. eauto.
    - left. split; [exact I|]. intros p' v' r' N. injection N as -> -> ->. apply Nat.eqb_neq. exact Q.
  Qed.
  Lemma cleared_keep e l x : In x l -> (forall p v r, x <> TVersion p v r) -> In x (map (cleared slot e) l).
  Proof.
    intros I N. apply in_map_iff. exists x. split; [|exact I]. destruct x; cbn [cleared]; try reflexivity. exfalso. eapply N. reflexivity.
  Qed.

  (* take membership in the new list of threads apart *)
  Ltac old H :=
    match type of H with
    | In _ (map (woken _) _) => apply In_woken in H; destruct H as [[H ?]|(? & ? & H)]; [|try discriminate]; old H
    | In _ (map (twoken _ _) _) => apply In_twoken in H; destruct H as [[H ?]|(? & ? & ? & ? & H)]; [|try discriminate]; old H
    | In _ (map (cleared _ _) _) => apply In_cleared in H; destruct H as [[H ?]|(? & ? & ? & ? & H)]; [|try discriminate]; old H
    | In _ (upd _ _ _) => apply In_upd in H; destruct H as [H|H]; [try discriminate|old H]
    | _ => idtac
    end.
  (* membership in the new list of threads from membership in the old one *)
  Ltac new :=
    match goal with
    | |- In _ (map (woken _) _) => apply woken_keep; [new|congruence]
    | |- In _ (map (twoken _ _) _) => apply twoken_keep; [new|congruence]
    | |- In _ (map (cleared _ _) _) => apply cleared_keep; [new|congruence]
    | |- In _ (upd (upd _ _ _) _ _) => eapply In_keep; [rewrite nth_upd_other by congruence; eassumption|new|congruence]
    | |- In ?x (upd _ _ ?x) => eapply In_new; eassumption
    | |- In _ (upd _ _ _) => eapply In_keep; [eassumption|new|congruence]
    | |- _ => eassumption
    end.
  Ltac cases T := destruct T as [?c ?s' ?P T|?s' T|?s' T]; destruct T; cbn [mem waiters version threads] in *.

  Lemma start_kind c : kind_ok (start direct c).
  Proof. destruct c; cbn; auto; destruct (direct p) eqn:D; cbn; exact D. Qed.
  Lemma kind_step s i s' : inv s -> trans slot direct may s i s' -> forall c, In c (threads s') -> kind_ok c.
  Proof.
    intros IV T. assert (K := i_kind s IV). assert (K' := fun i c (H : nth_error (threads s) i = Some c) => K c (nth_In _ _ _ H)).
    cases T; intros c' H'; old H'; try (subst c'); try (apply K; assumption); try exact I; try apply start_kind;
    try (match goal with H : nth_error _ _ = Some _ |- _ => apply K' in H; exact H end);
    try (match goal with H : In _ _ |- _ => apply K in H; exact H end).
    - destruct (direct p) eqn:D; exact D.
  Qed.

  Lemma waits_woken p c : waits (woken p c) = waits c.
  Proof. destruct c; cbn [woken]; try reflexivity. destruct (_ =? _); reflexivity. Qed.
  Lemma waits_twoken q c : waits (twoken slot q c) = waits c.
  Proof. destruct c; cbn [twoken]; try reflexivity. destruct (Nat.eqb _ _); reflexivity. Qed.
  Lemma waits_cleared q c : waits (cleared slot q c) = waits c.
  Proof. destruct c; cbn [cleared]; try reflexivity. destruct (Nat.eqb _ _); reflexivity. Qed.
  Lemma waits_map f l i c w : (forall c, waits (f c) = waits c) -> nth_error (map f l) i = Some c -> waits c = w -> exists c', nth_error l i = Some c' /\ waits c' = w.
  Proof. intros F H <-. rewrite nth_error_map in H. destruct (nth_error l i) as [c'|] eqn:E; [|discriminate]. injection H as <-. exists c'. rewrite F. auto. Qed.
  Lemma solo_step s i s' : inv s -> trans slot direct may s i s' ->
    forall k c p v, nth_error (threads s') k = Some c -> waits c = Some (p, v) -> may k p.
  Proof.
    intros IV T. assert (K := i_solo s IV).
    cases T; intros k c' p' v' N W;
    try (eapply waits_map in N; [destruct N as (c'' & N & W'); rename W into Wold; rename W' into W; cbn in W| first [apply waits_woken|apply waits_twoken|apply waits_cleared] |exact W]);
    try (apply nth_upd in N; destruct N as [[-> ->]|[? N]]; [cbn [waits] in W; try discriminate|eapply K; eassumption]);
    try (eapply K; [eassumption|cbn [waits]; eassumption]).
    - destruct c as [p v|p all|p v all]; cbn [start waits] in W.
      + injection W as -> ->. exact P.
      + destruct (direct p); discriminate.
      + destruct (direct p); discriminate.
    - destruct (direct p); (eapply K; [eassumption|cbn [waits]; eassumption]).
    - apply nth_upd in N. destruct N as [[-> ->]|[? N]]; [eapply K; [eassumption|cbn [waits]; eassumption]|].
      apply nth_upd in N. destruct N as [[-> ->]|[? N]]; [discriminate|eapply K; eassumption].
  Qed.

  Lemma start_count e c : counted slot e (start direct c) = 0.
  Proof. destruct c; cbn; auto; destruct (direct p); reflexivity. Qed.
  Lemma count_step s i s' : inv s -> trans slot direct may s i s' ->
    forall p, direct p = true -> waiters s' (slot p) = total slot (slot p) (threads s').
  Proof.
    intros IV T. assert (K := i_count s IV). assert (G := fun i c (H : nth_error (threads s) i = Some c) => i_kind s IV c (nth_In _ _ _ H)).
    assert (X : forall i c x q, nth_error (threads s) i = Some c -> direct q = true ->
       total slot (slot q) (upd (threads s) i x) = waiters s (slot q) - counted slot (slot q) c + counted slot (slot q) x).
    { intros k c x q N D. rewrite (total_upd slot _ _ _ _ _ N), K by exact D. reflexivity. }
    assert (Y : forall p q (b : nat -> Z) v, direct q = true -> direct p = false -> put_slot b (slot p) v (slot q) = b (slot q)).
    { intros p q b v D E. apply slot_other. intros F. apply sep in F. congruence. }
    cases T; intros p' D; rewrite ?total_map by (intros; first [apply counted_woken|apply counted_twoken|apply counted_cleared]);
    try (erewrite X by eassumption; cbn [counted]; lia).
    - erewrite X by eassumption. cbn [counted]. rewrite start_count. lia.
    - erewrite X by eassumption. destruct (direct p); cbn [counted]; lia.
    - erewrite X by eassumption. cbn [counted]. unfold put_slot. rewrite (Nat.eqb_sym (slot p')). destruct (Nat.eqb (slot p) (slot p')) eqn:Q; [apply Nat.eqb_eq in Q; rewrite Q|]; lia.
    - erewrite X by eassumption. cbn [counted]. unfold put_slot. rewrite (Nat.eqb_sym (slot p')). destruct (Nat.eqb (slot p) (slot p')) eqn:Q; [apply Nat.eqb_eq in Q; rewrite Q|]; lia.
    - assert (i <> j) by congruence. erewrite total_upd by (rewrite nth_upd_other by congruence; eassumption).
      erewrite X by eassumption. cbn [counted]. lia.
    - erewrite X by eassumption. rewrite Y by (try exact D; eapply (G _ _ H)). cbn [counted]. lia.
    - erewrite X by eassumption. rewrite Y by (try exact D; eapply (G _ _ H)). cbn [counted]. lia.
    - erewrite X by eassumption. rewrite Y by (try exact D; eapply (G _ _ H)). cbn [counted]. lia.
  Qed.

  Lemma nth_woken p l i x : nth_error (map (woken p) l) i = Some x -> (nth_error l i = Some x /\ forall v, x <> Asleep p v) \/ exists v, x = Leave p v.
  Proof.
    rewrite nth_error_map. destruct (nth_error l i) as [c|]; [|discriminate]. intros E. injection E as <-.
    destruct c; cbn [woken]; try (left; split; [reflexivity|discriminate]). destruct (_ =? _) eqn:Q.
    - apply Z.eqb_eq in Q. subst. right. eauto.
    - left. split; [reflexivity|]. intros w N. injection N as -> ->. rewrite Z.eqb_refl in Q. discriminate.
  Qed.
  Lemma nth_twoken e l i x : nth_error (map (twoken slot e) l) i = Some x -> nth_error l i = Some x \/ exists p v, x = Wait p v.
  Proof.
    rewrite nth_error_map. destruct (nth_error l i) as [c|]; [|discriminate]. intros E. injection E as <-.
    destruct c; cbn [twoken]; auto. destruct (Nat.eqb _ _); eauto.
  Qed.
  Lemma nth_cleared e l i x : nth_error (map (cleared slot e) l) i = Some x -> nth_error l i = Some x \/ exists p v, x = TVersion p v true.
  Proof.
    rewrite nth_error_map. destruct (nth_error l i) as [c|]; [|discriminate]. intros E. injection E as <-.
    destruct c; cbn [cleared]; auto. destruct (Nat.eqb _ _); eauto.
  Qed.
  Lemma keep_woken p l i x : nth_error l i = Some x -> (forall q v, x <> Asleep q v) -> nth_error (map (woken p) l) i = Some x.
  Proof. intros N D. rewrite nth_error_map, N. destruct x; try reflexivity. exfalso. eapply D. reflexivity. Qed.
  Lemma keep_twoken e l i x : nth_error l i = Some x -> (forall q v r, x <> TAsleep q v r) -> nth_error (map (twoken slot e) l) i = Some x.
  Proof. intros N D. rewrite nth_error_map, N. destruct x; try reflexivity. exfalso. eapply D. reflexivity. Qed.
  Lemma keep_cleared e l i x : nth_error l i = Some x -> (forall q v r, x <> TVersion q v r) -> nth_error (map (cleared slot e) l) i = Some x.
  Proof. intros N D. rewrite nth_error_map, N. destruct x; try reflexivity. exfalso. eapply D. reflexivity. Qed.
  Ltac oldn H :=
    match type of H with
    | nth_error (map (woken _) _) _ = _ => apply nth_woken in H; destruct H as [[H ?]|(? & H)]; [oldn H|try discriminate]
    | nth_error (map (twoken _ _) _) _ = _ => apply nth_twoken in H; destruct H as [H|(? & ? & H)]; [oldn H|try discriminate]
    | nth_error (map (cleared _ _) _) _ = _ => apply nth_cleared in H; destruct H as [H|(? & ? & H)]; [oldn H|try discriminate]
    | nth_error (upd _ _ _) _ = _ => apply nth_upd in H; destruct H as [[? H]|[? H]]; [try discriminate|oldn H]
    | _ => idtac
    end.
  Ltac newn :=
    match goal with
    | |- nth_error (map (woken _) _) _ = _ => apply keep_woken; [newn|congruence]
    | |- nth_error (map (twoken _ _) _) _ = _ => apply keep_twoken; [newn|congruence]
    | |- nth_error (map (cleared _ _) _) _ = _ => apply keep_cleared; [newn|congruence]
    | |- nth_error (upd _ ?i ?x) ?i = Some ?x => eapply nth_upd_same; eassumption
    | |- nth_error (upd _ _ _) _ = _ => rewrite nth_upd_other by congruence; newn
    | |- _ => eassumption
    end.
  Lemma sleep_step s i s' : inv s -> trans slot direct may s i s' ->
    forall j p v, nth_error (threads s') j = Some (Asleep p v) -> mem s' p <> v ->
      exists k all, can_wake k j p all /\ (nth_error (threads s') k = Some (Owe p all) \/ nth_error (threads s') k = Some (Wake p all)).
  Proof.
    intros IV T. assert (K := i_sleep s IV). assert (CN := i_count s IV).
    assert (G' := fun i c (H : nth_error (threads s) i = Some c) => i_kind s IV c (nth_In _ _ _ H)).
    cases T; intros j' p' v' A M; oldn A;
    try (match type of A with _ = Asleep _ _ => idtac | Asleep _ _ = _ => injection A as -> -> end);
    try (match type of A with nth_error _ _ = _ => destruct (K j' p' v' A) as (k' & all' & C & [J|J]);
      [exact M|exists k', all'; split; [exact C|left; solve [newn]]|exists k', all'; split; [exact C|right; solve [newn]]] end).
    - destruct c; cbn [start] in A; try discriminate; destruct (direct p); discriminate.
    - assert (KD := G' _ _ A). cbn [kind_ok] in KD.
      assert (OLD : mem s p' <> v' -> exists k all, can_wake k j' p' all /\
         (nth_error (upd (threads s) i (start direct c)) k = Some (Owe p' all) \/ nth_error (upd (threads s) i (start direct c)) k = Some (Wake p' all))).
      { intros M'. destruct (K j' p' v' A M') as (k' & all' & C & [J|J]); exists k', all'; split; [exact C|left; newn|exact C|right; newn]. }
      destruct c as [p v|p all|p v all]; [apply OLD; exact M|apply OLD; exact M|].
      cbn [written] in M. unfold put in M. destruct (p' =? p) eqn:Q; [|apply OLD; exact M]. apply Z.eqb_eq in Q. subst p'.
      cbn [start]. rewrite KD. exists i, all. split; [|left; newn].
      destruct P as [P|(m & P)]; [left; exact P|right]. intros l L. assert (L' := i_solo s IV _ _ _ _ A eq_refl).
      destruct (P _ L) as [E|E]; [left; exact E|]. destruct (P _ L') as [E'|E']; [congruence|right; congruence].
    - destruct (direct p); discriminate.
    - congruence.
    - assert (KD := G' _ _ A). cbn [kind_ok] in KD.
      destruct (K j' p' v' A M) as (k' & all' & C & [J|J]); exists k', all'; (split; [exact C|]).
      + destruct (Z.eq_dec p p') as [->|NE]; [|left; newn]. exfalso.
        pose proof (total_in slot (slot p') _ _ (nth_In _ _ _ A)) as TI. rewrite <- CN in TI by exact KD. cbn [counted] in TI. rewrite Nat.eqb_refl in TI. lia.
      + right. newn.
    - destruct (K j' p' v' A M) as (k' & all' & C & [J|J]); exists k', all'; (split; [exact C|]).
      + destruct (Nat.eq_dec k' i) as [->|NE]; [|left; newn]. rewrite J in H. injection H as -> ->. right. newn.
      + right. newn.
    - destruct (K j' p' v' A M) as (k' & all' & C & [J|J]); exists k', all'; (split; [exact C|]).
      + left. newn.
      + destruct (Nat.eq_dec k' i) as [->|NE]; [|right; newn]. exfalso. rewrite J in H. injection H as -> ->. eapply H0. eapply nth_In, A.
    - destruct (K j' p' v' A M) as (k' & all' & C & [J|J]); exists k', all'; (split; [exact C|]).
      + left. newn.
      + destruct (Nat.eq_dec k' i) as [->|NE]; [|right; newn]. exfalso. rewrite J in H. injection H as -> ->.
        destruct C as [C|C]; [discriminate|]. assert (L := i_solo s IV _ _ _ _ H0 eq_refl). destruct (C _ L); congruence.
  Qed.

  Lemma version_step s i s' : inv s -> trans slot direct may s i s' ->
    forall p v, In (TVersion p v false) (threads s') -> waiters s' (slot p) <> 0.
  Proof.
    intros IV T. assert (K := i_version s IV). assert (G := i_kind s IV).
    assert (G' := fun i c (H : nth_error (threads s) i = Some c) => i_kind s IV c (nth_In _ _ _ H)).
    cases T; intros p' v' A; old A; try (eapply K; eassumption).
    - destruct c; cbn [start] in A; try discriminate; destruct (direct p); discriminate.
    - destruct (direct p); discriminate.
    - assert (E1 := G' _ _ H). assert (E2 := G _ A). cbn [kind_ok] in E1, E2.
      rewrite slot_other by (intros F; apply sep in F; congruence). eapply K; eassumption.
    - assert (E1 := G' _ _ H). assert (E2 := G _ A). cbn [kind_ok] in E1, E2.
      rewrite slot_other by (intros F; apply sep in F; congruence). eapply K; eassumption.
    - injection A as -> ->. rewrite slot_same. discriminate.
    - unfold put_slot. destruct (Nat.eqb _ _); [discriminate|]. eapply K; eassumption.
    - rewrite slot_other by (eapply H1; reflexivity). eapply K; eassumption.
    - rewrite slot_other by (eapply H1; reflexivity). eapply K; eassumption.
  Qed.

  Lemma no_clearing e l : existsb (clearing slot e) l = false -> forall q, In (TExch q) l -> slot q <> e.
  Proof.
    intros H q I E. assert (C : clearing slot e (TExch q) = true) by (cbn [clearing]; apply Nat.eqb_eq; exact E).
    assert (X : existsb (clearing slot e) l = true) by (apply existsb_exists; eauto). congruence.
  Qed.
  Lemma check_step s i s' : inv s -> trans slot direct may s i s' ->
    forall p v ver, In (TCheck p v ver false) (threads s') \/ In (TEnter p v ver false) (threads s') ->
      ver <= version s' (slot p) /\
      (version s' (slot p) = ver -> waiters s' (slot p) <> 0 /\ forall q, In (TExch q) (threads s') -> slot q <> slot p).
  Proof.
    intros IV T. assert (K := i_check s IV). assert (G := i_kind s IV). assert (KV := i_version s IV).
    assert (G' := fun i c (H : nth_error (threads s) i = Some c) => i_kind s IV c (nth_In _ _ _ H)).
    cases T; intros p' v' ver' A.
    all: assert (A' : In (TCheck p' v' ver' false) (threads s) \/ In (TEnter p' v' ver' false) (threads s) \/
       (exists r, nth_error (threads s) i = Some (TVersion p' v' r) /\ ver' = version s (slot p') /\ r || existsb (clearing slot (slot p')) (threads s) = false))
      by (destruct A as [A|A]; old A; auto;
          first [destruct c; cbn [start] in A; try discriminate; destruct (direct p); discriminate
                |destruct (direct p); discriminate
                |injection A as -> -> -> Hr; right; right; exists r; split; [assumption|split; [reflexivity|symmetry; exact Hr]]
                |injection A as -> -> -> <-; left; eapply nth_In; eassumption
                |idtac]); clear A.
    all: assert (D : direct p' = false) by (destruct A' as [A|[A|(r' & A & _)]]; [exact (G _ A)|exact (G _ A)|exact (G' _ _ A)]).
    all: assert (B : ver' <= version s (slot p') /\ (version s (slot p') = ver' -> waiters s (slot p') <> 0 /\ forall q, In (TExch q) (threads s) -> slot q <> slot p'))
      by (destruct A' as [A|[A|(r' & A & -> & R)]]; [exact (K _ _ _ (or_introl A))|exact (K _ _ _ (or_intror A))|];
          split; [lia|]; intros _; apply Bool.orb_false_iff in R; destruct R as [-> R]; split; [eapply KV, nth_In, A|exact (no_clearing _ _ R)]).
    all: destruct B as [B1 B2].
    all: try (split; [exact B1|]; intros E; destruct (B2 E) as [B3 B4]; split; [exact B3|]; intros q Q; old Q; solve [exact (B4 _ Q)]).
    all: try (split; [exact B1|]; intros E; destruct (B2 E) as [B3 B4]; split;
      [assert (E1 := G' _ _ H); cbn [kind_ok] in E1; rewrite slot_other by (intros F; apply sep in F; congruence); exact B3|intros q Q; old Q; exact (B4 _ Q)]).
    - split; [exact B1|]. intros E. destruct (B2 E) as [B3 B4]. split; [exact B3|]. intros q Q. old Q; [|exact (B4 _ Q)].
      destruct c; cbn [start] in Q; try discriminate; destruct (direct p); discriminate.
    - split; [exact B1|]. intros E. destruct (B2 E) as [B3 B4]. split; [exact B3|]. intros q Q. old Q; [|exact (B4 _ Q)].
      destruct (direct p); discriminate.
    - split; [exact B1|]. intros E. destruct (B2 E) as [B3 B4]. split; [|intros q Q; old Q; exact (B4 _ Q)].
      unfold put_slot. destruct (Nat.eqb _ _); [discriminate|exact B3].
    - destruct (Nat.eq_dec (slot p') (slot p)) as [Q|Q].
      + rewrite Q in *. rewrite slot_same. split; [lia|]. intros E. lia.
      + rewrite slot_other by exact Q. split; [exact B1|]. intros E. destruct (B2 E) as [B3 B4]. split; [exact B3|].
        intros q Q'. old Q'; [injection Q' as ->; congruence|exact (B4 _ Q')].
    - split; [exact B1|]. intros E. destruct (B2 E) as [B3 B4]. split; [|intros q Q; old Q; exact (B4 _ Q)].
      rewrite slot_other; [exact B3|]. intros F. symmetry in F. revert F. apply B4. eapply nth_In. exact H.
    - split; [exact B1|]. intros E. destruct (B2 E) as [B3 B4]. split; [|intros q Q; old Q; exact (B4 _ Q)].
      rewrite slot_other; [exact B3|]. intros F. symmetry in F. revert F. apply B4. eapply nth_In. exact H.
  Qed.

  Lemma enter_step s i s' : inv s -> trans slot direct may s i s' ->
    forall p v ver, In (TEnter p v ver false) (threads s') -> mem s' p <> v -> version s' (slot p) = ver -> In (TOwe p) (threads s').
  Proof.
    intros IV T. assert (K := i_enter s IV). assert (G := i_kind s IV). assert (KC := i_check s IV).
    assert (G' := fun i c (H : nth_error (threads s) i = Some c) => i_kind s IV c (nth_In _ _ _ H)).
    cases T; intros p' v' ver' A M E; old A; try (assert (OLD := K _ _ _ A M E); solve [new]).
    - destruct c; cbn [start] in A; try discriminate; destruct (direct p); discriminate.
    - assert (KD := G _ A). cbn [kind_ok] in KD.
      destruct c as [p v|p all|p v all]; try (assert (OLD := K _ _ _ A M E); solve [new]).
      cbn [written] in M. unfold put in M. destruct (p' =? p) eqn:Q; [|assert (OLD := K _ _ _ A M E); solve [new]]. apply Z.eqb_eq in Q. subst p'.
      cbn [start]. rewrite KD. new.
    - destruct (direct p); discriminate.
    - congruence.
    - destruct (Nat.eq_dec (slot p') (slot p)) as [Q|Q].
      + destruct (KC _ _ _ (or_intror A)) as [B _]. rewrite Q, slot_same in E. rewrite Q in B. lia.
      + rewrite slot_other in E by exact Q. assert (OLD := K _ _ _ A M E). new.
  Qed.

  Lemma asleep_step s i s' : inv s -> trans slot direct may s i s' ->
    forall p v, In (TAsleep p v false) (threads s') -> waiters s' (slot p) = 0 -> exists q, slot q = slot p /\ In (TWake q) (threads s').
  Proof.
    intros IV T. assert (K := i_asleep s IV). assert (G := i_kind s IV). assert (KC := i_check s IV).
    assert (G' := fun i c (H : nth_error (threads s) i = Some c) => i_kind s IV c (nth_In _ _ _ H)).
    cases T; intros p' v' A M; old A; try (destruct (K _ _ A M) as (q & Q & I); exists q; split; [exact Q|solve [new]]).
    - destruct c; cbn [start] in A; try discriminate; destruct (direct p); discriminate.
    - destruct (direct p); discriminate.
    - assert (E1 := G' _ _ H). assert (E2 := G _ A). cbn [kind_ok] in E1, E2.
      rewrite slot_other in M by (intros F; apply sep in F; congruence). destruct (K _ _ A M) as (q & Q & I). exists q. split; [exact Q|new].
    - assert (E1 := G' _ _ H). assert (E2 := G _ A). cbn [kind_ok] in E1, E2.
      rewrite slot_other in M by (intros F; apply sep in F; congruence). destruct (K _ _ A M) as (q & Q & I). exists q. split; [exact Q|new].
    - unfold put_slot in M. destruct (Nat.eqb _ _); [discriminate|]. destruct (K _ _ A M) as (q & Q & I). exists q. split; [exact Q|new].
    - injection A as -> -> <-. exfalso. destruct (KC _ _ _ (or_intror (nth_In _ _ _ H))) as [_ B]. exact (proj1 (B H0) M).
    - destruct (Nat.eq_dec (slot p') (slot p)) as [Q|Q].
      + rewrite <- Q in H0. destruct (K _ _ A H0) as (q & Q' & I). exists q. split; [exact Q'|new].
      + rewrite slot_other in M by exact Q. destruct (K _ _ A M) as (q & Q' & I). exists q. split; [exact Q'|new].
    - destruct (Nat.eq_dec (slot p') (slot p)) as [Q|Q].
      + exists p. split; [symmetry; exact Q|new].
      + rewrite slot_other in M by exact Q. destruct (K _ _ A M) as (q & Q' & I). exists q. split; [exact Q'|new].
    - assert (Q := H0 _ _ _ eq_refl). destruct (K _ _ A M) as (q & Q' & I). exists q. split; [exact Q'|]. new.
  Qed.

  Lemma tsleep_step s i s' : inv s -> trans slot direct may s i s' ->
    forall p v, In (TAsleep p v false) (threads s') -> mem s' p <> v ->
      In (TOwe p) (threads s') \/ In (TExch p) (threads s') \/ exists q, slot q = slot p /\ In (TWake q) (threads s').
  Proof.
    intros IV T. assert (K := i_tsleep s IV). assert (KE := i_enter s IV). assert (G := i_kind s IV). assert (KA := i_asleep s IV).
    assert (G' := fun i c (H : nth_error (threads s) i = Some c) => i_kind s IV c (nth_In _ _ _ H)).
    cases T; intros p' v' A M; old A;
      try (destruct (K _ _ A M) as [J|[J|(q & Q & J)]]; [left; solve [new]|right; left; solve [new]|right; right; exists q; split; [exact Q|solve [new]]]).
    - destruct c; cbn [start] in A; try discriminate; destruct (direct p); discriminate.
    - assert (KD := G _ A). cbn [kind_ok] in KD.
      assert (OLD : mem s p' <> v' -> In (TOwe p') (upd (threads s) i (start direct c)) \/ In (TExch p') (upd (threads s) i (start direct c)) \/
         exists q, slot q = slot p' /\ In (TWake q) (upd (threads s) i (start direct c))).
      { intros M'. destruct (K _ _ A M') as [J|[J|(q & Q & J)]]; [left; solve [new]|right; left; solve [new]|right; right; exists q; split; [exact Q|solve [new]]]. }
      destruct c as [p v|p all|p v all]; [apply OLD; exact M|apply OLD; exact M|].
      cbn [written] in M. unfold put in M. destruct (p' =? p) eqn:Q; [|apply OLD; exact M]. apply Z.eqb_eq in Q. subst p'.
      cbn [start]. rewrite KD. left. new.
    - destruct (direct p); discriminate.
    - injection A as -> -> <-. left. assert (J := KE _ _ _ (nth_In _ _ _ H) M H0). new.
    - destruct (K _ _ A M) as [J|[J|(q & Q & J)]].
      + destruct (Z.eq_dec p' p) as [->|NE]; [right; left; new|left; new].
      + right. left. new.
      + right. right. exists q. split; [exact Q|new].
    - destruct (K _ _ A M) as [J|[J|(q & Q & J)]].
      + left. new.
      + destruct (Z.eq_dec p' p) as [->|NE]; [|right; left; new]. destruct (KA _ _ A H0) as (q & Q & I). right. right. exists q. split; [exact Q|new].
      + right. right. exists q. split; [exact Q|new].
    - destruct (K _ _ A M) as [J|[J|(q & Q & J)]].
      + left. new.
      + right. destruct (Z.eq_dec p' p) as [->|NE]; [|left; new]. right. exists p. split; [reflexivity|new].
      + right. right. exists q. split; [exact Q|new].
    - assert (Q := H0 _ _ _ eq_refl). destruct (K _ _ A M) as [J|[J|(q & Q' & J)]].
      + left. new.
      + right. left. new.
      + right. right. exists q. split; [exact Q'|]. new.
  Qed.

  Lemma inv_initial m n : inv (initial m n).
  Proof.
    assert (X : forall c, In c (repeat Idle n) -> c = Idle) by (intros c; apply repeat_spec).
    split; unfold initial; cbn [mem waiters version threads]; intros; try (match goal with H : In _ _ |- _ => apply X in H; first [discriminate|subst; exact I] end).
    - apply nth_In, X in H. subst. discriminate.
    - clear. induction n as [|n IH]; cbn; [reflexivity|exact IH].
    - apply nth_In, X in H. discriminate.
    - destruct H as [H|H]; apply X in H; discriminate.
  Qed.
  Lemma inv_step s i s' : inv s -> trans slot direct may s i s' -> inv s'.
  Proof.
    intros IV T. split.
    - eapply kind_step; eassumption.
    - eapply solo_step; eassumption.
    - eapply count_step; eassumption.
    - eapply sleep_step; eassumption.
    - eapply version_step; eassumption.
    - eapply check_step; eassumption.
    - eapply enter_step; eassumption.
    - eapply asleep_step; eassumption.
    - eapply tsleep_step; eassumption.
  Qed.
  Lemma inv_reach m n s : reachable slot direct may m n s -> inv s.
  Proof. induction 1; [apply inv_initial|eapply inv_step; eassumption]. Qed.

  Lemma quiet_pc s i c : quiet slot direct s -> nth_error (threads s) i = Some c ->
    c = Idle \/ (exists p v, c = Asleep p v) \/ exists p v r, c = TAsleep p v r.
  Proof.
    intros Q N. destruct c; eauto 8; exfalso.
    - destruct (Z.eq_dec (mem s p) v); eapply Q; [eapply step_slow|eapply step_return]; eassumption.
    - destruct (Z.eq_dec (waiters s (slot p)) 0); eapply Q; [eapply step_nobody|eapply step_somebody]; eassumption.
    - destruct all; [eapply Q, step_wake_all; eassumption|].
      assert (D : (exists v, In (Asleep p v) (threads s)) \/ forall v, ~ In (Asleep p v) (threads s)).
      { clear. induction (threads s) as [|c l [(v & IH)|IH]]; [right; intros v []|left; exists v; right; exact IH|].
        destruct c; try (right; intros w [E|E]; [discriminate|exact (IH w E)]).
        destruct (Z.eq_dec p0 p) as [->|NE]; [left; exists v; left; reflexivity|].
        right. intros w [E|E]; [congruence|exact (IH w E)]. }
      destruct D as [(v & D)|D].
      + apply In_nth_error in D. destruct D as [j D]. eapply Q, step_wake_one; eassumption.
      + eapply Q, step_wake_none; eassumption.
    - eapply Q, step_count; eassumption.
    - destruct (Z.eq_dec (mem s p) v); eapply Q; [eapply step_sleep|eapply step_nosleep]; eassumption.
    - eapply Q, step_leave; eassumption.
    - eapply Q, step_bump; eassumption.
    - destruct (Z.eq_dec (waiters s (slot p)) 0); eapply Q; [eapply step_tnobody|eapply step_tsomebody]; eassumption.
    - eapply Q, step_twake; eassumption.
    - eapply Q, step_mark; eassumption.
    - eapply Q, step_version; eassumption.
    - destruct (Z.eq_dec (mem s p) v); eapply Q; [eapply step_same|eapply step_changed]; eassumption.
    - destruct (Z.eq_dec (version s (slot p)) ver); eapply Q; [eapply step_tsleep|eapply step_tnosleep]; eassumption.
  Qed.

  Theorem quiet_ok m n s : reachable slot direct may m n s -> quiet slot direct s ->
    forall i c, nth_error (threads s) i = Some c ->
      c = Idle \/ (exists p v, c = Asleep p v /\ mem s p = v) \/ exists p v r, c = TAsleep p v r /\ (mem s p = v \/ r = true).
  Proof.
    intros R Q i c N. apply inv_reach in R.
    assert (NO : forall c, In c (threads s) -> c = Idle \/ (exists p v, c = Asleep p v) \/ exists p v r, c = TAsleep p v r).
    { intros c' I. apply In_nth_error in I. destruct I as [k I]. eapply quiet_pc; eassumption. }
    destruct (quiet_pc s i c Q N) as [->|[(p & v & ->)|(p & v & r & ->)]]; [auto| |].
    - right. left. exists p, v. split; [reflexivity|]. destruct (Z.eq_dec (mem s p) v) as [E|E]; [exact E|exfalso].
      destruct (i_sleep s R i p v N E) as (k & all & _ & [J|J]); apply nth_In, NO in J; destruct J as [J|[(? & ? & J)|(? & ? & ? & J)]]; discriminate.
    - right. right. exists p, v, r. split; [reflexivity|]. destruct r; [auto|]. left. destruct (Z.eq_dec (mem s p) v) as [E|E]; [exact E|exfalso].
      destruct (i_tsleep s R p v (nth_In _ _ _ N) E) as [J|[J|(q & _ & J)]]; apply NO in J; destruct J as [J|[(? & ? & J)|(? & ? & ? & J)]]; discriminate.
  Qed.
End Proofs.

Section Return.
  Variable slot : Z -> nat.
  Variable direct : Z -> bool.
  Variable may : nat -> Z -> Prop.
  Lemma nth_map {A B} (f : A -> B) l i x : nth_error l i = Some x -> nth_error (map f l) i = Some (f x).
  Proof. intros H. rewrite nth_error_map, H. reflexivity. Qed.
  (** a call of wait goes on until it has seen another value *)
  Theorem wait_goes_on s i s' j c p v : trans slot direct may s i s' -> nth_error (threads s) j = Some c -> waits c = Some (p, v) ->
    exists c', nth_error (threads s') j = Some c' /\ (waits c' = Some (p, v) \/ c' = Idle /\ mem s p <> v).
  Proof.
    intros T N W.
    assert (U : forall l k x c0, nth_error l j = Some c0 -> waits c0 = Some (p, v) -> (k = j -> waits x = Some (p, v)) ->
       exists c', nth_error (upd l k x) j = Some c' /\ waits c' = Some (p, v)).
    { intros l k x c0 N0 W0 E. destruct (Nat.eq_dec k j) as [->|NE].
      - exists x. split; [eapply nth_upd_same, N0|apply E; reflexivity].
      - exists c0. split; [rewrite nth_upd_other by exact NE; exact N0|exact W0]. }
    assert (M : forall f l, (forall c, waits (f c) = waits c) -> (exists c', nth_error l j = Some c' /\ waits c' = Some (p, v)) ->
       exists c', nth_error (map f l) j = Some c' /\ waits c' = Some (p, v)).
    { intros f l F (c' & N' & W'). exists (f c'). split; [apply nth_map; exact N'|rewrite F; exact W']. }
    assert (D : (exists c', nth_error (threads s') j = Some c' /\ waits c' = Some (p, v)) \/ (nth_error (threads s') j = Some Idle /\ mem s p <> v)).
    { destruct T as [c0 s' P T|s' T|s' T]; destruct T; cbn [threads mem] in *;
      try (left; try (apply M; [first [apply waits_woken|apply waits_twoken|apply waits_cleared]|]);
           solve [eapply U; [exact N|exact W|intros <-; rewrite N in H; injection H as ->; first [discriminate|cbn [waits] in *; congruence]]]).
      - destruct (Nat.eq_dec i j) as [->|NE].
        + right. rewrite N in H. injection H as ->. injection W as -> ->. split; [eapply nth_upd_same, N|exact H0].
        + left. exists c. rewrite nth_upd_other by exact NE. auto.
      - left. eapply U; [exact N|exact W|]. intros <-. rewrite N in H. injection H as ->. destruct (direct p0); exact W.
      - left. destruct (Nat.eq_dec i j) as [->|NE]; [rewrite N in H; injection H as ->; discriminate|].
        eapply U; [rewrite nth_upd_other by exact NE; exact N|exact W|]. intros <-. rewrite N in H0. injection H0 as ->. exact W. }
    destruct D as [(c' & D1 & D2)|[D1 D2]]; eauto.
  Qed.
End Return.

Section Finite.
  Variable slot : Z -> nat.
  Variable direct : Z -> bool.
  Definition told (c : pc) : nat :=
    match c with Owe _ _ => 2 | Wake _ _ => 1 | TOwe _ => 3 | TExch _ => 2 | TWake _ => 1 | _ => 0 end%nat.
  Definition waited (s : state) (c : pc) : nat :=
    match c with
    | Wait p v => if Z.eqb (mem s p) v then 6 else 1
    | Slow p v => if Z.eqb (mem s p) v then 5 else 4
    | Enter p v => if Z.eqb (mem s p) v then 3 else 3
    | Asleep p v => if Z.eqb (mem s p) v then 1 else 0
    | Leave p v => if Z.eqb (mem s p) v then 7 else 2
    | TSlow p v => if Z.eqb (mem s p) v then 5 else 4
    | TVersion p v _ => if Z.eqb (mem s p) v then 4 else 3
    | TCheck p v ver _ => if Z.eqb (mem s p) v then (if Z.eqb (version s (slot p)) ver then 3 else 8) else 2
    | TEnter p v ver _ => if Z.eqb (mem s p) v then (if Z.eqb (version s (slot p)) ver then 2 else 7) else 2
    | TAsleep p v _ => if Z.eqb (mem s p) v then 1 else 0
    | _ => 0
    end%nat.
  Definition weight (s : state) : nat * nat := (sum told (threads s), sum (waited s) (threads s)).
  Lemma told_woken p c : told (woken p c) = told c.
  Proof. destruct c; cbn [woken]; try reflexivity. destruct (_ =? _); reflexivity. Qed.
  Lemma told_twoken q c : told (twoken slot q c) = told c.
  Proof. destruct c; cbn [twoken]; try reflexivity. destruct (Nat.eqb _ _); reflexivity. Qed.
  Lemma told_cleared q c : told (cleared slot q c) = told c.
  Proof. destruct c; cbn [cleared]; try reflexivity. destruct (Nat.eqb _ _); reflexivity. Qed.
  Lemma step_less s i s' : step slot direct s i s' -> less2 (weight s') (weight s).
  Proof.
    intros T.
    assert (F1 : forall x l w v, nth_error (threads s) i = Some l -> (told x < told l)%nat -> less2 (sum told (upd (threads s) i x), v) (sum told (threads s), w)).
    { intros x l w v N L. left. cbn [fst]. pose proof (sum_upd told _ _ _ x N). lia. }
    assert (F2 : forall x l w, nth_error (threads s) i = Some l -> told x = told l -> (w x < w l)%nat ->
       less2 (sum told (upd (threads s) i x), sum w (upd (threads s) i x)) (sum told (threads s), sum w (threads s))).
    { intros x l w N E L. right. cbn [fst snd]. pose proof (sum_upd told _ _ _ x N). pose proof (sum_upd w _ _ _ x N). lia. }
    destruct T; unfold weight; cbn [threads];
      try (match goal with |- less2 (_, sum (waited (State ?m ?w ?v ?t)) ?l) _ => change (sum (waited (State m w v t)) l) with (sum (waited s) l) end);
      try (eapply F2; [eassumption|reflexivity|cbn [waited]]);
      try (rewrite ?sum_map by first [apply told_woken|apply told_twoken|apply told_cleared]; eapply F1; [eassumption|cbn [told]; lia]).
    all: repeat match goal with H : mem _ _ = _ |- _ => apply Z.eqb_eq in H; rewrite H | H : mem _ _ <> _ |- _ => apply Z.eqb_neq in H; rewrite H end; try lia.
    - apply Z.eqb_eq in H0. destruct (direct p); (eapply F2; [eassumption|reflexivity|cbn [waited]; rewrite H0; lia]).
    - destruct (Z.eqb (mem s p) v); lia.
    - destruct (Z.eqb (mem s p) v); lia.
    - assert (IJ : i <> j) by congruence. left. cbn [fst].
      assert (N : nth_error (upd (threads s) i Idle) j = Some (Asleep p v)) by (rewrite nth_upd_other by exact IJ; exact H0).
      pose proof (sum_upd told _ _ _ (Leave p v) N) as X1. pose proof (sum_upd told _ _ _ Idle H) as X2. cbn [told] in *. lia.
    - destruct (Z.eqb (mem s p) v); lia.
    - rewrite Z.eqb_refl. destruct (Z.eqb (mem s p) v); lia.
    - destruct (Z.eqb (version s (slot p)) ver); lia.
    - destruct (Z.eqb (mem s p) v); destruct (Z.eqb (version s (slot p)) ver); lia.
    - apply Z.eqb_neq in H0. rewrite H0. destruct (Z.eqb (mem s p) v); lia.
  Qed.
  Theorem steps_end (f : nat -> state) : ~ forall k, exists i, step slot direct (f k) i (f (S k)).
  Proof.
    exact (no_descent (fun s s' => exists i, step slot direct s i s') weight (fun s s' H => match H with ex_intro _ i T => step_less s i s' T end) f).
  Qed.
End Finite.
