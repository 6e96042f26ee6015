(** Each function is placed in the innermost loops around its consumers (C59). *)
From Coq Require Import ZArith List Bool Arith Lia.
From Verif Require Import Arith_Model Arith_Proofs Sched_Model Sched_Spec Sched_Proofs Sched2_Proofs.
Import ListNotations.
Open Scope nat_scope.

Section Locate.
  Variable g : graph.
  Variable ds : list (nat * nat).
  Definition own (f : nat) : list (nat * nat) := map (fun v => (f, v)) (rev (loops g f)).
  Definition nest_s (st : locations) (f : nat) : list (nat * nat) := match node_of st f with Some n => nest_t (tree st) n | None => [] end.
  Record inv (done : list nat) (st : locations) : Prop := {
    in_wf : wf (tree st);
    in_label : forall i, 0 < i < length (tree st) -> exists f v, In f done /\ loop (at_node (tree st) i) = Some (f, v);
    in_node : forall f, In f done -> exists n, node_of st f = Some n /\ n < length (tree st) }.
  Definition most (st : locations) (f : nat) (outer : list (nat * nat)) : Prop :=
    match compute_at g f with
    | None => forall P, (forall c, In c (consumers ds f) -> prefix P (nest_s st c)) -> prefix P outer
    | Some l => innermost outer = l /\ forall P, (forall c, In c (consumers ds f) -> prefix P (nest_s st c)) -> innermost P = l -> prefix P outer
    end.
  Definition fits (st : locations) (f : nat) (outer : list (nat * nat)) : Prop :=
    (consumers ds f = [] -> outer = [] /\ (compute_at g f = None \/ compute_at g f = Some None)) /\ (forall c, In c (consumers ds f) -> prefix outer (nest_s st c)) /\ (consumers ds f <> [] -> most st f outer).
  Definition placed (st : locations) (f : nat) : Prop :=
    exists outer, nest_s st f = outer ++ own f /\ at_level st f = innermost outer /\ call_level st f = innermost (nest_s st f) /\ fits st f outer.
  Definition same (st st' : locations) (f : nat) : Prop := nest_s st' f = nest_s st f /\ at_level st' f = at_level st f /\ call_level st' f = call_level st f.
  Lemma fits_same st st' f outer : (forall c, In c (consumers ds f) -> nest_s st' c = nest_s st c) -> fits st f outer -> fits st' f outer.
  Proof.
    intros Sc (A & B & C). split; [exact A|]. split; [intros c I; rewrite Sc by exact I; exact (B c I)|]. intro N. specialize (C N). unfold most in *. destruct (compute_at g f) as [l|].
    - destruct C as (C1 & C2). split; [exact C1|]. intros P H. apply C2. intros c I. rewrite <- Sc by exact I. exact (H c I).
    - intros P H. apply C. intros c I. rewrite <- Sc by exact I. exact (H c I).
  Qed.
  Lemma placed_same st st' f : same st st' f -> (forall c, In c (consumers ds f) -> same st st' c) -> placed st f -> placed st' f.
  Proof.
    intros (E1 & E2 & E3) Sc (outer & A & B & C & D). exists outer. rewrite E1, E2, E3. split; [exact A|]. split; [exact B|]. split; [exact C|]. apply (fits_same st); [|exact D]. intros c I. exact (proj1 (Sc c I)).
  Qed.
  Lemma find_all_spec m l : forall ids, find_all m l = Val ids -> Forall2 (fun x n => m x = Some n) l ids.
  Proof.
    induction l as [|x l IH]; intros ids Q; cbn [find_all] in Q; [injection Q as <-; constructor|]. destruct (m x) as [n|] eqn:M; [|discriminate]. apply bind_inv in Q as (r & Q & E). injection E as <-. constructor; [exact M|exact (IH r Q)].
  Qed.
  Lemma find_all_able done st l : inv done st -> incl l done -> exists ids, find_all (node_of st) l = Val ids.
  Proof.
    intros K. induction l as [|x l IH]; intro I; cbn [find_all]; [eauto|]. destruct (in_node done st K x (I x (or_introl eq_refl))) as (n & -> & _). destruct IH as (ids & ->); [intros y J; apply I; right; exact J|]. eexists. reflexivity.
  Qed.
  Lemma F2_l {A B} (R : A -> B -> Prop) l m : Forall2 R l m -> forall x, In x l -> exists y, In y m /\ R x y.
  Proof. induction 1 as [|a b l m Q F IH]; intros x []; [subst; exists b; split; [left; reflexivity|exact Q]|]. destruct (IH x H) as (y & I & R'). exists y. split; [right; exact I|exact R']. Qed.
  Lemma F2_r {A B} (R : A -> B -> Prop) l m : Forall2 R l m -> forall y, In y m -> exists x, In x l /\ R x y.
  Proof. induction 1 as [|a b l m Q F IH]; intros y []; [subst; exists a; split; [left; reflexivity|exact Q]|]. destruct (IH y H) as (x & I & R'). exists x. split; [right; exact I|exact R']. Qed.

  (** the common ancestor of the consumers *)
  Lemma common done st f ids : inv done st -> incl (consumers ds f) done -> consumers ds f <> [] -> find_all (node_of st) (consumers ds f) = Val ids ->
    let p := match ids with [n] => n | _ => lca (tree st) ids end in
    p < length (tree st) /\ (forall c, In c (consumers ds f) -> prefix (nest_t (tree st) p) (nest_s st c)) /\ forall P, (forall c, In c (consumers ds f) -> prefix P (nest_s st c)) -> prefix P (nest_t (tree st) p).
  Proof.
    intros K I N Q p. apply find_all_spec in Q. pose proof (F2_l _ _ _ Q) as Fl. pose proof (F2_r _ _ _ Q) as Fr.
    assert (Ne : ids <> []). { intros ->. inversion Q as [E|]. congruence. }
    assert (Li : forall i, In i ids -> i < length (tree st)). { intros i J. destruct (Fr i J) as (c & Jc & E). destruct (in_node done st K c (I c Jc)) as (n & E2 & L). congruence. }
    destruct (lca_spec (tree st) (in_wf done st K) ids Ne Li) as (L & A & B).
    assert (G : lca (tree st) ids < length (tree st) /\ (forall c, In c (consumers ds f) -> prefix (nest_t (tree st) (lca (tree st) ids)) (nest_s st c)) /\ forall P, (forall c, In c (consumers ds f) -> prefix P (nest_s st c)) -> prefix P (nest_t (tree st) (lca (tree st) ids))).
    { split; [exact L|]. split; [intros c J; destruct (Fl c J) as (i & Ji & E); unfold nest_s; rewrite E; exact (A i Ji)|]. intros P H. apply B. intros i J. destruct (Fr i J) as (c & Jc & E). specialize (H c Jc). unfold nest_s in H. rewrite E in H. exact H. }
    unfold p. destruct ids as [|n [|n2 ids]]; [congruence| |exact G]. split; [exact (Li n (or_introl eq_refl))|]. split.
    - intros c J. destruct (Fl c J) as (i & [<-|[]] & E). unfold nest_s. rewrite E. apply prefix_refl.
    - intros P H. destruct (Fr n (or_introl eq_refl)) as (c & Jc & E). specialize (H c Jc). unfold nest_s in H. rewrite E in H. exact H.
  Qed.
  Lemma place_spec done st f p l : inv done st -> incl (consumers ds f) done -> place g ds st f = Val (p, l) -> p < length (tree st) /\ l = innermost (nest_t (tree st) p) /\ fits st f (nest_t (tree st) p).
  Proof.
    intros K I Q. pose proof (in_wf done st K) as W. unfold place in Q. destruct (consumers ds f) as [|c0 cs] eqn:Ec.
    - assert (E : p = 0 /\ l = None /\ (compute_at g f = None \/ compute_at g f = Some None)) by (destruct (compute_at g f) as [[x|]|]; [discriminate|injection Q as <- <-; auto|injection Q as <- <-; auto]). destruct E as (-> & -> & E).
      split; [exact (proj1 (wf_root _ W))|]. rewrite nest_root by exact W. split; [reflexivity|]. split; [intros _; auto|]. rewrite Ec. split; [intros c []|congruence].
    - rewrite <- Ec in *. assert (N : consumers ds f <> []) by (rewrite Ec; discriminate). apply bind_inv in Q as (ids & Qi & Q). destruct (common done st f ids K I N Qi) as (L & A & B). set (q := match ids with [n] => n | _ => lca (tree st) ids end) in *.
      unfold fits, most. destruct (compute_at g f) as [l0|] eqn:Ca.
      + destruct (last_at (tree st) (find_path_from_root (tree st) q) l0) as [q0|] eqn:La; [|discriminate]. injection Q as <- <-. destruct (last_at_nest (tree st) W q l0 q0 L La) as (L0 & I0 & P0 & M0).
        split; [exact L0|]. split; [congruence|]. split; [intro; contradiction|]. split; [intros c J; exact (prefix_trans _ _ _ P0 (A c J))|]. intros _. split; [exact I0|]. intros P H Ip. exact (M0 P (B P H) Ip).
      + injection Q as <- <-. split; [exact L|]. split; [symmetry; apply nest_innermost; assumption|]. split; [intro; contradiction|]. split; [exact A|]. intros _. exact B.
  Qed.
  Lemma place_able done st f : inv done st -> incl (consumers ds f) done -> place g ds st f = UB -> exists x, compute_at g f = Some (Some x).
  Proof.
    intros K I Q. unfold place in Q. destruct (consumers ds f) as [|c0 cs] eqn:Ec; [destruct (compute_at g f) as [[x|]|]; [eauto|discriminate|discriminate]|]. rewrite <- Ec in *. assert (N : consumers ds f <> []) by (rewrite Ec; discriminate).
    destruct (find_all_able done st (consumers ds f) K I) as (ids & Qi). rewrite Qi in Q. cbn [bind] in Q. destruct (common done st f ids K I N Qi) as (L & _). destruct (compute_at g f) as [[x|]|]; [eauto| |discriminate].
    destruct (last_at (tree st) _ None) eqn:La; [discriminate|]. exfalso. exact (last_at_root (tree st) _ None (in_wf done st K) L eq_refl La).
  Qed.

  Lemma locate_spec done st f st' : inv done st -> ~ In f done -> incl (consumers ds f) done -> locate g ds st f = Val st' -> inv (done ++ [f]) st' /\ (forall x, In x done -> same st st' x) /\ placed st' f.
  Proof.
    intros K Nf I Q. pose proof (in_wf done st K) as W. unfold locate in Q. apply bind_inv in Q as ((p, l) & Qp & Q). destruct (add_loops (tree st) f (rev (loops g f)) p) as (t, n) eqn:Qa. injection Q as <-.
    destruct (place_spec done st f p l K I Qp) as (L & El & F).
    assert (Fr : fresh (tree st) f p). { intros i Li _ v E. destruct (in_label done st K i Li) as (f0 & v0 & J & E0). assert (f0 = f) by congruence. subst. exact (Nf J). }
    destruct (add_loops_spec f (rev (loops g f)) (tree st) p W L Fr t n Qa) as (W' & Ln & En & (x & Ex) & Lb).
    assert (Sn : forall y, In y done -> nest_s (Locations t (set_at (node_of st) f (Some n)) (set_at (at_level st) f l) (set_at (call_level st) f (match loops g f with [] => l | v :: _ => Some (f, v) end))) y = nest_s st y).
    { intros y J. unfold nest_s, set_at. cbn [node_of tree]. destruct (Nat.eqb_spec y f) as [->|Ny]; [contradiction|]. destruct (in_node done st K y J) as (m & -> & Lm). rewrite Ex. apply nest_app; assumption. }
    split; [|split].
    - constructor; cbn [tree node_of].
      + exact W'.
      + intros i Li. destruct (le_lt_dec (length (tree st)) i) as [Le|Lt].
        * destruct (Lb i ltac:(lia)) as (v & E). exists f, v. split; [apply in_or_app; right; left; reflexivity|exact E].
        * destruct (in_label done st K i ltac:(lia)) as (f0 & v & J & E). exists f0, v. split; [apply in_or_app; left; exact J|]. rewrite Ex, at_node_app by exact Lt. exact E.
      + intros y J. unfold set_at. destruct (Nat.eqb_spec y f) as [->|Ny]; [exists n; auto|]. apply in_app_or in J as [J|[J|[]]]; [|congruence]. destruct (in_node done st K y J) as (m & Em & Lm). exists m. split; [exact Em|]. rewrite Ex, app_length. lia.
    - intros y J. split; [exact (Sn y J)|]. unfold set_at. cbn [at_level call_level]. destruct (Nat.eqb_spec y f) as [->|]; [contradiction|auto].
    - exists (nest_t (tree st) p). unfold nest_s at 1 2. unfold set_at. cbn [node_of tree at_level call_level]. rewrite Nat.eqb_refl. split; [exact En|]. split; [exact El|]. split.
      + rewrite En. destruct (loops g f) as [|v vars]; cbn [rev map]; [rewrite app_nil_r; exact El|]. rewrite map_app. cbn [map]. rewrite app_assoc, innermost_snoc. reflexivity.
      + apply (fits_same st); [|exact F]. intros c J. exact (Sn c (I c J)).
  Qed.
  Lemma same_trans a b c f : same a b f -> same b c f -> same a c f. Proof. intros (A1 & A2 & A3) (B1 & B2 & B3). split; [congruence|]. split; congruence. Qed.
  Lemma locate_all_spec l : forall done st st', inv done st -> NoDup (done ++ l) -> (forall l1 f l2, l = l1 ++ f :: l2 -> incl (consumers ds f) (done ++ l1)) -> locate_all g ds st l = Val st' ->
    inv (done ++ l) st' /\ (forall x, In x done -> same st st' x) /\ forall f, In f l -> placed st' f.
  Proof.
    induction l as [|f l IH]; intros done st st' K N C Q; cbn [locate_all] in Q.
    - injection Q as <-. rewrite app_nil_r. split; [exact K|]. split; [intros x _; repeat split|intros f []].
    - apply bind_inv in Q as (st1 & Q1 & Q). assert (Nf : ~ In f done) by (apply NoDup_remove_2 in N; intro J; apply N; apply in_or_app; left; exact J).
      pose proof (C [] f l eq_refl) as If. rewrite app_nil_r in If. destruct (locate_spec done st f st1 K Nf If Q1) as (K1 & S1 & P1).
      replace (done ++ f :: l) with ((done ++ [f]) ++ l) in * by (rewrite <- app_assoc; reflexivity). destruct (IH (done ++ [f]) st1 st' K1 N) as (K2 & S2 & P2).
      + intros l1 f0 l2 E. specialize (C (f :: l1) f0 l2). cbn [app] in C. specialize (C (f_equal (cons f) E)). rewrite <- app_assoc. exact C.
      + exact Q.
      + split; [exact K2|]. split; [intros x J; apply (same_trans st st1); [exact (S1 x J)|apply S2; apply in_or_app; left; exact J]|]. intros y [<-|J]; [|exact (P2 y J)]. apply (placed_same st1); [|intros c J|exact P1].
        * apply S2. apply in_or_app. right. left. reflexivity.
        * apply S2. apply in_or_app. left. exact (If c J).
  Qed.
  Lemma locate_all_able l : forall done st, inv done st -> NoDup (done ++ l) -> (forall l1 f l2, l = l1 ++ f :: l2 -> incl (consumers ds f) (done ++ l1)) -> locate_all g ds st l = UB -> exists f x, In f l /\ compute_at g f = Some (Some x).
  Proof.
    induction l as [|f l IH]; intros done st K N C Q; cbn [locate_all] in Q; [discriminate|].
    assert (Nf : ~ In f done) by (apply NoDup_remove_2 in N; intro J; apply N; apply in_or_app; left; exact J). pose proof (C [] f l eq_refl) as If. rewrite app_nil_r in If.
    destruct (locate g ds st f) as [st1|] eqn:Q1.
    - cbn [bind] in Q. destruct (locate_spec done st f st1 K Nf If Q1) as (K1 & _). replace (done ++ f :: l) with ((done ++ [f]) ++ l) in N by (rewrite <- app_assoc; reflexivity).
      destruct (IH (done ++ [f]) st1 K1 N) as (f0 & x & J & E); [|exact Q|exists f0, x; split; [right; exact J|exact E]]. intros l1 f1 l2 E. specialize (C (f :: l1) f1 l2). cbn [app] in C. specialize (C (f_equal (cons f) E)). rewrite <- app_assoc. exact C.
    - unfold locate in Q1. destruct (place g ds st f) as [(p, l0)|] eqn:Qp; [cbn [bind] in Q1; destruct (add_loops _ _ _ _); discriminate|]. destruct (place_able done st f K If Qp) as (x & E). exists f, x. split; [left; reflexivity|exact E].
  Qed.
  Lemma inv_start : inv [] (Locations [root_node] (fun _ => None) (fun _ => None) (fun _ => None)).
  Proof. constructor; cbn [tree]; [|intros i L; cbn in L; lia|intros f []]. constructor; [split; [cbn; lia|reflexivity]|intros i L; cbn in L; lia|intros i L; cbn in L; lia|intros i j L; cbn in L; lia]. Qed.
End Locate.

Section Nested.
  Variable g : graph.
  Variable outputs ord : list nat.
  Variable ds : list (nat * nat).
  Hypothesis Sp : sort_spec g outputs ord ds.
  Lemma consumers_iff f c : In c (consumers ds f) <-> consumed g outputs f c.
  Proof.
    rewrite <- edges_in, (so_edges g outputs ord ds Sp). unfold consumed. rewrite <- (so_needed g outputs ord ds Sp). destruct (mem c ord) eqn:M; [apply mem_iff in M; tauto|]. apply mem_false in M. split; [intros []|tauto].
  Qed.
  Lemma consumers_first l1 f l2 : ord = l1 ++ f :: l2 -> incl (consumers ds f) ([] ++ l1).
  Proof.
    intros E c I. apply consumers_iff in I as (N & I). destruct (so_before g outputs ord ds Sp c f N I) as (m1 & m2 & m3 & Q). pose proof (so_nodup g outputs ord ds Sp) as ND. cbn [app].
    assert (Em : m1 ++ c :: m2 = l1).
    { rewrite E in Q, ND. rewrite app_comm_cons, app_assoc in Q. revert Q ND. generalize (m1 ++ c :: m2). clear. intros a. revert l1. induction a as [|b a IH]; intros l1 Q ND; destruct l1 as [|x l1]; cbn [app] in *; [reflexivity| | |].
      - injection Q as E Q. subst x. apply NoDup_cons_iff in ND as (N1 & _). exfalso. apply N1. apply in_or_app. right. left. reflexivity.
      - injection Q as E Q. subst b. apply NoDup_cons_iff in ND as (N1 & _). exfalso. apply N1. rewrite Q. apply in_or_app. right. left. reflexivity.
      - injection Q as E Q. subst b. f_equal. apply NoDup_cons_iff in ND as (_ & ND). exact (IH l1 Q ND). }
    rewrite <- Em. apply in_or_app. right. left. reflexivity.
  Qed.
  Definition outer_s (st : locations) (f : nat) : list (nat * nat) := firstn (length (nest_s st f) - length (loops g f)) (nest_s st f).
  Lemma outer_eq st f outer : nest_s st f = outer ++ own g f -> outer_s st f = outer.
  Proof. intro E. unfold outer_s. rewrite E, app_length. unfold own. rewrite map_length, rev_length. rewrite firstn_app. replace (length outer + length (loops g f) - length (loops g f) - length outer) with 0 by lia. rewrite firstn_O, app_nil_r. apply firstn_all2. lia. Qed.
  Lemma nested_spec st : compute_innermost_locations g ord ds = Val st -> nested g outputs (outer_s st) (nest_s st) /\ forall f, In f ord -> at_level st f = innermost (outer_s st f) /\ call_level st f = innermost (nest_s st f).
  Proof.
    intro Q. destruct (locate_all_spec g ds ord [] _ st (inv_start) (so_nodup g outputs ord ds Sp) consumers_first Q) as (_ & _ & P).
    assert (Pf : forall f, needed g outputs f -> nest_s st f = outer_s st f ++ own g f /\ at_level st f = innermost (outer_s st f) /\ call_level st f = innermost (nest_s st f) /\ fits g ds st f (outer_s st f)).
    { intros f N. apply (so_needed g outputs ord ds Sp) in N. destruct (P f N) as (outer & A & B & C & D). rewrite (outer_eq st f outer A). auto. }
    split; [|intros f I; apply (so_needed g outputs ord ds Sp) in I; destruct (Pf f I) as (_ & A & B & _); auto].
    constructor.
    - intros f N. exact (proj1 (Pf f N)).
    - intros f N H. destruct (Pf f N) as (_ & _ & _ & F & _). apply F. destruct (consumers ds f) as [|c l] eqn:E; [reflexivity|]. exfalso. apply (H c). apply consumers_iff. rewrite E. left. reflexivity.
    - intros f c N H. destruct (Pf f N) as (_ & _ & _ & _ & F & _). apply F. apply consumers_iff. exact H.
    - intros f Pp N Ca (c & H) H2. destruct (Pf f N) as (_ & _ & _ & _ & _ & F). unfold most in F. rewrite Ca in F. apply F; [|intros c0 J; apply H2; apply consumers_iff; exact J]. intro E. apply consumers_iff in H. rewrite E in H. destruct H.
    - intros f l N Ca. destruct (Pf f N) as (_ & _ & _ & F1 & _ & F). unfold most in F. rewrite Ca in F. destruct (consumers ds f) as [|c l0] eqn:E; [|apply F; discriminate]. destruct (F1 eq_refl) as (-> & [A|A]); rewrite Ca in A; [discriminate|]. injection A as ->. reflexivity.
    - intros f l Pp N Ca (c & H) H2 Ip. destruct (Pf f N) as (_ & _ & _ & _ & _ & F). unfold most in F. rewrite Ca in F. apply F; [|intros c0 J; apply H2; apply consumers_iff; exact J|exact Ip]. intro E. apply consumers_iff in H. rewrite E in H. destruct H.
  Qed.
  Lemma nested_able : compute_innermost_locations g ord ds = UB -> exists f x, needed g outputs f /\ compute_at g f = Some (Some x).
  Proof. intro Q. destruct (locate_all_able g ds ord [] _ (inv_start) (so_nodup g outputs ord ds Sp) consumers_first Q) as (f & x & I & E). exists f, x. split; [apply (so_needed g outputs ord ds Sp); exact I|exact E]. Qed.
End Nested.
