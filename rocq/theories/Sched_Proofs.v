(** The order of the functions (C59). *)
From Coq Require Import ZArith List Bool Arith Lia.
From Verif Require Import Arith_Model Sched_Model Sched_Spec.
Import ListNotations.
Open Scope nat_scope.

Lemma mem_iff x l : mem x l = true <-> In x l.
Proof. unfold mem. rewrite existsb_exists. split; [intros (y & I & Q); apply Nat.eqb_eq in Q; subst; exact I|intro I; exists x; split; [exact I|apply Nat.eqb_refl]]. Qed.
Lemma mem_false x l : mem x l = false <-> ~ In x l. Proof. rewrite <- mem_iff. destruct (mem x l); split; congruence. Qed.
Lemma mem_app x a b : mem x (a ++ b) = mem x a || mem x b. Proof. apply existsb_app. Qed.
Definition edges (x : nat) (ds : list (nat * nat)) : list nat := map fst (filter (fun d => snd d =? x) ds).
Lemma edges_app x a b : edges x (a ++ b) = edges x a ++ edges x b. Proof. unfold edges. rewrite filter_app, map_app. reflexivity. Qed.
Lemma edges_in ds f p : In p (edges f ds) <-> In f (consumers ds p).
Proof.
  unfold edges, consumers. rewrite !in_map_iff. split; intros ((a, b) & Q & I); apply filter_In in I as (I & Q2); cbn [fst snd] in *; apply Nat.eqb_eq in Q2; subst; exists (p, f); (split; [reflexivity|]); apply filter_In; (split; [exact I|apply Nat.eqb_refl]).
Qed.

Lemma NoDup_app_one (l : list nat) x : NoDup l -> ~ In x l -> NoDup (l ++ [x]).
Proof. intros N I. induction N as [|y l Ny N IH]; cbn [app]; [constructor; [intros []|constructor]|]. constructor; [|apply IH; intro J; apply I; right; exact J]. intro J. apply in_app_or in J as [J|[->|[]]]; [exact (Ny J)|apply I; left; reflexivity]. Qed.
Lemma exists_last_or {A} (l : list A) : l = [] \/ exists l' y, l = l' ++ [y].
Proof. destruct l as [|x l]; [left; reflexivity|]. right. destruct (exists_last (l := x :: l)) as (l' & y & Q); [discriminate|]. eauto. Qed.

Section Sort.
  Variable g : graph.
  Notation sort_impl := (sort_impl g).
  Fixpoint sort_go (n f : nat) (proc : list nat) (l : list nat) (st : sorted) : option (res sorted) :=
    match l with
    | [] => Some (Val st)
    | p :: l' =>
        match sort_impl n (f :: proc) p (Sorted (visited st) (order st) (deps st ++ [(p, f)])) with
        | Some (Val st') => sort_go n f proc l' st'
        | r => r
        end
    end.
  Lemma sort_impl_S n proc f st : sort_impl (S n) proc f st =
    if mem f (visited st) then Some (Val st) else if mem f proc then Some UB else
      match sort_go n f proc (producers g f) st with Some (Val st') => Some (Val (Sorted (f :: visited st') (order st' ++ [f]) (deps st'))) | r => r end.
  Proof.
    cbn [Sched_Model.sort_impl]. destruct (mem f (visited st)); [reflexivity|]. destruct (mem f proc); [reflexivity|]. 
    assert (Q : forall l st, (fix go (l : list nat) (st : sorted) : option (res sorted) := match l with [] => Some (Val st) | p :: l' => match sort_impl n (f :: proc) p (Sorted (visited st) (order st) (deps st ++ [(p, f)])) with Some (Val st') => go l' st' | r => r end end) l st = sort_go n f proc l st).
    { induction l as [|p l IH]; intro st0; [reflexivity|]. cbn [sort_go]. destruct (sort_impl n (f :: proc) p _) as [[st'|]|]; [apply IH|reflexivity|reflexivity]. }
    rewrite Q. reflexivity.
  Qed.
  Lemma feeds_trans p q f : feeds g p q -> feeds g q f -> feeds g p f.
  Proof. intros A B. revert p A. induction B as [q f I|q r f B IH I]; intros p A; [exact (feeds_more g p q f A I)|exact (feeds_more g p r f (IH p A) I)]. Qed.
  Lemma feeds_needed outputs p f : feeds g p f -> needed g outputs f -> needed g outputs p.
  Proof. induction 1 as [p f I|p q f A IH I]; intro N; [exact (needed_producer g outputs f p N I)|apply IH; exact (needed_producer g outputs f q N I)]. Qed.

  (** Producers come first, before the order is reversed. *)
  Record ok (st : sorted) : Prop := {
    ok_visited : forall x, In x (visited st) <-> In x (order st);
    ok_nodup : NoDup (order st);
    ok_first : forall l1 f l2, order st = l1 ++ f :: l2 -> incl (producers g f) l1 }.
  Definition adds (proc : list nat) (st st' : sorted) (from : nat -> Prop) (own : nat -> list nat) : Prop :=
    ok st' /\ exists new, order st' = order st ++ new /\ (forall x, In x new -> ~ In x proc /\ from x) /\
      forall x, edges x (deps st') = edges x (deps st) ++ (if mem x new then producers g x else []) ++ own x.
  Definition clear (proc : list nat) (st : sorted) : Prop := forall x, In x proc -> ~ In x (order st).
  Definition none (x : nat) : list nat := [].
  Definition just (f : nat) (l : list nat) (x : nat) : list nat := if x =? f then l else [].
  Lemma nodup_apart (a b : list nat) x : NoDup (a ++ b) -> In x a -> ~ In x b.
  Proof.
    induction a as [|y a IH]; cbn [app]; intros N I J; [destruct I|]. inversion N as [|? ? N1 N2]; subst. destruct I as [->|I]; [apply N1; apply in_or_app; auto|exact (IH N2 I J)].
  Qed.
  Definition from (f x : nat) : Prop := x = f \/ feeds g x f.
  Lemma go_adds n f proc : (forall p st st', ok st -> clear (f :: proc) st -> sort_impl n (f :: proc) p st = Some (Val st') -> adds (f :: proc) st st' (from p) none /\ In p (order st')) ->
    forall l st st', incl l (producers g f) -> ok st -> clear (f :: proc) st -> sort_go n f proc l st = Some (Val st') -> adds (f :: proc) st st' (from f) (just f l) /\ incl l (order st').
  Proof.
    intros IHn l. induction l as [|p l IH]; intros st st' Hl K C Q; cbn [sort_go] in Q.
    - injection Q as <-. split; [|intros x []]. split; [exact K|]. exists []. split; [rewrite app_nil_r; reflexivity|]. split; [intros x []|]. intro x. cbn [mem existsb]. unfold just. destruct (x =? f); rewrite !app_nil_r; reflexivity.
    - set (st0 := Sorted (visited st) (order st) (deps st ++ [(p, f)])) in *. destruct (sort_impl n (f :: proc) p st0) as [[st1|]|] eqn:Q1; try discriminate.
      assert (K0 : ok st0) by (destruct K; constructor; assumption). destruct (IHn p st0 st1 K0 C Q1) as ((K1 & n1 & O1 & N1 & E1) & I1). change (order st0) with (order st) in O1.
      assert (C1 : clear (f :: proc) st1). { intros x I J. rewrite O1 in J. apply in_app_or in J as [J|J]; [exact (C x I J)|exact (proj1 (N1 x J) I)]. }
      destruct (IH st1 st' (fun x I => Hl x (or_intror I)) K1 C1 Q) as ((K2 & n2 & O2 & N2 & E2) & I2).
      split; [|intros x [<-|I]; [rewrite O2; apply in_or_app; auto|exact (I2 x I)]]. split; [exact K2|]. exists (n1 ++ n2). split; [rewrite O2, O1, app_assoc; reflexivity|]. split.
      + intros x I. apply in_app_or in I as [I|I]; [|exact (N2 x I)]. destruct (N1 x I) as (A & B). split; [exact A|]. assert (Ip : In p (producers g f)) by (apply Hl; left; reflexivity). right. destruct B as [->|B]; [exact (feeds_one g p f Ip)|exact (feeds_more g x p f B Ip)].
      + intro x. rewrite E2, E1, mem_app. unfold st0. cbn [deps]. rewrite edges_app. unfold none. rewrite app_nil_r, <- !app_assoc. f_equal.
        assert (Ex : edges x [(p, f)] = just f [p] x) by (unfold edges, just; cbn [filter snd]; rewrite (Nat.eqb_sym f x); destruct (x =? f); reflexivity). rewrite Ex. unfold just. destruct (Nat.eqb_spec x f) as [->|Nx].
        * assert (M1 : mem f n1 = false) by (apply mem_false; intro I; apply (proj1 (N1 f I)); left; reflexivity). assert (M2 : mem f n2 = false) by (apply mem_false; intro I; apply (proj1 (N2 f I)); left; reflexivity). rewrite M1, M2. reflexivity.
        * rewrite !app_nil_r. destruct (mem x n1) eqn:M1, (mem x n2) eqn:M2; cbn [orb app]; rewrite ?app_nil_r; try reflexivity.
          exfalso. apply mem_iff in M1, M2. pose proof (ok_nodup _ K2) as ND. rewrite O2, O1 in ND. exact (nodup_apart (order st ++ n1) n2 x ND (in_or_app _ _ _ (or_intror M1)) M2).
  Qed.
  Lemma impl_adds n : forall proc f st st', ok st -> clear proc st -> sort_impl n proc f st = Some (Val st') -> adds proc st st' (from f) none /\ In f (order st').
  Proof.
    assert (Same : forall proc f st, ok st -> In f (visited st) -> adds proc st st (from f) none /\ In f (order st)).
    { intros proc f st K I. split; [|apply (ok_visited st K); exact I]. split; [exact K|]. exists []. split; [rewrite app_nil_r; reflexivity|]. split; [intros x []|]. intro x. cbn [mem existsb]. unfold none. rewrite !app_nil_r. reflexivity. }
    induction n as [|n IHn]; intros proc f st st' K C Q.
    - cbn [Sched_Model.sort_impl] in Q. destruct (mem f (visited st)) eqn:M; [|discriminate]. injection Q as <-. apply Same; [exact K|apply mem_iff; exact M].
    - rewrite sort_impl_S in Q. destruct (mem f (visited st)) eqn:M; [injection Q as <-; apply Same; [exact K|apply mem_iff; exact M]|]. destruct (mem f proc) eqn:Mp; [discriminate|].
      destruct (sort_go n f proc (producers g f) st) as [[st1|]|] eqn:G; try discriminate. injection Q as <-.
      apply mem_false in M, Mp. assert (Nf : ~ In f (order st)) by (rewrite <- (ok_visited st K); exact M).
      assert (Cf : clear (f :: proc) st) by (intros x [<-|I]; [exact Nf|exact (C x I)]).
      destruct (go_adds n f proc (fun p s s' => IHn (f :: proc) p s s') (producers g f) st st1 (incl_refl _) K Cf G) as ((K1 & n1 & O1 & N1 & E1) & I1).
      assert (Nf1 : ~ In f (order st1)). { rewrite O1. intro I. apply in_app_or in I as [I|I]; [exact (Nf I)|]. apply (proj1 (N1 f I)). left. reflexivity. }
      split; [|cbn [order]; apply in_or_app; right; left; reflexivity]. split.
      + constructor; cbn [visited order].
        * intro x. rewrite in_app_iff. cbn [In]. rewrite (ok_visited st1 K1). tauto.
        * apply NoDup_app_one; [exact (ok_nodup st1 K1)|exact Nf1].
        * intros l1 f0 l2 Q. destruct (exists_last_or l2) as [->|(l3 & y & ->)].
          -- apply app_inj_tail in Q as (<- & <-). exact I1.
          -- change (f0 :: l3 ++ [y]) with ((f0 :: l3) ++ [y]) in Q. rewrite app_assoc in Q. apply app_inj_tail in Q as (Q & _). exact (ok_first st1 K1 _ _ _ Q).
      + exists (n1 ++ [f]). cbn [order deps]. split; [rewrite O1, app_assoc; reflexivity|]. split.
        * intros x I. apply in_app_or in I as [I|[<-|[]]]; [|split; [exact Mp|left; reflexivity]]. destruct (N1 x I) as (A & B). split; [intro J; apply A; right; exact J|exact B].
        * intro x. rewrite E1, mem_app. unfold none, just. rewrite app_nil_r. destruct (Nat.eqb_spec x f) as [->|Nx].
          -- assert (M1 : mem f n1 = false) by (apply mem_false; intro I; apply (proj1 (N1 f I)); left; reflexivity). rewrite M1. cbn [mem existsb orb app]. rewrite Nat.eqb_refl. reflexivity.
          -- rewrite app_nil_r. replace (mem x [f]) with false by (symmetry; apply mem_false; intros [Q|[]]; congruence). rewrite orb_false_r. reflexivity.
  Qed.
  Lemma impl_cycle n : forall proc f st, (forall x, In x proc -> feeds g f x) -> sort_impl n proc f st = Some UB -> exists x, feeds g x x /\ from f x.
  Proof.
    induction n as [|n IHn]; intros proc f st C Q; [cbn [Sched_Model.sort_impl] in Q; destruct (mem f (visited st)); discriminate|]. rewrite sort_impl_S in Q. destruct (mem f (visited st)); [discriminate|]. destruct (mem f proc) eqn:M.
    - apply mem_iff in M. exists f. split; [exact (C f M)|left; reflexivity].
    - assert (G : forall l st, incl l (producers g f) -> sort_go n f proc l st = Some UB -> exists x, feeds g x x /\ from f x).
      { induction l as [|p l IH]; intros st0 Hl Q0; cbn [sort_go] in Q0; [discriminate|]. assert (Ip : In p (producers g f)) by (apply Hl; left; reflexivity).
        destruct (sort_impl n (f :: proc) p _) as [[st1|]|] eqn:Q1; [exact (IH st1 (fun x I => Hl x (or_intror I)) Q0)| |discriminate].
        assert (C' : forall x, In x (f :: proc) -> feeds g p x) by (intros x [<-|J]; [exact (feeds_one g p f Ip)|exact (feeds_trans p f x (feeds_one g p f Ip) (C x J))]).
        destruct (IHn (f :: proc) p _ C' Q1) as (x & A & B).
        exists x. split; [exact A|]. right. destruct B as [->|B]; [exact (feeds_one g p f Ip)|exact (feeds_more g x p f B Ip)]. }
      destruct (sort_go n f proc (producers g f) st) as [[st1|]|] eqn:Q1; try discriminate. exact (G _ st (incl_refl _) Q1).
  Qed.
  Lemma impl_ends U : (forall f, In f U -> incl (producers g f) U) -> forall n proc f st, NoDup proc -> incl proc U -> In f U -> length U < n + length proc -> sort_impl n proc f st <> None.
  Proof.
    intro Cl. induction n as [|n IHn]; intros proc f st Np Ip If L.
    - exfalso. pose proof (NoDup_incl_length Np Ip). lia.
    - rewrite sort_impl_S. destruct (mem f (visited st)); [discriminate|]. destruct (mem f proc) eqn:M; [discriminate|]. apply mem_false in M.
      assert (G : forall l st, incl l (producers g f) -> sort_go n f proc l st <> None).
      { induction l as [|p l IH]; intros st0 Hl; cbn [sort_go]; [discriminate|].
        pose proof (IHn (f :: proc) p (Sorted (visited st0) (order st0) (deps st0 ++ [(p, f)])) (NoDup_cons f M Np) (incl_cons If Ip)
          (Cl f If p (Hl p (or_introl eq_refl))) ltac:(cbn [length]; lia)) as R.
        destruct (sort_impl n (f :: proc) p _) as [[st1|]|]; [exact (IH st1 (fun x I => Hl x (or_intror I)))|discriminate|congruence]. }
      specialize (G (producers g f) st (incl_refl _)). destruct (sort_go n f proc (producers g f) st) as [[st1|]|]; [discriminate|discriminate|congruence].
  Qed.

  Lemma all_adds n : forall l st st', ok st -> sort_all g n l st = Some (Val st') -> adds [] st st' (fun x => exists f, In f l /\ from f x) none /\ incl l (order st').
  Proof.
    induction l as [|f l IH]; intros st st' K Q; cbn [sort_all] in Q.
    - injection Q as <-. split; [|intros x []]. split; [exact K|]. exists []. split; [rewrite app_nil_r; reflexivity|]. split; [intros x []|]. intro x. cbn [mem existsb]. unfold none. rewrite !app_nil_r. reflexivity.
    - destruct (sort_impl n [] f st) as [[st1|]|] eqn:Q1; try discriminate. destruct (impl_adds n [] f st st1 K (fun x I => match I with end) Q1) as ((K1 & n1 & O1 & N1 & E1) & I1). destruct (IH st1 st' K1 Q) as ((K2 & n2 & O2 & N2 & E2) & I2).
      split; [|intros x [<-|I]; [rewrite O2; apply in_or_app; auto|exact (I2 x I)]]. split; [exact K2|]. exists (n1 ++ n2). split; [rewrite O2, O1, app_assoc; reflexivity|]. split.
      + intros x I. split; [intros []|]. apply in_app_or in I as [I|I]; [exists f; split; [left; reflexivity|exact (proj2 (N1 x I))]|]. destruct (proj2 (N2 x I)) as (f0 & A & B). exists f0. split; [right; exact A|exact B].
      + intro x. rewrite E2, E1, mem_app. unfold none. rewrite !app_nil_r, <- !app_assoc. f_equal. destruct (mem x n1) eqn:M1, (mem x n2) eqn:M2; cbn [orb app]; rewrite ?app_nil_r; try reflexivity.
        exfalso. apply mem_iff in M1, M2. pose proof (ok_nodup _ K2) as ND. rewrite O2, O1 in ND. exact (nodup_apart (order st ++ n1) n2 x ND (in_or_app _ _ _ (or_intror M1)) M2).
  Qed.
  Lemma all_cycle n : forall l st, sort_all g n l st = Some UB -> exists f x, In f l /\ feeds g x x /\ from f x.
  Proof.
    induction l as [|f l IH]; intros st Q; cbn [sort_all] in Q; [discriminate|]. destruct (sort_impl n [] f st) as [[st1|]|] eqn:Q1; try discriminate.
    - destruct (IH st1 Q) as (f0 & x & A & B). exists f0, x. split; [right; exact A|exact B].
    - destruct (impl_cycle n [] f st (fun x I => match I with end) Q1) as (x & A & B). exists f, x. split; [left; reflexivity|auto].
  Qed.
  Lemma all_ends U : (forall f, In f U -> incl (producers g f) U) -> forall n, length U < n -> forall l st, incl l U -> sort_all g n l st <> None.
  Proof.
    intros Cl n L. induction l as [|f l IH]; intros st I; cbn [sort_all]; [discriminate|]. pose proof (impl_ends U Cl n [] f st (NoDup_nil _) (incl_nil_l _) (I f (or_introl eq_refl)) ltac:(cbn [length]; lia)) as R.
    destruct (sort_impl n [] f st) as [[st1|]|]; [apply IH; intros x J; apply I; right; exact J|discriminate|congruence].
  Qed.
  Definition st_empty := Sorted [] [] [].
  Lemma ok_empty : ok st_empty.
  Proof. constructor; cbn [visited order st_empty]; [tauto|constructor|]. intros [|? ?] f l2 Q; discriminate Q. Qed.

  Record sort_spec (outputs ord : list nat) (ds : list (nat * nat)) : Prop := {
    so_nodup : NoDup ord;
    so_needed : forall f, In f ord <-> needed g outputs f;
    so_before : forall f p, needed g outputs f -> In p (producers g f) -> before f p ord;
    so_edges : forall f, edges f ds = if mem f ord then producers g f else [] }.
  Lemma sort_sound n outputs ord ds : topological_sort g n outputs = Some (Val (ord, ds)) -> sort_spec outputs ord ds.
  Proof.
    unfold topological_sort. fold st_empty. destruct (sort_all g n outputs st_empty) as [[st|]|] eqn:Q; try discriminate. intro E. injection E as <- <-.
    destruct (all_adds n outputs st_empty st ok_empty Q) as ((K & new & O & N & Ed) & Io). cbn [order st_empty app] in O. subst new.
    assert (Hn : forall f, In f (order st) <-> needed g outputs f).
    { intro f. split.
      - intro I. destruct (N f I) as (_ & f0 & I0 & F). pose proof (needed_output g outputs f0 I0) as N0. destruct F as [->|F]; [exact N0|exact (feeds_needed outputs f f0 F N0)].
      - induction 1 as [f I|f p Nf IH I]; [exact (Io f I)|]. destruct (in_split _ _ IH) as (l1 & l2 & Q2). pose proof (ok_first st K _ _ _ Q2 p I) as J. rewrite Q2. apply in_or_app. auto. }
    constructor.
    - apply NoDup_rev. exact (ok_nodup st K).
    - intro f. rewrite <- in_rev. apply Hn.
    - intros f p Nf I. apply Hn in Nf. destruct (in_split _ _ Nf) as (l1 & l2 & Q2). pose proof (ok_first st K _ _ _ Q2 p I) as J. destruct (in_split _ _ J) as (l3 & l4 & ->). exists (rev l2), (rev l4), (rev l3).
      rewrite Q2. rewrite !rev_app_distr. cbn [rev]. rewrite <- !app_assoc. reflexivity.
    - intro f. specialize (Ed f). cbn [deps st_empty] in Ed. rewrite Ed. unfold none. rewrite app_nil_r. cbn [edges filter map app].
      assert (M : mem f (rev (order st)) = mem f (order st)). { apply eq_true_iff_eq. rewrite !mem_iff, <- in_rev. tauto. } rewrite M. reflexivity.
  Qed.
  Lemma before_pos (l : list nat) x y : NoDup l -> before x y l -> ~ before y x l /\ x <> y.
  Proof.
    intros N (l1 & l2 & l3 & ->). assert (Ne : x <> y) by (intros ->; apply NoDup_remove_2 in N; apply N; apply in_or_app; right; apply in_or_app; right; left; reflexivity). split; [|exact Ne].
    intros (m1 & m2 & m3 & Q).
    revert m1 m2 m3 Q N. induction l1 as [|a l1 IH]; intros m1 m2 m3 Q N; cbn [app] in *.
    - apply NoDup_cons_iff in N as (N1 & N2). destruct m1 as [|b m1]; cbn [app] in Q; injection Q as E Q; [congruence|]. subst b. apply N1. rewrite Q. apply in_or_app. right. right. apply in_or_app. right. left. reflexivity.
    - apply NoDup_cons_iff in N as (N1 & N2). destruct m1 as [|b m1]; cbn [app] in Q; injection Q as E Q; [|exact (IH _ _ _ Q N2)]. subst a. apply N1. apply in_or_app. right. right. apply in_or_app. right. left. reflexivity.
  Qed.
  Lemma before_trans (l : list nat) x y z : NoDup l -> before x y l -> before y z l -> before x z l.
  Proof.
    intros N (l1 & l2 & l3 & Q) (m1 & m2 & m3 & Q2). assert (E : l1 ++ x :: l2 = m1).
    { rewrite Q in Q2, N. rewrite app_comm_cons, app_assoc in Q2, N. clear Q. revert m1 Q2 N. generalize (l1 ++ x :: l2). intro a. induction a as [|b a IH]; intros m1 Q2 N; cbn [app] in *.
      - destruct m1 as [|c m1]; [reflexivity|]. cbn [app] in Q2. injection Q2 as E Q2. subst c. apply NoDup_cons_iff in N as (N1 & N2). exfalso. apply N1. rewrite Q2. apply in_or_app. right. left. reflexivity.
      - destruct m1 as [|c m1]; cbn [app] in Q2; injection Q2 as E Q2. + subst b. apply NoDup_cons_iff in N as (N1 & N2). exfalso. apply N1. apply in_or_app. right. left. reflexivity. + subst c. f_equal. apply NoDup_cons_iff in N as (N1 & N2). apply IH; assumption. }
    exists l1, (l2 ++ y :: m2), m3. rewrite Q2, <- E. rewrite <- !app_assoc. cbn [app]. rewrite <- ?app_assoc. reflexivity.
  Qed.
  Lemma spec_acyclic outputs ord ds : sort_spec outputs ord ds -> ~ cyclic g outputs.
  Proof.
    intros Sp (f & N & F). assert (G : forall p q, feeds g p q -> needed g outputs q -> before q p ord).
    { induction 1 as [p q I|p q r A IH I]; intro Nr; [exact (so_before _ _ _ Sp q p Nr I)|]. pose proof (needed_producer g outputs r q Nr I) as Nq. exact (before_trans ord r q p (so_nodup _ _ _ Sp) (so_before _ _ _ Sp r q Nr I) (IH Nq)). }
    pose proof (G f f F N) as B. destruct (before_pos ord f f (so_nodup _ _ _ Sp) B) as (_ & H). congruence.
  Qed.
End Sort.
