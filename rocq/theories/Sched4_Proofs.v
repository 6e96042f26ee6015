(** The calls and loops that are made (C60). *)
From Coq Require Import ZArith List Bool Arith Lia.
From Verif Require Import Arith_Model Arith_Proofs Sched_Model Sched_Spec Sched_Proofs Sched2_Proofs Sched3_Proofs.
Import ListNotations.
Open Scope nat_scope.

Lemma before_in_l {A} (x y : A) l : before x y l -> In x l. Proof. intros (a & b & c & ->). apply in_or_app. right. left. reflexivity. Qed.
Lemma before_in_r {A} (x y : A) l : before x y l -> In y l. Proof. intros (a & b & c & ->). apply in_or_app. right. right. apply in_or_app. right. left. reflexivity. Qed.
Lemma before_app_l {A} (x y : A) a b : before x y a -> before x y (a ++ b). Proof. intros (l1 & l2 & l3 & ->). exists l1, l2, (l3 ++ b). rewrite <- app_assoc. cbn [app]. rewrite <- app_assoc. reflexivity. Qed.
Lemma before_app_r {A} (x y : A) a b : before x y b -> before x y (a ++ b). Proof. intros (l1 & l2 & l3 & ->). exists (a ++ l1), l2, l3. rewrite <- app_assoc. reflexivity. Qed.
Lemma before_app {A} (x y : A) a b : In x a -> In y b -> before x y (a ++ b).
Proof. intros I J. destruct (in_split _ _ I) as (a1 & a2 & ->), (in_split _ _ J) as (b1 & b2 & ->). exists a1, (a2 ++ b1), b2. rewrite <- !app_assoc. reflexivity. Qed.
Lemma before_rev {A} (x y : A) l : before x y l -> before y x (rev l).
Proof. intros (a & b & c & ->). exists (rev c), (rev b), (rev a). rewrite rev_app_distr. cbn [rev]. rewrite rev_app_distr. cbn [rev]. rewrite <- !app_assoc. reflexivity. Qed.
Lemma before_flat {A B} (f : A -> list B) k k' x y l : before k k' l -> In x (f k) -> In y (f k') -> before x y (flat_map f l).
Proof. intros (a & b & c & ->) I J. rewrite flat_map_app. apply before_app_r. cbn [flat_map]. apply before_app; [exact I|]. rewrite flat_map_app. apply in_or_app. right. cbn [flat_map]. apply in_or_app. left. exact J. Qed.
Lemma before_flat_in {A B} (f : A -> list B) k x y l : In k l -> before x y (f k) -> before x y (flat_map f l).
Proof. intros I H. destruct (in_split _ _ I) as (a & b & ->). rewrite flat_map_app. apply before_app_r. cbn [flat_map]. apply before_app_l. exact H. Qed.
Lemma nodup_app {A} (a b : list A) : NoDup a -> NoDup b -> (forall x, In x a -> ~ In x b) -> NoDup (a ++ b).
Proof. induction 1 as [|x a Nx N IH]; intros Nb D; [exact Nb|]. cbn [app]. constructor; [|apply IH; [exact Nb|intros y I; apply D; right; exact I]]. intro J. apply in_app_or in J as [J|J]; [exact (Nx J)|exact (D x (or_introl eq_refl) J)]. Qed.
Lemma nodup_flat {A B} (f : A -> list B) l : NoDup l -> (forall k, In k l -> NoDup (f k)) -> (forall k k' x, In k l -> In k' l -> In x (f k) -> In x (f k') -> k = k') -> NoDup (flat_map f l).
Proof.
  induction 1 as [|k l Nk N IH]; intros H D; [constructor|]. cbn [flat_map]. apply nodup_app; [apply H; left; reflexivity|apply IH; [intros k' I; apply H; right; exact I|intros a b x Ia Ib; apply D; right; assumption]|].
  intros x I J. apply in_flat_map in J as (k' & I' & J). assert (k = k') by exact (D k k' x (or_introl eq_refl) (or_intror I') I J). subst k'. exact (Nk I').
Qed.
Lemma before_cases {A} (dec : forall x y : A, {x = y} + {x <> y}) (l : list A) x y : In x l -> In y l -> x = y \/ before x y l \/ before y x l.
Proof.
  intros I J. destruct (dec x y) as [E|N]; [left; exact E|right]. destruct (in_split _ _ I) as (a & b & ->). apply in_app_or in J as [J|[J|J]]; [right|congruence|left].
  - apply before_app; [exact J|left; reflexivity].
  - destruct (in_split _ _ J) as (c & d & ->). exists a, c, d. reflexivity.
Qed.

Fixpoint names (i : item) : list nat := match i with Call f => [f] | Loop f v b => flat_map names b end.
Lemma calls_names i : forall P, map snd (calls_of P i) = names i.
Proof.
  revert i. fix IH 1. intros [f|f v b] P; [reflexivity|]. cbn [calls_of names]. revert b. fix IHb 1. intros [|x b]; [reflexivity|]. cbn [flat_map]. rewrite map_app, IH. f_equal. apply IHb.
Qed.
Lemma ids_names P l : map snd (calls P l) = flat_map names l.
Proof. induction l as [|x l IH]; [reflexivity|]. unfold calls in *. cbn [flat_map]. rewrite map_app, calls_names, IH. reflexivity. Qed.

Section Items.
  Variable g : graph.
  Variable outputs ord : list nat.
  Variable ds : list (nat * nat).
  Variable st : locations.
  Variable outer nest : nat -> list (nat * nat).
  Hypothesis Sp : sort_spec g outputs ord ds.
  Hypothesis Ne : nested g outputs outer nest.
  Hypothesis Lv : forall f, In f ord -> at_level st f = innermost (outer f) /\ call_level st f = innermost (nest f).
  Hypothesis Dl : forall f, In f ord -> NoDup (loops g f).
  Let Nd := so_nodup g outputs ord ds Sp.
  Lemma need f : In f ord <-> needed g outputs f. Proof. exact (so_needed g outputs ord ds Sp f). Qed.
  Lemma nest_eq f : In f ord -> nest f = outer f ++ own g f. Proof. intro I. apply (nest_own _ _ _ _ Ne). apply need. exact I. Qed.
  Lemma ord_ind (P : nat -> Prop) : (forall f, In f ord -> (forall c, before c f ord -> P c) -> P f) -> forall f, In f ord -> P f.
  Proof.
    intros H f I. destruct (in_split _ _ I) as (l1 & l2 & E). clear I. assert (G : forall n l1 f l2, length l1 <= n -> ord = l1 ++ f :: l2 -> P f).
    { induction n as [|n IH]; intros a x b L Q; apply H; try (rewrite Q; apply in_or_app; right; left; reflexivity); intros c (m1 & m2 & m3 & Qc).
      - destruct a as [|? ?]; [|cbn [length] in L; lia]. exfalso. rewrite Q in Qc. assert (ND := Nd). rewrite Q in ND. cbn [app] in *. apply NoDup_cons_iff in ND as (N1 & _). destruct m1 as [|y m1]; cbn [app] in Qc; injection Qc as E1 Qc; apply N1; rewrite Qc; apply in_or_app; right; [left; reflexivity|right; apply in_or_app; right; left; reflexivity].
      - apply (IH m1 c (m2 ++ x :: m3)); [|exact Qc]. assert (Em : m1 ++ c :: m2 = a).
        { assert (ND := Nd). rewrite Q in Qc, ND. rewrite app_comm_cons, app_assoc in Qc. revert Qc ND. generalize (m1 ++ c :: m2). clear. intro d. revert a. induction d as [|y d IH]; intros a Q ND; destruct a as [|z a]; cbn [app] in *; [reflexivity| | |].
          - injection Q as E Q. subst z. apply NoDup_cons_iff in ND as (N1 & _). exfalso. apply N1. apply in_or_app. right. left. reflexivity.
          - injection Q as E Q. subst y. apply NoDup_cons_iff in ND as (N1 & _). exfalso. apply N1. rewrite Q. apply in_or_app. right. left. reflexivity.
          - injection Q as E Q. subst y. f_equal. apply NoDup_cons_iff in ND as (_ & ND). exact (IH a Q ND). }
        rewrite <- Em, app_length in L. cbn [length] in L. lia. }
    exact (G (length l1) l1 f l2 (le_n _) E).
  Qed.
  Lemma outer_cases f : In f ord -> outer f = [] \/ exists c, before c f ord /\ prefix (outer f) (nest c).
  Proof.
    intro I. apply need in I. destruct (consumers ds f) as [|c l] eqn:E.
    - left. apply (nest_output _ _ _ _ Ne f I). intros c H. apply (consumers_iff g outputs ord ds Sp) in H. rewrite E in H. destruct H.
    - right. exists c. assert (H : consumed g outputs f c) by (apply (consumers_iff g outputs ord ds Sp); rewrite E; left; reflexivity). split; [exact (so_before _ _ _ _ Sp c f (proj1 H) (proj2 H))|exact (nest_consumer _ _ _ _ Ne f c I H)].
  Qed.
  Lemma own_in f k v : In (k, v) (own g f) -> k = f. Proof. unfold own. intro I. apply in_map_iff in I as (w & E & _). congruence. Qed.
  (** a loop around a function is one of a function that comes before it, or its own *)
  Lemma nest_label f : In f ord -> forall k v, In (k, v) (nest f) -> k = f \/ before k f ord.
  Proof.
    revert f. apply (ord_ind (fun f => forall k v, In (k, v) (nest f) -> k = f \/ before k f ord)). intros f I IH k v J. rewrite (nest_eq f I) in J. apply in_app_or in J as [J|J]; [|left; exact (own_in f k v J)]. right.
    destruct (outer_cases f I) as [E|(c & B & (r & E))]; [rewrite E in J; destruct J|]. destruct (IH c B k v) as [->|B2]; [rewrite E; apply in_or_app; left; exact J|exact B|exact (before_trans ord k c f Nd B2 B)].
  Qed.
  Lemma outer_label f : In f ord -> forall k v, In (k, v) (outer f) -> before k f ord.
  Proof.
    intros I k v J. destruct (outer_cases f I) as [E|(c & B & (r & E))]; [rewrite E in J; destruct J|]. destruct (nest_label c (before_in_l _ _ _ B) k v) as [->|B2]; [rewrite E; apply in_or_app; left; exact J|exact B|exact (before_trans ord k c f Nd B2 B)].
  Qed.
  Lemma outer_not_own f v : In f ord -> ~ In (f, v) (outer f). Proof. intros I J. destruct (before_pos ord f f Nd (outer_label f I f v J)) as (_ & H). congruence. Qed.
  Lemma prefix_parts {A} (P : list A) x a b : prefix (P ++ [x]) (a ++ b) -> prefix (P ++ [x]) a \/ (exists c d, b = c ++ x :: d /\ P = a ++ c).
  Proof.
    intros (r & Q). destruct (le_lt_dec (length (P ++ [x])) (length a)) as [L|L].
    - left. apply prefix_of with (a ++ b); [exists r; exact Q|exists b; reflexivity|exact L].
    - right. rewrite app_length in L. cbn [length] in L. assert (Pp : prefix a P). { apply prefix_of with (a ++ b); [exists b; reflexivity|exists ([x] ++ r); rewrite Q, <- app_assoc; reflexivity|lia]. } destruct Pp as (c & ->). exists c, r. split; [|reflexivity].
      rewrite <- !app_assoc in Q. apply app_inv_head in Q. exact Q.
  Qed.
  (** a loop is around its function, with the same loops around *)
  Lemma nest_loop f : In f ord -> forall P k w, prefix (P ++ [(k, w)]) (nest f) -> In k ord /\ prefix (P ++ [(k, w)]) (nest k).
  Proof.
    revert f. apply (ord_ind (fun f => forall P k w, prefix (P ++ [(k, w)]) (nest f) -> In k ord /\ prefix (P ++ [(k, w)]) (nest k))). intros f I IH P k w H. pose proof H as H0. rewrite (nest_eq f I) in H. apply prefix_parts in H as [H|(c & d & E & _)].
    - destruct (outer_cases f I) as [E|(c & B & H2)]; [rewrite E in H; destruct H as (r & Q); destruct P; discriminate|]. apply (IH c B). exact (prefix_trans _ _ _ H H2).
    - assert (k = f) by (apply (own_in f k w); rewrite E; apply in_or_app; right; left; reflexivity). subst k. auto.
  Qed.
  (** where the loop is among those of its function *)
  Lemma loop_own k P w : In k ord -> prefix (P ++ [(k, w)]) (nest k) -> exists a b, rev (loops g k) = a ++ w :: b /\ P = outer k ++ map (fun v => (k, v)) a.
  Proof.
    intros I H. rewrite (nest_eq k I) in H. apply prefix_parts in H as [(r & H)|(c & d & E & Ep)]; [exfalso; apply (outer_not_own k w I); rewrite H, <- app_assoc; apply in_or_app; right; left; reflexivity|].
    unfold own in E. assert (Q : rev (loops g k) = map snd c ++ w :: map snd d). { pose proof (f_equal (map snd) E) as Q. rewrite map_map, map_id, map_app in Q. exact Q. }
    exists (map snd c), (map snd d). split; [exact Q|]. rewrite Ep. f_equal. assert (H : forall x, In x c -> fst x = k).
    { intros (k', v) J. apply (own_in k k' v). unfold own. rewrite E. apply in_or_app. left. exact J. }
    clear - H. induction c as [|(k', v) c IH]; [reflexivity|]. cbn [map snd]. f_equal; [rewrite <- (H (k', v) (or_introl eq_refl)); reflexivity|]. apply IH. intros x I. apply H. right. exact I.
  Qed.
  Lemma dl f : In f ord -> NoDup (rev (loops g f)). Proof. intro I. apply NoDup_rev. exact (Dl f I). Qed.
  Lemma split_once (x : nat) (a b c d : list nat) : NoDup (a ++ x :: b) -> a ++ x :: b = c ++ x :: d -> a = c.
  Proof.
    revert c. induction a as [|y a IH]; intros c N Q; destruct c as [|z c]; cbn [app] in *; [reflexivity| | |].
    - injection Q as E Q. subst z. apply NoDup_cons_iff in N as (N & _). exfalso. apply N. rewrite Q. apply in_or_app. right. left. reflexivity.
    - injection Q as E Q. subst y. apply NoDup_cons_iff in N as (N & _). exfalso. apply N. apply in_or_app. right. left. reflexivity.
    - injection Q as E Q. subst z. f_equal. apply NoDup_cons_iff in N as (_ & N). exact (IH c N Q).
  Qed.
  (** A loop is in one place only. *)
  Lemma level_unique f h P Q : In f ord -> In h ord -> prefix P (nest f) -> prefix Q (nest h) -> innermost P = innermost Q -> P = Q.
  Proof.
    intros If Ih Pf Ph E. destruct (exists_last_or P) as [->|(P' & (k, w) & ->)], (exists_last_or Q) as [->|(Q' & (k', w') & ->)]; rewrite ?innermost_snoc in E; try reflexivity; try discriminate.
    injection E as <- <-. destruct (nest_loop f If P' k w Pf) as (Ik & A), (nest_loop h Ih Q' k w Ph) as (_ & B). destruct (loop_own k P' w Ik A) as (a & b & E1 & ->), (loop_own k Q' w Ik B) as (c & d & E2 & ->).
    assert (a = c). { apply (split_once w a b c d); [rewrite <- E1; exact (dl k Ik)|congruence]. } subst c. reflexivity.
  Qed.

  (** *** Blocks *)
  Definition first_loop (k : nat) : option nat := match rev (loops g k) with [] => None | v :: _ => Some v end.
  Definition owner (P : list (nat * nat)) (h k : nat) : Prop := (nest h = P /\ k = h) \/ exists v, first_loop k = Some v /\ outer k = P /\ prefix (P ++ [(k, v)]) (nest h).
  Definition inside (P : list (nat * nat)) (h : nat) : Prop := In h ord /\ prefix P (nest h).
  Definition valid (P : list (nat * nat)) : Prop := P = [] \/ exists f, In f ord /\ prefix P (nest f).
  Lemma prefix_snoc_eq {A} (P l : list A) x y : prefix (P ++ [x]) l -> prefix (P ++ [y]) l -> x = y.
  Proof. intros (r & Q) (s & Q2). rewrite Q, <- !app_assoc in Q2. apply app_inv_head in Q2. cbn [app] in Q2. congruence. Qed.
  Lemma prefix_snoc_not {A} (P : list A) x : ~ prefix (P ++ [x]) P. Proof. intro H. apply prefix_length in H. rewrite app_length in H. cbn [length] in H. lia. Qed.
  Lemma owner_unique P h k k' : owner P h k -> owner P h k' -> k = k'.
  Proof.
    intros [(E & ->)|(v & F & O & H)] [(E' & ->)|(v' & F' & O' & H')]; try reflexivity.
    - exfalso. rewrite E in H'. exact (prefix_snoc_not _ _ H').
    - exfalso. rewrite E' in H. exact (prefix_snoc_not _ _ H).
    - pose proof (prefix_snoc_eq _ _ _ _ H H'). congruence.
  Qed.
  Lemma owner_inside P h k : owner P h k -> prefix P (nest h).
  Proof. intros [(<- & _)|(v & _ & _ & (r & ->))]; [apply prefix_refl|]. exists ([(k, v)] ++ r). rewrite <- app_assoc. reflexivity. Qed.
  Lemma before_pc p c : In c ord -> In p (producers g c) -> before c p ord. Proof. intros I J. apply (so_before _ _ _ _ Sp); [apply need; exact I|exact J]. Qed.
  Lemma outer_prefix p c P k w : In p ord -> In c ord -> In p (producers g c) -> k <> p -> prefix (P ++ [(k, w)]) (nest p) -> prefix (P ++ [(k, w)]) (nest c).
  Proof.
    intros Ip Ic J Nk H. rewrite (nest_eq p Ip) in H. apply prefix_parts in H as [H|(a & b & E & _)].
    - apply (prefix_trans _ (outer p)); [exact H|]. apply (nest_consumer _ _ _ _ Ne); [apply need; exact Ip|]. split; [apply need; exact Ic|exact J].
    - exfalso. apply Nk. apply (own_in p k w). rewrite E. apply in_or_app. right. left. reflexivity.
  Qed.
  Lemma owner_before P p c kp kc : In p ord -> In c ord -> In p (producers g c) -> In kp ord -> In kc ord -> owner P p kp -> owner P c kc -> kp <> kc -> before kc kp ord.
  Proof.
    intros Ip Ic J Ikp Ikc Op Oc Nk. pose proof (before_pc p c Ic J) as Bcp.
    assert (Bc : kc = c \/ before kc c ord). { destruct Oc as [(_ & ->)|(v & _ & _ & (r & E))]; [left; reflexivity|]. apply (nest_label c Ic kc v). rewrite E, <- app_assoc. apply in_or_app. right. left. reflexivity. }
    assert (Bp : before kc p ord) by (destruct Bc as [->|Bc]; [exact Bcp|exact (before_trans ord kc c p Nd Bc Bcp)]).
    destruct Op as [(_ & ->)|(w & Fw & Ow & H)]; [exact Bp|]. destruct (Nat.eq_dec kp p) as [->|Np]; [exact Bp|]. exfalso.
    pose proof (outer_prefix p c P kp w Ip Ic J Np H) as Hc. destruct Oc as [(E & ->)|(v & Fv & Ov & Hv)].
    - rewrite E in Hc. exact (prefix_snoc_not _ _ Hc).
    - pose proof (prefix_snoc_eq _ _ _ _ Hc Hv). congruence.
  Qed.
  (** Each function inside has an owner, or is in the next loop of the same function. *)
  Lemma owner_exists P h : valid P -> inside P h -> (exists k, In k ord /\ owner P h k) \/ exists P' f v w a b, P = P' ++ [(f, v)] /\ In f ord /\ prefix (P ++ [(f, w)]) (nest h) /\ rev (loops g f) = a ++ v :: w :: b /\ P' = outer f ++ map (fun v => (f, v)) a.
  Proof.
    intros V (I & (r & E)). destruct r as [|(k, w) r]; [left; exists h; split; [exact I|left; split; [rewrite E, app_nil_r; reflexivity|reflexivity]]|].
    assert (H : prefix (P ++ [(k, w)]) (nest h)) by (exists r; rewrite E, <- app_assoc; reflexivity). destruct (nest_loop h I P k w H) as (Ik & Hk). destruct (loop_own k P w Ik Hk) as (a & b & El & Ep).
    destruct (exists_last_or a) as [->|(a' & v & ->)].
    - left. exists k. split; [exact Ik|]. right. exists w. unfold first_loop. rewrite El. split; [reflexivity|]. split; [rewrite Ep; cbn [map]; rewrite app_nil_r; reflexivity|exact H].
    - right. exists (outer k ++ map (fun v => (k, v)) a'), k, v, w, a', b. split; [rewrite Ep, map_app, app_assoc; reflexivity|]. split; [exact Ik|]. split; [exact H|]. split; [rewrite El, <- app_assoc; reflexivity|reflexivity].
  Qed.

  (** *** The calls *)
  Definition ids (P : list (nat * nat)) (l : list item) : list nat := map snd (calls P l).
  Lemma calls_app P a b : calls P (a ++ b) = calls P a ++ calls P b. Proof. apply flat_map_app. Qed.
  Lemma calls_loop P f v body : calls P [Loop f v body] = calls (P ++ [(f, v)]) body.
  Proof. unfold calls at 1. cbn [flat_map calls_of]. rewrite app_nil_r. unfold calls. induction body as [|x body IH]; [reflexivity|]. cbn [flat_map]. rewrite IH. reflexivity. Qed.
  (** the functions that are called, and that all calls in the loop of a variable are in one place *)
  Inductive complete : item -> Prop :=
  | complete_call f : complete (Call f)
  | complete_loop f v b : In f (flat_map names b) -> (forall h, In h ord -> In (f, v) (nest h) -> In h (flat_map names b)) -> Forall complete b -> complete (Loop f v b).
  Record good (P : list (nat * nat)) (In_ : nat -> Prop) (l : list item) : Prop := {
    gd_in : forall x, In x (calls P l) <-> exists h, In_ h /\ x = (nest h, h);
    gd_nodup : NoDup (ids P l);
    gd_before : forall p c, In p (producers g c) -> In_ p -> In_ c -> before p c (ids P l);
    gd_complete : Forall complete l }.
  Lemma good_ids P In_ l : good P In_ l -> forall h, In h (ids P l) <-> In_ h.
  Proof.
    intros G h. unfold ids. rewrite in_map_iff. split.
    - intros (x & E & I). apply (gd_in _ _ _ G) in I as (h' & H & ->). cbn [snd] in E. congruence.
    - intro H. exists (nest h, h). split; [reflexivity|]. apply (gd_in _ _ _ G). eauto.
  Qed.
  Section Level.
    Variable P : list (nat * nat).
    Variable V : valid P.
    Variable mk : nat -> list item.
    Definition block (k : nat) : list item :=
      if loop_eqb (at_level st k) (innermost P) && negb (match loops g k with [] => true | _ => false end) then mk k else if loop_eqb (call_level st k) (innermost P) then [Call k] else [].
    Lemma build_blocks make : (forall k, In k ord -> at_level st k = innermost P -> loops g k <> [] -> make k = Some (mk k)) -> build g ord st make (innermost P) = Some (flat_map block (rev ord)).
    Proof.
      intro H. unfold build. assert (G : forall l acc, incl l ord -> fold_left (fun r f => match r with
        | None => None
        | Some items =>
            if loop_eqb (at_level st f) (innermost P) && negb (match loops g f with [] => true | _ => false end)
            then match make f with Some i => Some (items ++ i) | None => None end
            else if loop_eqb (call_level st f) (innermost P) then Some (items ++ [Call f]) else Some items
        end) l (Some acc) = Some (acc ++ flat_map block l)).
      { induction l as [|k l IH]; intros acc I; cbn [fold_left flat_map]; [rewrite app_nil_r; reflexivity|]. assert (Ik : In k ord) by (apply I; left; reflexivity). assert (Il : incl l ord) by (intros x J; apply I; right; exact J). unfold block at 1.
        destruct (loop_eqb (at_level st k) (innermost P) && negb (match loops g k with [] => true | _ => false end)) eqn:Q.
        - apply andb_true_iff in Q as (Q1 & Q2). apply loop_eqb_iff in Q1. rewrite H; [|exact Ik|exact Q1|intro E; rewrite E in Q2; discriminate Q2]. rewrite IH by exact Il. rewrite app_assoc. reflexivity.
        - destruct (loop_eqb (call_level st k) (innermost P)); rewrite IH by exact Il; [rewrite app_assoc|]; reflexivity. }
      rewrite G; [reflexivity|]. intros x J. apply in_rev. exact J.
    Qed.
    Lemma level_outer k : In k ord -> (at_level st k = innermost P <-> outer k = P).
    Proof.
      intro I. rewrite (proj1 (Lv k I)). split; [|intros ->; reflexivity]. intro E. assert (Pk : prefix (outer k) (nest k)) by (rewrite (nest_eq k I); exists (own g k); reflexivity).
      destruct V as [->|(f & If & Pf)]; [apply (level_unique k k); auto; apply prefix_nil|]. exact (level_unique k f _ _ I If Pk Pf E).
    Qed.
    Lemma level_nest k : In k ord -> (call_level st k = innermost P <-> nest k = P).
    Proof.
      intro I. rewrite (proj2 (Lv k I)). split; [|intros ->; reflexivity]. intro E. destruct V as [->|(f & If & Pf)]; [apply (level_unique k k); auto; [apply prefix_refl|apply prefix_nil]|]. exact (level_unique k f _ _ I If (prefix_refl _) Pf E).
    Qed.
    Hypothesis Mk : forall k v, In k ord -> outer k = P -> first_loop k = Some v -> good P (inside (P ++ [(k, v)])) (mk k).
    Lemma block_good k : In k ord -> good P (fun h => In h ord /\ owner P h k) (block k).
    Proof.
      intro I. unfold block. destruct (loop_eqb (at_level st k) (innermost P) && negb (match loops g k with [] => true | _ => false end)) eqn:Q.
      - apply andb_true_iff in Q as (Q1 & Q2). apply loop_eqb_iff, level_outer in Q1; [|exact I]. assert (F : exists v, first_loop k = Some v).
        { unfold first_loop. destruct (rev (loops g k)) as [|v l] eqn:E; [|eauto]. apply (f_equal (@rev nat)) in E. rewrite rev_involutive in E. rewrite E in Q2. discriminate. }
        destruct F as (v & F). destruct (Mk k v I Q1 F) as [A B C D].
        assert (Eq : forall h, inside (P ++ [(k, v)]) h <-> In h ord /\ owner P h k).
        { intro h. unfold inside. split; intros (Ih & H); (split; [exact Ih|]); [right; exists v; auto|]. destruct H as [(E & ->)|(v' & F' & _ & H)]; [|congruence]. exfalso. rewrite <- Q1 in E. rewrite (nest_eq h I) in E. apply (f_equal (@length _)) in E. rewrite app_length in E. unfold own in E. rewrite map_length in E. unfold first_loop in F. destruct (rev (loops g h)); [discriminate|]. cbn [length] in E. lia. }
        constructor; [|exact B| |exact D].
        + intro x. rewrite A. split; intros (h & H & E); exists h; (split; [apply Eq; exact H|exact E]).
        + intros p c J Hp Hc. apply C; [exact J|apply Eq; exact Hp|apply Eq; exact Hc].
      - assert (No : outer k = P -> first_loop k = None).
        { intro E. apply level_outer in E; [|exact I]. apply loop_eqb_iff in E. rewrite E in Q. cbn [andb] in Q. unfold first_loop. destruct (loops g k); [reflexivity|discriminate]. }
        destruct (loop_eqb (call_level st k) (innermost P)) eqn:Q2.
        + apply loop_eqb_iff, level_nest in Q2; [|exact I]. constructor.
          * intro x. cbn [calls flat_map calls_of app In]. split.
            -- intros [<-|[]]. exists k. split; [split; [exact I|left; auto]|congruence].
            -- intros (h & (Ih & [(E & ->)|(v & F & O & _)]) & ->); [left; congruence|]. rewrite (No O) in F. discriminate.
          * cbn. constructor; [intros []|constructor].
          * intros p c J (Ip & Op) (Ic & Oc). exfalso. assert (p = k) by (destruct Op as [(_ & E)|(v & F & O & _)]; [congruence|rewrite (No O) in F; discriminate]). assert (c = k) by (destruct Oc as [(_ & E)|(v & F & O & _)]; [congruence|rewrite (No O) in F; discriminate]). subst p c. destruct (before_pos ord k k Nd (before_pc k k I J)) as (_ & H). congruence.
          * constructor; [constructor|constructor].
        + assert (Nn : forall h, owner P h k -> False).
          { intros h [(E & ->)|(v & F & O & _)]; [|rewrite (No O) in F; discriminate]. apply level_nest in E; [|exact I]. apply loop_eqb_iff in E. congruence. }
          constructor; [|constructor| |constructor].
          * intro x. split; [intros []|]. intros (h & (_ & H) & _). destruct (Nn h H).
          * intros p c _ (_ & H). destruct (Nn p H).
    Qed.
    Lemma blocks_good : good P (fun h => In h ord /\ exists k, In k ord /\ owner P h k) (flat_map block (rev ord)).
    Proof.
      assert (Cf : forall l, calls P (flat_map block l) = flat_map (fun k => calls P (block k)) l) by (induction l as [|k l IH]; [reflexivity|]; cbn [flat_map]; rewrite calls_app, IH; reflexivity).
      assert (If : forall l, ids P (flat_map block l) = flat_map (fun k => ids P (block k)) l) by (unfold ids; intro l; rewrite Cf; induction l as [|k l IH]; [reflexivity|]; cbn [flat_map]; rewrite map_app, IH; reflexivity).
      constructor.
      - intro x. rewrite Cf, in_flat_map. split.
        + intros (k & I & J). apply in_rev in I. apply (gd_in _ _ _ (block_good k I)) in J as (h & (Ih & O) & E). exists h. split; [split; [exact Ih|exists k; auto]|exact E].
        + intros (h & (Ih & k & Ik & O) & E). exists k. split; [apply in_rev; rewrite rev_involutive; exact Ik|]. apply (gd_in _ _ _ (block_good k Ik)). exists h. auto.
      - rewrite If. apply nodup_flat; [apply NoDup_rev; exact Nd| |].
        + intros k I. apply in_rev in I. exact (gd_nodup _ _ _ (block_good k I)).
        + intros k k' x I I' J J'. apply in_rev in I, I'. apply (good_ids _ _ _ (block_good k I)) in J as (_ & J). apply (good_ids _ _ _ (block_good k' I')) in J' as (_ & J'). exact (owner_unique P x k k' J J').
      - intros p c J (Ip & kp & Ikp & Op) (Ic & kc & Ikc & Oc). rewrite If. destruct (Nat.eq_dec kp kc) as [->|Nk].
        + apply before_flat_in with kc; [apply in_rev; rewrite rev_involutive; exact Ikc|]. apply (gd_before _ _ _ (block_good kc Ikc)); auto.
        + apply before_flat with kp kc; [apply before_rev; exact (owner_before P p c kp kc Ip Ic J Ikp Ikc Op Oc Nk)| |]; [apply (good_ids _ _ _ (block_good kp Ikp)); auto|apply (good_ids _ _ _ (block_good kc Ikc)); auto].
      - apply Forall_forall. intros x J. apply in_flat_map in J as (k & I & J). apply in_rev in I. pose proof (gd_complete _ _ _ (block_good k I)) as F. rewrite Forall_forall in F. exact (F x J).
    Qed.
  End Level.
  (** *** Enough fuel *)
  Definition size (l : list nat) : nat := fold_right (fun h n => S (length (loops g h)) + n) 0 l.
  Lemma size_app a b : size (a ++ b) = size a + size b. Proof. induction a as [|x a IH]; [reflexivity|]. cbn [app size fold_right] in *. unfold size in *. lia. Qed.
  Lemma good_ext P (A B : nat -> Prop) l : (forall h, A h <-> B h) -> good P A l -> good P B l.
  Proof. intros H [G1 G2 G3 G4]. constructor; [|exact G2|intros p c J Hp Hc; apply G3; [exact J|apply H; exact Hp|apply H; exact Hc]|exact G4]. intro x. rewrite G1. split; intros (h & Hh & E); exists h; (split; [apply H; exact Hh|exact E]). Qed.
  Lemma loop_complete P f v l : prefix P (nest f) -> innermost P = Some (f, v) -> In f ord -> good P (inside P) l -> complete (Loop f v l).
  Proof.
    intros Pn Ip If G. constructor; [rewrite <- (ids_names P); apply (good_ids _ _ _ G); split; assumption | |exact (gd_complete _ _ _ G)]. intros h Ih J. rewrite <- (ids_names P). apply (good_ids _ _ _ G). split; [exact Ih|].
    apply in_split in J as (a & b & E). assert (Q : a ++ [(f, v)] = P). { apply (level_unique h f); [exact Ih | exact If | exists b; rewrite E, <- app_assoc; reflexivity | exact Pn | rewrite Ip; apply innermost_snoc]. }
    rewrite <- Q. exists b. rewrite E, <- app_assoc. reflexivity.
  Qed.
  Lemma make_good n : forall f l1 l2 Q a v b, ord = l1 ++ f :: l2 -> rev (loops g f) = a ++ v :: b -> Q = outer f ++ map (fun v => (f, v)) a -> length (v :: b) + size l2 <= n ->
    exists items, make_loop g ord st n f (v :: b) = Some items /\ good Q (inside (Q ++ [(f, v)])) items.
  Proof.
    induction n as [|n IHn]; intros f l1 l2 Q a v b Eo El EQ Ln; [cbn [length] in Ln; lia|]. cbn [make_loop]. assert (If : In f ord) by (rewrite Eo; apply in_or_app; right; left; reflexivity).
    set (P := Q ++ [(f, v)]). assert (Pn : prefix P (nest f)). { rewrite (nest_eq f If). unfold own. rewrite El, map_app. cbn [map]. exists (map (fun v => (f, v)) b). unfold P. rewrite EQ, <- !app_assoc. reflexivity. }
    assert (V : valid P) by (right; exists f; auto). assert (Ip : innermost P = Some (f, v)) by apply innermost_snoc. rewrite <- Ip.
    (* functions that are computed in this loop *)
    assert (Hk : forall k, In k ord -> outer k = P -> forall w, first_loop k = Some w -> exists items, make_loop g ord st n k (rev (loops g k)) = Some items /\ good P (inside (P ++ [(k, w)])) items).
    { intros k Ik Ok w Fk. unfold first_loop in Fk. destruct (rev (loops g k)) as [|w' bk] eqn:Ek; [discriminate|]. injection Fk as ->.
      assert (B : before f k ord) by (apply (outer_label k Ik f v); rewrite Ok; unfold P; apply in_or_app; right; left; reflexivity). assert (Bk : exists m1 m2, l2 = m1 ++ k :: m2).
      { destruct B as (x1 & x2 & x3 & E). assert (ND := Nd). rewrite Eo in E, ND. assert (l1 = x1) by exact (split_once f l1 l2 x1 _ ND E). subst x1. apply app_inv_head in E. injection E as E. exists x2, x3. exact E. }
      destruct Bk as (m1 & m2 & ->). apply (IHn k (l1 ++ f :: m1) m2 P [] w bk).
      - rewrite Eo, <- app_assoc. reflexivity.
      - exact Ek.
      - cbn [map]. rewrite app_nil_r. congruence.
      - rewrite size_app in Ln. cbn [size fold_right length] in Ln. unfold size in *. cbn [fold_right] in Ln. assert (length (loops g k) = S (length bk)) by (rewrite <- rev_length, Ek; reflexivity). cbn [length]. lia. }
    set (mk := fun k => match make_loop g ord st n k (rev (loops g k)) with Some i => i | None => [] end).
    assert (Bl : build g ord st (fun h => make_loop g ord st n h (rev (loops g h))) (innermost P) = Some (flat_map (block P mk) (rev ord))).
    { apply build_blocks. intros k Ik Ak Lk. apply (level_outer P V k Ik) in Ak. assert (F : exists w, first_loop k = Some w). { unfold first_loop. destruct (rev (loops g k)) as [|w l] eqn:E; [|eauto]. apply (f_equal (@rev nat)) in E. rewrite rev_involutive in E. contradiction. }
      destruct F as (w & F). destruct (Hk k Ik Ak w F) as (items & E & _). unfold mk. rewrite E. reflexivity. }
    assert (G : good P (fun h => In h ord /\ exists k, In k ord /\ owner P h k) (flat_map (block P mk) (rev ord))).
    { apply blocks_good; [exact V|]. intros k w Ik Ok F. destruct (Hk k Ik Ok w F) as (items & E & G). unfold mk. rewrite E. exact G. }
    rewrite Bl. destruct b as [|w b].
    - exists [Loop f v (flat_map (block P mk) (rev ord))]. split; [reflexivity|]. fold P.
      assert (Eq : forall h, (In h ord /\ exists k, In k ord /\ owner P h k) <-> inside P h).
      { intro h. split; [intros (Ih & k & _ & O); split; [exact Ih|exact (owner_inside P h k O)]|]. intro Ih. split; [exact (proj1 Ih)|]. destruct (owner_exists P h V Ih) as [O|(P' & f' & v' & w' & a' & b' & E & If' & _ & El' & _)]; [exact O|]. exfalso. unfold P in E. apply app_inj_tail in E as (_ & E). injection E as <- <-.
        assert (ND := dl f If). rewrite El in El', ND. assert (a = a') by exact (split_once v a [] a' (w' :: b') ND El'). subst a'. apply app_inv_head in El'. discriminate. }
      pose proof (good_ext P _ _ _ Eq G) as GP. pose proof (loop_complete P f v _ Pn Ip If GP) as LC. destruct GP as [G1 G2 G3 G4]. constructor; unfold ids in *; try (rewrite calls_loop; assumption). constructor; [exact LC | constructor].
    - destruct (IHn f l1 l2 P (a ++ [v]) w b) as (inner & Ei & Gi); [exact Eo|rewrite El, <- app_assoc; reflexivity|unfold P; rewrite EQ, map_app, <- app_assoc; reflexivity|cbn [length] in *; lia|]. rewrite Ei. exists [Loop f v (flat_map (block P mk) (rev ord) ++ inner)]. split; [reflexivity|]. fold P.
      (* not both in the next loop and here *)
      assert (Nb : forall h k, In k ord -> owner P h k -> inside (P ++ [(f, w)]) h -> False).
      { intros h k Ik [(E & _)|(v' & _ & O & H)] (_ & H2); [rewrite E in H2; exact (prefix_snoc_not _ _ H2)|]. pose proof (prefix_snoc_eq _ _ _ _ H H2) as E. injection E as -> _. apply (outer_not_own f v If). rewrite O. unfold P. apply in_or_app. right. left. reflexivity. }
      assert (Eq : forall h, inside P h <-> (In h ord /\ exists k, In k ord /\ owner P h k) \/ inside (P ++ [(f, w)]) h).
      { intro h. split.
        - intro Ih. destruct (owner_exists P h V Ih) as [O|(P' & f' & v' & w' & a' & b' & E & If' & H & El' & _)]; [left; split; [exact (proj1 Ih)|exact O]|]. right. unfold P in E. apply app_inj_tail in E as (_ & E). injection E as <- <-.
          assert (ND := dl f If). rewrite El in El', ND. assert (a = a') by exact (split_once v a (w :: b) a' (w' :: b') ND El'). subst a'. apply app_inv_head in El'. injection El' as <- <-. split; [exact (proj1 Ih)|exact H].
        - intros [(Ih & k & _ & O)|(Ih & H)]; (split; [exact Ih|]); [exact (owner_inside P h k O)|]. apply (prefix_trans _ (P ++ [(f, w)])); [exists [(f, w)]; reflexivity|exact H]. }
      assert (GP : good P (inside P) (flat_map (block P mk) (rev ord) ++ inner)); [|pose proof (loop_complete P f v _ Pn Ip If GP) as LC; destruct GP as [G1 G2 G3 G4]; constructor; unfold ids in *; try (rewrite calls_loop; assumption); constructor; [exact LC | constructor]].
      constructor; unfold ids; rewrite ?calls_app; [| | |apply Forall_app; split; [exact (gd_complete _ _ _ G) | exact (gd_complete _ _ _ Gi)]].
      + intro x. rewrite in_app_iff, (gd_in _ _ _ G), (gd_in _ _ _ Gi). split.
        * intros [(h & H & E)|(h & H & E)]; exists h; (split; [apply Eq; auto|exact E]).
        * intros (h & H & E). apply Eq in H as [H|H]; [left|right]; exists h; auto.
      + rewrite map_app. apply nodup_app; [exact (gd_nodup _ _ _ G)|exact (gd_nodup _ _ _ Gi)|]. intros h I J. apply (good_ids _ _ _ G) in I as (_ & k & Ik & O). apply (good_ids _ _ _ Gi) in J. exact (Nb h k Ik O J).
      + intros p c J Hp Hc. rewrite map_app. apply Eq in Hp, Hc. destruct Hp as [Hp|Hp], Hc as [Hc|Hc].
        * apply before_app_l. exact (gd_before _ _ _ G p c J Hp Hc).
        * apply before_app; [apply (good_ids _ _ _ G); exact Hp|apply (good_ids _ _ _ Gi); exact Hc].
        * exfalso. destruct Hc as (Ic & k & Ik & O), Hp as (Ipo & H). destruct (Nat.eq_dec f p) as [<-|Nf].
          -- pose proof (before_pc f c Ic J) as B. pose proof (owner_inside P c k O) as (r & E). assert (I2 : In (f, v) (nest c)) by (rewrite E; unfold P; rewrite <- app_assoc; apply in_or_app; right; left; reflexivity). destruct (nest_label c Ic f v I2) as [E2|B2]; [subst c; exact (proj2 (before_pos ord f f Nd B) eq_refl)|exact (proj1 (before_pos ord _ _ Nd B) B2)].
          -- apply (Nb c k Ik O). split; [exact Ic|]. exact (outer_prefix p c P f w Ipo Ic J Nf H).
        * apply before_app_r. exact (gd_before _ _ _ Gi p c J Hp Hc).
  Qed.
  Lemma root_good n : size ord <= n -> exists items, make_root g ord st n = Some items /\ good [] (fun h => In h ord) items.
  Proof.
    intro Ln. unfold make_root. assert (V : valid []) by (left; reflexivity).
    assert (Hk : forall k, In k ord -> outer k = [] -> forall w, first_loop k = Some w -> exists items, make_loop g ord st n k (rev (loops g k)) = Some items /\ good [] (inside ([] ++ [(k, w)])) items).
    { intros k Ik Ok w Fk. unfold first_loop in Fk. destruct (rev (loops g k)) as [|w' bk] eqn:Ek; [discriminate|]. injection Fk as ->. destruct (in_split _ _ Ik) as (m1 & m2 & E). apply (make_good n k m1 m2 [] [] w bk); [exact E|exact Ek|cbn [map]; rewrite app_nil_r; congruence|].
      rewrite E, size_app in Ln. cbn [size fold_right length] in Ln. unfold size in *. cbn [fold_right] in Ln. assert (length (loops g k) = S (length bk)) by (rewrite <- rev_length, Ek; reflexivity). cbn [length]. lia. }
    set (mk := fun k => match make_loop g ord st n k (rev (loops g k)) with Some i => i | None => [] end). change (@None (nat * nat)) with (innermost []). exists (flat_map (block [] mk) (rev ord)). split.
    - apply build_blocks. intros k Ik Ak Lk. apply (level_outer [] V k Ik) in Ak. assert (F : exists w, first_loop k = Some w). { unfold first_loop. destruct (rev (loops g k)) as [|w l] eqn:E; [|eauto]. apply (f_equal (@rev nat)) in E. rewrite rev_involutive in E. contradiction. }
      destruct F as (w & F). destruct (Hk k Ik Ak w F) as (items & E & _). unfold mk. rewrite E. reflexivity.
    - apply good_ext with (fun h => In h ord /\ exists k, In k ord /\ owner [] h k).
      + intro h. split; [tauto|]. intro Ih. split; [exact Ih|]. destruct (owner_exists [] h V (conj Ih (prefix_nil _))) as [O|(P' & f' & v' & w' & a' & b' & E & _)]; [exact O|]. destruct P'; discriminate.
      + apply blocks_good; [exact V|]. intros k w Ik Ok F. destruct (Hk k Ik Ok w F) as (items & E & G). unfold mk. rewrite E. exact G.
  Qed.
End Items.
