(** Proofs for Par_Props.v: the statements that are made run as the original ones. *)
From Coq Require Import List Bool Arith Permutation Lia.
From Verif Require Import Par_Model Par_Spec Par_Proofs Par2_Proofs.
Import ListNotations.

Definition no_stage : tree * list sym * list sym := (TBlock [], [], []).
Definition s_body (x : tree * list sym * list sym) : tree := fst (fst x).
Definition s_cons (x : tree * list sym * list sym) : list sym := snd (fst x).
Definition s_prod (x : tree * list sym * list sym) : list sym := snd x.

(** One of the two writes what the other reads or writes. *)
Definition conflict (x y : tree * list sym * list sym) : Prop :=
  exists s, (In s (s_prod x) /\ In s (s_cons y)) \/ (In s (s_prod x) /\ In s (s_prod y)) \/ (In s (s_cons x) /\ In s (s_prod y)).

Lemma meets_in a b : meets a b = true <-> exists s, In s a /\ In s b.
Proof.
  unfold meets. rewrite existsb_exists. split; intros (s & H1 & H2); exists s; rewrite mem_in in *; auto.
Qed.

Lemma stages_of_body l i : body (stages_of l i) = s_body (nth i l no_stage).
Proof. unfold stages_of, s_body, no_stage. destruct (nth i l (TBlock [], [], [])) as ((t & c) & p). reflexivity. Qed.

Definition D (l : list (tree * list sym * list sym)) (i j : nat) : Prop :=
  i < j /\ j < length l /\ conflict (nth i l no_stage) (nth j l no_stage).

Lemma stages_of_consumers l i j : i < length l -> (In j (consumers (stages_of l i)) <-> D l i j).
Proof.
  intros L. unfold stages_of, D, conflict, s_prod, s_cons, no_stage. cbn [consumers]. rewrite filter_In, in_seq, andb_true_iff, Nat.ltb_lt.
  destruct (nth i l (TBlock [], [], [])) as ((t & c) & p), (nth j l (TBlock [], [], [])) as ((u & d) & q).
  unfold dependent. cbn [produced consumed fst snd]. rewrite !orb_true_iff, !meets_in. split.
  - intros (A & B & [[(s & H)|(s & H)]|(s & H)]); repeat split; try lia; exists s; auto.
  - intros (A & B & s & [H|[H|H]]); repeat split; try lia; eauto.
Qed.
Lemma stages_of_producers l i j : i < length l -> (In j (producers (stages_of l i)) <-> D l j i).
Proof.
  intros L. unfold stages_of, D, conflict, s_prod, s_cons, no_stage. cbn [producers]. rewrite filter_In, in_seq, andb_true_iff, Nat.ltb_lt.
  destruct (nth i l (TBlock [], [], [])) as ((t & c) & p), (nth j l (TBlock [], [], [])) as ((u & d) & q).
  unfold dependent. cbn [produced consumed fst snd]. rewrite !orb_true_iff, !meets_in. split.
  - intros (A & B & [[(s & H)|(s & H)]|(s & H)]); repeat split; try lia; exists s; auto.
  - intros (A & B & s & [H|[H|H]]); repeat split; try lia; eauto.
Qed.

Lemma first_chains l : chains (fun i => s_body (nth i l no_stage)) (length l) (D l) (stages_of l) [] HStage.
Proof.
  constructor; unfold alive.
  - intros r _. rewrite stages_of_body. apply (shaped_stage (fun i => s_body (nth i l no_stage))).
  - intros r _. cbn [labels]. repeat constructor. auto.
  - intros r i (H & _) [<-|[]]. auto.
  - intros i H. exists i. cbn [labels In]. tauto.
  - intros r q i _ _ [<-|[]] [<-|[]]. auto.
  - intros r i j _ [<-|[]] [<-|[]] (H & _). lia.
  - intros r q i j (H & _) _ _ [<-|[]] [<-|[]] K. apply stages_of_consumers; auto.
  - intros r q (H & _) (K & _). rewrite stages_of_consumers, stages_of_producers by auto. tauto.
  - intros r q (H & _) K. apply stages_of_consumers in K as (K1 & K2 & _); auto.
  - intros r q (H & _) K. apply stages_of_producers in K as (K1 & K2 & _); auto. split; [lia|auto].
Qed.

(** Each stage is run once; what depends on another stage is run behind it. *)
Lemma schedule_shape l : exists H,
  shaped (fun i => s_body (nth i l no_stage)) (schedule l) H /\
  Permutation (labels H) (seq 0 (length l)) /\
  (forall i j, D l i j -> before H i j).
Proof.
  destruct (fuse_all (fun i => s_body (nth i l no_stage)) (length l) (D l) (length l) 0 (stages_of l, []) HStage) as (sh & C).
  { lia. } { cbn [fst snd]. apply first_chains. } { cbn [snd In]. tauto. }
  unfold schedule. destruct (fold_left (fun gd p => fuse_one p gd) (seq 0 (length l)) (stages_of l, [])) as (g & dead).
  cbn [fst snd] in C.
  destruct (groups_spec _ _ _ _ _ _ C (S (length l)) (g, dead) (TBlock []) [] HNil) as (H & K).
  - cbn [length]. lia.
  - constructor; cbn [fst snd]; auto. intros r q Ar. split; [|tauto]. intros Hq. split; auto.
    apply (ch_cons _ _ _ _ _ _ C) in Hq as (Hq & _); auto. apply Hq.
  - constructor.
  - intros r [].
  - intros r. cbn [snd In]. tauto.
  - constructor.
  - constructor.
  - intros r [].
  - intros r i j [].
  - intros r q i j [].
  - exists H. cbv zeta in K. destruct K as (K1 & (P & K2 & K3 & K4) & K5 & K6). split; auto. split.
    + apply NoDup_Permutation.
      * eapply Permutation_NoDup; [symmetry; exact K2|]. clear K1 K2 K5 K6.
        assert (PA : forall r, In r P -> alive (length l) dead r) by (intros; apply K4; auto). clear K4.
        induction P as [|r P IH]; cbn [labels_of flat_map]; [constructor|].
        apply NoDup_cons_iff in K3 as (K3 & K4).
        assert (Nr : NoDup (labels (sh r))) by (apply (ch_nodup _ _ _ _ _ _ C), PA; left; auto).
        assert (Np : NoDup (labels_of sh P)) by (apply IH; auto; intros; apply PA; right; auto).
        assert (Dj : forall x, In x (labels (sh r)) -> In x (labels_of sh P) -> False).
        { intros x H1 H2. apply in_flat_map in H2 as (q & H2 & H3). apply K3.
          replace r with q; auto. eapply (ch_one _ _ _ _ _ _ C); eauto; apply PA; [right; auto|left; auto]. }
        fold (labels_of sh P). revert Nr Np Dj. clear. induction (labels (sh r)) as [|x a IH]; intros N1 N2 Dj; cbn [app]; auto.
        apply NoDup_cons_iff in N1 as (N1 & N3). constructor.
        -- rewrite in_app_iff. intros [X|X]; auto. apply (Dj x); auto. left; auto.
        -- apply IH; auto. intros y Hy. apply Dj. right; auto.
      * apply seq_NoDup.
      * intros i. rewrite in_seq. split.
        -- intros Hi. apply (Permutation_in _ K2) in Hi. apply in_flat_map in Hi as (r & Hr & Hi).
           apply K4 in Hr. pose proof (ch_small _ _ _ _ _ _ C r i Hr Hi). lia.
        -- intros (_ & Hi). destruct (ch_all _ _ _ _ _ _ C i Hi) as (r & Ar & Hr).
           apply (Permutation_in _ (Permutation_sym K2)). apply in_flat_map. exists r. split; auto. apply K4, Ar.
    + intros i j Dij. pose proof Dij as (Lij & Lj & _).
      assert (Li : i < length l) by lia.
      destruct (ch_all _ _ _ _ _ _ C i Li) as (r & Ar & Hr). destruct (ch_all _ _ _ _ _ _ C j Lj) as (q & Aq & Hq).
      destruct (Nat.eq_dec r q) as [->|N].
      * apply (K5 q); auto. apply (ch_inside _ _ _ _ _ _ C); auto.
      * apply (K6 r q); auto. eapply (ch_across _ _ _ _ _ _ C r q); eauto.
Qed.

(** ** Blocks as lists of stages *)

Fixpoint stage_list (al : sym -> sym) (ts : list tree) (bar : bool) : list (tree * list sym * list sym) * bool :=
  match ts with
  | [] => ([], bar)
  | t :: ts =>
    let '(t, s) := mutate al t (State [] [] bar) in
    let '(l, bar) := stage_list al ts (st_barrier s) in
    ((t, st_consumed s, st_produced s) :: l, bar)
  end.
Lemma mutate_block al ts s : mutate al (TBlock ts) s =
  let '(l, bar) := stage_list al ts (st_barrier s) in
  let st := State (fold_right (fun x => adds (s_cons x)) [] l) (fold_right (fun x => adds (s_prod x)) [] l) bar in
  if bar then (TBlock (map s_body l), st) else (schedule l, st).
Proof.
  cbn [mutate].
  match goal with |- (let '(l, bar) := ?f ts (st_barrier s) in _) = _ => assert (E : forall ts b, f ts b = stage_list al ts b) end.
  { induction ts0 as [|t ts0 IH]; intros b; cbn [stage_list]; auto.
    destruct (mutate al t _) as (t' & s'). rewrite IH. reflexivity. }
  rewrite E. reflexivity.
Qed.

Lemma in_folded (f : tree * list sym * list sym -> list sym) l x : In x (fold_right (fun y => adds (f y)) [] l) <-> exists k, k < length l /\ In x (f (nth k l no_stage)).
Proof.
  induction l as [|y l IH]; cbn [fold_right length].
  - split; [intros []|intros (k & K & _); lia].
  - rewrite in_adds, IH. split.
    + intros [H|(k & K & H)]; [exists 0; split; [lia|auto]|exists (S k); split; [lia|auto]].
    + intros ([|k] & K & H); [left; auto|right; exists k; split; [lia|auto]].
Qed.

Lemma list_choice {A} (d : A) (P : nat -> A -> Prop) m : (forall k, k < m -> exists x, P k x) ->
  exists l, length l = m /\ forall k, k < m -> P k (nth k l d).
Proof.
  revert P. induction m as [|m IH]; intros P H.
  - exists []. split; auto. intros k K. lia.
  - destruct (H 0) as (x & X); [lia|]. destruct (IH (fun k => P (S k))) as (l & L & Hl).
    { intros k K. apply H. lia. }
    exists (x :: l). cbn [length]. split; [lia|]. intros [|k] K; auto. apply Hl. lia.
Qed.

Lemma tree_ind' (P : tree -> Prop) :
  (forall id ins outs, P (TCall id ins outs)) ->
  (forall id src dst pad, P (TCopy id src dst pad)) ->
  (forall id f a s, P (TCheck id f a s)) ->
  (forall x src b, P b -> P (TAlias x src b)) ->
  (forall id x b, P b -> P (TAlloc id x b)) ->
  (forall id par b, P b -> P (TLoop id par b)) ->
  (forall ts, (forall k, k < length ts -> P (nth k ts (TBlock []))) -> P (TBlock ts)) ->
  (forall a b, P a -> P b -> P (TAsync a b)) -> forall t, P t.
Proof.
  intros H1 H2 H3 H4 H5 H6 H7 H8. fix IH 1. intros [id ins outs|id src dst pad|id f a s|x src b|id x b|id par b|ts|a b].
  - apply H1. - apply H2. - apply H3. - apply H4, IH. - apply H5, IH. - apply H6, IH.
  - apply H7. induction ts as [|t ts IHts]; intros k K; cbn [length] in K.
    + exfalso. inversion K.
    + destruct k as [|k]; cbn [nth]; [apply IH|]. apply IHts. apply Nat.succ_lt_mono, K.
  - apply H8; apply IH.
Qed.

Lemma stage_list_barrier al : forall ts bar,
  (forall k, k < length ts -> forall s, st_barrier s = true -> st_barrier (snd (mutate al (nth k ts (TBlock [])) s)) = true) ->
  bar = true -> snd (stage_list al ts bar) = true.
Proof.
  induction ts as [|t ts IH]; intros bar H B; cbn [stage_list]; auto.
  pose proof (H 0 (Nat.lt_0_succ _) (State [] [] bar) B) as H0. cbn [nth] in H0.
  destruct (mutate al t (State [] [] bar)) as (t' & s'). cbn [snd] in H0.
  specialize (IH (st_barrier s') (fun k K => H (S k) (proj1 (Nat.succ_lt_mono _ _) K)) H0).
  destruct (stage_list al ts (st_barrier s')) as (l & b). cbn [snd] in *. auto.
Qed.
Lemma mutate_barrier : forall t al s, st_barrier s = true -> st_barrier (snd (mutate al t s)) = true.
Proof.
  induction t as [id ins outs|id src dst pad|id f a sem|x src b IH|id x b IH|id par b IH|ts IH|a b IHa IHb] using tree_ind'; intros al s B.
  - auto.
  - auto.
  - cbn [mutate snd st_barrier]. rewrite B. auto.
  - cbn [mutate]. specialize (IH (bind al x (al src)) s B). destruct (mutate (bind al x (al src)) b s). auto.
  - cbn [mutate]. specialize (IH al (State (remove x (st_consumed s)) (remove x (st_produced s)) (st_barrier s)) B).
    destruct (mutate al b _). auto.
  - cbn [mutate]. specialize (IH al s B). destruct (mutate al b s). auto.
  - rewrite mutate_block. pose proof (stage_list_barrier al ts (st_barrier s) (fun k K => IH k K al) B) as H.
    destruct (stage_list al ts (st_barrier s)) as (l & b). cbn [snd] in H. subst. reflexivity.
  - cbn [mutate]. specialize (IHa al s B). destruct (mutate al a s) as (a' & s1). cbn [snd] in IHa.
    specialize (IHb al s1 IHa). destruct (mutate al b s1). auto.
Qed.

Section Runs.
  Variables (steps count : nat -> list nat -> nat).
  Notation runs := (runs steps count).
  Notation race_free := (race_free steps count).
  Notation leaf := (leaf steps).

  Lemma runs_block ts it env tr : runs (TBlock ts) it env tr <->
    exists trs, length trs = length ts /\ (forall k, k < length ts -> runs (nth k ts (TBlock [])) it env (nth k trs [])) /\ tr = concat trs.
  Proof.
    revert tr. induction ts as [|t ts IH]; intros tr.
    - cbn [Par_Spec.runs]. split.
      + intros ->. exists []. cbn [length concat]. split; auto. split; auto. intros k K. lia.
      + intros (trs & L & _ & ->). destruct trs; [auto|discriminate].
    - change (runs (TBlock (t :: ts)) it env tr) with (exists a b, runs t it env a /\ runs (TBlock ts) it env b /\ tr = a ++ b).
      split.
      + intros (a & b & Ra & Rb & ->). apply IH in Rb as (trs & L & R & ->). exists (a :: trs). cbn [length]. split; [lia|].
        split; auto. intros [|k] K; cbn [nth]; auto. apply R. lia.
      + intros (trs & L & R & ->). destruct trs as [|a trs]; [discriminate|]. cbn [length] in L. exists a, (concat trs).
        split; [apply (R 0); cbn [length]; lia|]. split; auto. apply IH. exists trs. split; [lia|]. split; auto.
        intros k K. apply (R (S k)). cbn [length]. lia.
  Qed.
  Lemma plain_block scope ts : plain scope (TBlock ts) <-> forall k, k < length ts -> plain scope (nth k ts (TBlock [])).
  Proof.
    induction ts as [|t ts IH].
    - cbn [plain length]. split; auto. intros _ k K. lia.
    - change (plain scope (TBlock (t :: ts))) with (plain scope t /\ plain scope (TBlock ts)). rewrite IH. cbn [length]. split.
      + intros (A & B) [|k] K; cbn [nth]; auto. apply B. lia.
      + intros H. split; [apply (H 0); lia|]. intros k K. apply (H (S k)). lia.
  Qed.
  Lemma race_free_block ts it env : race_free (TBlock ts) it env <-> forall k, k < length ts -> race_free (nth k ts (TBlock [])) it env.
  Proof.
    induction ts as [|t ts IH].
    - cbn [Par_Spec.race_free length]. split; auto. intros _ k K. lia.
    - change (race_free (TBlock (t :: ts)) it env) with (race_free t it env /\ race_free (TBlock ts) it env). rewrite IH. cbn [length]. split.
      + intros (A & B) [|k] K; cbn [nth]; auto. apply B. lia.
      + intros H. split; [apply (H 0); lia|]. intros k K. apply (H (S k)). lia.
  Qed.
  Lemma ids_block ts : NoDup (ids (TBlock ts)) ->
    (forall k, k < length ts -> NoDup (ids (nth k ts (TBlock []))) /\ incl (ids (nth k ts (TBlock []))) (ids (TBlock ts))) /\
    (forall j k i, j < k -> k < length ts -> In i (ids (nth j ts (TBlock []))) -> In i (ids (nth k ts (TBlock []))) -> False).
  Proof.
    cbn [ids]. induction ts as [|t ts IH]; cbn [flat_map length]; intros N.
    - split; intros; lia.
    - apply NoDup_app_parts in N as (N1 & N2 & N3). destruct (IH N2) as (H1 & H2). split.
      + intros [|k] K; cbn [nth].
        * split; auto. intros i Hi. apply in_app_iff; auto.
        * destruct (H1 k) as (A & B); [lia|]. split; auto. intros i Hi. apply in_app_iff. right. apply B, Hi.
      + intros [|j] [|k] i Lt L; try lia; cbn [nth]; intros A B.
        * apply (N3 i); auto. destruct (H1 k) as (_ & K); [lia|]. apply K, B.
        * apply (H2 j k i); auto; lia.
  Qed.

  Lemma shuffles_labelled : forall trs base tr, shuffles trs tr ->
    exists T, map snd T = tr /\ (forall k, k < length trs -> proj (base + k) T = nth k trs []) /\
      (forall x, In x T -> base <= fst x < base + length trs).
  Proof.
    induction trs as [|a trs IH]; intros base tr; cbn [shuffles length].
    - intros ->. exists []. cbn [map]. split; auto. split; [intros k K; lia|intros x []].
    - intros (b & Sb & Sh). destruct (IH (S base) b Sb) as (T & E & H1 & H2). subst b.
      assert (E : map snd (map (pair base) a) = a) by (rewrite map_map; cbn [snd]; apply map_id).
      rewrite <- E in Sh at 1. apply shuffle_lift in Sh as (U & EU & Sh). exists U. split; auto. split.
      + intros k K. pose proof (shuffle_map snd _ _ _ (shuffle_filter (fun x => fst x =? base + k) _ _ _ Sh)) as S1.
        change (shuffle (proj (base + k) (map (pair base) a)) (proj (base + k) T) (proj (base + k) U)) in S1.
        destruct k as [|k]; cbn [nth].
        * rewrite (proj_none (base + 0) T) in S1.
          -- apply shuffle_nil_r in S1. rewrite S1, Nat.add_0_r. apply proj_pair.
          -- intros x Hx E0. apply H2 in Hx. lia.
        * rewrite (proj_none (base + S k) (map (pair base) a)) in S1.
          -- apply shuffle_nil_l in S1. rewrite S1, <- Nat.add_succ_comm. apply H1. lia.
          -- intros x Hx E0. apply in_map_iff in Hx as (y & <- & _). cbn [fst] in E0. lia.
      + intros x Hx. apply (shuffle_in _ _ _ _ Sh) in Hx as [Hx|Hx].
        * apply in_map_iff in Hx as (y & <- & _). cbn [fst]. lia.
        * apply H2 in Hx. lia.
  Qed.
  Lemma shuffles_concat {A} (l : list (list A)) : shuffles l (concat l).
  Proof. induction l as [|a l IH]; cbn [shuffles concat]; auto. exists (concat l). split; auto. apply shuffle_app. Qed.
  Lemma shuffles_in {A} (l : list (list A)) c x : shuffles l c -> In x c -> exists k, k < length l /\ In x (nth k l []).
  Proof.
    revert c. induction l as [|a l IH]; cbn [shuffles length]; intros c.
    - intros -> [].
    - intros (b & Sb & Sh) Hx. apply (shuffle_in _ _ _ _ Sh) in Hx as [Hx|Hx].
      + exists 0. split; [lia|auto].
      + destruct (IH b Sb Hx) as (k & K & H). exists (S k). split; [lia|auto].
  Qed.
  Lemma nth_all (l : list (list action)) : map (fun k => nth k l []) (seq 0 (length l)) = l.
  Proof.
    induction l as [|a l IH]; cbn [length seq map nth]; auto. f_equal. rewrite <- seq_shift, map_map. exact IH.
  Qed.
  Lemma concat_in {A} (l : list (list A)) x : In x (concat l) -> exists k, k < length l /\ In x (nth k l []).
  Proof. apply shuffles_in, shuffles_concat. Qed.

  (** ** The symbols and the objects *)

  Record good (al : sym -> sym) (env : sym -> object) (scope : list sym) (is : list nat) : Prop := {
    g_root : forall y, al (al y) = al y;
    g_scope : forall y, al y <> y -> In y scope /\ In (al y) scope;
    g_env : forall y, env (al y) = env y;
    g_inj : forall r q, al r = r -> al q = q -> env r = env q -> r = q;
    g_new : forall y i it, env y = Inner i it -> ~ In i is }.

  Lemma good_incl al env scope a b : good al env scope b -> incl a b -> good al env scope a.
  Proof.
    intros [A B C E F] I. constructor; auto. intros y i it H K. apply (F y i it H), I, K.
  Qed.
  Lemma bind_eq {A} (f : nat -> A) x v : bind f x v x = v.
  Proof. unfold bind. rewrite Nat.eqb_refl. auto. Qed.
  Lemma bind_ne {A} (f : nat -> A) x v y : y <> x -> bind f x v y = f y.
  Proof. intros N. unfold bind. apply Nat.eqb_neq in N. rewrite N. auto. Qed.

  Lemma good_alias al env scope is x src : good al env scope is -> ~ In x scope -> In src scope ->
    good (bind al x (al src)) (bind env x (env src)) (x :: scope) is.
  Proof.
    intros [A B C E F] N I.
    assert (Sc : forall y, In y scope -> In (al y) scope).
    { intros y Hy. destruct (Nat.eq_dec (al y) y) as [->|K]; auto. apply B, K. }
    assert (Nx : forall y, In y scope -> y <> x) by (intros y Hy ->; auto).
    assert (Ne : forall y, y <> x -> al y <> x).
    { intros y Hy K. assert (al y <> y) by congruence. apply B in H as (_ & H). rewrite K in H. auto. }
    constructor.
    - intros y. destruct (Nat.eq_dec y x) as [->|Hy].
      + rewrite bind_eq, bind_ne; auto.
      + rewrite (bind_ne _ _ _ y), bind_ne; auto.
    - intros y. cbn [In]. destruct (Nat.eq_dec y x) as [->|Hy].
      + rewrite bind_eq. auto.
      + rewrite bind_ne by auto. intros K. apply B in K. tauto.
    - intros y. destruct (Nat.eq_dec y x) as [->|Hy].
      + rewrite bind_eq, bind_ne, bind_eq; auto.
      + rewrite (bind_ne al), !bind_ne; auto.
    - intros r q. destruct (Nat.eq_dec r x) as [->|Hr].
      + rewrite bind_eq. intros K. exfalso. apply (Nx (al src)); auto.
      + destruct (Nat.eq_dec q x) as [->|Hq].
        * rewrite bind_eq. intros _ K. exfalso. apply (Nx (al src)); auto.
        * rewrite !bind_ne by auto. apply E.
    - intros y i it. destruct (Nat.eq_dec y x) as [->|Hy]; [rewrite bind_eq|rewrite bind_ne by auto]; apply F.
  Qed.

  Lemma good_alloc al env scope is x id it : good al env scope (id :: is) -> ~ In x scope -> ~ In id is ->
    good al (bind env x (Inner id it)) (x :: scope) is /\ al x = x.
  Proof.
    intros [A B C E F] N I.
    assert (Ax : al x = x).
    { destruct (Nat.eq_dec (al x) x); auto. exfalso. apply N, B, n. }
    assert (Ne : forall y, y <> x -> al y <> x).
    { intros y Hy K. assert (al y <> y) by congruence. apply B in H as (_ & H). rewrite K in H. auto. }
    split; auto. constructor; auto.
    - intros y K. cbn [In]. apply B in K. tauto.
    - intros y. destruct (Nat.eq_dec y x) as [->|Hy]; [rewrite Ax; auto|]. rewrite !bind_ne; auto.
    - intros r q Hr Hq. destruct (Nat.eq_dec r x) as [->|Nr], (Nat.eq_dec q x) as [->|Nq]; auto.
      + rewrite bind_eq, bind_ne by auto. intros K. symmetry in K. apply F in K. exfalso. apply K. left; auto.
      + rewrite bind_eq, bind_ne by auto. intros K. apply F in K. exfalso. apply K. left; auto.
      + rewrite !bind_ne by auto. auto.
    - intros y i it'. destruct (Nat.eq_dec y x) as [->|Hy].
      + rewrite bind_eq. intros K. injection K as <- _. auto.
      + rewrite bind_ne by auto. intros K H. apply (F y i it' K). right; auto.
  Qed.

  (** What is read or written is in the sets of the stage, or was allocated in it. *)
  Definition covered (al : sym -> sym) (env : sym -> object) (is set : list nat) (os : list object) : Prop :=
    forall o, In o os -> (exists y, In y set /\ al y = y /\ env y = o) \/ (exists i it, In i is /\ o = Inner i it).
  Definition described al env is (s : state) (a : action) : Prop :=
    covered al env is (st_consumed s) (a_reads a) /\ covered al env is (st_produced s) (a_writes a) /\
    (a_semaphore a = true -> st_barrier s = true).

  Lemma covered_incl al env i i' a a' os : covered al env i a os -> incl i i' -> incl a a' -> covered al env i' a' os.
  Proof.
    intros C I J o Ho. apply C in Ho as [(y & H & E)|(k & it & H & E)]; [left|right]; eauto 6.
  Qed.
  Lemma covered_map al env scope is is' xs l : good al env scope is -> covered al env is' (adds (map al xs) l) (map env xs).
  Proof.
    intros G o Ho. apply in_map_iff in Ho as (x & <- & Hx). left. exists (al x). split.
    - apply in_adds. left. apply in_map, Hx.
    - split; [apply (g_root _ _ _ _ G)|apply (g_env _ _ _ _ G)].
  Qed.
  Lemma covered_app al env is set a b : covered al env is set a -> covered al env is set b -> covered al env is set (a ++ b).
  Proof. intros A B o Ho. apply in_app_iff in Ho as [Ho|Ho]; auto. Qed.

  Lemma leaf_in id it r w sem a : In a (leaf id it r w sem) -> a_reads a = r /\ a_writes a = w /\ a_semaphore a = sem.
  Proof. intros H. apply in_map_iff in H as (k & <- & _). auto. Qed.

  Definition right (t t' : tree) (it : list nat) (env : sym -> object) : Prop :=
    forall tr, runs t' it env tr -> exists tr0, runs t it env tr0 /\ same tr tr0.
  Definition known al env is t' it s : Prop := forall tr a, runs t' it env tr -> In a tr -> described al env is s a.

  Lemma independent_stages al env scope is x y a b s r :
    good al env scope is ->
    (forall i, In i x -> In i y -> False) -> incl x is -> incl y is ->
    (forall z, In z (st_produced s) -> In z (st_consumed r) -> False) ->
    (forall z, In z (st_produced s) -> In z (st_produced r) -> False) ->
    (forall z, In z (st_consumed s) -> In z (st_produced r) -> False) ->
    st_barrier s = false -> st_barrier r = false ->
    described al env x s a -> described al env y r b -> independent a b.
  Proof.
    intros G Dj Ix Iy N1 N2 N3 Bs Br (A1 & A2 & A3) (B1 & B2 & B3).
    assert (K : forall p q os os', covered al env x p os -> covered al env y q os' -> (forall z, In z p -> In z q -> False) -> disjoint os os').
    { intros p q os os' Cp Cq N o Ho Ho'. apply Cp in Ho. apply Cq in Ho'.
      destruct Ho as [(z & Z1 & Z2 & Z3)|(i & it & I1 & I2)], Ho' as [(w & W1 & W2 & W3)|(j & jt & J1 & J2)].
      - apply (N z); auto. replace z with w; auto. apply (g_inj _ _ _ _ G); congruence.
      - rewrite <- Z3 in J2. apply (g_new _ _ _ _ G) in J2. auto.
      - rewrite <- W3 in I2. apply (g_new _ _ _ _ G) in I2. auto.
      - rewrite J2 in I2. injection I2 as -> ->. eauto. }
    repeat split.
    - destruct (a_semaphore a); auto. rewrite A3 in Bs; auto.
    - destruct (a_semaphore b); auto. rewrite B3 in Br; auto.
    - eapply K; eauto.
    - eapply K; eauto.
    - eapply K; eauto.
  Qed.

  Definition st_of (x : tree * list sym * list sym) (b : bool) : state := State (s_cons x) (s_prod x) b.

  Lemma stage_list_spec al env scope it : forall ts bar l bar',
    (forall k, k < length ts -> forall s, let t := nth k ts (TBlock []) in let '(t', s') := mutate al t s in
       right t t' it env /\ known al env (ids t) t' it s') ->
    stage_list al ts bar = (l, bar') ->
    good al env scope (ids (TBlock ts)) ->
    length l = length ts /\
    (forall k, k < length ts -> right (nth k ts (TBlock [])) (s_body (nth k l no_stage)) it env /\
       known al env (ids (nth k ts (TBlock []))) (s_body (nth k l no_stage)) it (st_of (nth k l no_stage) bar')).
  Proof.
    induction ts as [|t ts IH]; intros bar l bar' H E G; cbn [stage_list] in E.
    - injection E as <- <-. split; auto. cbn [length]. intros k K. lia.
    - pose proof (H 0 (Nat.lt_0_succ _) (State [] [] bar)) as H0. cbn [nth] in H0. cbv zeta in H0.
      destruct (mutate al t (State [] [] bar)) as (t' & s'). destruct H0 as (H1 & H2).
      pose proof (stage_list_barrier al ts (st_barrier s') (fun k K => mutate_barrier (nth k ts (TBlock [])) al)) as M.
      destruct (stage_list al ts (st_barrier s')) as (l' & b') eqn:E'. injection E as <- <-.
      cbn [snd] in M. destruct (IH _ _ _ (fun k K => H (S k) (proj1 (Nat.succ_lt_mono _ _) K)) E') as (L & R).
      { eapply good_incl; [exact G|]. cbn [ids flat_map]. apply incl_appr, incl_refl. }
      cbn [length]. split; [congruence|]. intros [|k] K; cbn [nth].
      + split; auto. intros tr a Rn Ha. destruct (H2 tr a Rn Ha) as (K1 & K2 & K3). split; [exact K1|]. split; [exact K2|].
        intros Hs. cbn [st_of st_barrier]. auto.
      + apply R. lia.
  Qed.

  Lemma mutate_right : forall t al env scope it s, plain scope t -> NoDup (ids t) -> good al env scope (ids t) -> race_free t it env ->
    let '(t', s') := mutate al t s in
    right t t' it env /\ known al env (ids t) t' it s'.
  Proof.
    induction t as [id ins outs|id src dst pad|id f a sem|x src b IH|id x b IH|id par b IH|ts IH|a b IHa IHb] using tree_ind';
      intros al env scope it s Pl N G Rf.
    - cbn [mutate]. split.
      + intros tr R. exists tr. split; auto. apply same_refl.
      + intros tr a R Ha. cbn [Par_Spec.runs] in R. subst. apply leaf_in in Ha as (E1 & E2 & E3). unfold described.
        rewrite E1, E2, E3. cbn [st_consumed st_produced]. repeat split; try (eapply covered_map; eauto). discriminate.
    - cbn [mutate]. destruct Pl as (P1 & P2 & ->). split.
      + intros tr R. exists tr. split; auto. apply same_refl.
      + intros tr a R Ha. cbn [Par_Spec.runs] in R. subst. apply leaf_in in Ha as (E1 & E2 & E3). unfold described.
        rewrite E1, E2, E3. cbn [st_consumed st_produced]. repeat split; try discriminate.
        * apply (covered_map al env scope (ids (TCopy id src dst None)) [id] [src] (st_consumed s)); auto.
        * apply (covered_map al env scope (ids (TCopy id src dst None)) [id] [dst] (st_produced s)); auto.
    - cbn [mutate]. split.
      + intros tr R. exists tr. split; auto. apply same_refl.
      + intros tr c R Ha. cbn [Par_Spec.runs] in R. subst. apply leaf_in in Ha as (E1 & E2 & E3). unfold described.
        rewrite E1, E2, E3. cbn [st_consumed st_produced st_barrier]. repeat split; try (eapply covered_map; eauto).
        * apply covered_app; [eapply covered_map; eauto|]. eapply covered_incl; [eapply (covered_map _ _ _ _ (ids (TCheck id f a sem))); exact G|apply incl_refl|].
          intros z Hz. apply in_adds. right. exact Hz.
        * intros ->. apply orb_true_r.
    - cbn [mutate]. destruct Pl as (P1 & P2 & P3).
      specialize (IH (bind al x (al src)) (bind env x (env src)) (x :: scope) it s P3 N (good_alias _ _ _ _ _ _ G P1 P2) Rf).
      destruct (mutate (bind al x (al src)) b s) as (b' & s'). destruct IH as (H1 & H2). split.
      + intros tr R. apply H1, R.
      + intros tr c R Hc. destruct (H2 tr c R Hc) as (K1 & K2 & K3).
        assert (T : forall set os, covered (bind al x (al src)) (bind env x (env src)) (ids b) set os -> covered al env (ids (TAlias x src b)) set os).
        { intros set os K o Ho. apply K in Ho as [(y & Y1 & Y2 & Y3)|Ho]; [left|right; exact Ho].
          assert (y <> x).
          { intros ->. rewrite bind_eq in Y2. apply P1. rewrite <- Y2.
            destruct (Nat.eq_dec (al src) src) as [->|Ne]; auto. apply (g_scope _ _ _ _ G), Ne. }
          rewrite bind_ne in Y2 by auto. rewrite bind_ne in Y3 by auto. eauto. }
        split; [apply T, K1|]. split; [apply T, K2|]. auto.
    - cbn [mutate]. destruct Pl as (P1 & P2). cbn [ids] in N. apply NoDup_cons_iff in N as (N1 & N2).
      destruct (good_alloc al env scope (ids b) x id it G P1 N1) as (G' & Ax).
      specialize (IH al (bind env x (Inner id it)) (x :: scope) it (State (remove x (st_consumed s)) (remove x (st_produced s)) (st_barrier s)) P2 N2 G' Rf).
      destruct (mutate al b _) as (b' & s'). destruct IH as (H1 & H2). split.
      + intros tr R. apply H1, R.
      + intros tr c R Hc. destruct (H2 tr c R Hc) as (K1 & K2 & K3).
        assert (T : forall set os old, covered al (bind env x (Inner id it)) (ids b) set os -> covered al env (ids (TAlloc id x b)) (restore x old set) os).
        { intros set os old K o Ho. apply K in Ho as [(y & Y1 & Y2 & Y3)|(i & jt & I1 & I2)].
          - destruct (Nat.eq_dec y x) as [->|Ny].
            + rewrite bind_eq in Y3. right. exists id, it. split; [left; auto|auto].
            + rewrite bind_ne in Y3 by auto. left. exists y. split; auto. unfold restore.
              destruct (mem x old); [apply in_add; auto|apply in_remove; auto].
          - right. exists i, jt. split; [right; auto|auto]. }
        split; [apply T, K1|]. split; [apply T, K2|]. auto.
    - cbn [mutate]. cbn [ids] in N, G. apply NoDup_cons_iff in N as (N1 & N2). destruct Rf as (Rf & Race).
      assert (G' : good al env scope (ids b)) by (eapply good_incl; [exact G|]; intros z Hz; right; exact Hz).
      destruct (mutate al b s) as (b' & s') eqn:Eb.
      assert (IH' : forall k, k < count id it -> right b b' (k :: it) env /\ known al env (ids b) b' (k :: it) s').
      { intros k K. specialize (IH al env scope (k :: it) s Pl N2 G' (Rf k K)). rewrite Eb in IH. exact IH. }
      split.
      + intros tr (trs & L & R & Sh). rewrite L in R.
        destruct (list_choice [] (fun k u => runs b (k :: it) env u /\ same (nth k trs []) u) (count id it)) as (us & Lu & U).
        { intros k K. apply (IH' k K), R, K. }
        assert (Sc : same (concat trs) (concat us)).
        { apply same_concat; [congruence|]. rewrite L. intros k K. apply U, K. }
        assert (Ok : exists tr0, (if par then shuffles us tr0 else tr0 = concat us) /\ same tr tr0).
        { exists (concat us). destruct par.
          - split; [apply shuffles_concat|]. eapply same_trans; [|exact Sc].
            destruct (shuffles_labelled trs 0 tr Sh) as (T & <- & T1 & T2). cbn [Nat.add] in T1, T2.
            replace (concat trs) with (concat (map (fun i => proj i T) (seq 0 (length trs)))).
            2:{ f_equal. etransitivity; [|apply nth_all]. apply map_ext_in. intros k Hk. apply in_seq in Hk. apply T1. lia. }
            apply sort_stages.
            + intros y Hy. apply T2 in Hy. lia.
            + apply (fop_impl (fun _ _ => True)); [|apply fop_all; auto].
              intros [j p] [k q] Hp Hq _. cbn [fst snd]. intros Lt.
              pose proof (T2 _ Hp) as Bj. pose proof (T2 _ Hq) as Bk. cbn [fst] in Bj, Bk.
              apply proj_in in Hp, Hq. rewrite (T1 j) in Hp by lia. rewrite (T1 k) in Hq by lia.
              apply independent_sym. destruct (U j) as (Uj & Sj); [lia|]. destruct (U k) as (Uk & Sk); [lia|].
              eapply (Race eq_refl k j); eauto; [lia| |].
              * eapply same_in; eauto.
              * eapply same_in; eauto.
          - split; auto. subst. exact Sc. }
        destruct Ok as (tr0 & O1 & O2). exists tr0. split; auto. exists us. split; auto. split; auto.
        intros k K. apply U. lia.
      + intros tr c (trs & L & R & Sh) Hc.
        assert (Hk : exists k, k < length trs /\ In c (nth k trs [])).
        { destruct par; [eapply shuffles_in; eauto|subst; apply concat_in; auto]. }
        destruct Hk as (k & K & Hk). destruct (IH' k) as (_ & Kn); [lia|].
        destruct (Kn _ c (R k K) Hk) as (K1 & K2 & K3). split; [|split; [|exact K3]].
        * eapply covered_incl; [exact K1| |apply incl_refl]. intros z Hz. right; auto.
        * eapply covered_incl; [exact K2| |apply incl_refl]. intros z Hz. right; auto.
    - rewrite mutate_block. destruct (stage_list al ts (st_barrier s)) as (l & bar) eqn:El. cbv zeta.
      rewrite plain_block in Pl. rewrite race_free_block in Rf. destruct (ids_block ts N) as (N1 & N2).
      destruct (stage_list_spec al env scope it ts (st_barrier s) l bar) as (L & R); auto.
      { intros k K r. cbv zeta. apply (IH k K al env scope it r); auto.
        - apply N1, K.
        - eapply good_incl; [exact G|]. apply N1, K. }
      assert (Tr : forall trs, length trs = length ts -> (forall k, k < length ts -> runs (s_body (nth k l no_stage)) it env (nth k trs [])) ->
        exists tr0, runs (TBlock ts) it env tr0 /\ same (concat trs) tr0).
      { intros trs Lt Rt. destruct (list_choice [] (fun k u => runs (nth k ts (TBlock [])) it env u /\ same (nth k trs []) u) (length ts)) as (us & Lu & U).
        { intros k K. apply (R k K), Rt, K. }
        exists (concat us). split.
        - apply runs_block. exists us. split; auto. split; auto. intros k K. apply U, K.
        - apply same_concat; [congruence|]. rewrite Lt. intros k K. apply U, K. }
      assert (De : forall k tr a, k < length ts -> runs (s_body (nth k l no_stage)) it env tr -> In a tr ->
        described al env (ids (nth k ts (TBlock []))) (st_of (nth k l no_stage) bar) a).
      { intros k tr a K Rk Ha. destruct (R k K) as (_ & Kn). eapply Kn; eauto. }
      set (st := State (fold_right (fun x => adds (s_cons x)) [] l) (fold_right (fun x => adds (s_prod x)) [] l) bar).
      assert (Up : forall k a, k < length ts -> described al env (ids (nth k ts (TBlock []))) (st_of (nth k l no_stage) bar) a ->
        described al env (ids (TBlock ts)) st a).
      { intros k a K (K1 & K2 & K3). unfold st. repeat split; cbn [st_consumed st_produced st_barrier].
        - eapply covered_incl; [exact K1|apply N1, K|]. intros z Hz. apply in_folded. exists k. split; [lia|exact Hz].
        - eapply covered_incl; [exact K2|apply N1, K|]. intros z Hz. apply in_folded. exists k. split; [lia|exact Hz].
        - exact K3. }
      destruct bar.
      + assert (Bl : forall tr, runs (TBlock (map s_body l)) it env tr -> exists trs, length trs = length ts /\
          (forall k, k < length ts -> runs (s_body (nth k l no_stage)) it env (nth k trs [])) /\ tr = concat trs).
        { intros tr Rt. apply runs_block in Rt as (trs & L1 & R1 & ->). rewrite map_length, L in *. exists trs. split; auto. split; auto.
          intros k K. change (TBlock []) with (s_body no_stage) in R1. specialize (R1 k K). rewrite map_nth in R1. exact R1. }
        split.
        * intros tr Rt. apply Bl in Rt as (trs & L1 & R1 & ->). auto.
        * intros tr a Rt Ha. apply Bl in Rt as (trs & L1 & R1 & ->). apply concat_in in Ha as (k & K & Ha).
          eapply (Up k); [lia|]. eapply De; eauto; [lia|]. apply R1. lia.
      + destruct (schedule_shape l) as (H & Sh & Pe & Be).
        assert (Ln : forall i, In i (labels H) <-> i < length ts).
        { intros i. rewrite <- L. split; intros Hi.
          - apply (Permutation_in _ Pe), in_seq in Hi. lia.
          - apply (Permutation_in _ (Permutation_sym Pe)), in_seq. lia. }
        assert (Nl : NoDup (labels H)) by (eapply Permutation_NoDup; [symmetry; exact Pe|apply seq_NoDup]).
        assert (Bl : forall tr, runs (schedule l) it env tr -> exists T, map snd T = tr /\
          (forall x, In x T -> fst x < length ts) /\
          (forall k, k < length ts -> runs (s_body (nth k l no_stage)) it env (proj k T)) /\
          fop (fun x y => ~ before H (fst y) (fst x)) T).
        { intros tr Rt. apply (shaped_traces _ _ _ _ _ _ _ _ Sh) in Rt as (T & E & Ht). exists T. split; auto. split; [|split].
          - intros x Hx. apply Ln. eapply traces_labels; eauto.
          - intros k K. apply (traces_proj _ _ _ Nl Ht k), Ln, K.
          - eapply traces_order; eauto. }
        split.
        * intros tr Rt. apply Bl in Rt as (T & <- & T1 & T2 & T3).
          destruct (Tr (map (fun i => proj i T) (seq 0 (length ts)))) as (tr0 & Rt0 & S0).
          { rewrite map_length, seq_length. auto. }
          { intros k K. rewrite (nth_indep _ [] (proj 0 T)), (map_nth (fun i => proj i T)), seq_nth by (rewrite ?map_length, ?seq_length; auto). apply T2, K. }
          exists tr0. split; auto. eapply same_trans; [|exact S0]. apply sort_stages; auto.
          eapply fop_impl; [|exact T3]. cbn beta. intros [i p] [j q] Hp Hq Nb Lt. cbn [fst snd] in *.
          pose proof (T1 _ Hp) as Li. pose proof (T1 _ Hq) as Lj. cbn [fst] in Li, Lj.
          assert (Nc : ~ conflict (nth j l no_stage) (nth i l no_stage)).
          { intros Cf. apply Nb, Be. split; [lia|]. split; [lia|exact Cf]. }
          apply proj_in in Hp, Hq. apply independent_sym.
          eapply (independent_stages al env scope (ids (TBlock ts)) (ids (nth j ts (TBlock []))) (ids (nth i ts (TBlock [])))
            q p (st_of (nth j l no_stage) false) (st_of (nth i l no_stage) false)); auto.
          -- intros z. apply (N2 j i z); auto.
          -- apply N1, Lj.
          -- apply N1, Li.
          -- intros z Z1 Z2. apply Nc. exists z. auto.
          -- intros z Z1 Z2. apply Nc. exists z. auto.
          -- intros z Z1 Z2. apply Nc. exists z. auto.
          -- eapply De; eauto.
          -- eapply De; eauto.
        * intros tr a Rt Ha. apply Bl in Rt as (T & <- & T1 & T2 & T3). apply in_map_iff in Ha as ((k & a') & E & Ha). cbn [snd] in E. subst a'.
          pose proof (T1 _ Ha) as K. cbn [fst] in K. apply (Up k); auto. eapply De; eauto. apply proj_in, Ha.
    - destruct Pl.
  Qed.
End Runs.
