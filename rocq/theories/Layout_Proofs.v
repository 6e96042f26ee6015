(** Proofs of the layout of allocations. *)
From Coq Require Import ZArith List Bool Lia Permutation.
Import ListNotations.
From Verif Require Import Layout_Model Layout_Spec.
Open Scope Z_scope.

Definition bodies (rs : list range) : list code := flat_map body rs.
Definition covered (c : candidate) (l : list code) : Prop := exists l', within (Alloc (sym c) l') l /\ incl (upto (from_ c) (to_ c)) (leaves l').

(** ** Lists *)
Lemma member_iff x l : member x l = true <-> In x l.
Proof. unfold member. rewrite existsb_exists. split; [intros (y & H & E); apply Nat.eqb_eq in E as ->; exact H | intro H; exists x; split; [exact H | apply Nat.eqb_refl]]. Qed.
Lemma erase_iff x y l : In y (erase x l) <-> In y l /\ y <> x.
Proof. unfold erase. rewrite filter_In, negb_true_iff, Nat.eqb_neq. reflexivity. Qed.
Lemma erase_nodup x l : NoDup l -> NoDup (erase x l).
Proof. apply NoDup_filter. Qed.
Lemma span_spec {A} (p : A -> bool) l a b : span p l = (a, b) -> l = a ++ b /\ Forall (fun x => p x = true) a /\ match b with [] => True | x :: _ => p x = false end.
Proof.
  revert a b. induction l as [|x l IH]; intros a b H.
  - injection H as <- <-. repeat split; constructor.
  - cbn [span] in H. destruct (p x) eqn:E.
    + destruct (span p l) as (a1 & b1). injection H as <- <-. destruct (IH a1 b1 eq_refl) as (-> & F & D). repeat split; [constructor; assumption | exact D].
    + injection H as <- <-. repeat split; [constructor | exact E].
Qed.
Lemma upto_in lo hi x : In x (upto lo hi) <-> lo <= x <= hi.
Proof.
  unfold upto. rewrite in_map_iff. split.
  - intros (i & <- & I). apply in_seq in I. lia.
  - intro B. exists (Z.to_nat (x - lo)). split; [lia|]. apply in_seq. lia.
Qed.
Lemma seq_shift_add n k l : map (fun i => (n + i)%nat) (seq k l) = seq (n + k) l.
Proof. revert k. induction l as [|l IH]; intro k; [reflexivity|]. cbn [seq map]. rewrite IH. f_equal. f_equal. lia. Qed.
Lemma upto_app lo m hi : lo <= m + 1 -> m <= hi -> upto lo m ++ upto (m + 1) hi = upto lo hi.
Proof.
  intros A B. unfold upto. replace (Z.to_nat (hi + 1 - lo)) with (Z.to_nat (m + 1 - lo) + Z.to_nat (hi + 1 - (m + 1)))%nat by lia.
  rewrite seq_app, map_app. f_equal. rewrite Nat.add_comm. rewrite <- (seq_shift_add (Z.to_nat (m + 1 - lo)) 0), map_map. apply map_ext. intro i. lia.
Qed.
Lemma leaves_app a b : leaves (a ++ b) = leaves a ++ leaves b. Proof. apply flat_map_app. Qed.
Lemma allocs_app a b : allocs (a ++ b) = allocs a ++ allocs b. Proof. apply flat_map_app. Qed.
Lemma scopes_app P a b : scopes P (a ++ b) = scopes P a ++ scopes P b. Proof. apply flat_map_app. Qed.
Lemma skeleton_app a b : skeleton (a ++ b) = skeleton a ++ skeleton b. Proof. apply flat_map_app. Qed.
Lemma consts_app a b : consts (a ++ b) = consts a ++ consts b. Proof. apply flat_map_app. Qed.
Lemma bodies_app a b : bodies (a ++ b) = bodies a ++ bodies b. Proof. apply flat_map_app. Qed.
Lemma within_app n a b : within n (a ++ b) <-> within n a \/ within n b.
Proof.
  split.
  - intro W. inversion W as [l I|l v' l' I W'|l b' l' I W'|l b' l' I W']; subst; apply in_app_or in I as [I|I]; [left|right|left|right|left|right|left|right];
      solve [constructor; exact I | econstructor 2; eassumption | econstructor 3; eassumption | econstructor 4; eassumption].
  - intros [W|W]; inversion W as [l I|l v' l' I W'|l b' l' I W'|l b' l' I W']; subst; solve [constructor; apply in_or_app; auto | econstructor 2; [apply in_or_app; eauto | exact W'] | econstructor 3; [apply in_or_app; eauto | exact W'] | econstructor 4; [apply in_or_app; eauto | exact W']].
Qed.

Lemma nodup_tail {A} (a b : list A) : NoDup (a ++ b) -> NoDup b.
Proof. induction a as [|x a IH]; [auto|]. cbn [app]. intro N. apply NoDup_cons_iff in N as (_ & N). exact (IH N). Qed.

Definition children (c : code) : list code := match c with Leaf _ => [] | Nest _ l | Alloc _ l | Const _ l => l end.
Lemma within_cons n c l : within n (c :: l) -> n = c \/ within n (children c) \/ within n l.
Proof.
  change (c :: l) with ([c] ++ l). intro W. apply within_app in W as [W|W]; [|auto].
  inversion W as [l0 I|l0 v' l' I W'|l0 b' l' I W'|l0 b' l' I W']; subst; destruct I as [I|[]]; subst; cbn [children]; auto.
Qed.
Lemma within_nil n : ~ within n [].
Proof. intro W. inversion W as [l0 I|l0 v' l' I W'|l0 b' l' I W'|l0 b' l' I W']; subst; destruct I. Qed.

(** ** Chains *)
Lemma chain_app a : forall lo hi b, chain lo hi (a ++ b) <-> exists mid, chain lo mid a /\ chain (mid + 1) hi b.
Proof.
  induction a as [|r a IH]; intros lo hi b.
  - cbn [app chain]. split.
    + intro C. exists (lo - 1). split; [lia|]. replace (lo - 1 + 1) with lo by lia. exact C.
    + intros (mid & -> & C). exact C.
  - cbn [app chain]. rewrite IH. split.
    + intros (E & F & mid & C & D). exists mid. auto.
    + intros (mid & (E & F & C) & D). eauto 6.
Qed.
Lemma chain_le lo hi l : chain lo hi l -> lo <= hi + 1.
Proof. revert lo. induction l as [|r l IH]; intros lo C; cbn [chain] in C; [lia|]. destruct C as (<- & (S1 & _) & C). apply IH in C. lia. Qed.
Lemma chain_leaves lo hi l : chain lo hi l -> leaves (bodies l) = upto lo hi.
Proof.
  revert lo. induction l as [|r l IH]; intros lo C; cbn [chain] in C.
  - subst lo. unfold upto. replace (Z.to_nat (hi + 1 - (hi + 1))) with 0%nat by lia. reflexivity.
  - destruct C as (<- & (S1 & S2 & _) & C). pose proof (chain_le _ _ _ C). cbn [bodies flat_map]. rewrite leaves_app. fold (bodies l). rewrite (IH _ C), S2. apply upto_app; lia.
Qed.
Lemma chain_allocs lo hi l b : chain lo hi l -> (In b (flat_map allocations l) <-> In b (allocs (bodies l))).
Proof.
  revert lo. induction l as [|r l IH]; intros lo C; cbn [chain] in C; [reflexivity|].
  destruct C as (<- & (_ & _ & S3) & C). cbn [bodies flat_map]. rewrite allocs_app, !in_app_iff. fold (bodies l). rewrite (IH _ C), S3. reflexivity.
Qed.
Lemma chain_max lo hi l x : chain lo hi l -> l <> [] -> x < lo -> fold_left Z.max (map stop l) x = hi.
Proof.
  revert lo x. induction l as [|r l IH]; intros lo x C N L; [contradiction|]. cbn [chain] in C. destruct C as (<- & (S1 & _) & C). cbn [map fold_left].
  destruct l as [|r' l']; [cbn [chain] in C; cbn [map fold_left]; lia|]. apply (IH (stop r + 1)); [exact C | discriminate | lia].
Qed.
Lemma chain_min lo hi l x : chain lo hi l -> x <= lo -> fold_left Z.min (map start l) x = x.
Proof.
  revert lo x. induction l as [|r l IH]; intros lo x C L; [reflexivity|]. cbn [chain] in C. destruct C as (<- & (S1 & _) & C). cbn [map fold_left]. rewrite Z.min_l by lia. apply (IH (stop r + 1)); [exact C | lia].
Qed.

(** ** What all steps preserve *)
Record evolves (lo hi : Z) (P K : list nat) (rs rs' : list range) : Prop := {
  ev_chain : chain lo hi rs';
  ev_within : forall n, within n (bodies rs) -> within n (bodies rs');
  ev_skeleton : skeleton (bodies rs') = skeleton (bodies rs);
  ev_scopes : forall o, Permutation (scopes o (bodies rs')) (map (pair o) P ++ scopes o (bodies rs));
  ev_allocs : Permutation (allocs (bodies rs')) (P ++ allocs (bodies rs));
  ev_consts : Permutation (consts (bodies rs')) (K ++ consts (bodies rs)) }.
Lemma ev_refl lo hi rs : chain lo hi rs -> evolves lo hi [] [] rs rs.
Proof. intro C. constructor; auto. Qed.
Lemma ev_trans lo hi P K P' K' a b c : evolves lo hi P K a b -> evolves lo hi P' K' b c -> evolves lo hi (P' ++ P) (K' ++ K) a c.
Proof.
  intros [A1 A2 A5 A0 A3 A4] [B1 B2 B5 B0 B3 B4]. constructor; auto.
  - congruence.
  - intro o. rewrite B0, A0, map_app, app_assoc. reflexivity.
  - rewrite B3, A3, app_assoc. reflexivity.
  - rewrite B4, A4, app_assoc. reflexivity.
Qed.
Lemma perm_swap4 {A} (a b c d : list A) : Permutation ((a ++ b) ++ c ++ d) ((a ++ c) ++ b ++ d).
Proof. rewrite <- !app_assoc. apply Permutation_app_head. rewrite !app_assoc. apply Permutation_app_tail, Permutation_app_comm. Qed.
Lemma ev_app lo mid hi P K P' K' a a' b b' : evolves lo mid P K a a' -> evolves (mid + 1) hi P' K' b b' -> evolves lo hi (P ++ P') (K ++ K') (a ++ b) (a' ++ b').
Proof.
  intros [A1 A2 A5 A0 A3 A4] [B1 B2 B5 B0 B3 B4]. constructor.
  - apply chain_app. eauto.
  - intro n. rewrite !bodies_app, !within_app. intros [W|W]; auto.
  - rewrite !bodies_app, !skeleton_app, A5, B5. reflexivity.
  - intro o. rewrite !bodies_app, !scopes_app, A0, B0, map_app. apply perm_swap4.
  - rewrite !bodies_app, !allocs_app, A3, B3. apply perm_swap4.
  - rewrite !bodies_app, !consts_app, A4, B4. apply perm_swap4.
Qed.
Lemma ev_alloc lo hi b rs r : chain lo hi rs -> rs <> [] -> body r = bodies rs -> start r = lo -> stop r = hi -> (forall x, In x (allocations r) <-> In x (flat_map allocations rs)) ->
  evolves lo hi [b] [] rs [produce_allocation b r].
Proof.
  intros C N E1 E2 E3 E4. assert (lo <= hi) as L. { destruct rs as [|r0 rs]; [contradiction|]. cbn [chain] in C. destruct C as (<- & (S1 & _) & C). apply chain_le in C. lia. }
  constructor.
  - cbn [chain produce_allocation start stop]. split; [exact E2|]. split; [|lia]. unfold sound. cbn [start stop body allocations produce_allocation]. split; [rewrite E2, E3; exact L|]. split.
    + cbn [leaves flat_map leaves1]. rewrite app_nil_r. rewrite E1, E2, E3. exact (chain_leaves _ _ _ C).
    + intro x. cbn [allocs flat_map allocs1]. rewrite app_nil_r. cbn [In]. rewrite E4, (chain_allocs _ _ _ x C), E1. reflexivity.
  - intros n W. cbn [bodies flat_map produce_allocation body app]. econstructor 3; [left; reflexivity | rewrite E1; exact W].
  - cbn [bodies flat_map produce_allocation body app]. cbn [skeleton flat_map skeleton1]. rewrite app_nil_r, E1. reflexivity.
  - intro o. cbn [bodies flat_map produce_allocation body app]. cbn [scopes flat_map scopes1]. rewrite app_nil_r, E1. reflexivity.
  - cbn [bodies flat_map produce_allocation body app]. cbn [allocs flat_map allocs1]. rewrite app_nil_r, E1. reflexivity.
  - cbn [bodies flat_map produce_allocation body app]. cbn [consts flat_map consts1]. rewrite app_nil_r, E1. reflexivity.
Qed.
Lemma ev_const lo hi b r : chain lo hi [r] -> evolves lo hi [] [b] [r] [Range [Const b (body r)] (start r) (stop r) (allocations r)].
Proof.
  intro C. assert (B : bodies [r] = body r) by apply app_nil_r. cbn [chain] in C. destruct C as (E2 & (S1 & S2 & S3) & C).
  constructor.
  - cbn [chain start stop]. split; [exact E2|]. split; [|exact C]. unfold sound. cbn [start stop body allocations produce_allocation]. split; [lia|]. split.
    + cbn [leaves flat_map leaves1]. rewrite app_nil_r. exact S2.
    + intro x. cbn [allocs flat_map allocs1]. rewrite app_nil_r. apply S3.
  - intros n W. rewrite B in W. cbn [bodies flat_map body app]. econstructor 4; [left; reflexivity | exact W].
  - rewrite B. cbn [bodies flat_map body app]. cbn [skeleton flat_map skeleton1]. rewrite app_nil_r. reflexivity.
  - intro o. rewrite B. cbn [bodies flat_map body app]. cbn [scopes flat_map scopes1]. rewrite app_nil_r. reflexivity.
  - rewrite B. cbn [bodies flat_map body app]. cbn [allocs flat_map allocs1]. rewrite app_nil_r. reflexivity.
  - rewrite B. cbn [bodies flat_map body app]. cbn [consts flat_map consts1]. rewrite app_nil_r. reflexivity.
Qed.

Definition minus (cands cands' syms : list nat) : Prop := (NoDup cands -> NoDup cands') /\ forall x, In x cands' <-> In x cands /\ ~ In x syms.
Lemma minus_refl l : minus l l []. Proof. split; [auto|]. intro x. split; [intro H; split; [exact H | intros []] | intros (H & _); exact H]. Qed.
Lemma minus_one b l : minus l (erase b l) [b].
Proof. split; [apply erase_nodup|]. intro x. rewrite erase_iff. cbn [In]. split; intros (H & D); (split; [exact H|]); [intros [E|[]]; congruence | intro; subst; apply D; left; reflexivity]. Qed.
Lemma minus_trans a b c p q : minus a b p -> minus b c q -> minus a c (p ++ q).
Proof. intros (A1 & A2) (B1 & B2). split; [auto|]. intro x. rewrite B2, A2, in_app_iff. tauto. Qed.

Definition valid (lo hi : Z) (c : candidate) : Prop := lo <= from_ c /\ from_ c <= to_ c <= hi.

Lemma before_end lo mid l f : chain lo mid l -> Forall (fun r => (stop r <? f) = true) l -> lo <= f -> mid + 1 <= f.
Proof.
  revert lo. induction l as [|r l IH]; intros lo C F L; cbn [chain] in C; [lia|]. apply Forall_cons_iff in F as (F1 & F). destruct C as (<- & _ & C). apply Z.ltb_lt in F1. apply (IH (stop r + 1)); [exact C | exact F | lia].
Qed.

Lemma pass_spec fuel : forall lifetimes results cands lo hi results' cands' lt,
  (length lifetimes <= fuel)%nat -> chain lo hi results -> Forall (fun c => from_ c <= to_ c <= hi) lifetimes -> match lifetimes with [] => True | c :: _ => lo <= from_ c end ->
  pass fuel lifetimes results cands = (results', cands', lt) ->
  exists placed, Permutation lifetimes (placed ++ lt) /\ evolves lo hi (map sym placed) [] results results' /\ minus cands cands' (map sym placed) /\ Forall (fun c => covered c (bodies results')) placed /\
    (lifetimes <> [] -> placed <> []).
Proof.
  induction fuel as [|fuel IH]; intros lifetimes results cands lo hi results' cands' lt LEN C V HD H.
  { destruct lifetimes; [|cbn in LEN; lia]. injection H as <- <- <-. exists []. split; [constructor|]. split; [apply ev_refl, C|]. split; [apply minus_refl|]. split; [constructor | contradiction]. }
  destruct lifetimes as [|c cs].
  { injection H as <- <- <-. exists []. split; [constructor|]. split; [apply ev_refl, C|]. split; [apply minus_refl|]. split; [constructor | contradiction]. }
  apply Forall_cons_iff in V as ((V1 & V2) & V).
  destruct results as [|r0 rs0]; [cbn [chain] in C; lia|].
  cbn [pass] in H. remember (r0 :: rs0) as results eqn:NE. clear r0 rs0 NE.
  destruct (span (fun r => stop r <? from_ c) results) as (before_ & rest) eqn:S1. apply span_spec in S1 as (-> & F1 & D1).
  destruct (span (fun r => (start r <=? to_ c) && (from_ c <=? stop r)) rest) as (over & rest') eqn:S2. apply span_spec in S2 as (-> & F2 & D2).
  apply chain_app in C as (mid & C1 & C2). apply chain_app in C2 as (m & C2 & C3).
  pose proof (before_end _ _ _ _ C1 F1 HD) as M1.
  destruct over as [|r rs].
  { exfalso. cbn [chain app] in C2, D1, D2. destruct rest' as [|r' rest']; cbn [chain] in C3; [lia|]. destruct C3 as (E & (S3 & _) & C3). apply andb_false_iff in D2 as [D2|D2]; apply Z.leb_gt in D2; [lia|]. apply Z.ltb_ge in D1. lia. }
  cbn [app] in D1. apply Z.ltb_ge in D1.
  pose proof C2 as C2'. cbn [chain] in C2. destruct C2 as (E & SR & C2). pose proof SR as (S3 & _).
  assert (MAX : fold_left Z.max (map stop rs) (stop r) = m). { destruct rs as [|r1 rs]; [cbn [chain] in C2; cbn [map fold_left]; lia|]. apply (chain_max (stop r + 1)); [exact C2 | discriminate | lia]. }
  assert (MIN : fold_left Z.min (map start rs) (start r) = mid + 1). { rewrite (chain_min (stop r + 1) m); [exact E | exact C2 | lia]. }
  pose proof (chain_le _ _ _ C2) as L2.
  assert (TM : to_ c <= m).
  { destruct rest' as [|r' rest']; cbn [chain] in C3; [lia|]. destruct C3 as (E' & (S3' & _) & C3). apply andb_false_iff in D2 as [D2|D2]; apply Z.leb_gt in D2; lia. }
  rewrite MAX, MIN in H.
  destruct (span (fun d => from_ d <=? m) cs) as (later & cs') eqn:S4. apply span_spec in S4 as (-> & F4 & D4).
  set (new := produce_allocation (sym c) (Range (flat_map body (r :: rs)) (mid + 1) m (flat_map allocations (r :: rs)))) in *.
  destruct (pass fuel cs' rest' (erase (sym c) cands)) as ((rs1 & cands1) & lt1) eqn:R.
  injection H as <- <- <-.
  apply IH with (lo := m + 1) (hi := hi) in R as (placed & P1 & P2 & P3 & P4 & _).
  - exists (c :: placed). split.
    { cbn [app]. constructor. rewrite P1. rewrite app_assoc, (Permutation_app_comm later), <- app_assoc. apply Permutation_app_head. reflexivity. }
    assert (EN : evolves (mid + 1) m [sym c] [] (r :: rs) [new]).
    { apply ev_alloc; [exact C2' | discriminate | reflexivity | reflexivity | reflexivity | reflexivity]. }
    assert (EV : evolves lo hi (map sym (c :: placed)) [] (before_ ++ (r :: rs) ++ rest') (before_ ++ [new] ++ rs1)).
    { change (map sym (c :: placed)) with ([] ++ ([sym c] ++ map sym placed)). apply (ev_app lo mid hi [] [] _ []); [apply ev_refl, C1|]. apply (ev_app (mid + 1) m hi [sym c] [] (map sym placed) []); [exact EN | exact P2]. }
    split; [exact EV|]. split; [apply (minus_trans _ (erase (sym c) cands) _ [sym c]); [apply minus_one | exact P3]|]. split; [|discriminate].
    constructor.
    + exists (flat_map body (r :: rs)). split; [rewrite bodies_app, within_app; right; constructor; left; reflexivity|]. change (flat_map body (r :: rs)) with (bodies (r :: rs)). rewrite (chain_leaves _ _ _ C2').
      intros x X. apply upto_in in X. apply upto_in. lia.
    + eapply Forall_impl; [|exact P4]. intros d (l' & W & I). exists l'. split; [|exact I]. rewrite bodies_app, within_app. right. apply (proj2 (within_app _ (body new) (bodies rs1))). right. exact W.
  - cbn [length] in LEN. rewrite app_length in LEN. lia.
  - exact C3.
  - apply Forall_app in V. apply V.
  - destruct cs' as [|d cs']; [exact I|]. apply Z.leb_gt in D4. lia.
Qed.

(** ** Steps *)
Section Steps.
  Variable copy_deps : nat -> list nat.
  (** the constant [c] is declared around the allocations of all buffers it is copied to *)
  Definition declared (c : nat) (l : list code) : Prop := exists l', within (Const c l') l /\ forall d, In d (copy_deps c) -> In d (allocs l').
  Record step (lo hi : Z) (placed : list candidate) (K : list nat) (rs rs' : list range) : Prop := {
    st_ev : evolves lo hi (map sym placed) K rs rs';
    st_cov : Forall (fun c => covered c (bodies rs')) placed;
    st_decl : Forall (fun c => declared c (bodies rs')) K }.
  Lemma ev_perm lo hi P P' K K' a b : Permutation P P' -> Permutation K K' -> evolves lo hi P K a b -> evolves lo hi P' K' a b.
  Proof. intros E1 E2 [A1 A2 A5 A0 A3 A4]. constructor; [exact A1 | exact A2 | exact A5 | intro o; rewrite A0, E1; reflexivity | rewrite A3, E1; reflexivity | rewrite A4, E2; reflexivity]. Qed.
  Lemma covered_mono lo hi P K a b c : evolves lo hi P K a b -> covered c (bodies a) -> covered c (bodies b).
  Proof. intros E (l' & W & I). exists l'. split; [apply (ev_within _ _ _ _ _ _ E), W | exact I]. Qed.
  Lemma declared_mono lo hi P K a b c : evolves lo hi P K a b -> declared c (bodies a) -> declared c (bodies b).
  Proof. intros E (l' & W & I). exists l'. split; [apply (ev_within _ _ _ _ _ _ E), W | exact I]. Qed.
  Lemma step_refl lo hi rs : chain lo hi rs -> step lo hi [] [] rs rs.
  Proof. intro C. constructor; [apply ev_refl, C | constructor | constructor]. Qed.
  Lemma step_trans lo hi p K p' K' a b c : step lo hi p K a b -> step lo hi p' K' b c -> step lo hi (p ++ p') (K ++ K') a c.
  Proof.
    intros [A1 A2 A3] [B1 B2 B3]. constructor.
    - eapply ev_perm; [| |exact (ev_trans _ _ _ _ _ _ _ _ _ A1 B1)]; [rewrite map_app|]; apply Permutation_app_comm.
    - apply Forall_app. split; [|exact B2]. eapply Forall_impl; [|exact A2]. intros x X. exact (covered_mono _ _ _ _ _ _ _ B1 X).
    - apply Forall_app. split; [|exact B3]. eapply Forall_impl; [|exact A3]. intros x X. exact (declared_mono _ _ _ _ _ _ _ B1 X).
  Qed.
  Lemma step_app lo mid hi p K p' K' a a' b b' : step lo mid p K a a' -> step (mid + 1) hi p' K' b b' -> step lo hi (p ++ p') (K ++ K') (a ++ b) (a' ++ b').
  Proof.
    intros [A1 A2 A3] [B1 B2 B3]. constructor.
    - rewrite map_app. exact (ev_app _ _ _ _ _ _ _ _ _ _ _ A1 B1).
    - apply Forall_app. split; [eapply Forall_impl; [|exact A2] | eapply Forall_impl; [|exact B2]]; intros x (l' & W & I); exists l'; (split; [|exact I]); rewrite bodies_app, within_app; auto.
    - apply Forall_app. split; [eapply Forall_impl; [|exact A3] | eapply Forall_impl; [|exact B3]]; intros x (l' & W & I); exists l'; (split; [|exact I]); rewrite bodies_app, within_app; auto.
  Qed.
  Lemma step_alloc lo hi c r : chain lo hi [r] -> start r <= from_ c -> to_ c <= stop r -> step lo hi [c] [] [r] [produce_allocation (sym c) r].
  Proof.
    intros C A B. pose proof C as (E1 & (_ & S2 & _) & E2). cbn [chain] in E2. constructor; [| |constructor].
    - apply ev_alloc; [exact C | discriminate | symmetry; apply app_nil_r | exact E1 | lia | intro x; cbn [flat_map]; rewrite app_nil_r; reflexivity].
    - constructor; [|constructor]. exists (body r). split; [constructor; left; reflexivity|]. rewrite S2. intros x X. apply upto_in in X. apply upto_in. lia.
  Qed.
  Lemma place_one_spec c : forall results results' lo hi, chain lo hi results -> place_one copy_deps c results = Some results' -> step lo hi [c] [] results results'.
  Proof.
    induction results as [|r rs IH]; intros results' lo hi C H; [discriminate|]. cbn [place_one] in H. cbn [chain] in C. destruct C as (E & SR & C).
    destruct (_ && _) eqn:Q.
    - injection H as <-. apply andb_true_iff in Q as (_ & Q). apply andb_true_iff in Q as (Q1 & Q2). apply Z.leb_le in Q1, Q2.
      change (r :: rs) with ([r] ++ rs). change (produce_allocation (sym c) r :: rs) with ([produce_allocation (sym c) r] ++ rs). change [c] with ([c] ++ []). change (@nil nat) with (@nil nat ++ []).
      apply (step_app lo (stop r)); [|apply step_refl, C]. apply step_alloc; [cbn [chain]; auto | exact Q1 | exact Q2].
    - destruct (place_one copy_deps c rs) as [rs'|] eqn:R; [|discriminate]. injection H as <-.
      change (r :: rs) with ([r] ++ rs). change (r :: rs') with ([r] ++ rs'). change [c] with ([] ++ [c]). change (@nil nat) with (@nil nat ++ []).
      apply (step_app lo (stop r)); [apply step_refl; cbn [chain]; auto | exact (IH rs' (stop r + 1) hi C eq_refl)].
  Qed.
  Lemma constrained_spec : forall special results cands lo hi results' cands' sp, chain lo hi results -> place_constrained_buffers copy_deps results cands special = (results', cands', sp) ->
    exists placed, Permutation special (placed ++ sp) /\ step lo hi placed [] results results' /\ minus cands cands' (map sym placed).
  Proof.
    induction special as [|c cs IH]; intros results cands lo hi results' cands' sp C H.
    - injection H as <- <- <-. exists []. split; [constructor|]. split; [apply step_refl, C | apply minus_refl].
    - cbn [place_constrained_buffers] in H. destruct (place_one copy_deps c results) as [r1|] eqn:R.
      + apply (place_one_spec _ _ _ lo hi C) in R. apply IH with (lo := lo) (hi := hi) in H as (placed & P1 & P2 & P3); [|exact (ev_chain _ _ _ _ _ _ (st_ev _ _ _ _ _ _ R))].
        exists (c :: placed). split; [cbn [app]; constructor; exact P1|]. split.
        * change (c :: placed) with ([c] ++ placed). change (@nil nat) with (@nil nat ++ []). exact (step_trans _ _ _ _ _ _ _ _ _ R P2).
        * change (map sym (c :: placed)) with ([sym c] ++ map sym placed). exact (minus_trans _ _ _ _ _ (minus_one _ _) P3).
      + destruct (place_constrained_buffers copy_deps results cands cs) as ((rs & cd) & sp1) eqn:Q. injection H as <- <- <-.
        destruct (IH _ _ _ _ _ _ _ C Q) as (placed & P1 & P2 & P3). exists placed. split; [rewrite P1; apply Permutation_middle|]. split; assumption.
  Qed.
  Lemma has_all b l : has_all_allocations copy_deps b l = true <-> forall d, In d (copy_deps b) -> In d l.
  Proof. unfold has_all_allocations. rewrite forallb_forall. setoid_rewrite member_iff. reflexivity. Qed.
  Definition wrap_const (r : range) (c : nat) : range := Range [Const c (body r)] (start r) (stop r) (allocations r).
  Lemma wraps_spec lo hi here : forall r, chain lo hi [r] -> Forall (fun c => has_all_allocations copy_deps c (allocations r) = true) here ->
    step lo hi [] here [r] [fold_left wrap_const here r] /\ allocations (fold_left wrap_const here r) = allocations r.
  Proof.
    induction here as [|c here IH]; intros r C F; [split; [apply step_refl, C | reflexivity]|]. apply Forall_cons_iff in F as (F1 & F).
    cbn [fold_left]. assert (S1 : step lo hi [] [c] [r] [wrap_const r c]).
    { constructor; [apply ev_const, C | constructor|]. constructor; [|constructor]. exists (body r). split; [constructor; left; reflexivity|]. intros d D. destruct C as (_ & (_ & _ & S3) & _). apply S3. rewrite has_all in F1. apply F1, D. }
    destruct (IH (wrap_const r c)) as (S2 & A); [exact (ev_chain _ _ _ _ _ _ (st_ev _ _ _ _ _ _ S1)) | exact F |].
    split; [|exact A]. change (c :: here) with ([c] ++ here). change (@nil candidate) with (@nil candidate ++ []). exact (step_trans _ _ _ _ _ _ _ _ _ S1 S2).
  Qed.
  Lemma filter_perm {A} (p : A -> bool) l : Permutation l (filter p l ++ filter (fun x => negb (p x)) l).
  Proof. induction l as [|x l IH]; [constructor|]. cbn [filter]. destruct (p x); cbn [negb app]; [constructor; exact IH | rewrite <- Permutation_middle; constructor; exact IH]. Qed.
  Lemma constants_spec : forall results constants lo hi results' kept, chain lo hi results -> place_constant_buffers copy_deps results constants = (results', kept) ->
    exists K, Permutation constants (K ++ kept) /\ step lo hi [] K results results' /\ (forall c r, In c kept -> In r results' -> exists d, In d (copy_deps c) /\ ~ In d (allocations r)).
  Proof.
    induction results as [|r rs IH]; intros constants lo hi results' kept C H.
    - injection H as <- <-. exists []. split; [reflexivity|]. split; [apply step_refl, C | intros c r _ []].
    - cbn [place_constant_buffers] in H. set (here := filter (fun c => has_all_allocations copy_deps c (allocations r)) constants) in H. set (rem := filter (fun c => negb (has_all_allocations copy_deps c (allocations r))) constants) in H.
      destruct (place_constant_buffers copy_deps rs rem) as (rs' & kept1) eqn:R. injection H as <- <-.
      cbn [chain] in C. destruct C as (E & SR & C).
      destruct (IH _ _ _ _ _ C R) as (K & P1 & P2 & P3).
      assert (C1 : chain lo (stop r) [r]) by (cbn [chain]; auto).
      destruct (wraps_spec lo (stop r) here r C1) as (W1 & W2). { apply Forall_forall. intros c I. apply filter_In in I. apply I. }
      exists (here ++ K). split.
      { rewrite (filter_perm (fun c => has_all_allocations copy_deps c (allocations r)) constants) at 1. fold here. fold rem. rewrite <- app_assoc. apply Permutation_app_head. exact P1. }
      split; [exact (step_app _ _ _ [] here [] K [r] _ rs rs' W1 P2)|].
      intros c q I [<-|J]; [|exact (P3 c q I J)]. assert (I' : In c rem) by (apply (Permutation_in _ (Permutation_sym P1)), in_or_app; auto).
      apply filter_In in I' as (_ & I'). apply negb_true_iff in I'. unfold has_all_allocations in I'. change (fold_left _ here r) with (fold_left wrap_const here r). rewrite W2.
      clear - I'. induction (copy_deps c) as [|d l IHl]; [discriminate|]. cbn [forallb] in I'. apply andb_false_iff in I' as [I'|I'].
      + exists d. split; [left; reflexivity|]. rewrite <- member_iff, I'. discriminate.
      + destruct (IHl I') as (d' & A & B). exists d'. split; [right; exact A | exact B].
  Qed.

  (** ** The iteration *)
  Lemma iterate_spec fuel : forall lifetimes special results cands constants lo hi,
    (length lifetimes + length special < fuel)%nat -> chain lo hi results -> Forall (valid lo hi) lifetimes -> exists results' cands' kept placed sp K,
      iterate copy_deps fuel lifetimes special results cands constants = Some (results', cands', kept) /\
      Permutation (lifetimes ++ special) (placed ++ sp) /\ incl sp special /\ step lo hi placed K results results' /\ minus cands cands' (map sym placed) /\ Permutation constants (K ++ kept).
  Proof.
    induction fuel as [|fuel IH]; intros lifetimes special results cands constants lo hi LEN C V; [lia|].
    cbn [iterate]. destruct (pass _ _ _ _) as ((results1 & cands1) & lifetimes1) eqn:R1.
    assert (V' : Forall (fun c => from_ c <= to_ c <= hi) lifetimes) by (eapply Forall_impl; [|exact V]; intros c (A & B); exact B).
    apply pass_spec with (lo := lo) (hi := hi) in R1 as (p1 & A1 & A2 & A3 & A4 & A5); [|reflexivity | exact C | exact V' | destruct lifetimes; [exact I | apply Forall_cons_iff in V as ((A & _) & _); exact A]].
    assert (S1 : step lo hi p1 [] results results1) by (constructor; [exact A2 | exact A4 | constructor]).
    destruct (place_constrained_buffers _ _ _ _) as ((results2 & cands2) & special1) eqn:R2.
    apply constrained_spec with (lo := lo) (hi := hi) in R2 as (p2 & B1 & B2 & B3); [|apply A2].
    destruct (place_constant_buffers _ _ _) as (results3 & constants1) eqn:R3.
    apply constants_spec with (lo := lo) (hi := hi) in R3 as (K & D1 & D2 & _); [|apply B2].
    pose proof (step_trans _ _ _ _ _ _ _ _ _ (step_trans _ _ _ _ _ _ _ _ _ S1 B2) D2) as ST. cbn [app] in ST. rewrite app_nil_r in ST.
    pose proof (minus_trans _ _ _ _ _ A3 B3) as MM. rewrite <- map_app in MM.
    pose proof (Permutation_length A1) as L1. pose proof (Permutation_length B1) as L2. rewrite app_length in L1, L2.
    destruct (_ && _) eqn:NC.
    - apply andb_true_iff in NC as (N1 & N2). apply Nat.eqb_eq in N1, N2. assert (lifetimes = []) as ->. { destruct lifetimes as [|c l]; [reflexivity|]. destruct p1; [exfalso; apply A5; [discriminate | reflexivity]|]. cbn [length] in *. lia. }
      assert (p1 = []) as -> by (apply Permutation_nil in A1; apply app_eq_nil in A1; apply A1). cbn [app] in *.
      exists results3, cands2, constants1, p2, special1, K. split; [reflexivity|]. split; [exact B1|]. split; [|split; [exact ST | split; [exact MM | exact D1]]].
      intros x X. apply (Permutation_in _ (Permutation_sym B1)), in_or_app. auto.
    - assert (LT : (length lifetimes1 + length special1 < fuel)%nat). { apply andb_false_iff in NC as [N|N]; apply Nat.eqb_neq in N; lia. }
      assert (V1 : Forall (valid lo hi) lifetimes1). { rewrite A1 in V. apply Forall_app in V. apply V. }
      destruct (IH lifetimes1 special1 results3 cands2 constants1 lo hi LT) as (r & cd & kp & placed & sp & K' & E & F1 & F2 & F3 & F4 & F5); [apply ST | exact V1 |].
      exists r, cd, kp, ((p1 ++ p2) ++ placed), sp, (K ++ K'). split; [exact E|]. split.
      { rewrite A1, B1. rewrite <- !app_assoc. apply Permutation_app_head. rewrite app_assoc, (Permutation_app_comm lifetimes1), <- app_assoc. apply Permutation_app_head. exact F1. }
      split; [intros x X; apply (Permutation_in _ (Permutation_sym B1)), in_or_app; right; apply F2, X|].
      split; [exact (step_trans _ _ _ _ _ _ _ _ _ ST F3)|]. split; [rewrite map_app; exact (minus_trans _ _ _ _ _ MM F4)|].
      rewrite D1, F5, app_assoc. reflexivity.
  Qed.
  Lemma insert_perm c l : Permutation (insert c l) (c :: l).
  Proof. induction l as [|d l IH]; [reflexivity|]. cbn [insert]. destruct (lifetime_less d c); [rewrite IH; apply perm_swap | reflexivity]. Qed.
  Lemma sort_perm l : Permutation (sort l) l.
  Proof. induction l as [|c l IH]; [reflexivity|]. cbn [sort fold_right]. rewrite insert_perm. constructor. exact IH. Qed.
  Lemma merge_spec : forall rs r lo hi, chain lo hi (r :: rs) -> exists w, merge_all r rs = Some w /\ body w = bodies (r :: rs) /\ chain lo hi [w].
  Proof.
    induction rs as [|b rs IH]; intros r lo hi C; [exists r; split; [reflexivity|]; split; [symmetry; apply app_nil_r | exact C]|].
    cbn [merge_all]. cbn [chain] in C. destruct C as (E & SR & E' & SB & C). pose proof SR as (R1 & R2 & R3). pose proof SB as (B1 & B2 & B3).
    unfold merge. rewrite (proj2 (Z.eqb_eq _ _) (eq_sym E')).
    destruct (IH (Range (body r ++ body b) (start r) (stop b) (allocations r ++ allocations b)) lo hi) as (w & W1 & W2 & W3).
    { cbn [chain start stop]. split; [exact E|]. split; [|exact C]. unfold sound. cbn [start stop body allocations]. split; [lia|]. split.
      - rewrite leaves_app, R2, B2, E'. apply upto_app; lia.
      - intro x. rewrite allocs_app, !in_app_iff, R3, B3. reflexivity. }
    exists w. split; [exact W1|]. split; [|exact W3]. rewrite W2. cbn [bodies flat_map body]. rewrite app_assoc. reflexivity.
  Qed.
  (** the candidates with the symbols [kept], whose lifetimes are within the range *)
  Lemma rest_spec lo hi outputs : forall r cands (info : nat -> candidate), chain lo hi [r] -> NoDup cands -> (forall b, In b cands -> sym (info b) = b /\ lo <= from_ (info b) /\ to_ (info b) <= hi) -> exists r' cands' placed,
    allocate_rest outputs r cands = (r', cands') /\ step lo hi (map info placed) [] [r] [r'] /\ Permutation cands (placed ++ cands') /\ forall b, In b cands' -> ~ In b outputs.
  Proof.
    induction outputs as [|b l IH]; intros r cands info C N V.
    - exists r, cands, []. split; [reflexivity|]. split; [apply step_refl, C|]. split; [reflexivity | auto].
    - cbn [allocate_rest]. destruct (member b cands) eqn:M.
      + apply member_iff in M. destruct (V b M) as (V1 & V2 & V3). pose proof C as (E1 & _ & E2). cbn [chain] in E2.
        assert (S1 : step lo hi [info b] [] [r] [produce_allocation b r]) by (rewrite <- V1 at 2; apply step_alloc; [exact C | lia | lia]).
        assert (PB : Permutation cands (b :: erase b cands)).
        { apply NoDup_Permutation; [exact N | constructor; [rewrite erase_iff; tauto | apply erase_nodup, N]|]. intro x. cbn [In]. rewrite erase_iff. destruct (Nat.eq_dec x b) as [->|D]; [tauto|]. split; [auto|]. intros [X|X]; [congruence | tauto]. }
        destruct (IH (produce_allocation b r) (erase b cands) info) as (r' & cands' & placed & A & B & D & F).
        { apply S1. } { apply erase_nodup, N. } { intros x X. apply erase_iff in X. apply V, X. }
        exists r', cands', (b :: placed). split; [exact A|]. split.
        { change (map info (b :: placed)) with ([info b] ++ map info placed). change (@nil nat) with (@nil nat ++ []). exact (step_trans _ _ _ _ _ _ _ _ _ S1 B). }
        split; [rewrite PB, D; reflexivity|].
        intros x X [<-|O]; [|exact (F x X O)]. assert (In b (erase b cands)) by (apply (Permutation_in _ (Permutation_sym D)), in_or_app; auto). rewrite erase_iff in H. tauto.
      + destruct (IH r cands info C N V) as (r' & cands' & placed & A & B & D & F). exists r', cands', placed. split; [exact A|]. split; [exact B|]. split; [exact D|].
        intros x X [<-|O]; [|exact (F x X O)]. assert (In b cands) by (apply (Permutation_in _ (Permutation_sym D)), in_or_app; auto). apply member_iff in H. congruence.
  Qed.

  Theorem layout_good fuel outputs copy_inputs cands results constants lo hi :
    chain lo hi results -> results <> [] -> NoDup (map sym cands) -> Forall (valid lo hi) cands -> incl (map sym cands) outputs -> (length cands < fuel)%nat ->
    exists r kept K, lay_out_allocations copy_deps fuel outputs copy_inputs cands results constants = Some (Some r, [], kept) /\ step lo hi cands K results [r] /\
      Permutation constants (K ++ kept) /\ (forall c, In c kept -> exists d, In d (copy_deps c) /\ ~ In d (allocs (body r))).
  Proof.
    intros C NE N V INC LEN. unfold lay_out_allocations. set (special := sort (filter (fun c => copy_inputs (sym c)) cands)). set (lifetimes := sort (filter (fun c => negb (copy_inputs (sym c))) cands)).
    assert (PC : Permutation cands (lifetimes ++ special)). { unfold special, lifetimes. rewrite !sort_perm, Permutation_app_comm. apply filter_perm. }
    assert (V' := V). rewrite PC in V'. apply Forall_app in V' as (VL & VS).
    destruct (iterate_spec fuel lifetimes special results (map sym cands) constants lo hi) as (rs & cd & kp & placed & sp & K & E & F1 & F2 & F3 & F4 & F5).
    { pose proof (Permutation_length PC) as L. rewrite app_length in L. lia. } { exact C. } { exact VL. }
    rewrite E. rewrite <- PC in F1.
    assert (lo <= hi) as LH. { destruct results as [|q qs]; [contradiction|]. cbn [chain] in C. destruct C as (<- & (S1 & _) & C). apply chain_le in C. lia. }
    destruct rs as [|q qs]. { exfalso. pose proof (ev_chain _ _ _ _ _ _ (st_ev _ _ _ _ _ _ F3)) as X. cbn [chain] in X. lia. }
    destruct (merge_spec qs q lo hi (ev_chain _ _ _ _ _ _ (st_ev _ _ _ _ _ _ F3))) as (w & W1 & W2 & W3). rewrite W1.
    assert (SW : step lo hi [] [] (q :: qs) [w]).
    { assert (B : bodies [w] = bodies (q :: qs)) by (cbn [bodies flat_map]; rewrite app_nil_r; exact W2). constructor; [|constructor|constructor]. constructor; [exact W3 | rewrite B; auto | rewrite B; reflexivity | intro o; rewrite B; reflexivity | rewrite B; reflexivity | rewrite B; reflexivity]. }
    assert (PS : Permutation (map sym cands) (map sym placed ++ map sym sp)) by (rewrite F1, map_app; reflexivity).
    assert (NS : NoDup (map sym placed ++ map sym sp)) by (rewrite <- PS; exact N).
    assert (KEPT : Permutation cd (map sym sp)).
    { apply NoDup_Permutation; [apply F4, N | exact (nodup_tail _ _ NS)|]. intro x. rewrite (proj2 F4 x), PS, in_app_iff. split.
      - intros ([X|X] & Y); [contradiction | exact X].
      - intro X. split; [auto|]. intro Y. clear - NS X Y. induction (map sym placed) as [|y l IH]; [exact Y|]. cbn [app] in NS. apply NoDup_cons_iff in NS as (N1 & N2). destruct Y as [->|Y]; [apply N1, in_or_app; auto | exact (IH N2 Y)]. }
    assert (NSP : NoDup (map sym sp)) by exact (nodup_tail _ _ NS).
    set (info := fun b => match find (fun c => Nat.eqb (sym c) b) sp with Some c => c | None => Candidate b 0 0 end).
    assert (INFO : forall c, In c sp -> info (sym c) = c).
    { intros c I. unfold info. clear - I NSP. induction sp as [|d l IH]; [destruct I|]. cbn [find]. cbn [map] in NSP. apply NoDup_cons_iff in NSP as (N1 & N2). destruct I as [->|I]; [rewrite Nat.eqb_refl; reflexivity|].
      destruct (Nat.eqb_spec (sym d) (sym c)) as [Q|_]; [exfalso; apply N1; rewrite Q; apply in_map, I | apply IH; assumption]. }
    assert (VSP : Forall (valid lo hi) sp). { apply Forall_forall. intros c I. rewrite Forall_forall in VS. apply VS, F2, I. }
    destruct (rest_spec lo hi outputs w cd info W3) as (r1 & cd1 & pl & R1 & R2 & R3 & R4).
    { rewrite KEPT. exact NSP. }
    { intros b I. rewrite KEPT in I. apply in_map_iff in I as (c & <- & I). rewrite (INFO c I). rewrite Forall_forall in VSP. destruct (VSP c I) as (A & B). split; [reflexivity | lia]. }
    rewrite R1. assert (cd1 = []) as ->.
    { destruct cd1 as [|x cd1]; [reflexivity|]. exfalso. apply (R4 x); [left; reflexivity|]. apply INC. rewrite PS. apply in_or_app. right. rewrite <- KEPT, R3. apply in_or_app. right. left. reflexivity. }
    rewrite app_nil_r in R3.
    assert (PL : Permutation (map info pl) sp).
    { rewrite <- R3, KEPT, map_map. rewrite (map_ext_in (fun x => info (sym x)) (fun x => x)); [rewrite map_id; reflexivity|]. intros c I. apply INFO, I. }
    destruct (place_constant_buffers _ _ _) as (rs2 & kept) eqn:R5. pose proof R5 as R5'.
    apply constants_spec with (lo := lo) (hi := hi) in R5 as (K2 & D1 & D2 & D3); [|apply R2].
    cbn [place_constant_buffers] in R5'. injection R5' as <- _.
    cbn [hd_error]. set (r := fold_left _ _ r1) in *. exists r, kept, (K ++ K2). split; [reflexivity|].
    pose proof (step_trans _ _ _ _ _ _ _ _ _ (step_trans _ _ _ _ _ _ _ _ _ (step_trans _ _ _ _ _ _ _ _ _ F3 SW) R2) D2) as ST. rewrite !app_nil_r in ST.
    assert (PA : Permutation (placed ++ map info pl) cands) by (rewrite PL, F1; reflexivity).
    split; [|split].
    - constructor; [|rewrite <- PA; exact (st_cov _ _ _ _ _ _ ST) | exact (st_decl _ _ _ _ _ _ ST)].
      eapply ev_perm; [| reflexivity | exact (st_ev _ _ _ _ _ _ ST)]. apply Permutation_map, PA.
    - rewrite F5, D1, app_assoc. reflexivity.
    - intros c I. destruct (D3 c r I (or_introl eq_refl)) as (d & A & B). exists d. split; [exact A|]. intro X. apply B. pose proof (ev_chain _ _ _ _ _ _ (st_ev _ _ _ _ _ _ ST)) as (_ & (_ & _ & Y) & _). apply Y, X.
  Qed.
End Steps.
