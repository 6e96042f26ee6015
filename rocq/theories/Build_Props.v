(** C62: the program that is built runs the calls of C60, with each buffer allocated once, where it is stored, around its producer and all its consumers. *)
From Coq Require Import ZArith List Bool Arith Lia Permutation.
From Verif Require Import Arith_Model Sched_Model Sched_Spec Sched_Proofs Sched2_Proofs Sched3_Proofs Sched4_Proofs Sched_Props Layout_Model Layout_Spec Layout_Proofs Build_Model Build_Spec Build_Proofs Build2_Proofs.
Import ListNotations.
Open Scope nat_scope.

(** ** Statements *)
Lemma within_trans n x c l : within c l -> children c = x -> within n x -> within n l.
Proof.
  intros W E H. induction W as [l I|l v l' I W IH|l b l' I W IH|l b l' I W IH].
  - subst x. destruct c as [k|v l'|b l'|b l']; cbn [children] in H; [exfalso; exact (within_nil _ H) | exact (within_nest _ _ _ _ I H) | exact (within_alloc _ _ _ _ I H) | exact (within_const _ _ _ _ I H)].
  - exact (within_nest _ _ _ _ I IH).
  - exact (within_alloc _ _ _ _ I IH).
  - exact (within_const _ _ _ _ I IH).
Qed.
Lemma within_leaves c l : within c l -> incl (leaves (children c)) (leaves l).
Proof.
  intro W. induction W as [l I|l v l' I W IH|l b l' I W IH|l b l' I W IH]; intros k J.
  - unfold leaves. apply in_flat_map. exists c. split; [exact I|]. destruct c as [k'|v l'|b l'|b l']; cbn [children leaves leaves1 flat_map] in *; [destruct J | exact J | exact J | exact J].
  - unfold leaves. apply in_flat_map. exists (Nest v l'). split; [exact I | exact (IH k J)].
  - unfold leaves. apply in_flat_map. exists (Alloc b l'). split; [exact I | exact (IH k J)].
  - unfold leaves. apply in_flat_map. exists (Const b l'). split; [exact I | exact (IH k J)].
Qed.
Lemma code_ind' (Q : code -> Prop) : (forall k, Q (Leaf k)) -> (forall v l, Forall Q l -> Q (Nest v l)) -> (forall b l, Forall Q l -> Q (Alloc b l)) -> (forall b l, Forall Q l -> Q (Const b l)) -> forall c, Q c.
Proof.
  intros H1 H2 H3 H4. fix IH 1. intros [k|v l|b l|b l]; [apply H1 | apply H2 | apply H3 | apply H4]; induction l as [|x l IHl]; constructor; [apply IH | exact IHl | apply IH | exact IHl | apply IH | exact IHl].
Qed.
Lemma list_lift (Q : code -> Prop) : (forall l, Forall Q l) <-> forall c, Q c.
Proof. split; intro H; [intro c; specialize (H [c]); apply Forall_cons_iff in H; apply H | intro l; apply Forall_forall; intros x _; apply H]. Qed.
Lemma allocs_within b l : In b (allocs l) -> exists y, within (Alloc b y) l.
Proof.
  assert (H : forall c, In b (allocs1 c) -> exists y, within (Alloc b y) [c]).
  { assert (HF : forall l0, Forall (fun c => In b (allocs1 c) -> exists y, within (Alloc b y) [c]) l0 -> In b (flat_map allocs1 l0) -> exists y, within (Alloc b y) l0).
    { intros l0 F I. apply in_flat_map in I as (c & Ic & I). rewrite Forall_forall in F. destruct (F c Ic I) as (y & W). exists y. apply in_split in Ic as (a1 & a2 & ->). change (c :: a2) with ([c] ++ a2). rewrite !within_app. auto. }
    induction c as [k|v l0 F|b' l0 F|b' l0 F] using code_ind'; cbn [allocs1].
    - intros [].
    - intro I. destruct (HF l0 F I) as (y & W). exists y. apply (within_nest _ _ v l0); [left; reflexivity | exact W].
    - intros [->|I]; [exists l0; constructor; left; reflexivity|]. destruct (HF l0 F I) as (y & W). exists y. apply (within_alloc _ _ b' l0); [left; reflexivity | exact W].
    - intro I. destruct (HF l0 F I) as (y & W). exists y. apply (within_const _ _ b' l0); [left; reflexivity | exact W]. }
  unfold allocs. intro I. apply in_flat_map in I as (c & Ic & I). destruct (H c I) as (y & W). exists y. apply in_split in Ic as (a1 & a2 & ->). change (c :: a2) with ([c] ++ a2). rewrite !within_app. auto.
Qed.
Lemma within_allocs b y l : within (Alloc b y) l -> In b (allocs l).
Proof.
  intro W. remember (Alloc b y) as n eqn:E. induction W as [l I|l v l' I W IH|l b' l' I W IH|l b' l' I W IH]; unfold allocs; apply in_flat_map.
  - subst n. exists (Alloc b y). split; [exact I | left; reflexivity].
  - exists (Nest v l'). split; [exact I | exact IH].
  - exists (Alloc b' l'). split; [exact I | right; exact IH].
  - exists (Const b' l'). split; [exact I | exact IH].
Qed.
Lemma within_consts b y l : within (Const b y) l -> In b (consts l).
Proof.
  intro W. remember (Const b y) as n eqn:E. induction W as [l I|l v l' I W IH|l b' l' I W IH|l b' l' I W IH]; unfold consts; apply in_flat_map.
  - subst n. exists (Const b y). split; [exact I | left; reflexivity].
  - exists (Nest v l'). split; [exact I | exact IH].
  - exists (Alloc b' l'). split; [exact I | exact IH].
  - exists (Const b' l'). split; [exact I | right; exact IH].
Qed.
Lemma nodup_head {A} (a b : list A) : NoDup (a ++ b) -> NoDup a.
Proof. intro N. apply nodup_tail with b. apply Permutation_NoDup with (a ++ b); [apply Permutation_app_comm | exact N]. Qed.
Lemma alloc_unique b x y l : NoDup (allocs l) -> within (Alloc b x) l -> within (Alloc b y) l -> x = y.
Proof.
  assert (HL : forall l0, Forall (fun c => NoDup (allocs [c]) -> within (Alloc b x) [c] -> within (Alloc b y) [c] -> x = y) l0 -> NoDup (allocs l0) -> within (Alloc b x) l0 -> within (Alloc b y) l0 -> x = y).
  { induction 1 as [|c l0 Hc _ IH]; intros N W1 W2; [exfalso; exact (within_nil _ W1)|]. change (c :: l0) with ([c] ++ l0) in *. rewrite allocs_app in N. apply within_app in W1, W2.
    destruct W1 as [W1|W1], W2 as [W2|W2]; [apply Hc; [exact (nodup_head _ _ N) | assumption | assumption] | | | apply IH; [exact (nodup_tail _ _ N) | assumption | assumption]];
      exfalso; apply within_allocs in W1, W2; [exact (nodup_disj _ _ b N W1 W2) | exact (nodup_disj _ _ b N W2 W1)]. }
  apply HL. apply list_lift. induction c as [k|v l0 F|b' l0 F|b' l0 F] using code_ind'; intros N W1 W2; unfold allocs in N; cbn [flat_map allocs1] in N; rewrite app_nil_r in N; apply within_cons in W1, W2; cbn [children] in W1, W2;
    destruct W1 as [W1|[W1|W1]]; try discriminate; try (exfalso; exact (within_nil _ W1)); destruct W2 as [W2|[W2|W2]]; try discriminate; try (exfalso; exact (within_nil _ W2)).
  - exact (HL l0 F N W1 W2).
  - congruence.
  - injection W1 as <- <-. apply NoDup_cons_iff in N as (N & _). exfalso. exact (N (within_allocs _ _ _ W2)).
  - injection W2 as <- <-. apply NoDup_cons_iff in N as (N & _). exfalso. exact (N (within_allocs _ _ _ W1)).
  - apply NoDup_cons_iff in N as (_ & N). exact (HL l0 F N W1 W2).
  - exact (HL l0 F N W1 W2).
Qed.
Lemma const_unique b x y l : NoDup (consts l) -> within (Const b x) l -> within (Const b y) l -> x = y.
Proof.
  assert (HL : forall l0, Forall (fun c => NoDup (consts [c]) -> within (Const b x) [c] -> within (Const b y) [c] -> x = y) l0 -> NoDup (consts l0) -> within (Const b x) l0 -> within (Const b y) l0 -> x = y).
  { induction 1 as [|c l0 Hc _ IH]; intros N W1 W2; [exfalso; exact (within_nil _ W1)|]. change (c :: l0) with ([c] ++ l0) in *. rewrite consts_app in N. apply within_app in W1, W2.
    destruct W1 as [W1|W1], W2 as [W2|W2]; [apply Hc; [exact (nodup_head _ _ N) | assumption | assumption] | | | apply IH; [exact (nodup_tail _ _ N) | assumption | assumption]];
      exfalso; apply within_consts in W1, W2; [exact (nodup_disj _ _ b N W1 W2) | exact (nodup_disj _ _ b N W2 W1)]. }
  apply HL. apply list_lift. induction c as [k|v l0 F|b' l0 F|b' l0 F] using code_ind'; intros N W1 W2; unfold consts in N; cbn [flat_map consts1] in N; rewrite app_nil_r in N; apply within_cons in W1, W2; cbn [children] in W1, W2;
    destruct W1 as [W1|[W1|W1]]; try discriminate; try (exfalso; exact (within_nil _ W1)); destruct W2 as [W2|[W2|W2]]; try discriminate; try (exfalso; exact (within_nil _ W2)).
  - exact (HL l0 F N W1 W2).
  - exact (HL l0 F N W1 W2).
  - congruence.
  - injection W1 as <- <-. apply NoDup_cons_iff in N as (N & _). exfalso. exact (N (within_consts _ _ _ W2)).
  - injection W2 as <- <-. apply NoDup_cons_iff in N as (N & _). exfalso. exact (N (within_consts _ _ _ W1)).
  - apply NoDup_cons_iff in N as (_ & N). exact (HL l0 F N W1 W2).
Qed.
(** constants around everything *)
Definition wraps (cs : list nat) (l : list code) : list code := fold_left (fun c b => [Const b c]) cs l.
Lemma wraps_within cs : forall l n, within n l -> within n (wraps cs l).
Proof. induction cs as [|c cs IH]; intros l n W; [exact W|]. cbn [wraps fold_left]. apply IH. apply (within_const _ _ c l); [left; reflexivity | exact W]. Qed.
Lemma wraps_consts cs : forall l, Permutation (consts (wraps cs l)) (cs ++ consts l).
Proof. induction cs as [|c cs IH]; intro l; [reflexivity|]. cbn [wraps fold_left]. fold (wraps cs [Const c l]). rewrite IH. unfold consts at 1. cbn [flat_map consts1]. rewrite app_nil_r. fold (consts l). cbn [app]. symmetry. apply Permutation_middle. Qed.
Lemma wraps_same cs : forall l, allocs (wraps cs l) = allocs l /\ leaves (wraps cs l) = leaves l /\ (forall P, scopes P (wraps cs l) = scopes P l) /\ forall L, program L (wraps cs l) = program L l.
Proof.
  induction cs as [|c cs IH]; intro l; [auto|]. cbn [wraps fold_left]. fold (wraps cs [Const c l]). destruct (IH [Const c l]) as (A & B & C & D).
  rewrite A, B. split; [apply app_nil_r|]. split; [apply app_nil_r|]. split; [intro P; rewrite C; apply app_nil_r | intro L; rewrite D; apply app_nil_r].
Qed.
Lemma wraps_around cs : forall l c, In c cs -> exists x, within (Const c x) (wraps cs l) /\ leaves x = leaves l.
Proof.
  induction cs as [|c' cs IH]; intros l c I; [destruct I|]. cbn [wraps fold_left]. fold (wraps cs [Const c' l]). destruct I as [->|I].
  - exists l. split; [apply wraps_within; constructor; left; reflexivity | reflexivity].
  - destruct (IH [Const c' l] c I) as (x & W & E). exists x. split; [exact W|]. rewrite E. apply app_nil_r.
Qed.
Lemma called_upto L : map (fun k => nth (Z.to_nat k) L 0) (upto 0 (Z.of_nat (length L) - 1)) = L.
Proof.
  unfold upto. rewrite map_map. replace (Z.to_nat (Z.of_nat (length L) - 1 + 1 - 0)) with (length L) by lia.
  transitivity (map (fun i => nth i L 0) (seq 0 (length L))); [apply map_ext; intro i; f_equal; lia|]. induction L as [|x L IH]; [reflexivity|]. cbn [length seq map nth]. f_equal. rewrite <- seq_shift, map_map. exact IH.
Qed.

(** ** The program *)
Theorem C62_built : forall p n outputs ord ds st m outer nest,
  topological_sort (gr p) n outputs = Some (Val (ord, ds)) -> compute_innermost_locations (gr p) ord ds = Val st ->
  nested (gr p) outputs outer nest -> (forall f, needed (gr p) outputs f -> NoDup (loops (gr p) f)) -> outputs <> [] ->
  consistent p outputs -> storable p outputs nest -> length ord + length (flat_map (loops (gr p)) ord) <= m ->
  exists items code, Sched_Model.make_root (gr p) ord st m = Some items /\ make_root p ord st m = Some code /\ built p outputs outer nest items code.
Proof.
  intros p n outputs ord ds st m outer nest Q Loc N Dl NE C ST Lm. set (g := gr p) in *. pose proof (sort_sound g n outputs ord ds Q) as Sp. destruct (nested_spec g outputs ord ds Sp st Loc) as (N0 & A0).
  assert (Hn : forall f, In f ord <-> needed g outputs f) by exact (so_needed g outputs ord ds Sp).
  assert (A : forall f, In f ord -> at_level st f = innermost (outer f) /\ call_level st f = innermost (nest f)).
  { intros f I. destruct (C59_unique g n outputs ord ds _ _ _ _ Q N0 N f (proj1 (Hn f) I)) as (<- & <-). exact (A0 f I). }
  destruct (root_good g outputs ord ds st outer nest Sp N A) with (n := m) as (items & E & [G1 G2 G3 G4]).
  { intros f I. apply Dl. apply Hn. exact I. }
  { assert (Sz : forall l, size g l = length l + length (flat_map (loops g) l)) by (induction l as [|x l IH]; [reflexivity|]; unfold size in *; cbn [fold_right length flat_map]; rewrite IH, app_length; lia). rewrite Sz. exact Lm. }
  set (L := map snd (calls [] items)). assert (EL : names_of items = L) by (unfold names_of, L; rewrite <- (ids_names []); reflexivity).
  assert (HL : forall f, In f L <-> needed g outputs f).
  { intro f. unfold L. rewrite in_map_iff, <- Hn. split; [intros ((q & h) & <- & I); apply G1 in I as (h' & I & E'); injection E' as _ ->; exact I | intro I; exists (nest f, f); split; [reflexivity | apply G1; eauto]]. }
  assert (LN : NoDup L) by exact G2.
  assert (LO : Permutation ord L) by (apply NoDup_Permutation; [exact (so_nodup g outputs ord ds Sp) | exact LN | intro f; rewrite Hn, HL; reflexivity]).
  assert (LE : L <> []). { destruct outputs as [|o os]; [contradiction|]. intro X. assert (I : In o L) by (apply HL, needed_output; left; reflexivity). rewrite X in I. exact I. }
  assert (HI : forall b f, inter p L b f <-> intermediate p outputs b f).
  { intros b f. unfold inter, intermediate, is_output. rewrite HL. fold g. split; intros (I1 & I2 & I3); (split; [exact I1|]; split; [exact I2|]); [rewrite <- member_iff, I3; discriminate | destruct (member b (pipe_outs p)) eqn:M; [apply member_iff in M; contradiction | reflexivity]]. }
  assert (HU : forall b c, consumer p L b c <-> uses p outputs c b) by (intros b c; unfold consumer, uses; rewrite HL; reflexivity).
  assert (HV : forall b f, inter p L b f -> level p st b f = storage p outer f b). { intros b f (I & _). unfold level, storage. destruct (store_at p b) as [[h|l]|]; [|reflexivity|reflexivity]. apply A, Hn, HL, I. }
  assert (own : forall b f h, inter p L b f -> store_at p b = Some (Innermost_of h) -> h = f) by (intros b f h I S0; apply HI, ST in I; rewrite S0 in I; exact I).
  assert (ordered : forall f c b, In f L -> In c L -> In b (outs p f) -> In b (ins p c) -> before f c L).
  { intros f c b If Ic Ib Jb. apply G3; [|apply Hn, HL, If | apply Hn, HL, Ic]. apply (c_producers _ _ C f c b); [apply HL, If | exact Ib | split; [apply HL, Ic | exact Jb]]. }
  assert (around : forall b f x, inter p L b f -> level p st b f = Some x -> In x (nest f) /\ forall c, consumer p L b c -> In x (nest c)).
  { intros b f x I Lv. rewrite (HV b f I) in Lv. pose proof (ST b f (proj1 (HI b f) I)) as X. unfold storage in Lv. destruct (store_at p b) as [[h|l]|] eqn:Sb; [|subst l|discriminate].
    - assert (Jx : In x (outer f)) by (destruct (exists_last_or (outer f)) as [E0|(o' & x' & E0)]; rewrite E0 in *; [discriminate | rewrite innermost_snoc in Lv; injection Lv as <-; apply in_or_app; right; left; reflexivity]).
      split; [rewrite (nest_own _ _ _ _ N f (proj1 (HL f) (proj1 I))); apply in_or_app; left; exact Jx|]. intros c (Ic & Ib). assert (Cc : consumed g outputs f c) by (split; [apply HL, Ic | apply (c_producers _ _ C f c b); [apply HL, I | apply I | split; [apply HL, Ic | exact Ib]]]).
      destruct (nest_consumer _ _ _ _ N f c (proj1 (HL f) (proj1 I)) Cc) as (r & Er). rewrite Er. apply in_or_app. left. exact Jx.
    - destruct X as (X1 & X2). split; [exact X1|]. intros c Cc. apply X2, HU, Cc. }
  assert (NO : forall k w, In k ord -> at_level st k <> Some (k, w)).
  { intros k w Ik X. rewrite (proj1 (A k Ik)) in X. apply (outer_not_own g outputs ord ds outer nest Sp N k w Ik). destruct (exists_last_or (outer k)) as [E0|(o' & x' & E0)]; rewrite E0 in *; [discriminate | rewrite innermost_snoc in X; injection X as ->; apply in_or_app; right; left; reflexivity]. }
  destruct (root_post p ord st L nest LN LO) with (items := items) as (rs & s2 & r & s3 & A1 & K & E1 & E2 & PO & HA & HK); auto.
  { intros f f' b If If'. apply (c_single _ _ C); apply HL; assumption. }
  { intros f If. apply (c_some _ _ C). apply HL, If. }
  { intros f b If. apply (c_produced _ _ C). apply HL, If. }
  { intros q h I. apply G1 in I as (h' & _ & E'). congruence. }
  destruct PO as [B1 B2 B3 B4 B5 B6 B7 B8 B9 B10]. cbn [app length] in *. rewrite !app_nil_r in *. assert (BB : bodies [r] = body r) by apply app_nil_r. rewrite BB in *. rewrite EL in *.
  exists items, (wraps (constants s3) (body r)). split; [exact E|]. split.
  { unfold make_root. rewrite (root_sim p ord st NO m items E), E1, E2. reflexivity. }
  destruct (wraps_same (constants s3) (body r)) as (W1 & W2 & W3 & W4).
  assert (LV : leaves (body r) = upto 0 (Z.of_nat (length L) - 1)) by (rewrite <- BB; rewrite (chain_leaves _ _ _ B1); reflexivity).
  assert (IA : forall b, In b A1 <-> exists f, inter p L b f). { intro b. split; [intro I; destruct (i_alloc _ _ _ _ _ _ _ B2 b I) as (f & If & _); eauto | intros (f & If); exact (HA b f If)]. }
  assert (NA : NoDup (allocs (body r))) by (apply (Permutation_NoDup (Permutation_sym B3)); exact (i_An _ _ _ _ _ _ _ B2)).
  assert (CA : forall f x, In (Z.of_nat (pos f L)) (leaves x) -> In f L -> In f (called L x)). { intros f x I J. unfold called. apply in_map_iff. exists (Z.of_nat (pos f L)). split; [|exact I]. rewrite Nat2Z.id. apply pos_nth, J. }
  assert (AR : forall b x f, within (Alloc b x) (body r) -> inter p L b f \/ consumer p L b f -> In (Z.of_nat (pos f L)) (leaves x)).
  { intros b x f W H. assert (Ib : In b A1) by exact (Permutation_in _ B3 (within_allocs _ _ _ W)). rewrite Forall_forall in B5. destruct (B5 b Ib) as (y & Wy & Hy). rewrite (alloc_unique b x y _ NA W Wy). apply IA in Ib as (f' & If'). destruct (Hy f' If') as (H1 & H2).
    destruct H as [H|H]; [|exact (H2 f H)]. assert (f = f') as ->; [|exact H1]. apply (c_single _ _ C f f' b); [apply HL, H | apply HL, If' | apply H | apply If']. }
  assert (KP : Permutation (consts (wraps (constants s3) (body r))) (constants s3 ++ K)) by (rewrite wraps_consts; apply Permutation_app_head, B4).
  assert (KI : forall c, In c (constants s3 ++ K) <-> constant p c = true /\ exists f, uses p outputs f c).
  { intro c. rewrite in_app_iff. split.
    - intros [I|I]; [apply (i_const _ _ _ _ _ _ _ B2) in I as (I1 & (f & If & Ic) & _); split; [exact I1|]; exists f; apply HU; split; assumption|]. destruct (i_K _ _ _ _ _ _ _ B2 c I) as (I1 & (f & Cf) & _). split; [exact I1|]. exists f. apply HU, Cf.
    - intros (I1 & f & U). destruct (in_dec Nat.eq_dec c K) as [I|I]; [auto|]. left. apply (i_const _ _ _ _ _ _ _ B2). split; [exact I1|]. split; [|exact I]. apply HU in U. exists f. exact U. }
  assert (KN : NoDup (constants s3 ++ K)). { apply nodup_app; [exact (i_cinc _ _ _ _ _ _ _ B2) | exact (i_Kn _ _ _ _ _ _ _ B2)|]. intros c I J. apply (i_const _ _ _ _ _ _ _ B2) in I as (_ & _ & I). exact (I J). }
  assert (NC : NoDup (consts (wraps (constants s3) (body r)))) by exact (Permutation_NoDup (Permutation_sym KP) KN).
  constructor; fold L.
  - rewrite W4. exact B9.
  - unfold called. rewrite W2, LV. apply called_upto.
  - intro b. rewrite W1. split.
    + intro I. apply (Permutation_in _ B3) in I. apply IA in I as (f & If). exists f. apply HI, If.
    + intros (f & If). apply HI in If. apply (Permutation_in _ (Permutation_sym B3)), IA. eauto.
  - rewrite W1. exact NA.
  - intros P b I. rewrite W3 in I. destruct (B7 P b I) as (f & If & I1 & I2). exists f. split; [apply HI, If|]. split; [exact I1|]. rewrite I2. exact (HV b f If).
  - intros b x f W H. assert (W' : within (Alloc b x) (body r)).
    { destruct (allocs_within b (body r)) as (y & Wy); [rewrite <- W1; exact (within_allocs _ _ _ W)|]. assert (x = y) as ->; [|exact Wy]. apply (alloc_unique b x y (wraps (constants s3) (body r))); [rewrite W1; exact NA | exact W | apply wraps_within, Wy]. }
    apply CA; [apply (AR b x f W'); destruct H as [H|H]; [left; apply HI, H | right; apply HU, H] | apply HL; destruct H as [H|H]; apply H].
  - intro c. rewrite <- KI. split; intro I; [exact (Permutation_in _ KP I) | exact (Permutation_in _ (Permutation_sym KP) I)].
  - exact NC.
  - intros c x f W U. apply HU in U. apply CA; [|apply U]. assert (Ic : In c (constants s3 ++ K)) by exact (Permutation_in _ KP (within_consts _ _ _ W)). apply in_app_or in Ic as [Ic|Ic].
    + destruct (wraps_around (constants s3) (body r) c Ic) as (y & Wy & Ey). rewrite (const_unique c x y _ NC W Wy), Ey, LV. apply upto_in. pose proof (pos_in f L [] (proj1 U)). lia.
    + rewrite Forall_forall in B6. destruct (B6 c Ic) as (y & Wy & Dy). rewrite (const_unique c x y _ NC W (wraps_within _ _ _ Wy)).
      destruct (outs p f) as [|d ds'] eqn:Ed; [exfalso; exact (c_some _ _ C f (proj1 (HL f) (proj1 U)) Ed)|]. assert (Id : In d (outs p f)) by (rewrite Ed; left; reflexivity).
      assert (Cc : constant p c = true) by exact (proj1 (i_K _ _ _ _ _ _ _ B2 c Ic)).
      assert (Dd : In d (copy_deps p ord c)) by exact (const_deps p ord L LO c f d (proj1 U) (proj2 U) Cc Id).
      destruct (allocs_within d y (Dy d Dd)) as (z & Wz). assert (Wd : within (Alloc d z) (body r)) by exact (within_trans _ y (Const c y) _ Wy eq_refl Wz).
      assert (Id' : In d A1) by exact (Permutation_in _ B3 (within_allocs _ _ _ Wd)). apply IA in Id' as (f' & If'). assert (f' = f) as -> by (apply (c_single _ _ C f' f d); [apply HL, If' | apply HL, U | apply If' | exact Id]).
      apply (within_leaves _ _ Wz). cbn [children]. apply (AR d z f Wd). left. exact If'.
Qed.

(** ** Example: the functions of C59_ex.  The function f has the output 20 + f, of which 20 is the output of the pipeline; 21 and 24 are stored where they are computed, 22 in the loop over 10, 23 in the one over 11, and 25
    at the root.  3 is a copy.  30 and 31 are constants, and 29 is an input. *)
Definition pipe62 : pipe := Pipe g59
  (fun f => match f with 6 => [] | _ => [20 + f] end)
  (fun f => match f with 0 => [21; 22; 30] | 1 => [23; 31] | 2 => [23; 24; 24] | 3 => [25; 31] | _ => [29] end)
  (fun f => negb (f =? 3)) (fun _ => false) (fun b => (b =? 30) || (b =? 31)) (fun b => (20 <=? b) && (b <=? 25))
  (fun b => match b with 21 => Some (Innermost_of 1) | 22 => Some (At (Some (0, 10))) | 23 => Some (At (Some (0, 11))) | 24 => Some (Innermost_of 4) | _ => None end) [20].
Definition code62 : list code :=
  [Const 30 [Alloc 25 [Leaf 0; Nest (0, 10) [Alloc 24 [Leaf 1; Alloc 22 [Nest (0, 11) [Const 31 [Alloc 21 [Alloc 23 [Leaf 2; Nest (1, 12) [Leaf 3]; Leaf 4]; Leaf 5]]]]]]]]].
Example C62_ex : exists ds st outer nest, topological_sort g59 8 [0] = Some (Val (ord59, ds)) /\ compute_innermost_locations g59 ord59 ds = Val st /\ nested g59 [0] outer nest /\
  (forall f, needed g59 [0] f -> NoDup (loops g59 f)) /\ consistent pipe62 [0] /\ storable pipe62 [0] nest /\ length ord59 + length (flat_map (loops g59) ord59) <= 9 /\ make_root pipe62 ord59 st 9 = Some code62.
Proof.
  destruct C59_ex as (_ & _ & _ & _ & Eo & _ & ds & st & Q & L & Nd & Le & _). exists ds, st, (outer_s g59 st), (nest_s st). pose proof (sort_sound g59 8 [0] ord59 ds Q) as Sp. destruct (nested_spec g59 [0] ord59 ds Sp st L) as (N & _).
  assert (Hn : forall f, needed g59 [0] f <-> In f [0; 2; 4; 1; 3; 5]) by (intro f; rewrite <- Eo; symmetry; exact (so_needed _ _ _ _ Sp f)).
  split; [exact Q|]. split; [exact L|]. split; [exact N|]. split; [exact Nd|]. clear N Sp Nd.
  assert (Cases : forall f, needed g59 [0] f -> f = 0 \/ f = 2 \/ f = 4 \/ f = 1 \/ f = 3 \/ f = 5) by (intros f Hf; apply Hn in Hf; cbn [In] in Hf; intuition auto).
  split.
  { constructor; cbn [gr pipe62 outs ins produced].
    - intros f f' b H H' I I'. destruct (Cases f H) as [->|[->|[->|[->|[->| ->]]]]], (Cases f' H') as [->|[->|[->|[->|[->| ->]]]]]; try reflexivity; cbn in I, I'; intuition congruence.
    - intros f H. destruct (Cases f H) as [->|[->|[->|[->|[->| ->]]]]]; discriminate.
    - intros f b H I. destruct (Cases f H) as [->|[->|[->|[->|[->| ->]]]]]; cbn in I; destruct I as [<-|[]]; reflexivity.
    - intros f c b H I (Hc & Ic). cbn [gr pipe62 ins] in Hc, Ic. destruct (Cases f H) as [->|[->|[->|[->|[->| ->]]]]], (Cases c Hc) as [->|[->|[->|[->|[->| ->]]]]]; cbn in I, Ic |- *; intuition congruence. }
  rewrite Eo in *. vm_compute in Q. injection Q as <-. vm_compute in L. injection L as <-. split; [|split; [vm_compute; lia | vm_compute; reflexivity]].
  intros b f (H & I & _). cbn [gr pipe62] in H. destruct (Cases f H) as [->|[->|[->|[->|[->| ->]]]]]; cbn in I; destruct I as [<-|[]]; vm_compute; auto;
    (split; [auto|]); intros c (Hc & Ic); cbn [gr pipe62 ins] in Hc, Ic; destruct (Cases c Hc) as [->|[->|[->|[->|[->| ->]]]]]; cbn in Ic; try (exfalso; intuition discriminate); vm_compute; auto.
Qed.
(** Finding: if store_at is a loop that is not around the function, but that was made before the function is called, the assert (pipeline.cc:804) does not fail and the buffer is not allocated: here 21, which
    the function 1 produces and 0 uses. *)
Definition pipe62r : pipe := Pipe (Graph (fun f => match f with 0 => [1; 2] | 1 => [2] | _ => [] end) (fun f => match f with 2 => [10] | _ => [] end) (fun _ => None))
  (fun f => [20 + f]) (fun f => match f with 0 => [21; 22] | 1 => [22] | _ => [] end) (fun _ => true) (fun _ => false) (fun _ => false) (fun b => (20 <=? b) && (b <=? 22))
  (fun b => match b with 21 => Some (At (Some (2, 10))) | _ => None end) [20].
Theorem C62_not_allocated_refuted : exists ds st code, topological_sort (gr pipe62r) 8 [0] = Some (Val ([0; 1; 2], ds)) /\ compute_innermost_locations (gr pipe62r) [0; 1; 2] ds = Val st /\
  intermediate pipe62r [0] 21 1 /\ uses pipe62r [0] 0 21 /\ make_root pipe62r [0; 1; 2] st 9 = Some code /\ called [2; 1; 0] code = [2; 1; 0] /\ ~ In 21 (allocs code).
Proof.
  eexists. eexists. eexists. split; [vm_compute; reflexivity|]. split; [vm_compute; reflexivity|]. split; [|split; [|split; [vm_compute; reflexivity|split; [reflexivity | cbn; intuition discriminate]]]].
  - split; [apply needed_producer with 0; [apply needed_output; left; reflexivity | left; reflexivity]|]. cbn. split; [left; reflexivity | intuition discriminate].
  - split; [apply needed_output; left; reflexivity | left; reflexivity].
Qed.
