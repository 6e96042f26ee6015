(** The state of the builder: what a call does to it. *)
From Coq Require Import ZArith List Bool Arith Lia Permutation.
From Verif Require Import Arith_Model Sched_Model Sched_Spec Sched_Proofs Sched2_Proofs Sched3_Proofs Sched4_Proofs Layout_Model Layout_Spec Layout_Proofs Build_Model Build_Spec Build_Proofs.
Import ListNotations.
Open Scope nat_scope.

Section Inv.
  Variable p : pipe.
  Variable ord : list nat.
  Variable loc : locations.
  (** the calls, in the order of the program *)
  Variable L : list nat.
  Variable nest : nat -> list (nat * nat).
  Hypothesis LN : NoDup L.
  Hypothesis LO : Permutation ord L.
  Hypothesis single : forall f f' b, In f L -> In f' L -> In b (outs p f) -> In b (outs p f') -> f = f'.
  Hypothesis outs_some : forall f, In f L -> outs p f <> [].
  Hypothesis outs_produced : forall f b, In f L -> In b (outs p f) -> produced p b = true.
  Hypothesis ordered : forall f c b, In f L -> In c L -> In b (outs p f) -> In b (ins p c) -> before f c L.
  (** [b] is an intermediate buffer that [f] produces *)
  Definition inter (b f : nat) : Prop := In f L /\ In b (outs p f) /\ is_output p b = false.
  Definition consumer (b c : nat) : Prop := In c L /\ In b (ins p c).
  Definition level (b f : nat) : loop_id := match store_at p b with None => None | Some (Innermost_of _) => at_level loc f | Some (At l) => l end.
  Hypothesis own_innermost : forall b f g, inter b f -> store_at p b = Some (Innermost_of g) -> g = f.
  Hypothesis level_around : forall b f x, inter b f -> level b f = Some x -> In x (nest f) /\ forall c, consumer b c -> In x (nest c).
  Notation N f := (Z.of_nat (pos f L)).
  Lemma inter_fun b f f' : inter b f -> inter b f' -> f = f'.
  Proof. intros (A1 & A2 & _) (B1 & B2 & _). exact (single f f' b A1 B1 A2 B2). Qed.

  Record Inv (done A K : list nat) (s : state) : Prop := {
    i_made : made s = Z.of_nat (length done);
    i_cand : forall l b, In b (candidates s l) <-> exists f, inter b f /\ In f done /\ level b f = l /\ ~ In b A;
    i_inc : forall l, increasing (candidates s l);
    i_from : forall b f, inter b f -> In f done -> from_of s b = N f;
    i_used : forall b f, inter b f -> used s b = count_occ Nat.eq_dec (flat_map (ins p) done) b;
    i_to : forall b f, inter b f -> In f done -> (forall c, consumer b c -> In c done) -> (N f <= to_of s b < Z.of_nat (length done))%Z /\ forall c, consumer b c -> (N c <= to_of s b)%Z;
    i_alloc : forall b, In b A -> exists f, inter b f /\ In f done;
    i_const : forall c, In c (constants s) <-> constant p c = true /\ (exists f, In f done /\ In c (ins p f)) /\ ~ In c K;
    i_cinc : NoDup (constants s);
    i_K : forall c, In c K -> constant p c = true /\ (exists f, consumer c f) /\ forall f, consumer c f -> In f done;
    i_An : NoDup A;
    i_Kn : NoDup K }.

  Lemma deps_count_L b : deps_count p ord b = count_occ Nat.eq_dec (flat_map (ins p) L) b.
  Proof. unfold deps_count. assert (Q : Permutation (flat_map (ins p) ord) (flat_map (ins p) L)) by (apply Permutation_flat_map; exact LO). exact (proj1 (Permutation_count_occ Nat.eq_dec _ _) Q b). Qed.
  Lemma has_info_inter b : has_info p ord b = true <-> exists f, inter b f.
  Proof.
    unfold has_info, inter. rewrite andb_true_iff, negb_true_iff, existsb_exists. setoid_rewrite member_iff. split.
    - intros ((f & I & B) & O). exists f. split; [exact (Permutation_in _ LO I) | auto].
    - intros (f & I & B & O). split; [exists f; split; [exact (Permutation_in _ (Permutation_sym LO) I) | exact B] | exact O].
  Qed.
  Lemma all_used b done rest : L = done ++ rest -> (count_occ Nat.eq_dec (flat_map (ins p) done) b = deps_count p ord b <-> forall c, consumer b c -> In c done).
  Proof.
    intro E. rewrite deps_count_L, E, flat_map_app, count_occ_app. split.
    - intros Q c (Ic & Ib). rewrite E in Ic. apply in_app_or in Ic as [Ic|Ic]; [exact Ic|]. exfalso. assert (Z0 : count_occ Nat.eq_dec (flat_map (ins p) rest) b = 0) by lia. apply (count_occ_not_In Nat.eq_dec) in Z0. apply Z0, in_flat_map. eauto.
    - intro H. assert (Z0 : count_occ Nat.eq_dec (flat_map (ins p) rest) b = 0); [|lia]. apply (count_occ_not_In Nat.eq_dec). intro I. apply in_flat_map in I as (c & Ic & Ib).
      assert (Id : In c done) by (apply H; split; [rewrite E; apply in_or_app; auto | exact Ib]). pose proof LN as LN'. rewrite E in LN'. exact (nodup_disj _ _ c LN' Id Ic).
  Qed.

  (** *** Outputs *)
  Record outputs_done (f : nat) (l : list nat) (s s' : state) : Prop := {
    od_made : made s' = made s;
    od_used : used s' = used s;
    od_const : constants s' = constants s;
    od_seen : loops_seen s' = loops_seen s;
    od_cand : forall m b, In b (candidates s' m) <-> In b (candidates s m) \/ In b l /\ is_output p b = false /\ level b f = m;
    od_inc : (forall m, increasing (candidates s m)) -> forall m, increasing (candidates s' m);
    od_from : forall b, from_of s' b = if member b l && negb (is_output p b) then made s else from_of s b;
    od_to : forall b, to_of s' b = if member b l && negb (is_output p b) && (used s b =? deps_count p ord b) then made s else to_of s b }.
  Lemma outputs_spec f : In f L -> forall l s, incl l (outs p f) -> (forall b m, inter b f -> level b f = m -> m = at_level loc f \/ existsb (loop_eqb m) (loops_seen s) = true) ->
    (forall b m, inter b f -> store_at p b = Some (At m) -> existsb (loop_eqb m) (loops_seen s) = true) ->
    exists s', produce_outputs p ord loc f s l = Some s' /\ outputs_done f l s s'.
  Proof.
    intros If l. induction l as [|b l IH]; intros s I H1 H2.
    - exists s. split; [reflexivity|]. constructor; try reflexivity; [|auto]. intros m b. split; [auto | intros [H|([] & _)]; exact H].
    - cbn [produce_outputs]. assert (Il : incl l (outs p f)) by (intros x X; apply I; right; exact X). assert (Ib : In b (outs p f)) by (apply I; left; reflexivity). unfold produce_output. destruct (is_output p b) eqn:O.
      + destruct (IH s Il H1 H2) as (s' & E & [D1 D2 D3 D4 D5 D6 D7 D8]). exists s'. split; [exact E|]. constructor; auto.
        * intros m x. rewrite D5. cbn [In]. split; [intros [X|(X & Y)]; auto | intros [X|([<-|X] & Y & Z)]; auto; congruence].
        * intro x. rewrite D7. cbn [member existsb]. destruct (Nat.eqb_spec x b) as [->|Nx]; [rewrite O; cbn [orb negb]; rewrite !andb_false_r; reflexivity | reflexivity].
        * intro x. rewrite D8. cbn [member existsb]. destruct (Nat.eqb_spec x b) as [->|Nx]; [rewrite O; cbn [orb negb]; rewrite !andb_false_r; reflexivity | reflexivity].
      + assert (Bf : inter b f) by (split; [exact If | auto]).
        assert (SL : store_level p loc (loops_seen s) f b = Some (level b f)).
        { unfold store_level, level. destruct (store_at p b) as [[g|m]|] eqn:Sb; [rewrite (own_innermost b f g Bf Sb), Nat.eqb_refl; reflexivity | rewrite (H2 b m Bf Sb); reflexivity | reflexivity]. }
        rewrite SL. match goal with |- exists _, produce_outputs _ _ _ _ ?s0 _ = _ /\ _ => set (s1 := s0) end.
        destruct (IH s1 Il H1 H2) as (s' & E & [D1 D2 D3 D4 D5 D6 D7 D8]). exists s'. split; [exact E|]. constructor; [exact D1 | exact D2 | exact D3 | exact D4 | | | |].
        * intros m x. rewrite D5. unfold s1. cbn [candidates]. unfold set_loop. destruct (loop_eqb m (level b f)) eqn:Q.
          -- apply loop_eqb_eq in Q as ->. rewrite set_insert_in. cbn [In]. split; [intros [[->|X]|(X & Y)]; auto | intros [X|([<-|X] & Y & Z)]; auto].
          -- cbn [In]. split; [intros [X|(X & Y)]; auto | intros [X|([<-|X] & Y & Z)]; auto]. exfalso. rewrite <- Z, loop_eqb_refl in Q. discriminate.
        * intros Hi. apply D6. intro m. unfold s1. cbn [candidates]. unfold set_loop. destruct (loop_eqb m (level b f)); [apply set_insert_inc, Hi | apply Hi].
        * intro x. rewrite D7. unfold s1. cbn [from_of made member existsb]. fold (member x l). unfold set_at. destruct (Nat.eqb_spec x b) as [->|Nx]; [rewrite O; cbn [orb negb andb]; destruct (member b l); reflexivity | reflexivity].
        * intro x. rewrite D8. unfold s1. cbn [to_of made used member existsb]. fold (member x l). destruct (Nat.eqb_spec x b) as [->|Nx]; cbn [orb].
          -- rewrite O. cbn [negb andb]. destruct (used s b =? deps_count p ord b) eqn:U; unfold set_at; rewrite ?Nat.eqb_refl, ?andb_true_r, ?andb_false_r; [destruct (member b l); reflexivity | reflexivity].
          -- destruct (used s b =? deps_count p ord b); unfold set_at; [rewrite (proj2 (Nat.eqb_neq x b) Nx)|]; reflexivity.
  Qed.

  (** *** Inputs *)
  Record inputs_done (l : list nat) (s s' : state) : Prop := {
    id_made : made s' = made s;
    id_cand : candidates s' = candidates s;
    id_from : from_of s' = from_of s;
    id_seen : loops_seen s' = loops_seen s;
    id_used : forall b f, inter b f -> used s' b = used s b + count_occ Nat.eq_dec l b;
    id_to_out : forall b, ~ In b l -> to_of s' b = to_of s b;
    id_to_in : forall b f, inter b f -> In b l -> used s' b = deps_count p ord b -> to_of s' b = made s;
    id_const : forall c, In c (constants s') <-> In c (constants s) \/ In c l /\ constant p c = true;
    id_cinc : NoDup (constants s) -> NoDup (constants s') }.
  Lemma set_insert_nodup x l : NoDup l -> ~ In x l -> NoDup (set_insert x l).
  Proof.
    induction 1 as [|y l Hy Nl IH]; intro Nx; cbn [set_insert]; [constructor; [intros []|constructor]|]. destruct (Nat.ltb_spec x y); [constructor; [exact Nx|constructor; assumption]|].
    destruct (Nat.eqb_spec x y) as [->|D]; [constructor; assumption|]. constructor; [rewrite set_insert_in; intros [->|I]; [congruence | exact (Hy I)] | apply IH; intro I; apply Nx; right; exact I].
  Qed.
  Definition const_insert (i : nat) (l : list nat) : list nat := if member i l then l else set_insert i l.
  Lemma const_insert_in i c l : In c (const_insert i l) <-> c = i \/ In c l.
  Proof. unfold const_insert. destruct (member i l) eqn:M; [|apply set_insert_in]. apply member_iff in M. split; [auto | intros [->|H]; assumption]. Qed.
  Lemma const_insert_nodup i l : NoDup l -> NoDup (const_insert i l).
  Proof. intro H. unfold const_insert. destruct (member i l) eqn:M; [exact H|]. apply set_insert_nodup; [exact H|]. rewrite <- member_iff, M. discriminate. Qed.
  Lemma inputs_spec l : forall s, inputs_done l s (fold_left (produce_input p ord) l s).
  Proof.
    induction l as [|i l IH]; intro s.
    - constructor; try reflexivity; [intros; cbn [count_occ fold_left]; lia | intros b f _ [] | intro c; split; [auto | intros [H|([] & _)]; exact H] | auto].
    - cbn [fold_left]. set (s1 := produce_input p ord s i). destruct (IH s1) as [D1 D2 D3 D4 D5 D6 D7 D8 D9]. set (s' := fold_left (produce_input p ord) l s1) in *. clearbody s'.
      assert (E1 : made s1 = made s /\ candidates s1 = candidates s /\ from_of s1 = from_of s /\ loops_seen s1 = loops_seen s). { unfold s1, produce_input. destruct (constant p i), (negb (produced p i)), (negb (has_info p ord i)); cbn [made candidates from_of loops_seen]; auto. }
      destruct E1 as (E1 & E2 & E3 & E4).
      assert (E5 : constants s1 = if constant p i then const_insert i (constants s) else constants s). { unfold s1, produce_input. destruct (constant p i), (negb (produced p i)), (negb (has_info p ord i)); reflexivity. }
      assert (E6 : forall b f, inter b f -> used s1 b = used s b + (if i =? b then 1 else 0)).
      { intros b f B. destruct (Nat.eqb_spec i b) as [->|D].
        - assert (HI : has_info p ord b = true) by (apply has_info_inter; eauto). destruct B as (Bf & Bb & _). unfold s1, produce_input. rewrite (outs_produced f b Bf Bb), HI. cbn [negb]. destruct (constant p b); cbn [used]; unfold set_at; rewrite Nat.eqb_refl; lia.
        - unfold s1, produce_input. destruct (constant p i), (negb (produced p i)), (negb (has_info p ord i)); cbn [used]; unfold set_at; rewrite ?(proj2 (Nat.eqb_neq b i) (fun E => D (eq_sym E))); lia. }
      assert (E7 : forall b, b <> i -> to_of s1 b = to_of s b).
      { intros b D. unfold s1, produce_input. destruct (constant p i), (negb (produced p i)), (negb (has_info p ord i)); cbn [to_of used made]; try reflexivity; destruct (_ =? _); unfold set_at; rewrite ?(proj2 (Nat.eqb_neq b i) D); reflexivity. }
      assert (E8 : forall f, inter i f -> used s1 i = deps_count p ord i -> to_of s1 i = made s).
      { intros f B. assert (HI : has_info p ord i = true) by (apply has_info_inter; eauto). destruct B as (Bf & Bb & _). unfold s1, produce_input. rewrite (outs_produced f i Bf Bb), HI. cbn [negb]. destruct (constant p i); cbn [used to_of made]; unfold set_at at 1; rewrite Nat.eqb_refl; intro Q; rewrite (proj2 (Nat.eqb_eq _ _) Q); unfold set_at; rewrite Nat.eqb_refl; reflexivity. }
      constructor; try congruence.
      + intros b f B. rewrite (D5 b f B), (E6 b f B). cbn [count_occ]. destruct (Nat.eq_dec i b) as [->|D]; [rewrite Nat.eqb_refl; lia | rewrite (proj2 (Nat.eqb_neq i b) D); lia].
      + intros b Nb. rewrite D6; [apply E7; intros ->; apply Nb; left; reflexivity | intro X; apply Nb; right; exact X].
      + intros b f B Ib U. destruct (in_dec Nat.eq_dec b l) as [J|J]; [rewrite <- E1; exact (D7 b f B J U)|]. destruct Ib as [->|Ib]; [|contradiction]. rewrite (D6 b J). apply (E8 f B). rewrite <- U, (D5 b f B). rewrite (proj1 (count_occ_not_In Nat.eq_dec l b) J). lia.
      + intro c. rewrite D8, E5. destruct (constant p i) eqn:Q; [rewrite const_insert_in|]; cbn [In]; split.
        * intros [[->|H]|(H & H')]; auto.
        * intros [H|([<-|H] & H')]; auto.
        * intros [H|(H & H')]; auto.
        * intros [H|([<-|H] & H')]; auto. congruence.
      + intro H. apply D9. rewrite E5. destruct (constant p i); [apply const_insert_nodup|]; exact H.
  Qed.

  (** *** A call *)
  Lemma produce_spec done f rest A K s : L = done ++ f :: rest -> Inv done A K s -> In None (loops_seen s) -> (forall x, In x (nest f) -> In (Some x) (loops_seen s)) ->
    exists s', produce p ord loc f s = Some (Range [Leaf (Z.of_nat (length done))] (Z.of_nat (length done)) (Z.of_nat (length done)) [], s') /\ Inv (done ++ [f]) A K s' /\ loops_seen s' = loops_seen s.
  Proof.
    intros E V S0 S1. assert (If : In f L) by (rewrite E; apply in_or_app; right; left; reflexivity). pose proof LN as LN'. rewrite E in LN'.
    assert (Nf : ~ In f done) by (intro X; exact (nodup_disj _ _ f LN' X (or_introl eq_refl))). assert (Nr : ~ In f rest) by (apply NoDup_remove_2 in LN'; intro X; apply LN', in_or_app; auto).
    assert (Pf : pos f L = length done) by (rewrite E, (pos_out f done (f :: rest) Nf); cbn [pos]; rewrite Nat.eqb_refl; lia).
    assert (Seen : forall m, m = None \/ (exists x, m = Some x /\ In x (nest f)) -> existsb (loop_eqb m) (loops_seen s) = true).
    { intros m H. apply existsb_exists. exists m. split; [destruct H as [->|(x & -> & I)]; auto | apply loop_eqb_refl]. }
    destruct (outputs_spec f If (outs p f) s (incl_refl _)) as (s1 & E1 & [D1 D2 D3 D4 D5 D6 D7 D8]).
    { intros b m B <-. right. apply Seen. destruct (level b f) as [x|] eqn:Q; [right; exists x; split; [reflexivity | exact (proj1 (level_around b f x B Q))] | auto]. }
    { intros b m B Sb. apply Seen. assert (Q : level b f = m) by (unfold level; rewrite Sb; reflexivity). destruct m as [x|]; [right; exists x; split; [reflexivity | exact (proj1 (level_around b f x B Q))] | auto]. }
    unfold produce. rewrite E1. destruct (inputs_spec (ins p f) s1) as [G1 G2 G3 G4 G5 G6 G7 G8 G9]. set (s2 := fold_left (produce_input p ord) (ins p f) s1) in *. clearbody s2.
    rewrite G1, D1, (i_made _ _ _ _ V). eexists. split; [reflexivity|]. split; [|cbn [loops_seen]; congruence].
    assert (IB : forall b g, inter b g -> (member b (outs p f) && negb (is_output p b) = true <-> g = f)).
    { intros b g B. rewrite andb_true_iff, member_iff, negb_true_iff. split; [intros (X & _); exact (single g f b (proj1 B) If (proj1 (proj2 B)) X) | intros ->; split; apply B]. }
    assert (Done : forall x, In x (done ++ [f]) <-> In x done \/ x = f) by (intro x; rewrite in_app_iff; cbn [In]; intuition congruence).
    assert (FC : forall b g, inter b g -> consumer b f -> In g done).
    { intros b g B C. pose proof (ordered g f b (proj1 B) If (proj1 (proj2 B)) (proj2 C)) as BF. destruct (before_nodup _ _ _ LN BF) as (x1 & x2 & EL & I2 & N2 & N1 & D). rewrite EL in E. clear - E I2 N1 N2 D Nf.
      revert done E Nf. induction x1 as [|y x1 IH]; intros done E Nf; destruct done as [|z done]; cbn [app] in *.
      - injection E as -> _. congruence.
      - injection E as -> _. left. reflexivity.
      - injection E as -> _. exfalso. apply N1. left. reflexivity.
      - injection E as _ E. right. apply IH; [intro X; apply N1; right; exact X | exact E | intro X; apply Nf; right; exact X]. }
    assert (UU : forall b g, inter b g -> used s2 b = count_occ Nat.eq_dec (flat_map (ins p) (done ++ [f])) b).
    { intros b g B. rewrite (G5 b g B), D2, (i_used _ _ _ _ V b g B), flat_map_app, count_occ_app. cbn [flat_map]. rewrite app_nil_r. reflexivity. }
    constructor; cbn [made candidates from_of to_of used constants loops_seen].
    - rewrite app_length. cbn [length]. lia.
    - intros l b. rewrite G2, D5, (i_cand _ _ _ _ V). split.
      + intros [(g & B & Ig & Lv & Na)|(Ib & O & Lv)].
        * exists g. rewrite Done. auto.
        * exists f. split; [split; auto|]. rewrite Done. split; [auto|]. split; [exact Lv|]. intro Ia. destruct (i_alloc _ _ _ _ V b Ia) as (g & B & Ig). assert (g = f) by exact (single g f b (proj1 B) If (proj1 (proj2 B)) Ib). subst g. contradiction.
      + intros (g & B & Ig & Lv & Na). apply Done in Ig as [Ig| ->]; [left; eauto|]. right. split; [apply B|]. split; [apply B | exact Lv].
    - intro l. rewrite G2. apply D6. exact (i_inc _ _ _ _ V).
    - intros b g B Ig. rewrite G3, D7. destruct (member b (outs p f) && negb (is_output p b)) eqn:Q.
      + apply (IB b g B) in Q as ->. rewrite (i_made _ _ _ _ V), Pf. reflexivity.
      + apply Done in Ig as [Ig| ->]; [exact (i_from _ _ _ _ V b g B Ig)|]. rewrite (proj2 (IB b f B) eq_refl) in Q. discriminate.
    - exact UU.
    - intros b g B Ig H. assert (AU : used s2 b = deps_count p ord b) by (rewrite (UU b g B); apply (all_used b (done ++ [f]) rest); [rewrite E, <- app_assoc; reflexivity | exact H]).
      rewrite app_length. cbn [length].
      assert (PD : forall x, In x done -> (N x < Z.of_nat (length done))%Z) by (intros x X; rewrite E; destruct (pos_in x done (f :: rest) X) as (-> & Lx); lia).
      assert (PL : forall x, In x (done ++ [f]) -> (N x <= Z.of_nat (length done))%Z) by (intros x X; apply Done in X as [X| ->]; [specialize (PD x X); lia | rewrite Pf; lia]).
      destruct (in_dec Nat.eq_dec b (ins p f)) as [J|J].
      + rewrite (G7 b g B J AU), D1, (i_made _ _ _ _ V). split; [specialize (PL g Ig); lia|]. intros c C. apply PL, H, C.
      + rewrite (G6 b J), D8. destruct (member b (outs p f) && negb (is_output p b)) eqn:Q.
        * apply (IB b g B) in Q as ->. assert (UB : used s b =? deps_count p ord b = true). { apply Nat.eqb_eq. rewrite <- AU, (G5 b f B), D2. rewrite (proj1 (count_occ_not_In Nat.eq_dec (ins p f) b) J). lia. }
          rewrite UB. cbn [andb]. rewrite (i_made _ _ _ _ V). split; [rewrite Pf; lia|]. intros c C. apply PL, H, C.
        * cbn [andb]. assert (Ig' : In g done). { apply Done in Ig as [Ig| ->]; [exact Ig|]. rewrite (proj2 (IB b f B) eq_refl) in Q. discriminate. }
          assert (H' : forall c, consumer b c -> In c done). { intros c C. specialize (H c C). apply Done in H as [H| ->]; [exact H|]. destruct C as (_ & C). contradiction. }
          destruct (i_to _ _ _ _ V b g B Ig' H') as (T1 & T2). split; [lia | exact T2].
    - intros b I. destruct (i_alloc _ _ _ _ V b I) as (g & B & Ig). exists g. rewrite Done. auto.
    - intro c. rewrite G8, D3, (i_const _ _ _ _ V). split.
      + intros [(Cc & (g & Ig & Ic) & Nk)|(Ic & Cc)]; (split; [exact Cc|]).
        * split; [exists g; rewrite Done; auto | exact Nk].
        * split; [exists f; rewrite Done; auto|]. intro Ik. destruct (i_K _ _ _ _ V c Ik) as (_ & _ & H). apply Nf, H. split; assumption.
      + intros (Cc & (g & Ig & Ic) & Nk). apply Done in Ig as [Ig| ->]; [left | right]; eauto.
    - apply G9. rewrite D3. exact (i_cinc _ _ _ _ V).
    - intros c I. destruct (i_K _ _ _ _ V c I) as (H1 & H2 & H3). split; [exact H1|]. split; [exact H2|]. intros g C. rewrite Done. left. exact (H3 g C).
    - exact (i_An _ _ _ _ V).
    - exact (i_Kn _ _ _ _ V).
  Qed.

  (** *** Statements *)
  Notation deps := (copy_deps p ord).
  Definition names_of (l : list item) : list nat := flat_map names l.
  Definition holds (b : nat) (l : list code) : Prop := exists x, within (Alloc b x) l /\ forall f, inter b f -> In (N f) (leaves x) /\ forall c, consumer b c -> In (N c) (leaves x).
  Record Post (P : list (nat * nat)) (done : list nat) (l : list item) (A K : list nat) (s : state) (rs : list range) (s' : state) (A' K' : list nat) : Prop := {
    po_chain : chain (Z.of_nat (length done)) (Z.of_nat (length done) + Z.of_nat (length (names_of l)) - 1) rs;
    po_inv : Inv (done ++ names_of l) (A' ++ A) (K' ++ K) s';
    po_alloc : Permutation (allocs (bodies rs)) A';
    po_const : Permutation (consts (bodies rs)) K';
    po_holds : Forall (fun b => holds b (bodies rs)) A';
    po_decl : Forall (fun c => declared deps c (bodies rs)) K';
    po_scope : forall Q b, In (Q, b) (scopes P (bodies rs)) -> exists f, inter b f /\ prefix Q (nest f) /\ innermost Q = level b f;
    po_all : forall b f x, inter b f -> In f (names_of l) -> level b f = Some x -> ~ In x P -> In b A';
    po_program : program L (bodies rs) = l;
    po_seen : incl (loops_seen s) (loops_seen s') }.
  Lemma program_skeleton l : program L (skeleton l) = program L l.
  Proof.
    assert (H : forall c, flat_map (program1 L) (skeleton1 c) = program1 L c).
    { fix IH 1. assert (IHl : forall l, flat_map (program1 L) (flat_map skeleton1 l) = flat_map (program1 L) l). { fix IHl 1. intros [|c l']; [reflexivity|]. cbn [flat_map]. rewrite flat_map_app, IH. f_equal. apply IHl. }
      intros [k|(f, v) l'|b l'|b l']; cbn [skeleton1 program1]; [reflexivity | | apply IHl | apply IHl]. cbn [flat_map program1 app]. rewrite IHl. reflexivity. }
    unfold program, skeleton. induction l as [|c l IH]; [reflexivity|]. cbn [flat_map]. rewrite flat_map_app, H, IH. reflexivity.
  Qed.
  Lemma post_nil P done A K s : Inv done A K s -> Post P done [] A K s [] s [] [].
  Proof.
    intro V. constructor; [cbn [chain names_of flat_map length]; lia | cbn [names_of flat_map]; rewrite app_nil_r; exact V | constructor | constructor | constructor | constructor | intros Q b [] | intros b f x _ [] | reflexivity | apply incl_refl].
  Qed.
  Lemma holds_app b x y : holds b x \/ holds b y -> holds b (x ++ y).
  Proof. intros [(z & W & H)|(z & W & H)]; exists z; (split; [|exact H]); apply within_app; auto. Qed.
  Lemma declared_app b x y : declared deps b x \/ declared deps b y -> declared deps b (x ++ y).
  Proof. intros [(z & W & H)|(z & W & H)]; exists z; (split; [|exact H]); apply within_app; auto. Qed.
  Lemma post_cons P done x l A K s r s1 A1 K1 rs s2 A2 K2 : Post P done [x] A K s [r] s1 A1 K1 -> Post P (done ++ names x) l (A1 ++ A) (K1 ++ K) s1 rs s2 A2 K2 -> Post P done (x :: l) A K s (r :: rs) s2 (A2 ++ A1) (K2 ++ K1).
  Proof.
    intros [B1 B2 B3 B4 B5 B6 B7 B8 B9 B10] [C1 C2 C3 C4 C5 C6 C7 C8 C9 C10]. unfold names_of in *. cbn [flat_map] in B1, B2, B8. rewrite app_nil_r in B1, B2, B8. change (r :: rs) with ([r] ++ rs).
    constructor; unfold names_of; cbn [flat_map].
    - apply chain_app. exists (Z.of_nat (length done) + Z.of_nat (length (names x)) - 1)%Z. split; [exact B1|]. rewrite app_length in C1 |- *. replace (Z.of_nat (length done) + Z.of_nat (length (names x)) - 1 + 1)%Z with (Z.of_nat (length done + length (names x))) by lia.
      replace (Z.of_nat (length done) + Z.of_nat (length (names x) + length (flat_map names l)) - 1)%Z with (Z.of_nat (length done + length (names x)) + Z.of_nat (length (flat_map names l)) - 1)%Z by lia. exact C1.
    - rewrite <- !app_assoc in *. exact C2.
    - rewrite bodies_app, allocs_app, B3, C3. apply Permutation_app_comm.
    - rewrite bodies_app, consts_app, B4, C4. apply Permutation_app_comm.
    - rewrite bodies_app. apply Forall_app. split; [eapply Forall_impl; [|exact C5] | eapply Forall_impl; [|exact B5]]; intros b H; apply holds_app; auto.
    - rewrite bodies_app. apply Forall_app. split; [eapply Forall_impl; [|exact C6] | eapply Forall_impl; [|exact B6]]; intros b H; apply declared_app; auto.
    - intros Q b I. rewrite bodies_app, scopes_app in I. apply in_app_or in I as [I|I]; eauto.
    - intros b f y B I Lv Ny. apply in_or_app. apply in_app_or in I as [I|I]; [right; exact (B8 b f y B I Lv Ny) | left; exact (C8 b f y B I Lv Ny)].
    - rewrite bodies_app. unfold program in *. rewrite flat_map_app, B9, C9. reflexivity.
    - exact (incl_tran B10 C10).
  Qed.
  (** allocations around the statements *)
  Lemma post_step P done l A K s rs s2 A1 K1 placed K2 rs' s3 :
    Post P done l A K s rs s2 A1 K1 -> step deps (Z.of_nat (length done)) (Z.of_nat (length done) + Z.of_nat (length (names_of l)) - 1) placed K2 rs rs' ->
    Inv (done ++ names_of l) ((map sym placed ++ A1) ++ A) ((K2 ++ K1) ++ K) s3 ->
    (forall c, In c placed -> exists f, inter (sym c) f /\ prefix P (nest f) /\ innermost P = level (sym c) f /\ (from_ c <= N f <= to_ c)%Z /\ forall g, consumer (sym c) g -> (from_ c <= N g <= to_ c)%Z) ->
    incl (loops_seen s2) (loops_seen s3) -> Post P done l A K s rs' s3 (map sym placed ++ A1) (K2 ++ K1).
  Proof.
    intros [B1 B2 B3 B4 B5 B6 B7 B8 B9 B10] ST V H SE. pose proof (st_ev _ _ _ _ _ _ _ ST) as EV. constructor.
    - exact (ev_chain _ _ _ _ _ _ EV).
    - exact V.
    - rewrite (ev_allocs _ _ _ _ _ _ EV), B3. reflexivity.
    - rewrite (ev_consts _ _ _ _ _ _ EV), B4. reflexivity.
    - apply Forall_app. split.
      + apply Forall_forall. intros b I. apply in_map_iff in I as (c & <- & I). pose proof (st_cov _ _ _ _ _ _ _ ST) as CV. rewrite Forall_forall in CV. destruct (CV c I) as (x & W & J). exists x. split; [exact W|].
        destruct (H c I) as (f & Bf & _ & _ & F1 & F2). intros g Bg. assert (g = f) as -> by exact (inter_fun _ _ _ Bg Bf). split; [apply J, upto_in; exact F1|]. intros c' C'. apply J, upto_in, F2, C'.
      + eapply Forall_impl; [|exact B5]. intros b (x & W & J). exists x. split; [apply (ev_within _ _ _ _ _ _ EV), W | exact J].
    - apply Forall_app. split; [exact (st_decl _ _ _ _ _ _ _ ST)|]. eapply Forall_impl; [|exact B6]. intros c D. exact (declared_mono _ _ _ _ _ _ _ _ EV D).
    - intros Q b I. apply (Permutation_in _ (ev_scopes _ _ _ _ _ _ EV P)) in I. apply in_app_or in I as [I|I]; [|exact (B7 Q b I)]. apply in_map_iff in I as (b' & E & I). injection E as <- <-. apply in_map_iff in I as (c & <- & I). destruct (H c I) as (f & Bf & F1 & F2 & _). eauto.
    - intros b f x Bf I Lv Nx. apply in_or_app. right. exact (B8 b f x Bf I Lv Nx).
    - rewrite <- program_skeleton, (ev_skeleton _ _ _ _ _ _ EV), program_skeleton. exact B9.
    - exact (incl_tran B10 SE).
  Qed.
  (** the positions of the calls of a part of the program *)
  Lemma pos_part done l rest f : L = done ++ l ++ rest -> In f l -> (Z.of_nat (length done) <= N f <= Z.of_nat (length done) + Z.of_nat (length l) - 1)%Z.
  Proof.
    intros E I. pose proof LN as LN'. rewrite E in LN'. assert (Nf : ~ In f done) by (intro X; exact (nodup_disj _ _ f LN' X (in_or_app _ _ _ (or_introl I)))). rewrite E, (pos_out f done _ Nf). destruct (pos_in f l rest I) as (-> & Lt). lia.
  Qed.
  Lemma inv_ext done A A' K K' s : Permutation A A' -> Permutation K K' -> Inv done A K s -> Inv done A' K' s.
  Proof.
    intros PA PK [V1 V2 V3 V4 V5 V6 V7 V8 V9 V10 V11 V12]. constructor; auto.
    - intros l b. rewrite V2. split; intros (f & B & I & Lv & Na); exists f; (split; [exact B|]; split; [exact I|]; split; [exact Lv|]); intro X; apply Na; [exact (Permutation_in _ (Permutation_sym PA) X) | exact (Permutation_in _ PA X)].
    - intros b I. apply V7. exact (Permutation_in _ (Permutation_sym PA) I).
    - intro c. rewrite V8. split; intros (H1 & H2 & Nk); (split; [exact H1|]; split; [exact H2|]); intro X; apply Nk; [exact (Permutation_in _ (Permutation_sym PK) X) | exact (Permutation_in _ PK X)].
    - intros c I. apply V10. exact (Permutation_in _ (Permutation_sym PK) I).
    - exact (Permutation_NoDup PA V11).
    - exact (Permutation_NoDup PK V12).
  Qed.
  Lemma filter_all {X} (f : X -> bool) l : (forall x, In x l -> f x = true) -> filter f l = l.
  Proof. induction l as [|x l IH]; intro H; [reflexivity|]. cbn [filter]. rewrite (H x (or_introl eq_refl)). f_equal. apply IH. intros y I. apply H. right. exact I. Qed.
  Lemma const_deps c f d : In f L -> In c (ins p f) -> constant p c = true -> In d (outs p f) -> In d (deps c).
  Proof.
    intros If Ic Cc Id. unfold copy_deps. apply in_or_app. right. apply in_flat_map. exists f. split; [exact (Permutation_in _ (Permutation_sym LO) If)|]. rewrite (proj2 (member_iff c (ins p f)) Ic), Cc, orb_true_r. cbn [andb orb]. apply filter_In. auto.
  Qed.

  Lemma lay_out_spec P done l rest A K s rs s2 A1 K1 : L = done ++ names_of l ++ rest -> names_of l <> [] -> Inv done A K s -> Post P done l A K s rs s2 A1 K1 ->
    (forall b f, inter b f -> level b f = innermost P -> In f (done ++ names_of l) -> ~ In b (A1 ++ A) -> In f (names_of l) /\ forall c, consumer b c -> In c (done ++ names_of l)) ->
    (forall f, In f (names_of l) -> prefix P (nest f)) ->
    exists r s3 A2 K2, lay_out p ord (innermost P) rs s2 = Some (r, s3) /\ Post P done l A K s [r] s3 A2 K2 /\ (forall b f, inter b f -> level b f = innermost P -> In f (names_of l) -> In b A2) /\
      (forall c, In c (constants s3) -> exists d, In d (deps c) /\ ~ In d A2).
  Proof.
    intros E NE V0 PO HC HP. pose proof (po_inv _ _ _ _ _ _ _ _ _ _ PO) as V. unfold lay_out.
    assert (FO : filter (fun b => negb (is_output p b)) (candidates s2 (innermost P)) = candidates s2 (innermost P)).
    { apply filter_all. intros b I. apply (i_cand _ _ _ _ V) in I as (f & B & _). rewrite (proj2 (proj2 B)). reflexivity. }
    rewrite FO. set (cs := map (fun b => Candidate b (from_of s2 b) (to_of s2 b)) (candidates s2 (innermost P))).
    assert (SY : map sym cs = candidates s2 (innermost P)) by (unfold cs; rewrite map_map; apply map_id).
    set (lo := Z.of_nat (length done)). set (hi := (lo + Z.of_nat (length (names_of l)) - 1)%Z).
    assert (HV : forall c, In c cs -> exists f, inter (sym c) f /\ In f (names_of l) /\ level (sym c) f = innermost P /\ ~ In (sym c) (A1 ++ A) /\ (from_ c <= N f <= to_ c)%Z /\ (forall g, consumer (sym c) g -> (from_ c <= N g <= to_ c)%Z) /\ (lo <= from_ c)%Z /\ (from_ c <= to_ c <= hi)%Z).
    { intros c I. unfold cs in I. apply in_map_iff in I as (b & <- & I). cbn [sym from_ to_]. apply (i_cand _ _ _ _ V) in I as (f & B & Id & Lv & Na). exists f. destruct (HC b f B Lv Id Na) as (In_ & Hc).
      pose proof (i_from _ _ _ _ V b f B Id) as Fr. destruct (i_to _ _ _ _ V b f B Id Hc) as (T1 & T2). rewrite app_length in T1. pose proof (pos_part done (names_of l) rest f E In_) as PP. rewrite Fr.
      split; [exact B|]. split; [exact In_|]. split; [exact Lv|]. split; [exact Na|]. split; [lia|]. split.
      - intros g C. split; [|exact (T2 g C)]. pose proof (before_nodup _ _ _ LN (ordered f g b (proj1 B) (proj1 C) (proj1 (proj2 B)) (proj2 C))) as (x1 & x2 & EL & I2 & N2 & N1 & D). rewrite EL.
        assert (~ In f x1) by (pose proof LN as LN'; rewrite EL in LN'; apply NoDup_remove_2 in LN'; intro X; apply LN', in_or_app; auto). rewrite !pos_out by assumption. cbn [pos]. rewrite Nat.eqb_refl. lia.
      - unfold lo, hi. fold lo. lia. }
    destruct (layout_good deps (S (length cs)) (filter (fun b => negb (is_output p b)) (flat_map (outs p) ord)) (copy_inputs p ord) cs rs (constants s2) lo hi) as (r & kept & K2 & EL & ST & PK & HK).
    - exact (po_chain _ _ _ _ _ _ _ _ _ _ PO).
    - intros ->. pose proof (po_chain _ _ _ _ _ _ _ _ _ _ PO) as C. cbn [chain] in C. destruct (names_of l); [contradiction | cbn [length] in C; lia].
    - rewrite SY. apply inc_nodup, (i_inc _ _ _ _ V).
    - apply Forall_forall. intros c I. destruct (HV c I) as (f & _ & _ & _ & _ & _ & _ & H1 & H2). split; [exact H1 | exact H2].
    - intros b I. apply in_map_iff in I as (c & <- & I). destruct (HV c I) as (f & B & _). apply filter_In. split; [apply in_flat_map; exists f; split; [exact (Permutation_in _ (Permutation_sym LO) (proj1 B)) | apply B] | rewrite (proj2 (proj2 B)); reflexivity].
    - lia.
    - rewrite EL. eexists. eexists. exists (map sym cs ++ A1), (K2 ++ K1). split; [reflexivity|].
      assert (AL : forall b, In b ((map sym cs ++ A1) ++ A) -> exists f, inter b f /\ In f (done ++ names_of l)).
      { intros b I. rewrite <- app_assoc in I. apply in_app_or in I as [I|I]; [|exact (i_alloc _ _ _ _ V b I)]. apply in_map_iff in I as (c & <- & I). destruct (HV c I) as (f & B & In_ & _). exists f. split; [exact B | apply in_or_app; auto]. }
      pose proof (st_ev _ _ _ _ _ _ _ ST) as EV.
      assert (PA : Permutation (allocs (body r)) (map sym cs ++ A1)). { pose proof (ev_allocs _ _ _ _ _ _ EV) as X. unfold bodies at 1 in X. cbn [flat_map] in X. rewrite app_nil_r in X. rewrite X, (po_alloc _ _ _ _ _ _ _ _ _ _ PO). reflexivity. }
      split; [|split].
      + eapply post_step; [exact PO | exact ST | | | cbn [loops_seen]; apply incl_refl].
        * destruct V as [V1 V2 V3 V4 V5 V6 V7 V8 V9 V10 V11 V12]. constructor; cbn [made candidates from_of to_of used constants loops_seen]; auto.
          -- intros m b. unfold set_loop. destruct (loop_eqb m (innermost P)) eqn:Q.
             ++ apply loop_eqb_eq in Q as ->. split; [intros []|]. intros (f & B & Id & Lv & Na). apply Na. rewrite <- app_assoc. apply in_or_app. left. rewrite SY. apply V2. exists f. split; [exact B|]. split; [exact Id|]. split; [exact Lv|]. intro X. apply Na. rewrite <- app_assoc. apply in_or_app. right. exact X.
             ++ rewrite V2. split; intros (f & B & Id & Lv & Na); exists f; (split; [exact B|]; split; [exact Id|]; split; [exact Lv|]); intro X; apply Na.
                ** rewrite <- app_assoc in X. apply in_app_or in X as [X|X]; [|exact X]. exfalso. rewrite SY in X. apply V2 in X as (f' & B' & _ & Lv' & _). rewrite (inter_fun _ _ _ B' B), Lv in Lv'. rewrite Lv', loop_eqb_refl in Q. discriminate.
                ** rewrite <- app_assoc. apply in_or_app. right. exact X.
          -- intro m. unfold set_loop. destruct (loop_eqb m (innermost P)); [constructor | apply V3].
          -- intro c. split.
             ++ intro I. assert (I' : In c (constants s2)) by (apply (Permutation_in _ (Permutation_sym PK)), in_or_app; auto). apply V8 in I' as (H1 & H2 & H3). split; [exact H1|]. split; [exact H2|]. rewrite <- app_assoc. intro X. apply in_app_or in X as [X|X]; [|exact (H3 X)].
                rewrite PK in V9. exact (nodup_disj _ _ c V9 X I).
             ++ intros (H1 & H2 & H3). assert (I' : In c (constants s2)) by (apply V8; split; [exact H1|]; split; [exact H2|]; intro X; apply H3; rewrite <- app_assoc; apply in_or_app; auto).
                apply (Permutation_in _ PK) in I'. apply in_app_or in I' as [I'|I']; [|exact I']. exfalso. apply H3. rewrite <- app_assoc. apply in_or_app. auto.
          -- rewrite PK in V9. exact (nodup_tail _ _ V9).
          -- intros c I. rewrite <- app_assoc in I. apply in_app_or in I as [I|I]; [|exact (V10 c I)].
             assert (I' : In c (constants s2)) by (apply (Permutation_in _ (Permutation_sym PK)), in_or_app; auto). apply V8 in I' as (H1 & (g & Ig & Ic) & H3). split; [exact H1|].
             split; [exists g; split; [rewrite E, app_assoc; apply in_or_app; auto | exact Ic]|]. intros f (If & Icf).
             pose proof (st_decl _ _ _ _ _ _ _ ST) as D. rewrite Forall_forall in D. destruct (D c I) as (x & W & Hd). destruct (outs p f) as [|d os] eqn:EO; [exfalso; exact (outs_some f If EO)|].
             assert (Id : In d (outs p f)) by (rewrite EO; left; reflexivity). assert (Ia : In d (allocs (body r))).
             { assert (SUB : forall n c0, within n c0 -> forall x0 k, n = Const k x0 -> incl (allocs x0) (allocs c0)).
               { clear. intros n c0 W. induction W as [l I|l v l' I W IH|l b l' I W IH|l b l' I W IH]; intros x0 k ->; intros d D; unfold allocs; apply in_flat_map.
                 - exists (Const k x0). split; [exact I | exact D].
                 - exists (Nest v l'). split; [exact I | exact (IH _ _ eq_refl d D)].
                 - exists (Alloc b l'). split; [exact I | right; exact (IH _ _ eq_refl d D)].
                 - exists (Const b l'). split; [exact I | exact (IH _ _ eq_refl d D)]. }
               unfold bodies in W. cbn [flat_map] in W. rewrite app_nil_r in W. apply (SUB _ _ W x c eq_refl). apply Hd. exact (const_deps c f d If Icf H1 Id). }
             rewrite PA in Ia. destruct (AL d) as (f' & B' & If'); [apply in_or_app; auto|]. rewrite (single f f' d If (proj1 B') Id (proj1 (proj2 B'))). exact If'.
          -- rewrite <- app_assoc. apply nodup_app; [rewrite SY; apply inc_nodup, V3 | exact V11 |]. intros b I X. rewrite SY in I. apply V2 in I as (f & _ & _ & _ & Na). exact (Na X).
          -- rewrite <- app_assoc. rewrite PK in V9. apply nodup_app; [|exact V12|].
             ++ clear - V9. induction K2 as [|y K2 IH]; [constructor|]. cbn [app] in V9. apply NoDup_cons_iff in V9 as (X & Y). constructor; [intro Z; apply X, in_or_app; auto | exact (IH Y)].
             ++ intros c I X. assert (I' : In c (constants s2)) by (apply (Permutation_in _ (Permutation_sym PK)), in_or_app; auto). apply V8 in I' as (_ & _ & H3). exact (H3 X).
        * intros c I. destruct (HV c I) as (f & B & In_ & Lv & Na & F1 & F2 & _). exists f. split; [exact B|]. split; [exact (HP f In_)|]. auto.
      + intros b f B Lv I. apply in_or_app. destruct (in_dec Nat.eq_dec b A1) as [J|J]; [auto|]. left. rewrite SY. apply (i_cand _ _ _ _ V). exists f. split; [exact B|]. split; [apply in_or_app; auto|]. split; [exact Lv|].
        intro X. apply in_app_or in X as [X|X]; [exact (J X)|]. destruct (i_alloc _ _ _ _ V0 b X) as (f' & B' & If'). rewrite (inter_fun _ _ _ B' B) in If'. pose proof LN as LN'. rewrite E in LN'. exact (nodup_disj _ _ f LN' If' (in_or_app _ _ _ (or_introl I))).
      + intros c I. cbn [constants] in I. destruct (HK c I) as (d & D1 & D2). exists d. split; [exact D1|]. intro X. apply D2. rewrite PA. exact X.
  Qed.

  Lemma post_loop P f v done b A K s r s3 A2 K2 : Post (P ++ [(f, v)]) done b A K (enter (Some (f, v)) s) [r] s3 A2 K2 -> (forall x g, inter x g -> level x g = Some (f, v) -> In g (names_of b) -> In x A2) ->
    Post P done [Loop f v b] A K s [loop_around f v r] s3 A2 K2.
  Proof.
    intros [B1 B2 B3 B4 B5 B6 B7 B8 B9 B10] HA. assert (NM : names_of [Loop f v b] = names_of b) by (unfold names_of; cbn [flat_map names]; apply app_nil_r).
    assert (BR : bodies [r] = body r) by (unfold bodies; cbn [flat_map]; apply app_nil_r). assert (BL : bodies [loop_around f v r] = [Nest (f, v) (body r)]) by reflexivity.
    assert (WI : forall n, within n (body r) -> within n [Nest (f, v) (body r)]) by (intros n W; econstructor 2; [left; reflexivity | exact W]).
    rewrite BR in *. constructor; rewrite ?NM, ?BL.
    - cbn [chain] in *. destruct B1 as (H1 & (S1 & S2 & S3) & H2). cbn [loop_around start stop body allocations]. split; [exact H1|]. split; [|exact H2]. unfold sound. cbn [loop_around start stop body allocations]. split; [exact S1|]. split; [unfold leaves; cbn [flat_map leaves1]; rewrite app_nil_r; exact S2|].
      intro x. unfold allocs. cbn [flat_map allocs1]. rewrite app_nil_r. apply S3.
    - exact B2.
    - unfold allocs. cbn [flat_map allocs1]. rewrite app_nil_r. exact B3.
    - unfold consts. cbn [flat_map consts1]. rewrite app_nil_r. exact B4.
    - eapply Forall_impl; [|exact B5]. intros x (y & W & H). exists y. auto.
    - eapply Forall_impl; [|exact B6]. intros x (y & W & H). exists y. auto.
    - intros Q x I. apply B7. unfold scopes in I. cbn [flat_map scopes1] in I. rewrite app_nil_r in I. exact I.
    - intros x g y Bx I Lv Ny. assert (DEC : {y = (f, v)} + {y <> (f, v)}) by (destruct y as (y1 & y2); destruct (Nat.eq_dec y1 f), (Nat.eq_dec y2 v); subst; auto; right; congruence). destruct DEC as [->|D]; [exact (HA x g Bx Lv I)|]. apply (B8 x g y Bx I Lv). intro J. apply in_app_or in J as [J|[J|[]]]; [exact (Ny J) | congruence].
    - unfold program. cbn [flat_map program1 app]. rewrite <- B9. reflexivity.
    - intros m I. apply B10. cbn [enter loops_seen]. right. exact I.
  Qed.

  Lemma wraps_alloc_spec lo hi (info : nat -> candidate) new : forall r, chain lo hi [r] -> (forall b, In b new -> sym (info b) = b /\ lo <= from_ (info b) /\ to_ (info b) <= hi)%Z -> step deps lo hi (map info new) [] [r] [fold_left (fun r b => produce_allocation b r) new r].
  Proof.
    induction new as [|b new IH]; intros r C H; [apply step_refl, C|]. cbn [fold_left map]. destruct (H b (or_introl eq_refl)) as (H1 & H2 & H3). pose proof C as (E1 & _ & E2). cbn [chain] in E2.
    assert (S1 : step deps lo hi [info b] [] [r] [produce_allocation b r]) by (rewrite <- H1 at 2; apply step_alloc; [exact C | lia | lia]).
    change (info b :: map info new) with ([info b] ++ map info new). change (@nil nat) with (@nil nat ++ []). eapply step_trans; [exact S1|]. apply IH; [exact (ev_chain _ _ _ _ _ _ (st_ev _ _ _ _ _ _ _ S1)) | intros x I; apply H; right; exact I].
  Qed.
  Lemma erases_in new : forall l b, In b (fold_left (fun c b => erase b c) new l) <-> In b l /\ ~ In b new.
  Proof. induction new as [|x new IH]; intros l b; cbn [fold_left]; [cbn [In]; tauto|]. rewrite IH, erase_iff. cbn [In]. intuition congruence. Qed.
  Lemma erases_inc new : forall l, increasing l -> increasing (fold_left (fun c b => erase b c) new l).
  Proof. induction new as [|x new IH]; intros l H; [exact H|]. cbn [fold_left]. apply IH, inc_filter, H. Qed.
  Lemma wrap_spec P done l rest A K s r s3 A2 K2 : L = done ++ names_of l ++ rest -> Inv done A K s -> Post P done l A K s [r] s3 A2 K2 -> (forall f, In f (names_of l) -> prefix P (nest f)) ->
    exists r' s4 A3, wrap_loop p ord (innermost P) (candidates s (innermost P)) r s3 = (r', s4) /\ Post P done l A K s [r'] s4 A3 K2.
  Proof.
    intros E V0 PO HP. unfold wrap_loop. destruct (_ <? _); [|exists r, s3, A2; auto]. pose proof (po_inv _ _ _ _ _ _ _ _ _ _ PO) as V.
    set (new := filter _ (candidates s3 (innermost P))). set (info := fun b => Candidate b (from_of s3 b) (to_of s3 b)).
    set (lo := Z.of_nat (length done)). set (hi := (lo + Z.of_nat (length (names_of l)) - 1)%Z).
    assert (HV : forall b, In b new -> exists f, inter b f /\ In f (names_of l) /\ level b f = innermost P /\ ~ In b (A2 ++ A) /\ (from_of s3 b <= N f <= to_of s3 b)%Z /\ (forall g, consumer b g -> (from_of s3 b <= N g <= to_of s3 b)%Z) /\ (lo <= from_of s3 b)%Z /\ (to_of s3 b <= hi)%Z).
    { intros b I. unfold new in I. apply filter_In in I as (I & Q). apply andb_true_iff in Q as (Q & Q3). apply andb_true_iff in Q as (Q1 & _). apply negb_true_iff in Q1. apply Nat.eqb_eq in Q3.
      apply (i_cand _ _ _ _ V) in I as (f & B & Id & Lv & Na). exists f.
      assert (Hc : forall c, consumer b c -> In c (done ++ names_of l)). { apply (all_used b (done ++ names_of l) rest); [rewrite E, <- app_assoc; reflexivity|]. rewrite <- Q3. symmetry. exact (i_used _ _ _ _ V b f B). }
      assert (In_ : In f (names_of l)). { apply in_app_or in Id as [Id|Id]; [|exact Id]. exfalso. assert (X : In b (candidates s (innermost P))) by (apply (i_cand _ _ _ _ V0); exists f; split; [exact B|]; split; [exact Id|]; split; [exact Lv|]; intro X; apply Na, in_or_app; auto). apply member_iff in X. congruence. }
      pose proof (i_from _ _ _ _ V b f B Id) as Fr. destruct (i_to _ _ _ _ V b f B Id Hc) as (T1 & T2). rewrite app_length in T1. pose proof (pos_part done (names_of l) rest f E In_) as PP. rewrite Fr.
      split; [exact B|]. split; [exact In_|]. split; [exact Lv|]. split; [exact Na|]. split; [lia|]. split.
      - intros g C. split; [|exact (T2 g C)]. pose proof (before_nodup _ _ _ LN (ordered f g b (proj1 B) (proj1 C) (proj1 (proj2 B)) (proj2 C))) as (x1 & x2 & EL & I2 & N2 & N1 & D). rewrite EL.
        assert (~ In f x1) by (pose proof LN as LN'; rewrite EL in LN'; apply NoDup_remove_2 in LN'; intro X; apply LN', in_or_app; auto). rewrite !pos_out by assumption. cbn [pos]. rewrite Nat.eqb_refl. lia.
      - unfold lo, hi. fold lo. lia. }
    assert (SY : map sym (map info new) = new) by (rewrite map_map; apply map_id).
    assert (ST : step deps lo hi (map info new) [] [r] [fold_left (fun r b => produce_allocation b r) new r]).
    { apply wraps_alloc_spec; [exact (po_chain _ _ _ _ _ _ _ _ _ _ PO)|]. intros b I. destruct (HV b I) as (f & _ & _ & _ & _ & _ & _ & H1 & H2). cbn [info sym from_ to_]. auto. }
    eexists. eexists. exists (map sym (map info new) ++ A2). split; [reflexivity|]. change K2 with ([] ++ K2). eapply post_step; [exact PO | exact ST | | | cbn [loops_seen]; apply incl_refl].
    - rewrite SY. cbn [app]. destruct V as [V1 V2 V3 V4 V5 V6 V7 V8 V9 V10 V11 V12]. constructor; cbn [made candidates from_of to_of used constants loops_seen]; auto.
      + intros m b. rewrite <- app_assoc. unfold set_loop. destruct (loop_eqb m (innermost P)) eqn:Q.
        * apply loop_eqb_eq in Q as ->. rewrite erases_in, V2. split.
          -- intros ((f & B & Id & Lv & Na) & Nn). exists f. split; [exact B|]. split; [exact Id|]. split; [exact Lv|]. intro X. apply in_app_or in X as [X|X]; auto.
          -- intros (f & B & Id & Lv & Na). split; [exists f; split; [exact B|]; split; [exact Id|]; split; [exact Lv|]; intro X; apply Na, in_or_app; auto | intro X; apply Na, in_or_app; auto].
        * rewrite V2. split; intros (f & B & Id & Lv & Na); exists f; (split; [exact B|]; split; [exact Id|]; split; [exact Lv|]); intro X; apply Na; [|apply in_or_app; auto].
          apply in_app_or in X as [X|X]; [|exact X]. exfalso. destruct (HV b X) as (f' & B' & _ & Lv' & _). rewrite (inter_fun _ _ _ B' B), Lv in Lv'. rewrite Lv', loop_eqb_refl in Q. discriminate.
      + intro m. unfold set_loop. destruct (loop_eqb m (innermost P)); [apply erases_inc, V3 | apply V3].
      + intros b I. rewrite <- app_assoc in I. apply in_app_or in I as [I|I]; [|exact (V7 b I)]. destruct (HV b I) as (f & B & In_ & _). exists f. split; [exact B | apply in_or_app; auto].
      + rewrite <- app_assoc. apply nodup_app; [unfold new; apply inc_nodup, inc_filter, V3 | exact V11 |]. intros b I X. destruct (HV b I) as (f & _ & _ & _ & Na & _). exact (Na X).
    - intros c I. apply in_map_iff in I as (b & <- & I). destruct (HV b I) as (f & B & In_ & Lv & Na & F1 & F2 & _). cbn [info sym from_ to_]. exists f. split; [exact B|]. split; [exact (HP f In_)|]. auto.
  Qed.

  (** *** The program *)
  Definition seen_ok (P : list (nat * nat)) (s : state) : Prop := In None (loops_seen s) /\ forall x, In x P -> In (Some x) (loops_seen s).
  Definition runs_from (P : list (nat * nat)) (l : list item) : Prop := forall q h, In (q, h) (calls P l) -> q = nest h.
  Lemma item_ind' (Q : item -> Prop) : (forall f, Q (Call f)) -> (forall f v b, Forall Q b -> Q (Loop f v b)) -> forall x, Q x.
  Proof.
    intros H1 H2. fix IH 1. intros [f|f v b]; [apply H1|]. apply H2. induction b as [|x b IHb]; constructor; [apply IH | exact IHb].
  Qed.
  Lemma calls_prefix i : forall P q h, In (q, h) (calls_of P i) -> prefix P q.
  Proof.
    induction i as [f|f v b IH] using item_ind'; intros P q h I.
    - cbn [calls_of] in I. destruct I as [E|[]]. injection E as <- <-. exists []. rewrite app_nil_r. reflexivity.
    - assert (I' : In (q, h) (calls (P ++ [(f, v)]) b)) by (rewrite <- calls_loop; unfold calls; cbn [flat_map]; rewrite app_nil_r; exact I).
      unfold calls in I'. apply in_flat_map in I' as (x & Ix & I'). rewrite Forall_forall in IH. apply (IH x Ix) in I' as (c & ->). exists ((f, v) :: c). rewrite <- app_assoc. reflexivity.
  Qed.
  Lemma names_prefix P l f : runs_from P l -> In f (names_of l) -> prefix P (nest f).
  Proof.
    intros R I. unfold names_of in I. rewrite <- (ids_names P) in I. apply in_map_iff in I as ((q & h) & <- & I). cbn [snd]. rewrite <- (R q h I). unfold calls in I. apply in_flat_map in I as (i & _ & I). exact (calls_prefix i P q h I).
  Qed.
  Definition good_item (x : item) : Prop := forall P done rest A K s, L = done ++ names x ++ rest -> runs_from P [x] -> complete ord nest x -> Inv done A K s -> seen_ok P s ->
    exists r s' A' K', proc p ord loc (innermost P) x s = Some (r, s') /\ Post P done [x] A K s [r] s' A' K'.
  Lemma good_list l : Forall good_item l -> forall P done rest A K s, L = done ++ names_of l ++ rest -> runs_from P l -> Forall (complete ord nest) l -> Inv done A K s -> seen_ok P s ->
    exists rs s' A' K', run_list (proc p ord loc (innermost P)) l s = Some (rs, s') /\ Post P done l A K s rs s' A' K'.
  Proof.
    induction 1 as [|x l Hx Hl IH]; intros P done rest A K s E R C V S0; [exists [], s, [], []; split; [reflexivity | apply post_nil, V]|].
    apply Forall_cons_iff in C as (C1 & C2). unfold names_of in E. cbn [flat_map] in E. rewrite <- app_assoc in E.
    destruct (Hx P done (names_of l ++ rest) A K s E) as (r & s1 & A1 & K1 & E1 & P1); [intros q h I; apply R; unfold calls in *; cbn [flat_map] in *; rewrite app_nil_r in I; apply in_or_app; auto | exact C1 | exact V | exact S0|].
    assert (V1 : Inv (done ++ names x) (A1 ++ A) (K1 ++ K) s1). { pose proof (po_inv _ _ _ _ _ _ _ _ _ _ P1) as X. unfold names_of in X. cbn [flat_map] in X. rewrite app_nil_r in X. exact X. }
    destruct (IH P (done ++ names x) rest (A1 ++ A) (K1 ++ K) s1) as (rs & s2 & A2 & K2 & E2 & P2).
    - rewrite <- app_assoc. exact E.
    - intros q h I. apply R. unfold calls in *. cbn [flat_map]. apply in_or_app. auto.
    - exact C2.
    - exact V1.
    - destruct S0 as (S1 & S2). pose proof (po_seen _ _ _ _ _ _ _ _ _ _ P1) as X. split; [exact (X _ S1) | intros y Y; exact (X _ (S2 y Y))].
    - exists (r :: rs), s2, (A2 ++ A1), (K2 ++ K1). split; [cbn [run_list]; rewrite E1, E2; reflexivity|]. exact (post_cons _ _ _ _ _ _ _ _ _ _ _ _ _ _ _ P1 P2).
  Qed.
  Lemma good_call f : good_item (Call f).
  Proof.
    intros P done rest A K s E R _ V (S1 & S2). cbn [names app] in E. assert (EP : P = nest f) by (apply R; left; reflexivity).
    destruct (produce_spec done f rest A K s E V S1) as (s' & E1 & V1 & E2); [rewrite <- EP; exact S2|].
    exists (Range [Leaf (Z.of_nat (length done))] (Z.of_nat (length done)) (Z.of_nat (length done)) []), s', [], []. split; [exact E1|].
    constructor; unfold names_of; cbn [flat_map names app length].
    - cbn [chain start stop]. split; [reflexivity|]. split; [|lia]. unfold sound. cbn [start stop body allocations]. split; [lia|]. split; [|intro b; reflexivity]. unfold leaves, upto. cbn [flat_map leaves1 app]. replace (Z.to_nat (Z.of_nat (length done) + 1 - Z.of_nat (length done))) with 1 by lia. cbn [seq map]. f_equal. lia.
    - exact V1.
    - constructor.
    - constructor.
    - constructor.
    - constructor.
    - intros Q b [].
    - intros b g x B [<-|[]] Lv Nx. exfalso. apply Nx. rewrite EP. exact (proj1 (level_around b f x B Lv)).
    - unfold program, bodies. cbn [flat_map body app program1]. f_equal. f_equal. rewrite Nat2Z.id, E, app_nth2 by lia. rewrite Nat.sub_diag. reflexivity.
    - rewrite E2. apply incl_refl.
  Qed.
  Lemma good_loop f v b : Forall good_item b -> good_item (Loop f v b).
  Proof.
    intros G P done rest A K s E R C V (S1 & S2). inversion C as [|f' v' b' Cf Ch Cb]; subst f' v' b'. cbn [names] in E. fold (names_of b) in E.
    assert (R' : runs_from (P ++ [(f, v)]) b) by (intros q h I; apply R; rewrite calls_loop; exact I).
    assert (V' : Inv done A K (enter (Some (f, v)) s)) by (destruct V; constructor; assumption).
    destruct (good_list b G (P ++ [(f, v)]) done rest A K (enter (Some (f, v)) s) E R' Cb V') as (rs & s2 & A1 & K1 & E1 & P1).
    { split; [right; exact S1|]. intros x I. apply in_app_or in I as [I|[<-|[]]]; [right; exact (S2 x I) | left; reflexivity]. }
    assert (IP : innermost (P ++ [(f, v)]) = Some (f, v)) by apply innermost_snoc. rewrite IP in E1.
    destruct (lay_out_spec (P ++ [(f, v)]) done b rest A K (enter (Some (f, v)) s) rs s2 A1 K1 E) as (r & s3 & A2 & K2 & E2 & P2 & HA & _).
    - unfold names_of. intro X. rewrite X in Cf. exact Cf.
    - exact V'.
    - exact P1.
    - intros x g B Lv _ _. rewrite IP in Lv. destruct (level_around x g (f, v) B Lv) as (L1 & L2). split; [apply Ch; [exact (Permutation_in _ (Permutation_sym LO) (proj1 B)) | exact L1]|].
      intros c Cc. apply in_or_app. right. apply Ch; [exact (Permutation_in _ (Permutation_sym LO) (proj1 Cc)) | exact (L2 c Cc)].
    - intros h I. exact (names_prefix _ _ _ R' I).
    - rewrite IP in E2. assert (P3 : Post P done [Loop f v b] A K s [loop_around f v r] s3 A2 K2) by (apply post_loop; [exact P2 | intros x g B Lv I; apply (HA x g B); [rewrite IP; exact Lv | exact I]]).
      rewrite proc_core. unfold core. rewrite E1, E2. destruct (inner (innermost P) f).
      + eexists. eexists. eexists. eexists. split; [reflexivity | exact P3].
      + assert (NM : names_of [Loop f v b] = names_of b) by (unfold names_of; cbn [flat_map names]; apply app_nil_r).
        destruct (wrap_spec P done [Loop f v b] rest A K s (loop_around f v r) s3 A2 K2) as (r' & s4 & A3 & E3 & P4); [rewrite NM; exact E | exact V | exact P3 | intros h I; exact (names_prefix _ _ _ R I)|].
        rewrite E3. eexists. eexists. eexists. eexists. split; [reflexivity | exact P4].
  Qed.
  Lemma good_all x : good_item x.
  Proof. induction x as [f|f v b IH] using item_ind'; [apply good_call | apply good_loop, IH]. Qed.
  Lemma inv_initial : Inv [] [] [] (enter None initial).
  Proof.
    constructor; cbn [made candidates from_of to_of used constants loops_seen enter initial length flat_map count_occ]; try reflexivity.
    - intros l b. split; [intros [] | intros (f & _ & [] & _)].
    - intro l. constructor.
    - intros b f _ [].
    - intros b f _ [].
    - intros b [].
    - intro c. split; [intros [] | intros (_ & (f & [] & _) & _)].
    - constructor.
    - intros c [].
    - constructor.
    - constructor.
  Qed.
  Lemma root_post items : names_of items = L -> L <> [] -> runs_from [] items -> Forall (complete ord nest) items ->
    exists rs s2 r s3 A K, run_list (proc p ord loc None) items (enter None initial) = Some (rs, s2) /\ lay_out p ord None rs s2 = Some (r, s3) /\
      Post [] [] items [] [] (enter None initial) [r] s3 A K /\ (forall b f, inter b f -> In b A) /\ (forall c, In c (constants s3) -> exists d, In d (deps c) /\ ~ In d A).
  Proof.
    intros EL NE R C. assert (E : L = [] ++ names_of items ++ []) by (rewrite app_nil_r; auto). assert (GA : Forall good_item items) by (apply Forall_forall; intros x _; apply good_all).
    destruct (good_list items GA [] [] [] [] [] (enter None initial) E R C inv_initial) as (rs & s2 & A1 & K1 & E1 & P1); [split; [left; reflexivity | intros x []]|].
    destruct (lay_out_spec [] [] items [] [] [] (enter None initial) rs s2 A1 K1 E) as (r & s3 & A2 & K2 & E2 & P2 & HA & HK).
    - rewrite EL. exact NE.
    - exact inv_initial.
    - exact P1.
    - intros b f B _ _ _. rewrite EL. split; [apply B | intros c Cc; apply Cc].
    - intros f _. exists (nest f). reflexivity.
    - exists rs, s2, r, s3, A2, K2. split; [exact E1|]. split; [exact E2|]. split; [exact P2|]. split; [|exact HK]. intros b f B. assert (If : In f (names_of items)) by (rewrite EL; apply B). destruct (level b f) as [x|] eqn:Lv.
      + apply (po_all _ _ _ _ _ _ _ _ _ _ P2 b f x B If Lv). intros [].
      + exact (HA b f B Lv If).
  Qed.
End Inv.
