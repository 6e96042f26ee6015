(** C59: functions are ordered from the outputs to the inputs, and each is computed in the innermost loops around its consumers.  C60: each is called once, there, and after its producers. *)
From Coq Require Import ZArith List Bool Arith Lia.
From Verif Require Import Arith_Model Sched_Model Sched_Spec Sched_Proofs Sched2_Proofs Sched3_Proofs Sched4_Proofs.
Import ListNotations.
Open Scope nat_scope.

(** For any finite graph of functions the sort ends.  An assert fails if and only if a function that is needed uses its own result.  Otherwise the order has each needed function once, consumers before
    producers, and the consumers that are recorded for a function are its consumers. *)
Theorem C59_sort : forall g U outputs n, (forall f, In f U -> incl (producers g f) U) -> incl outputs U -> length U < n ->
  (cyclic g outputs /\ topological_sort g n outputs = Some UB) \/
  (~ cyclic g outputs /\ exists ord ds, topological_sort g n outputs = Some (Val (ord, ds)) /\
     NoDup ord /\ (forall f, In f ord <-> needed g outputs f) /\ (forall f p, needed g outputs f -> In p (producers g f) -> before f p ord) /\
     forall p f, In f (consumers ds p) <-> consumed g outputs p f).
Proof.
  intros g U outputs n Cl I L. pose proof (all_ends g U Cl n L outputs st_empty I) as E. destruct (topological_sort g n outputs) as [[(ord, ds)|]|] eqn:Q.
  - right. pose proof (sort_sound g n outputs ord ds Q) as Sp. split; [exact (spec_acyclic g outputs ord ds Sp)|]. exists ord, ds. split; [reflexivity|]. destruct Sp as [A B C D]. split; [exact A|]. split; [exact B|]. split; [exact C|]. intros p f. apply (consumers_iff g outputs ord ds). constructor; assumption.
  - left. unfold topological_sort in Q. fold st_empty in Q. destruct (sort_all g n outputs st_empty) as [[st|]|] eqn:Q2; try discriminate. split; [|reflexivity]. destruct (all_cycle g n outputs st_empty Q2) as (f & x & If & Fx & Fr). exists x. split; [|exact Fx]. pose proof (needed_output g outputs f If) as N. destruct Fr as [->|F]; [exact N|exact (feeds_needed g outputs x f F N)].
  - unfold topological_sort in Q. fold st_empty in Q. destruct (sort_all g n outputs st_empty) as [[st|]|]; try discriminate. congruence.
Qed.
(** Each function is computed in the loops of [nested]: as many as are around all its consumers, or up to its compute_at. *)
Theorem C59_nests : forall g n outputs ord ds st, topological_sort g n outputs = Some (Val (ord, ds)) -> compute_innermost_locations g ord ds = Val st ->
  exists outer nest, nested g outputs outer nest /\ forall f, needed g outputs f -> at_level st f = innermost (outer f) /\ call_level st f = innermost (nest f).
Proof.
  intros g n outputs ord ds st Q L. pose proof (sort_sound g n outputs ord ds Q) as Sp. destruct (nested_spec g outputs ord ds Sp st L) as (N & A). exists (outer_s g st), (nest_s st). split; [exact N|]. intros f Nf. apply A. apply (so_needed g outputs ord ds Sp). exact Nf.
Qed.
(** An assert fails only if some function has a compute_at that is not the root: *)
Theorem C59_defined : forall g n outputs ord ds, topological_sort g n outputs = Some (Val (ord, ds)) -> (forall f, needed g outputs f -> compute_at g f = None \/ compute_at g f = Some None) ->
  exists st, compute_innermost_locations g ord ds = Val st.
Proof.
  intros g n outputs ord ds Q H. destruct (compute_innermost_locations g ord ds) as [st|] eqn:L; [eauto|]. destruct (nested_able g outputs ord ds (sort_sound g n outputs ord ds Q) L) as (f & x & N & E). destruct (H f N) as [A|A]; rewrite A in E; discriminate.
Qed.
(** The loops around a function are determined by [nested]: there is one way to compute each function as deep as possible. *)
Theorem C59_unique : forall g n outputs ord ds o1 n1 o2 n2, topological_sort g n outputs = Some (Val (ord, ds)) -> nested g outputs o1 n1 -> nested g outputs o2 n2 -> forall f, needed g outputs f -> o1 f = o2 f /\ n1 f = n2 f.
Proof.
  intros g n outputs ord ds o1 n1 o2 n2 Q N1 N2 f N. pose proof (sort_sound g n outputs ord ds Q) as Sp. apply (so_needed g outputs ord ds Sp) in N. revert f N. apply (ord_ind g outputs ord ds Sp (fun f => o1 f = o2 f /\ n1 f = n2 f)). intros f I IH. apply (so_needed g outputs ord ds Sp) in I.
  assert (Eo : o1 f = o2 f).
  { assert (Hc : forall c, consumed g outputs f c -> n1 c = n2 c) by (intros c (Nc & J); apply IH; exact (so_before g outputs ord ds Sp c f Nc J)).
    destruct (consumers ds f) as [|c l] eqn:E.
    - assert (Nn : forall c, ~ consumed g outputs f c) by (intros c H; apply (consumers_iff g outputs ord ds Sp) in H; rewrite E in H; destruct H). rewrite (nest_output _ _ _ _ N1 f I Nn), (nest_output _ _ _ _ N2 f I Nn). reflexivity.
    - assert (Ex : exists c, consumed g outputs f c) by (exists c; apply (consumers_iff g outputs ord ds Sp); rewrite E; left; reflexivity).
      assert (C1 : forall c, consumed g outputs f c -> prefix (o1 f) (n2 c)) by (intros c0 H; rewrite <- Hc by exact H; exact (nest_consumer _ _ _ _ N1 f c0 I H)).
      assert (C2 : forall c, consumed g outputs f c -> prefix (o2 f) (n1 c)) by (intros c0 H; rewrite Hc by exact H; exact (nest_consumer _ _ _ _ N2 f c0 I H)).
      destruct (compute_at g f) as [l0|] eqn:Ca.
      + apply prefix_anti; [exact (nest_at_most _ _ _ _ N2 f l0 _ I Ca Ex C1 (nest_at _ _ _ _ N1 f l0 I Ca))|exact (nest_at_most _ _ _ _ N1 f l0 _ I Ca Ex C2 (nest_at _ _ _ _ N2 f l0 I Ca))].
      + apply prefix_anti; [exact (nest_most _ _ _ _ N2 f _ I Ca Ex C1)|exact (nest_most _ _ _ _ N1 f _ I Ca Ex C2)]. }
  split; [exact Eo|]. rewrite (nest_own _ _ _ _ N1 f I), (nest_own _ _ _ _ N2 f I), Eo. reflexivity.
Qed.
(** The calls and loops that are made: each needed function is called once, in the loops where it is to be computed and its own loops, after its producers; if no function has two loops over the same variable. *)
Theorem C60_program : forall g n outputs ord ds st m, topological_sort g n outputs = Some (Val (ord, ds)) -> compute_innermost_locations g ord ds = Val st -> (forall f, needed g outputs f -> NoDup (loops g f)) ->
  length ord + length (flat_map (loops g) ord) <= m ->
  exists items outer nest, make_root g ord st m = Some items /\ nested g outputs outer nest /\
    (forall x, In x (calls [] items) <-> exists f, needed g outputs f /\ x = (nest f, f)) /\
    NoDup (map snd (calls [] items)) /\
    forall f p, needed g outputs f -> In p (producers g f) -> before p f (map snd (calls [] items)).
Proof.
  intros g n outputs ord ds st m Q L Dl Lm. pose proof (sort_sound g n outputs ord ds Q) as Sp. destruct (nested_spec g outputs ord ds Sp st L) as (N & A).
  assert (Hn : forall f, In f ord <-> needed g outputs f) by exact (so_needed g outputs ord ds Sp).
  destruct (root_good g outputs ord ds st (outer_s g st) (nest_s st) Sp N A) with (n := m) as (items & E & [G1 G2 G3 _]).
  - intros f I. apply Dl. apply Hn. exact I.
  - assert (Sz : forall l, size g l = length l + length (flat_map (loops g) l)) by (induction l as [|x l IH]; [reflexivity|]; unfold size in *; cbn [fold_right length flat_map]; rewrite IH, app_length; lia). rewrite Sz. exact Lm.
  - exists items, (outer_s g st), (nest_s st). split; [exact E|]. split; [exact N|]. split.
    + intro x. rewrite G1. split; intros (h & H & Ex); exists h; (split; [apply Hn; exact H|exact Ex]).
    + split; [exact G2|]. intros f p Nf J. apply G3; [exact J|apply Hn; exact (needed_producer g outputs f p Nf J)|apply Hn; exact Nf].
Qed.

(** ** Example: 0 with loops over 10 (outer) and 11 uses 1 and 2; 1 has a loop over 12 and uses 3; 2 uses 3 and 4 (twice); 3 uses 5; 4 is computed at the loop over 10, 5 at the root. *)
Definition g59 : graph := Graph
  (fun f => match f with 0 => [1; 2] | 1 => [3] | 2 => [3; 4; 4] | 3 => [5] | _ => [] end)
  (fun f => match f with 0 => [11; 10] | 1 => [12] | _ => [] end)
  (fun f => match f with 4 => Some (Some (0, 10)) | 5 => Some None | _ => None end).
Definition u59 := [0; 1; 2; 3; 4; 5; 6].
Definition ord59 := match topological_sort g59 8 [0] with Some (Val (o, _)) => o | _ => [] end.
Definition items59 : list item := [Call 5; Loop 0 10 [Call 4; Loop 0 11 [Call 3; Loop 1 12 [Call 1]; Call 2; Call 0]]].
Example C59_ex : (forall f, In f u59 -> incl (producers g59 f) u59) /\ incl [0] u59 /\ length u59 < 8 /\ ~ cyclic g59 [0] /\ ord59 = [0; 2; 4; 1; 3; 5] /\ ~ needed g59 [0] 6 /\
  exists ds st, topological_sort g59 8 [0] = Some (Val (ord59, ds)) /\ compute_innermost_locations g59 ord59 ds = Val st /\
    (forall f, needed g59 [0] f -> NoDup (loops g59 f)) /\ length ord59 + length (flat_map (loops g59) ord59) <= 9 /\
    map (at_level st) [0; 1; 2; 3; 4; 5] = [None; Some (0, 11); Some (0, 11); Some (0, 11); Some (0, 10); None] /\ make_root g59 ord59 st 9 = Some items59.
Proof.
  assert (Cl : forall f, In f u59 -> incl (producers g59 f) u59) by (intros f I x J; cbn in I; decompose [or] I; subst; cbn in J; decompose [or] J; subst; cbn; auto 10; contradiction).
  assert (I0 : incl [0] u59) by (intros x [<-|[]]; left; reflexivity). split; [exact Cl|]. split; [exact I0|]. split; [cbn; lia|].
  destruct (C59_sort g59 u59 [0] 8 Cl I0 ltac:(cbn; lia)) as [(_ & Q)|(Nc & ord & ds & Q & _ & Hn & _)]; [vm_compute in Q; discriminate Q|]. assert (Eo : ord59 = ord) by (unfold ord59; rewrite Q; reflexivity). subst ord.
  split; [exact Nc|]. split; [vm_compute; reflexivity|]. split; [rewrite <- Hn; vm_compute; intuition discriminate|].
  destruct (compute_innermost_locations g59 ord59 ds) as [st|] eqn:L; [|exfalso; vm_compute in Q; injection Q as <-; vm_compute in L; discriminate L].
  exists ds, st. split; [exact Q|]. split; [exact L|]. split; [intros f _; destruct f as [|[|f]]; cbn; repeat constructor; cbn; intuition discriminate|]. split; [vm_compute; lia|].
  vm_compute in Q. injection Q as <-. vm_compute in L. injection L as <-. split; vm_compute; reflexivity.
Qed.
(** a function that uses its own result, through another one *)
Example C59_ex_cyclic : let g := Graph (fun f => match f with 0 => [1] | 1 => [2] | 2 => [1] | _ => [] end) (fun _ => []) (fun _ => None) in cyclic g [0] /\ topological_sort g 4 [0] = Some UB.
Proof. cbv zeta. split; [|vm_compute; reflexivity]. exists 1. split; [apply (needed_producer _ _ 0); [apply needed_output; left; reflexivity|left; reflexivity]|]. apply feeds_more with 2; [apply feeds_one; left; reflexivity|left; reflexivity]. Qed.

(** Finding: a function that is computed at a loop over a variable that the consumer has two loops over is called twice. *)
Theorem C60_twice_refuted :
  let g := Graph (fun f => match f with 0 => [1] | _ => [] end) (fun f => match f with 0 => [10; 10] | _ => [] end) (fun f => match f with 1 => Some (Some (0, 10)) | _ => None end) in
  exists ds st, topological_sort g 3 [0] = Some (Val ([0; 1], ds)) /\ compute_innermost_locations g [0; 1] ds = Val st /\ make_root g [0; 1] st 5 = Some [Loop 0 10 [Call 1; Call 0; Loop 0 10 [Call 1; Call 0]]].
Proof. cbv zeta. eexists. eexists. split; [vm_compute; reflexivity|]. split; vm_compute; reflexivity. Qed.
