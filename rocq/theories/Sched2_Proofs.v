(** The tree of loops (C59). *)
From Coq Require Import ZArith List Bool Arith Lia.
From Verif Require Import Arith_Model Sched_Model Sched_Spec Sched_Proofs.
Import ListNotations.
Open Scope nat_scope.

Lemma loop_eqb_iff a b : loop_eqb a b = true <-> a = b.
Proof.
  destruct a as [(f, v)|], b as [(h, w)|]; cbn [loop_eqb]; try (split; congruence). rewrite andb_true_iff, !Nat.eqb_eq. split; [intros (-> & ->); reflexivity|intro Q; injection Q as -> ->; auto].
Qed.
Lemma prefix_refl {A} (l : list A) : prefix l l. Proof. exists []. rewrite app_nil_r. reflexivity. Qed.
Lemma prefix_nil {A} (l : list A) : prefix [] l. Proof. exists l. reflexivity. Qed.
Lemma prefix_trans {A} (a b c : list A) : prefix a b -> prefix b c -> prefix a c. Proof. intros (x & ->) (y & ->). exists (x ++ y). rewrite app_assoc. reflexivity. Qed.
Lemma prefix_app {A} (a b c : list A) : prefix a b -> prefix a (b ++ c). Proof. intros (x & ->). exists (x ++ c). rewrite app_assoc. reflexivity. Qed.
Lemma prefix_firstn {A} (a b : list A) : prefix a b <-> firstn (length a) b = a.
Proof. split; [intros (c & ->); rewrite firstn_app, Nat.sub_diag, firstn_O, app_nil_r; apply firstn_all|intro Q; exists (skipn (length a) b); rewrite <- Q at 1; symmetry; apply firstn_skipn]. Qed.
Lemma prefix_length {A} (a b : list A) : prefix a b -> length a <= length b. Proof. intros (c & ->). rewrite app_length. lia. Qed.
Lemma prefix_of {A} (a b c : list A) : prefix a c -> prefix b c -> length a <= length b -> prefix a b.
Proof. intros Pa Pb L. apply prefix_firstn in Pa, Pb. apply prefix_firstn. rewrite <- Pb, firstn_firstn, Nat.min_l by exact L. exact Pa. Qed.
Lemma prefix_anti {A} (a b : list A) : prefix a b -> prefix b a -> a = b.
Proof. intros Pa Pb. pose proof (prefix_length _ _ Pa). pose proof (prefix_length _ _ Pb). apply prefix_firstn in Pa. rewrite <- Pa. apply firstn_all2. lia. Qed.
Lemma prefix_snoc {A} (a b : list A) x : prefix a (b ++ [x]) -> a = b ++ [x] \/ prefix a b.
Proof.
  intros (c & Q). destruct (exists_last_or c) as [->|(c' & y & ->)]; [left; rewrite app_nil_r in Q; congruence|]. rewrite app_assoc in Q. apply app_inj_tail in Q as (-> & _). right. exists c'. reflexivity.
Qed.
Lemma innermost_snoc l x : innermost (l ++ [x]) = Some x. Proof. unfold innermost. rewrite map_app. apply last_last. Qed.

Definition label (t : list node) (i : nat) : list (nat * nat) := match loop (at_node t i) with Some x => [x] | None => [] end.
Definition nest_t (t : list node) (n : nat) : list (nat * nat) := flat_map (label t) (find_path_from_root t n).
Record wf (t : list node) : Prop := {
  wf_root : 0 < length t /\ loop (at_node t 0) = None;
  wf_parent : forall i, 0 < i < length t -> parent (at_node t i) < i;
  wf_loop : forall i, 0 < i < length t -> exists x, loop (at_node t i) = Some x;
  wf_sib : forall i j, 0 < i < length t -> 0 < j < length t -> parent (at_node t i) = parent (at_node t j) -> loop (at_node t i) = loop (at_node t j) -> i = j }.

Section Tree.
  Variable t : list node.
  Hypothesis W : wf t.
  Notation path := (find_path_from_root t).
  Lemma path_up_fuel n : n < length t -> forall k, n <= k -> path_up k t n = path_up n t n.
  Proof.
    induction n as [n IH] using lt_wf_ind. intros L k Lk. destruct n as [|n]; [destruct k; reflexivity|]. destruct k as [|k]; [lia|]. cbn [path_up]. pose proof (wf_parent t W (S n) ltac:(lia)) as Lp. f_equal. rewrite (IH (parent (at_node t (S n))) Lp) by lia. symmetry. apply (IH (parent (at_node t (S n))) Lp); lia.
  Qed.
  Lemma path_root : path 0 = [0]. Proof. reflexivity. Qed.
  Lemma path_step n : 0 < n < length t -> path n = path (parent (at_node t n)) ++ [n].
  Proof.
    intro L. unfold find_path_from_root. destruct n as [|n]; [lia|]. cbn [path_up]. pose proof (wf_parent t W (S n) L) as Lp. cbn [rev]. rewrite path_up_fuel by lia. reflexivity.
  Qed.
  Lemma path_ind (P : nat -> Prop) : P 0 -> (forall n, 0 < n < length t -> P (parent (at_node t n)) -> P n) -> forall n, n < length t -> P n.
  Proof. intros P0 Ps n. induction n as [n IH] using lt_wf_ind. intro L. destruct n as [|n]; [exact P0|]. pose proof (wf_parent t W (S n) ltac:(lia)). apply Ps; [lia|]. apply IH; lia. Qed.
  Lemma path_in n : n < length t -> forall m, In m (path n) -> m < length t.
  Proof.
    revert n. apply (path_ind (fun n => forall m, In m (path n) -> m < length t)).
    - intros m [<-|[]]. exact (proj1 (wf_root t W)).
    - intros n L IH m I. rewrite path_step in I by exact L. apply in_app_or in I as [I|[<-|[]]]; [exact (IH m I)|lia].
  Qed.
  Lemma path_split n : n < length t -> forall a m b, path n = a ++ m :: b -> path m = a ++ [m].
  Proof.
    revert n. apply (path_ind (fun n => forall a m b, path n = a ++ m :: b -> path m = a ++ [m])).
    - intros a m b Q. rewrite path_root in Q. destruct a as [|x a]; [injection Q as <- _; reflexivity|]. injection Q as _ Q. destruct a; discriminate.
    - intros n L IH a m b Q. rewrite path_step in Q by exact L. destruct (exists_last_or b) as [->|(b' & y & ->)].
      + apply app_inj_tail in Q as (E & E2). subst m. rewrite path_step by exact L. rewrite E. reflexivity.
      + change (m :: b' ++ [y]) with ((m :: b') ++ [y]) in Q. rewrite app_assoc in Q. apply app_inj_tail in Q as (Q & _). exact (IH a m b' Q).
  Qed.
  Lemma path_hd n : n < length t -> exists l, path n = 0 :: l.
  Proof. revert n. apply (path_ind (fun n => exists l, path n = 0 :: l)); [exists []; reflexivity|]. intros n L (l & Q). exists (l ++ [n]). rewrite path_step by exact L. rewrite Q. reflexivity. Qed.
  Lemma path_last n : n < length t -> exists l, path n = l ++ [n].
  Proof. destruct n as [|n]; intro L; [exists []; reflexivity|]. exists (path (parent (at_node t (S n)))). apply path_step. lia. Qed.
  Lemma nest_root : nest_t t 0 = []. Proof. unfold nest_t. rewrite path_root. cbn [flat_map]. unfold label. rewrite (proj2 (wf_root t W)). reflexivity. Qed.
  Lemma nest_step n : 0 < n < length t -> exists x, loop (at_node t n) = Some x /\ nest_t t n = nest_t t (parent (at_node t n)) ++ [x].
  Proof.
    intro L. destruct (wf_loop t W n L) as (x & Q). exists x. split; [exact Q|]. unfold nest_t. rewrite path_step by exact L. rewrite flat_map_app. cbn [flat_map]. rewrite app_nil_r. f_equal. unfold label. rewrite Q. reflexivity.
  Qed.
  Lemma nest_innermost n : n < length t -> innermost (nest_t t n) = loop (at_node t n).
  Proof. intro L. destruct n as [|n]; [rewrite nest_root, (proj2 (wf_root t W)); reflexivity|]. destruct (nest_step (S n) ltac:(lia)) as (x & Q & ->). rewrite innermost_snoc. congruence. Qed.
  Lemma nest_inj n : n < length t -> forall m, m < length t -> nest_t t n = nest_t t m -> n = m.
  Proof.
    revert n. apply (path_ind (fun n => forall m, m < length t -> nest_t t n = nest_t t m -> n = m)).
    - intros m L Q. destruct m as [|m]; [reflexivity|]. destruct (nest_step (S m) ltac:(lia)) as (x & _ & E). rewrite nest_root, E in Q. destruct (nest_t t _); discriminate.
    - intros n L IH m Lm Q. destruct (nest_step n L) as (x & Lx & Ex). destruct m as [|m]; [rewrite nest_root, Ex in Q; destruct (nest_t t (parent _)); discriminate|]. destruct (nest_step (S m) ltac:(lia)) as (y & Ly & Ey).
      rewrite Ex, Ey in Q. apply app_inj_tail in Q as (Q & <-). pose proof (wf_parent t W (S m) ltac:(lia)). apply (wf_sib t W); [exact L|lia| |congruence]. apply IH; [lia|exact Q].
  Qed.
  Lemma prefix_nest a b : a < length t -> prefix (path a) (path b) -> prefix (nest_t t a) (nest_t t b).
  Proof. intros L (c & Q). unfold nest_t. rewrite Q, flat_map_app. eexists. reflexivity. Qed.
  Lemma nest_prefix n : n < length t -> forall P, prefix P (nest_t t n) -> exists k, k < length t /\ nest_t t k = P /\ prefix (path k) (path n).
  Proof.
    revert n. apply (path_ind (fun n => forall P, prefix P (nest_t t n) -> exists k, k < length t /\ nest_t t k = P /\ prefix (path k) (path n))).
    - intros P Q. exists 0. split; [exact (proj1 (wf_root t W))|]. rewrite nest_root in *. split; [|apply prefix_refl]. destruct Q as (c & Q). destruct P; [reflexivity|discriminate].
    - intros n L IH P Q. destruct (nest_step n L) as (x & Lx & Ex). rewrite Ex in Q. apply prefix_snoc in Q as [->|Q]; [exists n; split; [lia|split; [exact Ex|apply prefix_refl]]|].
      destruct (IH P Q) as (k & Lk & Ek & Pk). exists k. split; [exact Lk|]. split; [exact Ek|]. rewrite (path_step n L). apply prefix_app. exact Pk.
  Qed.

  (** *** lca *)
  Lemma first_diff_spec n : forall iy base other, n <= length base -> n <= length other -> exists k, first_diff iy n base other = (iy + Z.of_nat k - 1)%Z /\ k <= n /\ firstn k base = firstn k other /\
    forall j, j <= n -> firstn j base = firstn j other -> j <= k.
  Proof.
    induction n as [|n IH]; intros iy base other Lb Lo; cbn [first_diff].
    - exists 0. split; [lia|]. split; [lia|]. split; [reflexivity|]. intros j Lj _. exact Lj.
    - destruct base as [|b base], other as [|o other]; cbn [length] in *; try lia. destruct (Nat.eqb_spec o b) as [->|Ne].
      + destruct (IH (iy + 1)%Z base other ltac:(lia) ltac:(lia)) as (k & E & Lk & F & M). exists (S k). split; [lia|]. split; [lia|]. split; [cbn [firstn]; congruence|]. intros [|j] Lj Q; [lia|]. cbn [firstn] in Q. injection Q as Q. specialize (M j ltac:(lia) Q). lia.
      + exists 0. split; [lia|]. split; [lia|]. split; [reflexivity|]. intros [|j] Lj Q; [lia|]. cbn [firstn] in Q. congruence.
  Qed.
  Lemma compare_spec base other n : n <= length base -> exists k, compare_paths_up_to base other (Z.of_nat n - 1) = (Z.of_nat k - 1)%Z /\ k <= n /\ firstn k base = firstn k other /\ k <= length other /\
    forall j, j <= n -> j <= length other -> firstn j base = firstn j other -> j <= k.
  Proof.
    intro L. unfold compare_paths_up_to. replace (Z.to_nat (Z.min (Z.of_nat n - 1) (Z.of_nat (length other) - 1) + 1)) with (min n (length other)) by lia.
    destruct (first_diff_spec (min n (length other)) 0 base other ltac:(lia) ltac:(lia)) as (k & E & Lk & F & M). exists k. split; [lia|]. split; [lia|]. split; [exact F|]. split; [lia|]. intros j L1 L2 Q. apply M; [lia|exact Q].
  Qed.
  Lemma fold_spec base paths : forall n, n <= length base -> exists k, fold_left (fun m p => compare_paths_up_to base p m) paths (Z.of_nat n - 1)%Z = (Z.of_nat k - 1)%Z /\ k <= n /\
    (forall p, In p paths -> prefix (firstn k base) p) /\ forall j, j <= n -> (forall p, In p paths -> prefix (firstn j base) p) -> j <= k.
  Proof.
    induction paths as [|p paths IH]; intros n L; cbn [fold_left].
    - exists n. split; [reflexivity|]. split; [lia|]. split; [intros p []|]. auto.
    - destruct (compare_spec base p n L) as (k & E & Lk & F & Lp & M). rewrite E. destruct (IH k ltac:(lia)) as (m & E2 & L2 & A & B). exists m. split; [exact E2|]. split; [lia|]. split.
      + intros q [<-|I]; [|exact (A q I)]. exists (skipn m p). rewrite <- (firstn_skipn m p) at 1. f_equal. rewrite <- (Nat.min_l m k) by exact L2. rewrite <- !firstn_firstn. congruence.
      + intros j Lj Q. apply B; [|intros q I; apply Q; right; exact I]. apply M; [exact Lj| |].
        * pose proof (prefix_length _ _ (Q p (or_introl eq_refl))) as G. rewrite firstn_length in G. lia.
        * pose proof (Q p (or_introl eq_refl)) as G. apply prefix_firstn in G. rewrite firstn_length, Nat.min_l in G by lia. symmetry. exact G.
  Qed.
  Lemma lca_spec ids : ids <> [] -> (forall i, In i ids -> i < length t) -> lca t ids < length t /\ (forall i, In i ids -> prefix (nest_t t (lca t ids)) (nest_t t i)) /\
    forall P, (forall i, In i ids -> prefix P (nest_t t i)) -> prefix P (nest_t t (lca t ids)).
  Proof.
    intros Ne L. destruct ids as [|i0 ids]; [congruence|]. set (paths := path i0 :: map path ids).
    assert (Ec : lca t (i0 :: ids) = nth (Z.to_nat (fold_left (fun m p => compare_paths_up_to (path i0) p m) paths (Z.of_nat (length (path i0)) - 1)%Z)) (path i0) 0) by reflexivity. rewrite Ec. clear Ec.
    assert (Hp : forall p, In p paths <-> exists i, In i (i0 :: ids) /\ p = path i). { intro p. change paths with (map path (i0 :: ids)). rewrite in_map_iff. split; intros (i & A & B); exists i; auto. }
    destruct (fold_spec (path i0) paths (length (path i0)) (le_n _)) as (k & E & Lk & A & B). rewrite E.
    assert (K1 : 1 <= k).
    { apply B; [destruct (path_hd i0 (L i0 (or_introl eq_refl))) as (l & ->); cbn [length]; lia|]. intros p I. apply Hp in I as (i & I & ->). destruct (path_hd i0 (L i0 (or_introl eq_refl))) as (l0 & ->), (path_hd i (L i I)) as (l & ->). exists l. reflexivity. }
    replace (Z.to_nat (Z.of_nat k - 1)) with (k - 1) by lia. set (c := nth (k - 1) (path i0) 0).
    assert (Pc : path c = firstn k (path i0)).
    { assert (Lc : k - 1 < length (path i0)) by lia. pose proof (nth_split (path i0) 0 Lc) as (a & b & Q & La). fold c in Q. rewrite (path_split i0 (L i0 (or_introl eq_refl)) a c b Q). rewrite Q, firstn_app. replace (k - length a) with 1 by lia. rewrite firstn_all2 by lia. reflexivity. }
    assert (Lc : c < length t). { apply (path_in i0 (L i0 (or_introl eq_refl))). unfold c. apply nth_In. lia. }
    split; [exact Lc|]. split.
    - intros i I. apply prefix_nest; [exact Lc|]. rewrite Pc. apply A. apply Hp. exists i. auto.
    - intros P H. destruct (nest_prefix i0 (L i0 (or_introl eq_refl)) P (H i0 (or_introl eq_refl))) as (n & Ln & En & Pn). rewrite <- En. apply prefix_nest; [exact Ln|]. rewrite Pc.
      assert (Al : forall i, In i (i0 :: ids) -> prefix (path n) (path i)).
      { intros i I. destruct (nest_prefix i (L i I) P (H i I)) as (m & Lm & Em & Pm). assert (n = m) by (apply nest_inj; congruence). subst m. exact Pm. }
      apply prefix_firstn in Pn. pose proof (prefix_length _ _ (Al i0 (or_introl eq_refl))) as G. assert (Le : length (path n) <= k).
      { apply B; [exact G|]. intros p I. apply Hp in I as (i & I & ->). rewrite Pn. apply Al. exact I. }
      apply prefix_firstn. rewrite firstn_firstn, Nat.min_l by exact Le. exact Pn.
  Qed.
  (** *** compute_at *)
  Lemma last_at_spec (path : list nat) l : match last_at t path l with
    | Some q => loop (at_node t q) = l /\ exists a b, path = a ++ q :: b /\ forall m, In m b -> loop (at_node t m) <> l
    | None => forall m, In m path -> loop (at_node t m) <> l
    end.
  Proof.
    induction path as [|x path IH] using rev_ind; [intros m []|]. unfold last_at in *. rewrite fold_left_app. cbn [fold_left]. destruct (loop_eqb (loop (at_node t x)) l) eqn:Q.
    - apply loop_eqb_iff in Q. split; [exact Q|]. exists path, []. split; [reflexivity|]. intros m [].
    - assert (Nx : loop (at_node t x) <> l) by (intro E; apply loop_eqb_iff in E; congruence). destruct (fold_left _ path None) as [q|].
      + destruct IH as (A & a & b & -> & B). split; [exact A|]. exists a, (b ++ [x]). split; [rewrite <- app_assoc; reflexivity|]. intros m I. apply in_app_or in I as [I|[<-|[]]]; [exact (B m I)|exact Nx].
      + intros m I. apply in_app_or in I as [I|[<-|[]]]; [exact (IH m I)|exact Nx].
  Qed.
  Lemma last_at_nest c l q : c < length t -> last_at t (path c) l = Some q -> q < length t /\ innermost (nest_t t q) = l /\ prefix (nest_t t q) (nest_t t c) /\ forall P, prefix P (nest_t t c) -> innermost P = l -> prefix P (nest_t t q).
  Proof.
    intros Lc Q. pose proof (last_at_spec (path c) l) as G. rewrite Q in G. destruct G as (A & a & b & E & B). assert (Lq : q < length t) by (apply (path_in c Lc); rewrite E; apply in_or_app; right; left; reflexivity).
    assert (Pq : path q = a ++ [q]) by exact (path_split c Lc a q b E). split; [exact Lq|]. split; [rewrite nest_innermost by exact Lq; exact A|]. split; [apply prefix_nest; [exact Lq|]; rewrite Pq, E; exists b; rewrite <- app_assoc; reflexivity|].
    intros P Pp Ip. destruct (nest_prefix c Lc P Pp) as (k & Lk & Ek & Pk). subst P. rewrite nest_innermost in Ip by exact Lk. apply prefix_nest; [exact Lk|]. destruct (path_last k Lk) as (lk & Qk).
    apply prefix_of with (path c); [exact Pk|rewrite Pq, E; exists b; rewrite <- app_assoc; reflexivity|]. rewrite Pq, Qk, !app_length. cbn [length]. destruct (le_lt_dec (length lk) (length a)) as [Le|Gt]; [lia|]. exfalso.
    destruct Pk as (r & Qr). rewrite Qk, E, <- app_assoc in Qr. cbn [app] in Qr.
    assert (In k b) as Ib.
    { assert (Hk : nth (length lk) (a ++ q :: b) 0 = k) by (rewrite Qr, app_nth2, Nat.sub_diag by lia; reflexivity). rewrite app_nth2 in Hk by lia. destruct (length lk - length a) as [|d] eqn:Ed; [lia|]. cbn [nth] in Hk. rewrite <- Hk. apply nth_In.
      assert (Ll : length (a ++ q :: b) = length (lk ++ k :: r)) by (rewrite Qr; reflexivity). rewrite !app_length in Ll. cbn [length] in Ll. lia. }
    exact (B k Ib Ip).
  Qed.
End Tree.
Lemma last_at_root t c l : wf t -> c < length t -> l = None -> last_at t (find_path_from_root t c) l <> None.
Proof.
  intros W Lc -> Q. pose proof (last_at_spec t (find_path_from_root t c) None) as G. rewrite Q in G. destruct (path_hd t W c Lc) as (r & E). apply (G 0); [rewrite E; left; reflexivity|exact (proj2 (wf_root t W))].
Qed.

(** ** Adding loops *)
Lemma at_node_app t x i : i < length t -> at_node (t ++ x) i = at_node t i. Proof. apply app_nth1. Qed.
Lemma at_node_new t x : at_node (t ++ [x]) (length t) = x. Proof. unfold at_node. rewrite app_nth2, Nat.sub_diag by lia. reflexivity. Qed.
Definition fresh (t : list node) (f p : nat) : Prop := forall i, 0 < i < length t -> parent (at_node t i) = p -> forall v, loop (at_node t i) <> Some (f, v).
Lemma wf_add t f v p : wf t -> p < length t -> fresh t f p -> wf (t ++ [Node p (Some (f, v))]).
Proof.
  intros W Lp F. assert (Sp : forall i, i < length (t ++ [Node p (Some (f, v))]) -> i < length t \/ i = length t) by (intros i; rewrite app_length; cbn [length]; lia).
  constructor.
  - split; [rewrite app_length; cbn [length]; lia|]. rewrite at_node_app by exact (proj1 (wf_root t W)). exact (proj2 (wf_root t W)).
  - intros i (L0 & L). destruct (Sp i L) as [Li| ->]; [rewrite at_node_app by exact Li; apply (wf_parent t W); lia|]. rewrite at_node_new. cbn [parent]. exact Lp.
  - intros i (L0 & L). destruct (Sp i L) as [Li| ->]; [rewrite at_node_app by exact Li; apply (wf_loop t W); lia|]. rewrite at_node_new. cbn [loop]. eauto.
  - intros i j (L0 & L) (M0 & M). destruct (Sp i L) as [Li| ->], (Sp j M) as [Lj| ->]; rewrite ?at_node_new, ?at_node_app by assumption; cbn [parent loop]; intros A B; try reflexivity.
    + apply (wf_sib t W); auto.
    + exfalso. exact (F i (conj L0 Li) A v B).
    + exfalso. exact (F j (conj M0 Lj) (eq_sym A) v (eq_sym B)).
Qed.
Lemma path_up_app t x : wf t -> forall k n, n < length t -> path_up k (t ++ x) n = path_up k t n.
Proof.
  intros W. induction k as [|k IH]; intros n L; destruct n as [|n]; cbn [path_up]; try reflexivity. pose proof (wf_parent t W (S n) ltac:(lia)). rewrite at_node_app by exact L. f_equal. apply IH. lia.
Qed.
Lemma nest_app t x n : wf t -> n < length t -> nest_t (t ++ x) n = nest_t t n.
Proof.
  intros W L. unfold nest_t. assert (Q : find_path_from_root (t ++ x) n = find_path_from_root t n) by (unfold find_path_from_root; rewrite path_up_app by assumption; reflexivity). rewrite Q.
  assert (G : forall l, (forall m, In m l -> m < length t) -> flat_map (label (t ++ x)) l = flat_map (label t) l).
  { induction l as [|m l IH]; intro H; [reflexivity|]. cbn [flat_map]. rewrite IH by (intros y I; apply H; right; exact I). unfold label at 1. rewrite at_node_app by (apply H; left; reflexivity). reflexivity. }
  apply G. exact (path_in t W n L).
Qed.
Lemma add_loops_spec f vars : forall t p, wf t -> p < length t -> fresh t f p -> forall t' n, add_loops t f vars p = (t', n) ->
  wf t' /\ n < length t' /\ nest_t t' n = nest_t t p ++ map (fun v => (f, v)) vars /\ (exists x, t' = t ++ x) /\ forall i, length t <= i < length t' -> exists v, loop (at_node t' i) = Some (f, v).
Proof.
  induction vars as [|v vars IH]; intros t p W L F t' n Q; cbn [add_loops] in Q.
  - injection Q as <- <-. split; [exact W|]. split; [exact L|]. cbn [map]. rewrite app_nil_r. split; [reflexivity|]. split; [exists []; rewrite app_nil_r; reflexivity|]. intros i Li. lia.
  - set (t1 := t ++ [Node p (Some (f, v))]) in *. assert (W1 : wf t1) by exact (wf_add t f v p W L F). assert (L1 : length t < length t1) by (unfold t1; rewrite app_length; cbn [length]; lia).
    assert (F1 : fresh t1 f (length t)).
    { intros i Li Q2. exfalso. pose proof (wf_parent t1 W1 i Li) as Lp. rewrite Q2 in Lp. unfold t1 in Li. rewrite app_length in Li. cbn [length] in Li. lia. }
    destruct (IH t1 (length t) W1 L1 F1 t' n Q) as (W' & Ln & En & (x & Ex) & El). split; [exact W'|]. split; [exact Ln|]. split.
    + rewrite En. pose proof (proj1 (wf_root t W)) as L0. destruct (nest_step t1 W1 (length t) ltac:(lia)) as (y & Ly & Ey). assert (At : at_node t1 (length t) = Node p (Some (f, v))) by apply at_node_new. rewrite At in Ly, Ey. cbn [loop parent] in Ly, Ey. injection Ly as <-. rewrite Ey. unfold t1. rewrite nest_app by assumption. cbn [map]. rewrite <- app_assoc. reflexivity.
    + split; [exists ([Node p (Some (f, v))] ++ x); rewrite Ex; unfold t1; rewrite app_assoc; reflexivity|]. intros i Li. destruct (Nat.eq_dec i (length t)) as [->|Ni]; [|apply El; unfold t1 in *; rewrite app_length in *; cbn [length] in *; lia].
      exists v. rewrite Ex, at_node_app by exact L1. unfold t1. rewrite at_node_new. reflexivity.
Qed.
