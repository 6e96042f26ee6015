(** The body of a loop in environments with some and with all crops. *)
From Coq Require Import ZArith List Bool Arith Lia.
From Verif Require Import Arith_Model Arith_Proofs Buf_Model Buf_Spec Buf_Proofs ForEach_Spec Expr_Model Expr_Proofs Subst_Spec Deps_Spec VSem_Spec VExec_Proofs VFrame_Proofs
  Concat_Model Concat_Spec Concat_Proofs Stmt_Model Crops_Model Crops_Spec Crops_Proofs Crops2_Proofs.
Import ListNotations.
Open Scope Z_scope.

Definition no : limits := (None, None).
Lemma crop1_no d : crop1 d no = d.
Proof. unfold crop1, no, or_else, set_bounds. cbn [fst snd]. rewrite Z.max_id, Z.min_id. destruct d; reflexivity. Qed.
Lemma nth_crop_list : forall ds ls d, (d < length ds)%nat -> nth d (crop_list ds ls) broadcast = crop1 (nth d ds broadcast) (nth d ls no).
Proof.
  induction ds as [|x ds IH]; intros ls d L; [cbn in L; lia|]. destruct ls as [|l ls]; cbn [crop_list]; [destruct d; rewrite crop1_no; reflexivity|].
  destruct d as [|d]; cbn [nth]; [reflexivity|]. apply IH. cbn in L. lia.
Qed.
Lemma crop_list_length : forall ds ls, length (crop_list ds ls) = length ds.
Proof. induction ds as [|x ds IH]; intros [|l ls]; cbn [crop_list length]; auto. Qed.
Lemma dims_nth (l l' : list dim) : length l = length l' -> (forall d, (d < length l)%nat -> nth d l broadcast = nth d l' broadcast) -> l = l'.
Proof. intros L Q. apply (nth_ext l l' broadcast broadcast L Q). Qed.
Lemma in_bounds_iff : forall ds idx, in_bounds ds idx <-> length idx = length ds /\ forall d, (d < length ds)%nat -> d_min (nth d ds broadcast) <= nth d idx 0 <= d_max (nth d ds broadcast).
Proof.
  induction ds as [|x ds IH]; intros [|i idx]; cbn [in_bounds length].
  - split; [intros _; split; [reflexivity|intros; lia]|auto].
  - split; [intros []|intros (L & _); discriminate].
  - split; [intros []|intros (L & _); discriminate].
  - rewrite IH. split.
    + intros (B & L & Q). split; [lia|]. intros [|d] Ld; cbn [nth]; [exact B|]. apply Q. lia.
    + intros (L & Q). split; [exact (Q O ltac:(lia))|]. split; [lia|]. intros d Ld. exact (Q (S d) ltac:(lia)).
Qed.

(** [b] is [b0] with the limits [f] *)
Record cropd (b0 : buf) (f : nat -> limits) (b : buf) : Prop := {
  cd_es : elem_size b = elem_size b0;
  cd_len : length (dims b) = length (dims b0);
  cd_dims : forall d, (d < length (dims b0))%nat -> nth d (dims b) broadcast = crop1 (nth d (dims b0) broadcast) (f d);
  cd_loc : forall idx, in_bounds (dims b) idx -> locate b (index idx) = locate b0 (index idx) }.
Lemma cropd_id b0 f : (forall d, f d = no) -> cropd b0 f b0.
Proof. intro Q. constructor; auto. intros d _. rewrite Q, crop1_no. reflexivity. Qed.
Lemma cropd_crops b0 ls f : (forall d, f d = nth d ls no) -> cropd b0 f (crops b0 0 ls).
Proof.
  intro Q. constructor.
  - apply crops_es.
  - rewrite crops_dims0. apply crop_list_length.
  - intros d L. rewrite crops_dims0, nth_crop_list, Q by exact L. reflexivity.
  - intros idx B. rewrite crops_dims0 in B. rewrite locate_crops0, (crop_list_reach _ _ _ B). reflexivity.
Qed.
Lemma cropd_one b0 d l f : (d < length (dims b0))%nat -> (forall j, f j = if (j =? d)%nat then l else no) ->
  cropd b0 f (Buf_Model.crop b0 d (or_else (fst l) (d_min (dim_at b0 d))) (or_else (snd l) (d_max (dim_at b0 d)))).
Proof.
  intros L Q. set (b := Buf_Model.crop _ _ _ _). assert (D : dims b = set_nth (dims b0) d (crop1 (dim_at b0 d) l)) by (apply crop_dims; exact L).
  assert (Len : length (dims b) = length (dims b0)) by (rewrite D; apply set_nth_length).
  assert (Ds : forall j, (j < length (dims b0))%nat -> nth j (dims b) broadcast = crop1 (nth j (dims b0) broadcast) (f j)).
  { intros j Lj. rewrite D, Q. destruct (Nat.eqb_spec j d) as [->|n].
    - rewrite Stmt_Proofs.nth_set_nth_same by exact L. reflexivity.
    - rewrite Stmt_Proofs.nth_set_nth_other by auto. rewrite crop1_no. reflexivity. }
  constructor; [|exact Len|exact Ds|].
  - unfold b, Buf_Model.crop. destruct (rank b0 <=? d)%nat; reflexivity.
  - intros idx B. apply in_bounds_iff in B. destruct B as (_ & B). specialize (B d ltac:(rewrite Len; exact L)). rewrite (Ds d L), Q, Nat.eqb_refl in B. unfold crop1, set_bounds in B. cbn [d_min d_max] in B.
    unfold b. rewrite locate_crop by exact L. cbn zeta. unfold index at 1 2. fold (dim_at b0 d) in B.
    set (lo := or_else (fst l) _) in *. set (hi := or_else (snd l) _) in *. clearbody lo hi. set (dd := dim_at b0 d) in *. clearbody dd.
    assert (E1 : (Z.max lo (d_min dd) <=? Z.min hi (d_max dd)) = true) by (apply Z.leb_le; lia). rewrite E1.
    assert (E2 : (lo <=? nth d idx 0) = true) by (apply Z.leb_le; lia). assert (E3 : (nth d idx 0 <=? hi) = true) by (apply Z.leb_le; lia). rewrite E2, E3, orb_true_r. reflexivity.
Qed.
Lemma cropd_alike (Q : nat -> Z -> Prop) y b0 f b : cropd b0 f b -> (forall k, Q y (Z.of_nat k) -> nth k (dims b) broadcast = nth k (dims b0) broadcast) -> alike Q y b b0.
Proof.
  intros C N. split; [apply (cd_es _ _ _ C)|]. split; [apply (cd_len _ _ _ C)|]. split.
  - intro k. destruct (Nat.lt_ge_cases k (length (dims b0))) as [L|L].
    + rewrite (cd_dims _ _ _ C k L). split; reflexivity.
    + rewrite !nth_overflow; [auto|exact L|rewrite (cd_len _ _ _ C); exact L].
  - intros k Qk. rewrite (N k Qk). auto.
Qed.

Section Chain.
  Variable X : Type.
  Variable H : host X.
  Variable call_v : nat -> list buf -> list buf -> list Z -> X -> Z * X.
  Variable copy_v : buf -> buf -> option buf -> (list Z -> option (list Z)) -> X -> X.
  Variable consts : Z -> option buf.
  Notation veval := (veval X H).
  Notation vexec := (vexec X H call_v copy_v consts).
  Notation gives_limits := (gives_limits X H).

  Lemma vcrop_gives E : forall l b d b', (d + length l <= rank b)%nat -> vcrop X H E b d l = Val b' -> exists ls, Forall2 (gives_limits E) l ls.
  Proof.
    induction l as [|i l IH]; intros b d b' L V; [exists []; constructor|]. cbn [length] in L. cbn [vcrop] in V. destruct (Nat.leb_spec (rank b) d) as [C|_]; [lia|].
    apply bind_inv in V as (r & Er & V). unfold vinterval_def in Er. apply bind_inv in Er as (lo & E1 & Er). apply bind_inv in Er as (hi & E2 & Er). injection Er as <-. cbn [fst snd] in V.
    assert (L' : (S d + length l <= rank (Buf_Model.crop b d lo hi))%nat) by (rewrite Buf_Proofs.crop_rank; lia). destruct (IH _ (S d) b' L' V) as (ls & F).
    assert (G : forall e z def, veval_def X H E e def = Val z -> exists v, gives X H E e v).
    { intros e z def Q. unfold veval_def in Q. destruct (defined e) eqn:De; [exists (Some z); split; auto|exists None; exact De]. }
    destruct (G _ _ _ E1) as (v1 & G1). destruct (G _ _ _ E2) as (v2 & G2). exists ((v1, v2) :: ls). constructor; [split; assumption|exact F].
  Qed.
  Lemma fold_set (bounds : list interval) ds : forall l, length l = length bounds ->
    let r := fold_left (fun needed d => set_nth needed d (nth d bounds undef_interval)) ds l in
    length r = length bounds /\ forall d, (d < length bounds)%nat -> nth d r undef_interval = if has ds d then nth d bounds undef_interval else nth d l undef_interval.
  Proof.
    induction ds as [|x ds IH]; intros l L r; [split; [exact L|reflexivity]|]. unfold r. cbn [fold_left].
    assert (L' : length (set_nth l x (nth x bounds undef_interval)) = length bounds) by (rewrite set_nth_length; exact L).
    destruct (IH _ L') as (A & B). split; [exact A|]. intros d Ld. rewrite (B d Ld). unfold has. cbn [existsb]. fold (has ds d). destruct (has ds d); [rewrite orb_true_r; reflexivity|]. rewrite orb_false_r.
    destruct (Nat.eqb_spec d x) as [->|n]; [apply Stmt_Proofs.nth_set_nth_same; lia|apply Stmt_Proofs.nth_set_nth_other; auto].
  Qed.
  Lemma Forall2_nth {A B} (P : A -> B -> Prop) (da : A) (db : B) : forall l l', length l = length l' -> (forall d, (d < length l)%nat -> P (nth d l da) (nth d l' db)) -> Forall2 P l l'.
  Proof.
    induction l as [|a l IH]; intros [|b l'] L Q; try discriminate; constructor; [exact (Q O ltac:(cbn; lia))|]. apply IH; [cbn in L; lia|]. intros d Ld. exact (Q (S d) ltac:(cbn; lia)).
  Qed.
  Lemma Forall2_nth_inv {A B} (P : A -> B -> Prop) (da : A) (db : B) l l' : Forall2 P l l' -> length l = length l' /\ forall d, (d < length l)%nat -> P (nth d l da) (nth d l' db).
  Proof.
    induction 1 as [|a b l l' Q F (L & IH)]; [split; [reflexivity|intros d L; cbn in L; lia]|]. split; [cbn; lia|]. intros [|d] Ld; [exact Q|]. apply IH. cbn in Ld. lia.
  Qed.

  (** what add_crop does *)
  Lemma add_crop_ok s bounds ds E f k0 b0 body v :
    E s = Buffer k0 b0 -> alone k0 = true -> (length bounds <= length (dims b0))%nat ->
    (forall d, In d ds -> (d < length bounds)%nat /\ gives_limits E (nth d bounds undef_interval) (f d)) -> (forall d, ~ In d ds -> f d = no) ->
    exists E' k b, vexec (add_crop body s bounds ds) E v = vexec body E' v /\ (forall y, y <> s -> E' y = E y) /\ E' s = Buffer k b /\ cropd b0 f b.
  Proof.
    intros Es A L G N. destruct ds as [|d [|d2 ds]].
    - exists E, k0, b0. split; [reflexivity|]. split; [auto|]. split; [exact Es|]. apply cropd_id. intro d. apply N. intros [].
    - destruct (G d (or_introl eq_refl)) as (Ld & G1 & G2). cbn [add_crop VSem_Spec.vexec]. unfold vbuffer. rewrite Es. cbn [bind]. unfold in_place. rewrite Nat.eqb_refl, Es. destruct k0 as [al bk]. cbn [alone] in A. subst al. cbn [bind].
      unfold vinterval_def. rewrite (give_def X H _ _ _ _ G1), (give_def X H _ _ _ _ G2). cbn [bind fst snd].
      eexists _, Own, _. split; [reflexivity|]. split; [intros y n; apply vset_other, n|]. split; [apply vset_same|]. apply cropd_one; [lia|]. intro j. destruct (Nat.eqb_spec j d) as [->|n]; [reflexivity|]. apply N. intros [->|[]]. apply n. reflexivity.
    - set (dl := d :: d2 :: ds) in *. change (add_crop body s bounds dl) with
        (SCropBuffer s s (fold_left (fun needed d => set_nth needed d (nth d bounds undef_interval)) dl (repeat undef_interval (length bounds))) body).
      destruct (fold_set bounds dl (repeat undef_interval (length bounds)) (repeat_length _ _)) as (Ln & Nn). set (needed := fold_left _ _ _) in *. clearbody needed.
      assert (F : Forall2 (gives_limits E) needed (map f (seq 0 (length bounds)))).
      { apply (Forall2_nth _ undef_interval no); [rewrite map_length, seq_length; exact Ln|]. rewrite Ln. intros j Lj. rewrite (Nn j Lj), nth_repeat.
        rewrite (nth_indep _ no (f 0%nat)) by (rewrite map_length, seq_length; exact Lj). rewrite map_nth, seq_nth by exact Lj. cbn [Nat.add].
        destruct (has dl j) eqn:Hj; [apply has_in in Hj; apply (G j Hj)|apply has_out in Hj; rewrite (N j Hj); split; reflexivity]. }
      cbn [VSem_Spec.vexec]. unfold vbuffer. rewrite Es. cbn [bind]. unfold in_place. rewrite Nat.eqb_refl, Es. destruct k0 as [al bk]. cbn [alone] in A. subst al. cbn [bind].
      rewrite (vcrop_crops X H E _ _ F). cbn [bind]. eexists _, Own, _. split; [reflexivity|]. split; [intros y n; apply vset_other, n|]. split; [apply vset_same|].
      apply cropd_crops. intro j. destruct (Nat.lt_ge_cases j (length bounds)) as [Lj|Lj].
      + rewrite (nth_indep _ no (f 0%nat)) by (rewrite map_length, seq_length; exact Lj). rewrite map_nth, seq_nth by exact Lj. reflexivity.
      + rewrite nth_overflow by (rewrite map_length, seq_length; exact Lj). apply N. intro I. destruct (G j I). lia.
  Qed.
  Lemma full_ok s bounds E k0 b0 body v : E s = Buffer k0 b0 -> alone k0 = true -> (length bounds <= length (dims b0))%nat -> vexec (SCropBuffer s s bounds body) E v <> UB ->
    exists E' b ls, vexec (SCropBuffer s s bounds body) E v = vexec body E' v /\ (forall y, y <> s -> E' y = E y) /\ E' s = Buffer Own b /\ cropd b0 (fun d => nth d ls no) b /\ Forall2 (gives_limits E) bounds ls.
  Proof.
    intros Es A L V. cbn [VSem_Spec.vexec] in *. unfold vbuffer in *. rewrite Es in *. cbn [bind] in *. unfold in_place in *. rewrite Nat.eqb_refl, Es in *. destruct k0 as [al bk]. cbn [alone] in A. subst al. cbn [bind] in *.
    destruct (vcrop X H E b0 0 bounds) as [b'|] eqn:Ec; [|destruct V; reflexivity]. destruct (vcrop_gives E bounds b0 0 b' L Ec) as (ls & F). rewrite (vcrop_crops X H E _ _ F) in Ec. injection Ec as <-. cbn [bind].
    eexists _, _, ls. split; [reflexivity|]. split; [intros y n; apply vset_other, n|]. split; [apply vset_same|]. split; [apply cropd_crops; reflexivity|exact F].
  Qed.

  Variable E0 E : venv.
  Variable keep : nat -> bool.
  Variables K Fit : nat -> Prop.
  Variable m : dim_map.
  Variable all : list item.
  Definition Qm (y : nat) (d : Z) : Prop := forall k, d = Z.of_nat k -> ~ In k (m y).
  Hypothesis HE : rel Qm E E0.
  Record good (s : nat) (bounds : list interval) : Prop := {
    gd_buf : exists k0 b0, E0 s = Buffer k0 b0 /\ E s = Buffer k0 b0 /\ alone k0 = true /\ (length bounds <= length (dims b0))%nat /\ (Fit s -> fits X H E0 bounds b0);
    gd_meta : forall i, In i bounds -> only_metadata (fst i) /\ only_metadata (snd i);
    gd_uses : K s -> forall y d, bounds_use y d bounds -> In y (map fst all) -> K y /\ Fit y;
    gd_dims : K s -> forall j, In j (m s) <-> exists i, nth_error bounds j = Some i /\ finds_i m i = true;
    gd_skip : keep s = false -> K s -> m s = [];
    gd_keep : keep s = true -> K s }.
  Record related (s : nat) (b0 b1 b2 : buf) : Prop := {
    rl_1 : exists f, cropd b0 f b1;
    rl_2 : exists f, cropd b0 f b2;
    rl_in : K s -> forall d, In d (m s) -> nth d (dims b1) broadcast = nth d (dims b2) broadcast;
    rl_out : K s -> forall d, ~ In d (m s) -> nth d (dims b1) broadcast = nth d (dims b0) broadcast;
    rl_fit : K s -> Fit s -> dims b1 = dims b2;
    rl_incl : K s -> includes b1 b2 }.
  Definition state_of (done : list item) (E1 E2 : venv) : Prop :=
    (forall x, ~ In x (map fst done) -> E1 x = E x /\ E2 x = E x) /\
    (forall x, In x (map fst done) -> exists k0 b0 k1 b1 k2 b2, E x = Buffer k0 b0 /\ E0 x = Buffer k0 b0 /\ E1 x = Buffer k1 b1 /\ E2 x = Buffer k2 b2 /\ related x b0 b1 b2).

  Lemma only_ok (Q : nat -> Z -> Prop) e : only_metadata e -> (forall y d, uses_bound y d e -> Q y d) -> ok Q e.
  Proof. intros (T & S) U. split; [exact T|]. intros ((y, f), d) I. cbn [okt]. destruct f; auto; [exact (S y d I)|apply U; left; exact I|apply U; right; exact I]. Qed.
  Lemma uses_12 done E1 E2 s bounds e : state_of done E1 E2 -> (forall x, In x done -> In x all) -> K s -> good s bounds -> only_metadata e -> (forall y d, uses_bound y d e -> bounds_use y d bounds) -> veval E1 e = veval E2 e.
  Proof.
    intros (S1 & S2) Sub Ks G M U. apply (eval_fr X H (fun y _ => In y (map fst done) -> K y /\ Fit y)).
    - apply only_ok; [exact M|]. intros y d Uy Iy. apply (gd_uses _ _ G Ks y d (U y d Uy)). apply in_map_iff in Iy. destruct Iy as (x & <- & Ix). apply in_map, Sub, Ix.
    - intro y. destruct (in_dec Nat.eq_dec y (map fst done)) as [I|I].
      + right. destruct (S2 y I) as (k0 & b0 & k1 & b1 & k2 & b2 & _ & _ & Q1 & Q2 & R). exists k1, b1, k2, b2. split; [exact Q1|]. split; [exact Q2|].
        destruct (rl_1 _ _ _ _ R) as (f1 & C1). destruct (rl_2 _ _ _ _ R) as (f2 & C2).
        destruct (cropd_alike (fun _ _ => False) y b0 f1 b1 C1) as (A1 & A2 & A3 & _); [intros ? []|]. destruct (cropd_alike (fun _ _ => False) y b0 f2 b2 C2) as (B1 & B2 & B3 & _); [intros ? []|].
        split; [congruence|]. split; [congruence|]. split; [intro k; destruct (A3 k), (B3 k); split; congruence|]. intros k Qk. destruct (Qk I) as (Ky & Fy). rewrite (rl_fit _ _ _ _ R Ky Fy). auto.
      + left. destruct (S1 y I) as (Q1 & Q2). congruence.
  Qed.
  Lemma uses_10 done E1 E2 s bounds e : state_of done E1 E2 -> (forall x, In x done -> In x all) -> K s -> good s bounds -> only_metadata e -> (forall y d, uses_bound y d e -> bounds_use y d bounds) -> finds m e = false -> veval E1 e = veval E0 e.
  Proof.
    intros (S1 & S2) Sub Ks G M U F. apply (eval_fr X H (fun y d => Qm y d /\ (In y (map fst done) -> K y))).
    - apply only_ok; [exact M|]. intros y d Uy. split.
      + intros k -> Ik. assert (C : finds m e = true) by (apply finds_uses; exists y, k; auto). congruence.
      + intro Iy. apply (gd_uses _ _ G Ks y d (U y d Uy)). apply in_map_iff in Iy. destruct Iy as (x & <- & Ix). apply in_map, Sub, Ix.
    - intro y. destruct (in_dec Nat.eq_dec y (map fst done)) as [I|I].
      + right. destruct (S2 y I) as (k0 & b0 & k1 & b1 & k2 & b2 & _ & Q0 & Q1 & _ & R). exists k1, b1, k0, b0. split; [exact Q1|]. split; [exact Q0|].
        destruct (rl_1 _ _ _ _ R) as (f1 & C1). apply (cropd_alike _ y b0 f1 b1 C1). intros k (Qk & Ky). apply (rl_out _ _ _ _ R (Ky I)). apply Qk. reflexivity.
      + destruct (S1 y I) as (Q1 & _). rewrite Q1. destruct (HE y) as [Q|(k & b & k' & b' & Q & Q' & A1 & A2 & A3 & A4)]; [left; exact Q|right]. exists k, b, k', b'. repeat (split; [assumption|]). intros j (Qj & _). exact (A4 j Qj).
  Qed.

  Lemma step_ok done E1 E2 s bounds c1 c2 v : state_of done E1 E2 -> (forall x, In x done -> In x all) -> good s bounds -> ~ In s (map fst done) -> vexec (SCropBuffer s s bounds c2) E2 v <> UB ->
    exists E1' E2', state_of (done ++ [(s, bounds)]) E1' E2' /\ vexec (if keep s then add_crop c1 s bounds (m s) else c1) E1 v = vexec c1 E1' v /\ vexec (SCropBuffer s s bounds c2) E2 v = vexec c2 E2' v.
  Proof.
    intros St Sub G Ns V. destruct (gd_buf _ _ G) as (k0 & b0 & Q0 & QE & Al & Ln & Ft). pose proof St as (S1 & S2). destruct (S1 s Ns) as (Q1 & Q2). rewrite QE in Q1, Q2.
    destruct (full_ok s bounds E2 k0 b0 c2 v Q2 Al Ln V) as (E2' & b2 & ls & X2 & O2 & B2 & C2 & F2). destruct (Forall2_nth_inv _ undef_interval no _ _ F2) as (L2 & G2).
    set (f := fun d => if has (m s) d then nth d ls no else no).
    assert (P : exists E1' k1 b1, vexec (if keep s then add_crop c1 s bounds (m s) else c1) E1 v = vexec c1 E1' v /\ (forall y, y <> s -> E1' y = E1 y) /\ E1' s = Buffer k1 b1 /\ cropd b0 (if keep s then f else fun _ => no) b1).
    { destruct (keep s) eqn:Ks.
      - apply (add_crop_ok s bounds (m s) E1 f k0 b0 c1 v Q1 Al Ln).
        + intros d Id. apply (gd_dims _ _ G (gd_keep _ _ G Ks)) in Id as Jd. destruct Jd as (i & Ei & _). assert (Ld : (d < length bounds)%nat) by (apply nth_error_Some; rewrite Ei; discriminate). split; [exact Ld|].
          unfold f. apply has_in in Id. rewrite Id. destruct (G2 d Ld) as (Ga & Gb). rewrite (nth_error_nth _ _ undef_interval Ei) in *. assert (Ii : In i bounds) by (apply nth_error_In in Ei; exact Ei). destruct (gd_meta _ _ G i Ii) as (M1 & M2).
          assert (Pa : veval E1 (fst i) = veval E2 (fst i)) by (apply (uses_12 done E1 E2 s bounds _ St Sub (gd_keep _ _ G Ks) G M1); intros y e U; exists i; auto).
          assert (Pb : veval E1 (snd i) = veval E2 (snd i)) by (apply (uses_12 done E1 E2 s bounds _ St Sub (gd_keep _ _ G Ks) G M2); intros y e U; exists i; auto).
          split; unfold gives in *; [destruct (fst (nth d ls no)); [rewrite Pa|]; exact Ga|destruct (snd (nth d ls no)); [rewrite Pb|]; exact Gb].
        + intros d Nd. unfold f. apply has_out in Nd. rewrite Nd. reflexivity.
      - exists E1, k0, b0. split; [reflexivity|]. split; [auto|]. split; [exact Q1|]. apply cropd_id. reflexivity. }
    destruct P as (E1' & k1 & b1 & X1 & O1 & B1 & C1). exists E1', E2'. split; [|split; assumption].
    assert (Cf : K s -> forall d, (if keep s then f else fun _ => no) d = if has (m s) d then nth d ls no else no).
    { intros Ks d. destruct (keep s) eqn:Kp; [reflexivity|]. rewrite (gd_skip _ _ G Kp Ks). reflexivity. }
    assert (R : related s b0 b1 b2).
    { assert (Out : forall d, (d < length (dims b0))%nat -> nth d (dims b2) broadcast = crop1 (nth d (dims b0) broadcast) (nth d ls no)) by (intros d Ld; exact (cd_dims _ _ _ C2 d Ld)).
      assert (In1 : K s -> forall d, (d < length (dims b0))%nat -> nth d (dims b1) broadcast = crop1 (nth d (dims b0) broadcast) (if has (m s) d then nth d ls no else no)) by (intros Ks d Ld; rewrite <- (Cf Ks); exact (cd_dims _ _ _ C1 d Ld)).
      assert (Ov : forall d, (length (dims b0) <= d)%nat -> nth d (dims b1) broadcast = nth d (dims b0) broadcast /\ nth d (dims b2) broadcast = nth d (dims b0) broadcast).
      { intros d Ld. pose proof (cd_len _ _ _ C1). pose proof (cd_len _ _ _ C2). rewrite !nth_overflow by lia. auto. }
      constructor.
      - exists (if keep s then f else fun _ => no). exact C1.
      - exists (fun d => nth d ls no). exact C2.
      - intros Ks d Id. destruct (Nat.lt_ge_cases d (length (dims b0))) as [Ld|Ld]; [|destruct (Ov d Ld); congruence]. rewrite (In1 Ks d Ld), (Out d Ld). apply has_in in Id. rewrite Id. reflexivity.
      - intros Ks d Nd. destruct (Nat.lt_ge_cases d (length (dims b0))) as [Ld|Ld]; [|destruct (Ov d Ld); congruence]. rewrite (In1 Ks d Ld). apply has_out in Nd. rewrite Nd. apply crop1_no.
      - intros Ks Fs. apply dims_nth; [rewrite (cd_len _ _ _ C1), (cd_len _ _ _ C2); reflexivity|]. rewrite (cd_len _ _ _ C1). intros d Ld. rewrite (In1 Ks d Ld), (Out d Ld). destruct (has (m s) d) eqn:Hd; [reflexivity|]. rewrite crop1_no.
        destruct (Nat.lt_ge_cases d (length bounds)) as [Lb|Lb]; [|rewrite (nth_overflow ls) by lia; rewrite crop1_no; reflexivity].
        destruct (nth_error bounds d) as [i|] eqn:Ei; [|apply nth_error_None in Ei; lia].
        assert (Fi : finds_i m i = false). { destruct (finds_i m i) eqn:Q; [|reflexivity]. apply has_out in Hd. destruct Hd. apply (gd_dims _ _ G Ks). exists i. auto. }
        unfold finds_i in Fi. apply orb_false_iff in Fi. destruct Fi as (Fa & Fb). destruct (G2 d Lb) as (Ga & Gb). rewrite (nth_error_nth _ _ undef_interval Ei) in Ga, Gb.
        assert (Ii : In i bounds) by (apply nth_error_In in Ei; exact Ei). destruct (gd_meta _ _ G i Ii) as (M1 & M2).
        assert (Pa : veval E2 (fst i) = veval E0 (fst i)).
        { rewrite <- (uses_12 done E1 E2 s bounds _ St Sub Ks G M1) by (intros y e U; exists i; auto). apply (uses_10 done E1 E2 s bounds _ St Sub Ks G M1); [intros y e U; exists i; auto|exact Fa]. }
        assert (Pb : veval E2 (snd i) = veval E0 (snd i)).
        { rewrite <- (uses_12 done E1 E2 s bounds _ St Sub Ks G M2) by (intros y e U; exists i; auto). apply (uses_10 done E1 E2 s bounds _ St Sub Ks G M2); [intros y e U; exists i; auto|exact Fb]. }
        destruct (Ft Fs d i Ei) as (Fl & Fh). unfold crop1, or_else. destruct (nth d ls no) as (lo, hi). cbn [fst snd] in *.
        set (dd := nth d (dims b0) broadcast) in *. assert (Z1 : Z.max match lo with Some x => x | None => d_min dd end (d_min dd) = d_min dd).
        { destruct lo as [z|]; [|lia]. destruct Ga as (_ & Ga). rewrite Pa in Ga. specialize (Fl z Ga). lia. }
        assert (Z2 : Z.min match hi with Some x => x | None => d_max dd end (d_max dd) = d_max dd).
        { destruct hi as [z|]; [|lia]. destruct Gb as (_ & Gb). rewrite Pb in Gb. specialize (Fh z Gb). lia. }
        rewrite Z1, Z2. unfold set_bounds. destruct dd; reflexivity.
      - intros Ks idx B. assert (B1' : in_bounds (dims b1) idx).
        { apply in_bounds_iff. apply in_bounds_iff in B. destruct B as (Lb & B). rewrite (cd_len _ _ _ C2) in Lb, B. rewrite (cd_len _ _ _ C1). split; [exact Lb|]. intros d Ld. specialize (B d Ld). rewrite (Out d Ld) in B. rewrite (In1 Ks d Ld).
          destruct (has (m s) d); [exact B|]. rewrite crop1_no. unfold crop1, set_bounds in B. cbn [d_min d_max] in B. lia. }
        split; [exact B1'|]. change (locate b1 (index idx) = locate b2 (index idx)). rewrite (cd_loc _ _ _ C1 idx B1'), (cd_loc _ _ _ C2 idx B). reflexivity. }
    split.
    - intros x Nx. rewrite map_app, in_app_iff in Nx. cbn [map fst In] in Nx. rewrite O1, O2 by (intros ->; tauto). apply S1. tauto.
    - intros x Ix. rewrite map_app, in_app_iff in Ix. cbn [map fst In] in Ix. destruct (Nat.eq_dec x s) as [->|n].
      + exists k0, b0, k1, b1, Own, b2. repeat (split; [assumption|]). exact R.
      + destruct Ix as [Ix|[Q|[]]]; [|congruence]. rewrite O1, O2 by exact n. exact (S2 x Ix).
  Qed.
  Lemma chain_ok body v : forall l done E1 E2, state_of done E1 E2 -> (forall x, In x (done ++ l) -> In x all) -> NoDup (map fst (done ++ l)) -> (forall s b, In (s, b) l -> good s b) ->
    vexec (full_crops l body) E2 v <> UB ->
    exists E1' E2', state_of (done ++ l) E1' E2' /\ vexec (wrap keep m l body) E1 v = vexec body E1' v /\ vexec (full_crops l body) E2 v = vexec body E2' v.
  Proof.
    induction l as [|(s, b) l IH]; intros done E1 E2 St Sub N G V.
    - exists E1, E2. rewrite app_nil_r. auto.
    - assert (Ns : ~ In s (map fst done)). { rewrite map_app in N. cbn [map fst] in N. apply NoDup_remove_2 in N. rewrite in_app_iff in N. tauto. }
      assert (App : (done ++ [(s, b)]) ++ l = done ++ (s, b) :: l) by (rewrite <- app_assoc; reflexivity).
      cbn [full_crops wrap fold_right fst snd] in *. fold (full_crops l body) in *. fold (wrap keep m l body).
      destruct (step_ok done E1 E2 s b (wrap keep m l body) (full_crops l body) v St) as (E1a & E2a & Sta & X1 & X2); auto.
      { intros x Ix. apply Sub. apply in_app_iff. auto. } { apply G. left. reflexivity. }
      rewrite X2 in V. destruct (IH (done ++ [(s, b)]) E1a E2a Sta) as (E1' & E2' & St' & Y1 & Y2); try (rewrite App; assumption); auto.
      { intros s' b' I. apply G. right. exact I. }
      exists E1', E2'. rewrite App in St'. split; [exact St'|]. split; [rewrite X1; exact Y1|rewrite X2; exact Y2].
  Qed.
End Chain.
