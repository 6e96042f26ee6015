(** Proofs for C65: crops of tiles, and iterations of loops over tiles. *)
From Coq Require Import ZArith List Bool Lia.
From Verif Require Import Arith_Model Arith_Proofs Buf_Model Buf_Spec Buf_Props Alloc_Model Expr_Model Expr_Spec Match_Model Rewrite_Model Interval_Model Interval_Spec Interval_Props Simplifier_Model Tile_Model.
From Verif Require Import Stmt_Model Stmt_Spec VSem_Spec Tile_Spec.
Import ListNotations.
Open Scope Z_scope.

Lemma inside_spec b p : inside b p = true <-> forall d, (d < rank b)%nat -> d_min (dim_at b d) <= p d <= d_max (dim_at b d).
Proof.
  unfold inside. rewrite forallb_forall. split.
  - intros A d L. specialize (A d). rewrite in_seq in A. specialize (A ltac:(lia)). lia.
  - intros A d I. apply in_seq in I. specialize (A d ltac:(lia)). lia.
Qed.
Lemma inside_crop b d lo hi p : (d < rank b)%nat -> inside (crop b d lo hi) p = inside b p && ((lo <=? p d) && (p d <=? hi)).
Proof.
  intros L. apply eq_true_iff_eq. rewrite !andb_true_iff, !Z.leb_le, !inside_spec.
  assert (R : rank (crop b d lo hi) = rank b) by (apply (C18_crop_bounds b d lo hi 0 L)). rewrite R. split.
  - intros A. assert (B : forall k, (k < rank b)%nat -> d_min (dim_at b k) <= p k <= d_max (dim_at b k)).
    { intros k K. specialize (A k K). destruct (C18_crop_bounds b d lo hi k L) as (_ & _ & -> & _) in A.
      destruct (C18_crop_bounds b d lo hi k L) as (_ & _ & _ & -> & _) in A. destruct (k =? d)%nat; lia. }
    split; [exact B|]. specialize (A d L). destruct (C18_crop_bounds b d lo hi d L) as (_ & _ & Q1 & Q2 & _). rewrite Q1, Q2, Nat.eqb_refl in A. lia.
  - intros (B & C) k K. destruct (C18_crop_bounds b d lo hi k L) as (_ & _ & -> & -> & _). specialize (B k K). destruct (Nat.eqb_spec k d); [subst; lia|lia].
Qed.

(** [c] is the part of [b] for the tile [y, y + s - 1] of the dimensions [v] *)
Definition tile (dims : list nat) (v : nat) (y z : Z) (from : nat) (p : position) : Prop :=
  forall d, nth_error dims d = Some v -> y <= p (from + d)%nat <= z.
Definition cropped (dims : list nat) (v : nat) (y z : Z) (from : nat) (c b : buf) : Prop :=
  part_of c b /\ forall p, inside c p = true <-> inside b p = true /\ tile dims v y z from p.

Lemma part_refl b : part_of b b.
Proof. split; [reflexivity|]. auto. Qed.
Lemma part_trans a b c : part_of a b -> part_of b c -> part_of a c.
Proof.
  intros (R1 & A1) (R2 & A2). split; [congruence|]. intros p I. destruct (A1 p I) as (I1 & L1). destruct (A2 p I1) as (I2 & L2). split; [exact I2|congruence].
Qed.
Lemma part_crop b d lo hi : (d < rank b)%nat -> part_of (crop b d lo hi) b.
Proof.
  intros L. split; [apply (C18_crop_bounds b d lo hi 0 L)|]. intros p I. rewrite inside_crop in I by exact L. apply andb_true_iff in I as (I & J). split; [exact I|].
  apply C18_crop_keeps_addresses; [exact L|lia|]. rewrite inside_spec in I. exact (I d L).
Qed.

Section Exec.
  Variable H : host (list (list buf)).
  Variable copy_v : buf -> buf -> option buf -> (list Z -> option (list Z)) -> list (list buf) -> list (list buf).
  Variable consts : Z -> option buf.
  Notation exec := (vexec (list (list buf)) H record_call copy_v consts).
  Notation ve := (veval (list (list buf)) H).

  (** ** Crops *)
  Section Crop.
    Variables (v : nat) (last : expr) (y u : Z).
    (** the environments that can occur: [last] is [u] *)
    Variable ok : venv -> Prop.
    Hypothesis ok_last : forall E a, ok E -> E v = Num y -> ve E last = Val a -> a = u.
    Hypothesis last_defined : defined last = true.

    Lemma crop_one o d body E st r : ok E -> E v = Num y -> (forall k b, E o = Buffer k b -> (d < rank b)%nat) ->
      exec (SCropDim o o d (EVar v f_none 0, last) body) E st = Val r ->
      exists k b, E o = Buffer k b /\ exec body (vset E o (Buffer Own (crop b d y u))) st = Val r.
    Proof.
      intros K Ev L X. cbn [vexec] in X. apply bind_inv in X as (b & Hb & X). apply bind_inv in X as (tt0 & _ & X). apply bind_inv in X as (q & Hq & X).
      unfold vbuffer in Hb. destruct (E o) as [|?|k b'] eqn:Eo; try discriminate Hb. injection Hb as ->. exists k, b. split; [reflexivity|].
      unfold vinterval_def in Hq. cbn [fst snd] in Hq. apply bind_inv in Hq as (lo & Hlo & Hq). apply bind_inv in Hq as (hi & Hhi & Hq). injection Hq as <-.
      cbn in Hlo. rewrite Ev in Hlo. injection Hlo as <-. unfold veval_def in Hhi. rewrite last_defined in Hhi. apply ok_last in Hhi as ->; [|exact K|exact Ev]. exact X.
    Qed.

    Lemma crop_dims_ok o : o <> v -> (forall E E', ok E -> (forall x, x <> o -> E' x = E x) -> ok E') -> forall dims d body E st r k b,
      ok E -> E v = Num y -> E o = Buffer k b -> (d + length dims <= rank b)%nat ->
      exec (crop_dims v o last d dims body) E st = Val r ->
      exists E' k' c, (forall x, x <> o -> E' x = E x) /\ E' o = Buffer k' c /\ cropped dims v y u d c b /\ exec body E' st = Val r.
    Proof.
      intros N Step. induction dims as [|x dims IH]; intros d body E st r k b K Ev Eo L X; cbn [crop_dims length] in X, L.
      - exists E, k, b. split; [reflexivity|]. split; [exact Eo|]. split; [|exact X]. split; [apply part_refl|]. intros p. split; [|tauto]. intros I. split; [exact I|].
        intros [|d']; discriminate.
      - destruct (IH (S d) _ E st r k b K Ev Eo ltac:(lia) X) as (E1 & k1 & c1 & A1 & A2 & (A3 & A4) & X1). clear X.
        destruct (Nat.eqb_spec x v) as [->|Nx].
        + destruct (crop_one o d _ _ _ _ (Step _ _ K A1) ltac:(rewrite A1; [exact Ev|congruence]) ltac:(intros k' b' Q; rewrite A2 in Q; injection Q as <- <-; rewrite (proj1 A3); lia) X1) as (k2 & c2 & B1 & X2).
          rewrite A2 in B1. injection B1 as <- <-. assert (Rd : (d < rank c1)%nat) by (rewrite (proj1 A3); lia).
          exists (vset E1 o (Buffer Own (crop c1 d y u))), Own, (crop c1 d y u). split; [|split; [|split; [|exact X2]]].
          * intros z Nz. unfold vset. destruct (Nat.eqb_spec z o); [contradiction|]. apply A1, Nz.
          * unfold vset. rewrite Nat.eqb_refl. reflexivity.
          * split; [exact (part_trans _ _ _ (part_crop _ _ _ _ Rd) A3)|]. intros p. rewrite inside_crop by exact Rd. rewrite andb_true_iff, A4. split.
            -- intros ((I & T) & J). split; [exact I|]. intros [|d'] Q; [rewrite Nat.add_0_r; lia|]. specialize (T d' Q). rewrite Nat.add_succ_comm in T. exact T.
            -- intros (I & T). split; [split; [exact I|]|].
               ++ intros d' Q. specialize (T (S d') Q). rewrite Nat.add_succ_comm. exact T.
               ++ specialize (T 0%nat eq_refl). rewrite Nat.add_0_r in T. lia.
        + exists E1, k1, c1. split; [exact A1|]. split; [exact A2|]. split; [|exact X1]. split; [exact A3|]. intros p. rewrite A4. split.
          * intros (I & T). split; [exact I|]. intros [|d'] Q; [cbn in Q; congruence|]. specialize (T d' Q). rewrite Nat.add_succ_comm in T. exact T.
          * intros (I & T). split; [exact I|]. intros d' Q. specialize (T (S d') Q). rewrite Nat.add_succ_comm. exact T.
    Qed.

    (** all outputs *)
    Lemma crop_outputs_ok os : NoDup (map o_sym os) -> ~ In v (map o_sym os) ->
      (forall E E', ok E -> (forall x, ~ In x (map o_sym os) -> E' x = E x) -> ok E') -> forall body E st r,
      ok E -> E v = Num y -> (forall o, In o os -> exists k b, E (o_sym o) = Buffer k b /\ (length (o_dims o) <= rank b)%nat) ->
      exec (crop_outputs v last os body) E st = Val r ->
      exists E', (forall x, ~ In x (map o_sym os) -> E' x = E x) /\
        (forall o k b, In o os -> E (o_sym o) = Buffer k b -> exists k' c, E' (o_sym o) = Buffer k' c /\ cropped (o_dims o) v y u 0 c b) /\ exec body E' st = Val r.
    Proof.
      induction os as [|o os IH]; intros N Nv Step body E st r K Ev Bs X; cbn [crop_outputs map] in *.
      - exists E. split; [reflexivity|]. split; [intros o k b []|exact X].
      - apply NoDup_cons_iff in N as (N1 & N2).
        destruct (IH N2 ltac:(intros I; apply Nv; right; exact I) ltac:(intros E0 E1 K0 A; apply (Step E0 E1 K0); intros x Nx; apply A; intros I; apply Nx; right; exact I)
          _ E st r K Ev ltac:(intros o' I; apply Bs; right; exact I) X) as (E1 & A1 & A2 & X1). clear X.
        destruct (Bs o (or_introl eq_refl)) as (k & b & Eo & L).
        destruct (crop_dims_ok (o_sym o) ltac:(intros Q; apply Nv; left; exact Q)
          ltac:(intros E0 E2 K0 A; apply (Step E0 E2 K0); intros x Nx; apply A; intros Q; apply Nx; left; congruence) (o_dims o) 0 body E1 st r k b) as (E2 & k2 & c & B1 & B2 & B3 & X2).
        + apply (Step E E1 K). intros x Nx. apply A1. intros I. apply Nx. right. exact I.
        + rewrite A1; [exact Ev|]. intros I. apply Nv. right. exact I.
        + rewrite A1 by exact N1. exact Eo.
        + exact L.
        + exact X1.
        + exists E2. split; [|split; [|exact X2]].
          * intros x Nx. rewrite B1 by (intros Q; apply Nx; left; congruence). apply A1. intros I. apply Nx. right. exact I.
          * intros o' k' b' [<-|I] Eo'.
            -- rewrite Eo in Eo'. injection Eo' as <- <-. exists k2, c. auto.
            -- destruct (A2 o' k' b' I Eo') as (k'' & c' & Q & C). exists k'', c'. split; [|exact C]. rewrite B1; [exact Q|].
               intros Q'. apply N1. rewrite <- Q'. apply in_map, I.
    Qed.
  End Crop.

  (** ** Iterations *)
  Lemma times_app k p l1 l2 : times k p (l1 ++ l2) = (times k p l1 + times k p l2)%nat.
  Proof. unfold times. rewrite filter_app, app_length. reflexivity. Qed.

  (** [made body calls]: the body makes these calls, and succeeds *)
  Lemma serial_ok (body : Z -> vbody (list (list buf))) (Q : Z -> list (list buf) -> Prop) lo hi s : 0 < s ->
    (forall i st z st', lo <= i <= hi -> body i st = Val (z, st') -> z = 0 /\ exists calls, v_ext _ st' = v_ext _ st ++ calls /\ Q i calls) ->
    forall n i st z st', lo <= i -> vserial _ body lo hi s n i st = Val (z, st') ->
    z = 0 /\ exists callss, v_ext _ st' = v_ext _ st ++ concat callss /\
      (forall j, (j < length callss)%nat -> i + Z.of_nat j * s <= hi /\ Q (i + Z.of_nat j * s) (nth j callss [])) /\ hi < i + Z.of_nat (length callss) * s.
  Proof.
    intros Hs B. induction n as [|n IH]; intros i st z st' L X; cbn [vserial] in X; destruct (Z.leb_spec lo i); [| lia | | lia]; destruct (Z.leb_spec i hi); cbn [andb] in X; try discriminate X.
    1, 3: injection X as <- <-; split; [reflexivity|]; exists []; cbn [concat length]; rewrite app_nil_r; split; [reflexivity|]; split; [intros j J; lia|lia].
    apply bind_inv in X as ((z1 & st1) & X1 & X). apply bind_inv in X as (i' & Hi & X).
    destruct (B i st z1 st1 ltac:(lia) X1) as (-> & calls & E1 & Q1). cbn [Z.eqb] in X.
    assert (i' = i + s) by (unfold cadd in Hi; apply chk_inv in Hi as (-> & _); reflexivity). subst i'.
    destruct (IH (i + s) st1 z st' ltac:(lia) X) as (-> & cs & E2 & Q2 & Q3). split; [reflexivity|]. exists (calls :: cs). cbn [concat length]. split; [rewrite E2, E1, app_assoc; reflexivity|].
    split; [|lia]. intros [|j] J; [cbn [nth]; replace (i + Z.of_nat 0 * s) with i by lia; split; [lia|exact Q1]|].
    cbn [nth]. destruct (Q2 j ltac:(lia)) as (C1 & C2). replace (i + Z.of_nat (S j) * s) with (i + s + Z.of_nat j * s) by lia. split; assumption.
  Qed.
  (** a position in the range is in one tile *)
  Lemma times_tiles k p x s hi : 0 < s -> forall callss i,
    (forall j, (j < length callss)%nat -> times k p (nth j callss []) = if (i + Z.of_nat j * s <=? x) && (x <=? i + Z.of_nat j * s + s - 1) then 1%nat else 0%nat) ->
    hi < i + Z.of_nat (length callss) * s -> x <= hi ->
    times k p (concat callss) = if i <=? x then 1%nat else 0%nat.
  Proof.
    intros Hs. induction callss as [|c cs IH]; intros i A L X.
    - cbn [length] in L. destruct (Z.leb_spec i x); [lia|reflexivity].
    - cbn [concat length] in *. rewrite times_app. pose proof (A 0%nat ltac:(lia)) as A0. cbn [nth] in A0. replace (i + Z.of_nat 0 * s) with i in A0 by lia.
      rewrite A0, (IH (i + s)); [|intros j J; specialize (A (S j) ltac:(lia)); cbn [nth] in A; replace (i + Z.of_nat (S j) * s) with (i + s + Z.of_nat j * s) in A by lia; exact A|lia|exact X].
      destruct (Z.leb_spec i x), (Z.leb_spec x (i + s - 1)), (Z.leb_spec (i + s) x); cbn [andb]; try lia; reflexivity.
  Qed.
  Lemma times_none k p callss : (forall j, (j < length callss)%nat -> times k p (nth j callss []) = 0%nat) -> times k p (concat callss) = 0%nat.
  Proof.
    induction callss as [|c cs IH]; intros A; [reflexivity|]. cbn [concat]. pose proof (A 0%nat ltac:(cbn [length]; lia)) as A0. cbn [nth] in A0. rewrite times_app, A0.
    apply IH. intros j J. exact (A (S j) ltac:(cbn [length]; lia)).
  Qed.

  (** ** The bounds of a loop contain the dimension of every output *)
  Section Bounds.
    Variable E : venv.
    Notation cont i x := (contains (world_of H E) (env_of E) i x).
    Lemma add_dims_keeps v o x dims : forall d acc, cont acc x -> cont (add_dims v o d dims acc) x.
    Proof.
      induction dims as [|w dims IH]; intros d acc C; cbn [add_dims]; [exact C|]. apply IH. destruct (w =? v)%nat; [apply C14_union_contains; left; exact C|exact C].
    Qed.
    Lemma add_dims_adds v o x dims : forall d d' acc, nth_error dims d' = Some v ->
      cont (i_bounds (buffer_min o (Z.of_nat (d + d'))) (buffer_max o (Z.of_nat (d + d')))) x -> cont (add_dims v o d dims acc) x.
    Proof.
      induction dims as [|w dims IH]; intros d [|d'] acc Q C; try discriminate Q; cbn [add_dims nth_error] in *.
      - injection Q as ->. rewrite Nat.eqb_refl. apply add_dims_keeps, C14_union_contains. right. rewrite Nat.add_0_r in C. exact C.
      - apply IH with d'; [exact Q|]. rewrite Nat.add_succ_comm. exact C.
    Qed.
    Lemma outputs_keep v x os : forall acc, cont acc x -> cont (fold_left (fun bounds o => add_dims v (o_sym o) 0 (o_dims o) bounds) os acc) x.
    Proof. induction os as [|o os IH]; intros acc C; cbn [fold_left]; [exact C|]. apply IH, add_dims_keeps, C. Qed.
    Lemma outputs_add v o d x : nth_error (o_dims o) d = Some v -> cont (i_bounds (buffer_min (o_sym o) (Z.of_nat d)) (buffer_max (o_sym o) (Z.of_nat d))) x ->
      forall os acc, In o os -> cont (fold_left (fun bounds o => add_dims v (o_sym o) 0 (o_dims o) bounds) os acc) x.
    Proof.
      intros Q C. induction os as [|o' os IH]; intros acc I; [contradiction|]. destruct I as [->|I]; cbn [fold_left].
      - apply outputs_keep. exact (add_dims_adds v _ x _ 0 d _ Q C).
      - apply IH, I.
    Qed.
    Lemma buffer_contains o k b d x : E o = Buffer k b -> d_min (dim_at b d) <= x <= d_max (dim_at b d) -> cont (i_bounds (buffer_min o (Z.of_nat d)) (buffer_max o (Z.of_nat d))) x.
    Proof.
      intros Q L. unfold contains, i_bounds. cbn [i_min i_max meaning buffer_min buffer_max]. unfold env_of, world_of. cbn [w_buf]. rewrite Q, Nat2Z.id, Q.
      cbn [field_value]. unfold dim_int. rewrite Nat2Z.id. cbn [bounds_below bounds_above]. destruct (Z.ltb_spec (Z.of_nat d) 0); [lia|]. exact L.
    Qed.
  End Bounds.

  (** ** The loops *)
  Variable P : prims.
  Variable fuel : nat.
  Variable f : func.
  Notation outs := (f_outputs f).
  Hypothesis outputs_distinct : NoDup (map o_sym outs).
  Variable all : list loop.
  Hypothesis no_outputs : forall l, In l all -> ~ In (lp_var l) (map o_sym outs).
  Variable E0 : venv.
  Hypothesis ok0 : loops_ok H P fuel f all E0.
  Definition agrees (E : venv) : Prop := forall x, elsewhere f all x -> E x = E0 x.

  Lemma async_crop_dims v o last dims : forall d body, async_syms (crop_dims v o last d dims body) = async_syms body.
  Proof. induction dims as [|x dims IH]; intros d body; cbn [crop_dims]; [reflexivity|]. rewrite IH. destruct (x =? v)%nat; reflexivity. Qed.
  Lemma async_crop_outputs v last os : forall body, async_syms (crop_outputs v last os body) = async_syms body.
  Proof. induction os as [|o os IH]; intros body; cbn [crop_outputs]; [reflexivity|]. rewrite IH. apply async_crop_dims. Qed.
  Lemma async_loops ls : forall s, make_loops P fuel f ls = Val s -> async_syms s = [].
  Proof.
    induction ls as [|l ls IH]; intros s M; cbn [make_loops] in M; [injection M as <-; reflexivity|].
    apply bind_inv in M as (body & Mb & M). apply bind_inv in M as (body' & Mc & M). apply bind_inv in M as (b & _ & M). injection M as <-. cbn [async_syms].
    unfold crop_for_loop in Mc. apply bind_inv in Mc as (last & _ & Mc). injection Mc as <-. rewrite async_crop_outputs. exact (IH _ Mb).
  Qed.

  Definition computed (E : venv) (ls : list loop) (calls : list (list buf)) : Prop :=
    forall k o kd b, nth_error outs k = Some o -> E (o_sym o) = Buffer kd b ->
      (forall c, In c calls -> exists b', nth_error c k = Some b' /\ part_of b' b) /\
      (NoDup (o_dims o) -> (forall l, In l ls -> In (lp_var l) (o_dims o)) -> forall p, times k p calls = if inside b p then 1%nat else 0%nat).

  Lemma vbuffers_nth E l : forall bs k s, vbuffers E l = Val bs -> nth_error l k = Some s -> exists kd b, E s = Buffer kd b /\ nth_error bs k = Some b.
  Proof.
    induction l as [|x l IH]; intros bs [|k] s V Q; try discriminate Q; cbn [vbuffers] in V; apply bind_inv in V as (b & Vb & V); apply bind_inv in V as (bs' & Vs & V); injection V as <-.
    - cbn in Q. injection Q as ->. unfold vbuffer in Vb. destruct (E s) as [|?|kd b']; try discriminate Vb. injection Vb as ->. exists kd, b. auto.
    - exact (IH bs' k s Vs Q).
  Qed.

  Lemma loops_calls ls : NoDup (map lp_var ls) -> (forall l, In l ls -> In l all) -> forall s, make_loops P fuel f ls = Val s ->
    forall E st z st', agrees E -> (forall o, In o outs -> exists k b, E (o_sym o) = Buffer k b /\ rank b = length (o_dims o)) ->
    exec s E st = Val (z, st') ->
    z = 0 /\ exists calls, v_ext _ st' = v_ext _ st ++ calls /\ computed E ls calls.
  Proof.
    induction ls as [|l ls IH]; intros N Sub s M E st z st' Ag Bs X; cbn [make_loops] in M.
    - injection M as <-. unfold call_of in X. cbn [vexec] in X. apply bind_inv in X as (bi & _ & X). apply bind_inv in X as (bo & Hbo & X). apply bind_inv in X as (vs & _ & X).
      unfold record_call in X. injection X as <- <-. split; [reflexivity|]. exists [bo]. split; [reflexivity|].
      intros k o kd b Ok Eo. destruct (vbuffers_nth E _ bo k (o_sym o) Hbo) as (kd' & b' & Q1 & Q2); [rewrite nth_error_map, Ok; reflexivity|].
      rewrite Eo in Q1. injection Q1 as <- <-. split; [intros c [<-|[]]; exists b; split; [exact Q2|apply part_refl]|].
      intros _ _ p. unfold times. cbn [filter]. unfold computes. rewrite Q2. destruct (inside b p); reflexivity.
    - apply bind_inv in M as (body & Mb & M). apply bind_inv in M as (body' & Mc & M). apply bind_inv in M as (bd & Mbd & M). injection M as <-.
      pose proof (async_loops ls _ Mb) as As. unfold crop_for_loop in Mc. apply bind_inv in Mc as (last & Ml & Mc). injection Mc as <-.
      cbn [map] in N. apply NoDup_cons_iff in N as (N1 & N2).
      destruct (ok0 l (Sub l (or_introl eq_refl))) as (s & Hs & Okl).
      assert (Va : In (lp_var l) (map lp_var all)) by (apply in_map, Sub; left; reflexivity).
      assert (Vo : ~ In (lp_var l) (map o_sym outs)) by (apply no_outputs, Sub; left; reflexivity).
      cbn [vexec] in X. apply bind_inv in X as (wk & Hw & X). apply bind_inv in X as ((lo & hi) & Hi & X). apply bind_inv in X as (stp & Hst & X).
      destruct (Okl E Ag) as (W & St & _ & _ & Bd). specialize (W _ Hw). specialize (St _ Hst). subst stp. destruct (Bd _ Mbd) as (Bl & Bh). clear Bd.
      unfold vinterval in Hi. cbn [fst snd] in Hi. apply bind_inv in Hi as (lo' & Hlo & Hi). apply bind_inv in Hi as (hi' & Hhi & Hi). injection Hi as -> ->.
      apply Bl in Hlo. apply Bh in Hhi. clear Bl Bh.
      destruct (Z.eqb_spec s 0); [lia|]. destruct (Z.ltb_spec 1 wk); [lia|]. rewrite async_crop_outputs, As in X.
      set (Ey := fun y => vset (vforget [] E) (lp_var l) (Num y)) in *.
      assert (Body : forall y st z st', lo <= y <= hi -> exec (crop_outputs (lp_var l) last outs body) (Ey y) st = Val (z, st') ->
        z = 0 /\ exists calls, v_ext _ st' = v_ext _ st ++ calls /\
          forall k o kd b, nth_error outs k = Some o -> E (o_sym o) = Buffer kd b ->
            (forall c, In c calls -> exists b', nth_error c k = Some b' /\ part_of b' b) /\
            (NoDup (o_dims o) -> (forall l, In l ls -> In (lp_var l) (o_dims o)) -> forall p,
               times k p calls = if inside b p && forallb (fun d => negb (Nat.eqb (nth d (o_dims o) (S (lp_var l))) (lp_var l)) || ((y <=? p d) && (p d <=? y + s - 1))) (seq 0 (length (o_dims o))) then 1%nat else 0%nat)).
      { intros y st0 z0 st0' _ X0.
        assert (AgE : forall E', (forall x, ~ In x (map o_sym outs) -> E' x = Ey y x) -> agrees E').
        { intros E' A x (X1 & X2). rewrite A by exact X1. unfold Ey, vset. destruct (Nat.eqb_spec x (lp_var l)) as [->|]; [contradiction|]. apply Ag. split; assumption. }
        assert (Eo : forall o, In o outs -> Ey y (o_sym o) = E (o_sym o)).
        { intros o I. unfold Ey, vset. destruct (Nat.eqb_spec (o_sym o) (lp_var l)) as [Q|]; [|reflexivity]. exfalso. apply Vo. rewrite <- Q. apply in_map, I. }
        destruct (crop_outputs_ok (lp_var l) last y (y + s - 1) agrees) with (os := outs) (body := body) (E := Ey y) (st := st0) (r := (z0, st0')) as (E' & A1 & A2 & X1); try assumption.
        - intros E1 a Ag1 V1 Va1. destruct (Okl E1 Ag1) as (_ & _ & Vs & La & _). destruct (La _ Ml) as (_ & Same). apply Same in Va1.
          unfold value_of, last_of, e_sub, e_add in Va1. rewrite !make_mean in Va1. cbn [meaning xbin] in Va1. unfold value_of in Vs. rewrite Vs in Va1. unfold env_of at 1 in Va1. rewrite V1 in Va1.
          cbn in Va1. injection Va1 as <-. lia.
        - destruct (Okl E Ag) as (_ & _ & _ & La & _). apply (La _ Ml).
        - intros E1 E2 K A x (X1 & X2). rewrite A by exact X1. apply K. split; assumption.
        - apply AgE. reflexivity.
        - unfold Ey, vset. rewrite Nat.eqb_refl. reflexivity.
        - intros o I. rewrite (Eo o I). destruct (Bs o I) as (k & b & Q & R). exists k, b. split; [exact Q|lia].
        - destruct (IH N2 ltac:(intros l' I; apply Sub; right; exact I) _ Mb E' st0 z0 st0') as (-> & calls & C1 & C2).
          + apply AgE, A1.
          + intros o I. destruct (Bs o I) as (k & b & Q & R). destruct (A2 o k b I) as (k' & c & Q' & (Pa & _)); [rewrite (Eo o I); exact Q|]. exists k', c. split; [exact Q'|]. rewrite (proj1 Pa). exact R.
          + exact X1.
          + split; [reflexivity|]. exists calls. split; [exact C1|]. intros k o kd b Ok Q.
            pose proof (nth_error_In _ _ Ok) as I. destruct (A2 o kd b I) as (k' & c & Q' & (Pa & Ti)); [rewrite (Eo o I); exact Q|].
            destruct (C2 k o k' c Ok Q') as (C3 & C4). split.
            * intros c' Ic. destruct (C3 c' Ic) as (b' & B1 & B2). exists b'. split; [exact B1|exact (part_trans _ _ _ B2 Pa)].
            * intros Nd Us p. rewrite (C4 Nd Us p). apply (f_equal (fun t : bool => if t then 1%nat else 0%nat)). apply eq_true_iff_eq. rewrite Ti, andb_true_iff, forallb_forall. apply and_iff_compat_l.
              unfold tile. cbn [Nat.add]. split.
              -- intros T d _. destruct (Nat.eqb_spec (nth d (o_dims o) (S (lp_var l))) (lp_var l)) as [Qd|]; [|reflexivity]. cbn [negb orb].
                 assert (Qn : nth_error (o_dims o) d = Some (lp_var l)).
                 { destruct (nth_error (o_dims o) d) as [w|] eqn:Qw; [rewrite (nth_error_nth _ _ _ Qw) in Qd; congruence|].
                   apply nth_error_None in Qw. rewrite nth_overflow in Qd by exact Qw. lia. }
                 specialize (T d Qn). lia.
              -- intros T d Qd. assert (L : (d < length (o_dims o))%nat) by (apply nth_error_Some; congruence). specialize (T d). rewrite in_seq in T. specialize (T ltac:(lia)).
                 rewrite (nth_error_nth _ _ _ Qd), Nat.eqb_refl in T. cbn [negb orb] in T. lia. }
      destruct (serial_ok (fun y => exec (crop_outputs (lp_var l) last outs body) (Ey y)) _ lo hi s Hs (fun i st z st' => Body i st z st') _ lo st z st' ltac:(lia) X) as (-> & cs & C1 & C2 & C3).
      split; [reflexivity|]. exists (concat cs). split; [exact C1|]. intros k o kd b Ok Q. split.
      + intros c I. apply in_concat in I as (calls & I1 & I2). apply (In_nth _ _ []) in I1 as (j & J & <-). destruct (C2 j J) as (_ & C4). destruct (C4 k o kd b Ok Q) as (C5 & _). apply C5, I2.
      + intros Nd Us p. destruct (In_nth_error _ _ (Us l (or_introl eq_refl))) as (d & Qd).
        assert (T : forall j, (j < length cs)%nat -> times k p (nth j cs []) = if inside b p && ((lo + Z.of_nat j * s <=? p d) && (p d <=? lo + Z.of_nat j * s + s - 1)) then 1%nat else 0%nat).
        { intros j J. destruct (C2 j J) as (_ & C4). destruct (C4 k o kd b Ok Q) as (_ & C5). rewrite (C5 Nd (fun l' I' => Us l' (or_intror I')) p). 
          match goal with |- (if ?a then _ else _) = (if ?b then _ else _) => cut (a = b); [intros ->; reflexivity|] end. f_equal.
          apply eq_true_iff_eq. rewrite forallb_forall. split.
          - intros A. specialize (A d). rewrite in_seq, (nth_error_nth _ _ _ Qd), Nat.eqb_refl in A. cbn [negb orb] in A. apply A. split; [lia|]. cbn. apply nth_error_Some. congruence.
          - intros A d' I. destruct (Nat.eqb_spec (nth d' (o_dims o) (S (lp_var l))) (lp_var l)) as [Qe|]; [|reflexivity]. cbn [negb orb]. apply in_seq in I.
            assert (d' = d) as ->; [|exact A]. apply (proj1 (NoDup_nth_error (o_dims o)) Nd); [lia|]. rewrite Qd. rewrite (nth_error_nth' _ (S (lp_var l))) by lia. congruence. }
        destruct (inside b p) eqn:Ib.
        * assert (Cx : contains (world_of H E) (env_of E) (loop_bounds_of f (lp_var l)) (p d)).
          { unfold loop_bounds_of. pose proof (nth_error_In _ _ Ok) as Io. apply (outputs_add E (lp_var l) o d (p d) Qd); [|exact Io].
            apply (buffer_contains E (o_sym o) kd b d (p d) Q). destruct (Bs o Io) as (k' & b' & Q' & R). rewrite Q in Q'. injection Q' as <- <-.
            rewrite inside_spec in Ib. apply Ib. rewrite R. apply nth_error_Some. congruence. }
          destruct Cx as (Cl & Ch). unfold value_of in Hlo, Hhi. rewrite Hlo in Cl. rewrite Hhi in Ch. cbn [bounds_below bounds_above] in Cl, Ch.
          rewrite (times_tiles k p (p d) s hi Hs cs lo T C3 Ch). destruct (Z.leb_spec lo (p d)); [reflexivity|lia].
        * apply times_none. intros j J. rewrite (T j J). reflexivity.
  Qed.
End Exec.
