(** Running what implement_copy makes. *)
From Coq Require Import ZArith List Bool Lia Permutation.
From Verif Require Import Arith_Model Arith_Spec Arith_Proofs Buf_Model Buf_Spec Buf_Proofs ForEach_Spec ForEach_Proofs ForEach_Props Copy_Spec Expr_Model Expr_Spec Expr_Proofs
  Stmt_Model Stmt_Spec Stmt_Proofs Deps_Model Deps_Spec Subst_Spec SubstMean_Proofs Subst_Props CopyStmt_Model CopyStmt_Spec CopyStmt_Proofs EvalPart_Proofs CopyBox_Proofs CopyPass_Proofs.
Import ListNotations.
Open Scope Z_scope.

Lemma xargs_fin (vs : list Z) : xargs (map (fun v => (true, Fin v)) vs) = Some (map Some vs).
Proof. induction vs as [|v vs IH]; [reflexivity|]. cbn [map xargs]. rewrite IH. reflexivity. Qed.
Lemma buffer_at_all ds : forall p (f : nat -> Z) vs, length vs = length ds -> (forall k, (k < length ds)%nat -> nth k vs 0 = f k) ->
  buffer_at_loop p ds (map Some vs) = oadd p (place_all ds f).
Proof.
  induction ds as [|d ds IH]; intros p f [|v vs] L E; cbn [length] in L; try discriminate.
  - cbn. rewrite oadd_0_r. reflexivity.
  - cbn [buffer_at_loop map place_all]. rewrite (IH _ (fun k => f (S k))); [|lia|intros k Hk; apply (E (S k)); cbn [length]; lia].
    rewrite place_step. pose proof (E O ltac:(cbn [length]; lia)) as E0. cbn [nth] in E0. rewrite E0. symmetry. apply oadd_assoc.
Qed.

Lemma Forall_go {A} (P : A -> Prop) l : Forall P l -> (fix go (l : list A) := match l with [] => True | p :: l' => P p /\ go l' end) l.
Proof. induction 1; [exact I|split; assumption]. Qed.

Section Exec.
  Variable H : host (list (buf * buf * option buf)).
  Notation X := (list (buf * buf * option buf)).
  Variable W : world.
  Hypothesis HW : world_ok W.
  Hypothesis Wu : w_user W = h_user X H.
  Hypothesis Wi : w_intrinsic W = h_intrinsic X H.

  (** *** Evaluating in a state that has more buffers *)
  Definition knowing (st : state X) (r : env) : Prop :=
    part_of (s_ctx X st) r /\ forall p b, w_buf W p = Some b -> s_buf X st p = Some b.
  Lemma knowing_quiet st st' r : quiet X st st' -> knowing st r -> knowing st' r.
  Proof. intros (c & -> & Q) (P & B). split; [exact (part_of_eq _ _ _ Q P)|exact B]. Qed.
  Lemma ev_known st r e v st' : knowing st r -> formed e -> ev X H st e = Val (v, st') -> knows (meaning W r e) v.
  Proof.
    intros (P & B) (D & K) E. unfold ev in E. apply bind_inv in E as ((v1, c1) & E1 & E). injection E as <- <-.
    eapply (eval_part W (world_of X H st) HW); eauto.
  Qed.
  Lemma ev_fin st r e v st' z : knowing st r -> formed e -> ev X H st e = Val (v, st') -> meaning W r e = Fin z -> v = z.
  Proof. intros P F E M. destruct (ev_known _ _ _ _ _ P F E) as [B|(B & _)]; congruence. Qed.

  Definition formed_dim (nd : dim_expr) : Prop := formed (fst (de_bounds nd)) /\ formed (snd (de_bounds nd)) /\ formed (de_stride nd) /\ formed (de_fold nd).
  Lemma formed_distinct nd : formed_dim nd -> distinct_dim nd.
  Proof. intros ((A & _) & (B & _) & (C & _) & (D & _)). split; [split; assumption|]. split; assumption. Qed.
  Lemma ev_dims_known r : forall s st dl st', knowing st r -> Forall formed_dim s -> Forall (has_meaning W r) s -> ev_dims X H false s st = Val (dl, st') ->
    exists dl', Forall2 (matches W r) s dl' /\ forall f, place_all dl f = place_all dl' f.
  Proof.
    induction s as [|nd s IH]; intros st dl st' Kn Fo Hm E; cbn [ev_dims] in E.
    - injection E as <- <-. exists []. split; [constructor|reflexivity].
    - inversion Fo as [|? ? F1 F2]; subst. inversion Hm as [|? ? M1 M2]; subst.
      apply bind_inv in E as ((ds, st1) & E1 & E). apply bind_inv in E as (((lo, hi), st2) & E2 & E).
      apply bind_inv in E as ((sd, st3) & E3 & E). apply bind_inv in E as ((fo, st4) & E4 & E). injection E as <- <-.
      destruct (IH _ _ _ Kn F2 M2 E1) as (dl' & Fm & Pl).
      pose proof (knowing_quiet _ _ _ (ev_dims_quiet X H false s _ _ _ (Forall_impl _ formed_distinct F2) E1) Kn) as K1.
      destruct F1 as (G1 & G2 & G3 & G4). destruct M1 as (lo' & hi' & sd' & N1 & N2 & N3).
      unfold ev_interval in E2. apply bind_inv in E2 as ((lo1, st1') & E21 & E2). apply bind_inv in E2 as ((hi1, st2') & E22 & E2). injection E2 as <- <- <-.
      pose proof (ev_fin _ _ _ _ _ _ K1 G1 E21 N1) as ->.
      pose proof (knowing_quiet _ _ _ (ev_quiet X H _ _ _ _ (proj1 G1) E21) K1) as K2. pose proof (ev_fin _ _ _ _ _ _ K2 G2 E22 N2) as ->.
      pose proof (knowing_quiet _ _ _ (ev_quiet X H _ _ _ _ (proj1 G2) E22) K2) as K3. pose proof (ev_fin _ _ _ _ _ _ K3 G3 E3 N3) as ->.
      pose proof (knowing_quiet _ _ _ (ev_quiet X H _ _ _ _ (proj1 G3) E3) K3) as K4.
      exists (Dim lo' hi' sd' fo :: dl'). split.
      + constructor; [|exact Fm]. split; [exact N1|]. split; [exact N2|]. split; [exact N3|]. intros D. unfold ev_def in E4. rewrite D in E4.
        destruct (ev_known _ _ _ _ _ K4 G4 E4) as [B|(B & _)]; auto.
      + intros f. destruct ds as [|d0 ds].
        * cbn [place_all]. specialize (Pl (fun k => f (S k))). cbn [place_all] in Pl. rewrite <- Pl.
          destruct (is_broadcast (Dim lo' hi' sd' fo)) eqn:Bc; [|reflexivity]. cbn [place_all]. unfold place. cbn [d_stride].
          unfold is_broadcast in Bc. cbn in Bc. destruct (sd' =? 0); [reflexivity|]. exfalso. rewrite ?andb_false_r in Bc. cbn in Bc. discriminate.
        * cbn [place_all]. f_equal. exact (Pl (fun k => f (S k))).
  Qed.

  (** *** The state in the loops *)
  Variable simplify : expr -> res expr.
  Hypothesis Sf : simplifies W simplify.
  Variables (target sliced src dst : nat) (src_x : list expr) (dst_x : list nat) (pad : option nat) (bs bd : buf) (coord : list Z -> list Z) (c0 : context) (pd : option buf).
  Hypothesis C0 : ctx_ok c0.
  Hypothesis Ok : copyable W (of_context c0) src src_x dst dst_x bs bd coord.
  Hypothesis Null : forall idx, locate bs idx <> Some 0.
  Hypothesis Pad : match pad with Some p => ~ In p dst_x /\ p <> sliced /\ p <> src /\ pd <> None /\ w_buf W (c0 p) = pd | None => pd = None end.
  Hypothesis Fresh : sliced <> src /\ sliced <> dst /\ ~ In sliced dst_x /\ forall i e, nth_error src_x i = Some e -> ~ free sliced e.
  Hypothesis Call : forall c m x b1 b2, m (c src) = Some b1 -> m (c sliced) = Some b2 ->
    h_call X H target [] ([src; sliced] ++ match pad with Some p => [p] | None => [] end) [] c m x = (0, x ++ [(b1, b2, match pad with Some p => m (c p) | None => None end)]).

  Record here (M : list (option Z)) (st : state X) (B : buf) : Prop := {
    hr_inv : Stmt_Spec.inv st;
    hr_ctx : forall y, y <> sliced -> ~ In y dst_x -> s_ctx X st y = c0 y;
    hr_var : forall k x v, nth_error dst_x k = Some x -> nth_error M k = Some (Some v) -> s_ctx X st x = v /\ in64 v;
    hr_fixed : forall k v, nth_error M k = Some (Some v) -> d_min (dim_at bd k) <= v <= d_max (dim_at bd k);
    hr_buf : forall p b, w_buf W p = Some b -> s_buf X st p = Some b;
    hr_sliced : s_buf X st (s_ctx X st sliced) = Some B;
    hr_len : length M = length dst_x;
    hr_dims : dims B = kept M (dims bd);
    hr_locate : forall idx, length idx = length (dims B) -> locate B (index idx) = locate bd (index (fill M idx)) }.

  Definition expected (M : list (option Z)) (B : buf) : list (ptr * ptr) :=
    map (fun idx => (locate B (index idx), locate bs (index (coord (fill M idx))))) (box (dims B)).
  Definition call_stmt : stmt := SCall target [] ([src; sliced] ++ match pad with Some p => [p] | None => [] end) [].

  Variables (a : list expr) (o : list (option nat)) (s : list dim_expr).
  Hypothesis Pass : pass_dims simplify src src_x dst dst_x 0 dst_x src_x = Val (a, o, s).
  Definition body0 : stmt := SMake src (e_buffer_at src a) (EVar src f_elem_size (-1)) s call_stmt.

  Let P (y : nat) : Prop := ~ In y dst_x /\ y <> sliced.
  Lemma pass_form :
    Forall2 (fun x k => k = None \/ k = Some x) dst_x o /\ length a = length src_x /\ Forall (neat_dim P) s /\
    (forall i e, nth_error a i = Some e -> neat P e \/ (nth_error src_x i = Some e /\ forall y, In y dst_x -> free y e -> In (Some y) o)).
  Proof.
    destruct Fresh as (N1 & N2 & N3 & N4). destruct (cp_distinct _ _ _ _ _ _ _ _ _ Ok) as (D1 & D2 & D3).
    destruct (pass_neat W simplify Sf (of_context c0) src dst src_x dst_x bs bd coord Ok P) with (todo := dst_x) (d := O) (acc := src_x) (a := a) (o := o) (s := s)
      (K := fun _ : nat => False) as (H1 & H2 & H3 & H4).
    - split; auto.
    - split; auto.
    - intros i e y Ee Fy Ny. split; [exact Ny|]. intros ->. exact (N4 i e Ee Fy).
    - reflexivity.
    - exact Pass.
    - reflexivity.
    - intros i e Ee. right. split; [exact Ee|]. auto.
    - split; [exact H1|]. split; [exact H2|]. split; [exact H3|].
      intros i e Ee. destruct (H4 i e Ee) as [N|(A1 & A2)]; [auto|right; split; [exact A1|]]. intros y Iy Fy. destruct (A2 y Iy Fy) as [I|[]]. exact I.
  Qed.
  Lemma pass_value : forall full, in_bounds (dims bd) full ->
    Forall (has_meaning W (at_index dst_x full (of_context c0))) s /\
    exists va', (forall i e, nth_error a i = Some e -> meaning W (at_index dst_x full (of_context c0)) e = Fin (va' i)) /\
      forall dl, Forall2 (matches W (at_index dst_x full (of_context c0))) s dl ->
        oadd (place_all (dims bs) va') (place_all dl (index (kept o full))) = place_all (dims bs) (index (coord full)).
  Proof.
    intros full Box. destruct (cp_rank _ _ _ _ _ _ _ _ _ Ok) as (Rk & Rb).
    assert (Lf : length full = length dst_x) by (rewrite (in_bounds_length _ _ Box); exact Rk).
    destruct (pass_ok W simplify Sf (of_context c0) src dst src_x dst_x bs bd coord Ok full Box) with (todo := dst_x) (d := O) (acc := src_x) (a := a) (o := o) (s := s)
      (va := index (coord full)) as (H3' & va' & H5 & H6).
    - reflexivity.
    - exact Pass.
    - reflexivity.
    - intros i e Ee. apply (cp_value _ _ _ _ _ _ _ _ _ Ok i e full Ee Lf).
    - reflexivity.
    - split; [exact H3'|]. exists va'; auto.
  Qed.

  Definition rt (c : context) : env := fun y =>
    if (y =? sliced)%nat then Bad
    else if existsb (Nat.eqb y) dst_x && negb (existsb (fun k => match k with Some x => Nat.eqb y x | None => false end) o) then Bad
    else Fin (c y).
  Definition same_pattern {A B} (M : list (option A)) (o : list (option B)) : Prop := Forall2 (fun a b => a = None <-> b = None) M o.
  Lemma in_kept y : existsb (fun k => match k with Some x => Nat.eqb y x | None => false end) o = true <-> In (Some y) o.
  Proof.
    rewrite existsb_exists. split.
    - intros ([x|] & I & E); [|discriminate]. apply Nat.eqb_eq in E. subst. exact I.
    - intros I. exists (Some y). split; [exact I|apply Nat.eqb_refl].
  Qed.
  Lemma in_dst y : existsb (Nat.eqb y) dst_x = true <-> In y dst_x.
  Proof. rewrite existsb_exists. split; [intros (x & I & E); apply Nat.eqb_eq in E; subst; exact I|intros I; exists y; split; [exact I|apply Nat.eqb_refl]]. Qed.
  Lemma Forall2_nth {A B} (R : A -> B -> Prop) l l' : Forall2 R l l' -> forall k b, nth_error l' k = Some b -> exists a, nth_error l k = Some a /\ R a b.
  Proof. induction 1; intros [|k] b E; cbn in *; try discriminate; [injection E as <-; eauto|eauto]. Qed.
  Lemma kept_at M st B y : here M st B -> Forall2 (fun x k => k = None \/ k = Some x) dst_x o -> same_pattern M o -> In (Some y) o ->
    exists k v, nth_error dst_x k = Some y /\ nth_error M k = Some (Some v).
  Proof.
    intros Hr Fo Pt I. apply In_nth_error in I as (k & Ek). destruct (Forall2_nth _ _ _ Fo k _ Ek) as (x & Ex & [K|K]); [discriminate|]. injection K as <-.
    destruct (Forall2_nth _ _ _ Pt k _ Ek) as ([v|] & Em & K); [eauto|]. discriminate (proj1 K eq_refl).
  Qed.
  Lemma rt_part M st B : here M st B -> Forall2 (fun x k => k = None \/ k = Some x) dst_x o -> same_pattern M o -> knowing st (rt (s_ctx X st)).
  Proof.
    intros Hr Fo Pt. split; [|exact (hr_buf _ _ _ Hr)]. intros y. unfold rt. destruct (Nat.eqb_spec y sliced) as [|Ny]; [auto|].
    destruct (existsb (Nat.eqb y) dst_x) eqn:Iy.
    - destruct (existsb _ o) eqn:Ko; cbn [negb andb]; [|auto]. right. split; [reflexivity|]. apply in_kept in Ko.
      destruct (kept_at M st B y Hr Fo Pt Ko) as (k & v & Ex & Ev). destruct (hr_var _ _ _ Hr k y v Ex Ev) as (-> & V). exact V.
    - right. cbn [andb]. split; [reflexivity|]. rewrite (hr_ctx _ _ _ Hr y Ny); [apply C0|]. intros I. apply in_dst in I. congruence.
  Qed.
  Lemma rt_full M st B idx e : here M st B -> Forall2 (fun x k => k = None \/ k = Some x) dst_x o -> same_pattern M o ->
    (forall y, free y e -> P y \/ (In y dst_x /\ In (Some y) o)) -> meaning W (rt (s_ctx X st)) e = meaning W (at_index dst_x (fill M idx) (of_context c0)) e.
  Proof.
    intros Hr Fo Pt F. apply meaning_free. intros y Fy. destruct Fresh as (N1 & N2 & N3 & N4). unfold rt. destruct (F y Fy) as [(Ny & Ns)|(Iy & Ko)].
    - destruct (Nat.eqb_spec y sliced); [congruence|]. destruct (existsb (Nat.eqb y) dst_x) eqn:E; [apply in_dst in E; tauto|]. cbn [andb].
      rewrite at_index_out by exact Ny. rewrite (hr_ctx _ _ _ Hr y) by assumption. reflexivity.
    - destruct (Nat.eqb_spec y sliced) as [->|]; [tauto|]. rewrite (proj2 (in_kept y) Ko). cbn [negb]. rewrite andb_false_r.
      destruct (kept_at M st B y Hr Fo Pt Ko) as (k & v & Ex & Ev). destruct (hr_var _ _ _ Hr k y v Ex Ev) as (-> & _).
      symmetry. eapply at_index_nth; [apply (cp_distinct _ _ _ _ _ _ _ _ _ Ok)|exact Ex|apply fill_fixed, Ev].
  Qed.

  Lemma here_new M st B v : here M st B -> w_buf W (s_next X st) = None /\ s_buf X st (s_next X st) = None /\ (s_buf X st v <> None -> v <> s_next X st).
  Proof.
    intros Hr. destruct (hr_inv _ _ _ Hr) as (I & _). assert (N : s_buf X st (s_next X st) = None) by (apply I; lia). split; [|split; [exact N|intros E ->; exact (E N)]].
    destruct (w_buf W (s_next X st)) as [b|] eqn:E; [|reflexivity]. apply (hr_buf _ _ _ Hr) in E. congruence.
  Qed.
  Lemma here_quiet M st st' B : quiet X st st' -> here M st B -> here M st' B.
  Proof.
    intros Q Hr. pose proof (quiet_inv X _ _ Q (hr_inv _ _ _ Hr)) as I. destruct Q as (c & -> & Q).
    split; cbn [s_ctx s_buf set_ctx]; [exact I| | |exact (hr_fixed _ _ _ Hr)|exact (hr_buf _ _ _ Hr)| |exact (hr_len _ _ _ Hr)|exact (hr_dims _ _ _ Hr)|exact (hr_locate _ _ _ Hr)].
    - intros y N1 N2. rewrite Q. apply (hr_ctx _ _ _ Hr); assumption.
    - intros k x v Ex Ev. rewrite Q. exact (hr_var _ _ _ Hr k x v Ex Ev).
    - rewrite Q. exact (hr_sliced _ _ _ Hr).
  Qed.
  Lemma here_same M st B : here M st B -> here M (set_ctx X st (s_ctx X st)) B.
  Proof. apply here_quiet. exists (s_ctx X st). split; [reflexivity|]. intros y. reflexivity. Qed.
  Lemma formed_neat Q e : neat Q e -> formed e.
  Proof. intros (_ & F). exact F. Qed.
  Lemma formed_args : Forall formed a /\ forall M st B, here M st B -> same_pattern M o -> forall idx e, In e a ->
    meaning W (rt (s_ctx X st)) e = meaning W (at_index dst_x (fill M idx) (of_context c0)) e.
  Proof.
    destruct pass_form as (Fo & La & Fs & Na). split.
    - apply Forall_forall. intros e I. apply In_nth_error in I as (i & Ei). destruct (Na i e Ei) as [N|(N & _)]; [exact (formed_neat _ _ N)|].
      destruct (cp_form _ _ _ _ _ _ _ _ _ Ok i e N) as (A1 & A2 & _). split; assumption.
    - intros M st B Hr Pt idx e I. apply In_nth_error in I as (i & Ei). eapply rt_full; eauto. intros y Fy.
      destruct (Na i e Ei) as [(N & _)|(N1 & N2)]; [left; exact (N y Fy)|].
      destruct (in_dec Nat.eq_dec y dst_x) as [Iy|Iy]; [right; split; [exact Iy|exact (N2 y Iy Fy)]|]. left. split; [exact Iy|].
      intros ->. exact (proj2 (proj2 (proj2 Fresh)) i e N1 Fy).
  Qed.
  Lemma neat_formed_dim nd : neat_dim P nd -> formed_dim nd.
  Proof. intros (N1 & N2 & N3 & N4). split; [exact (formed_neat _ _ N1)|]. split; [exact (formed_neat _ _ N2)|]. split; [exact (formed_neat _ _ N3)|exact (formed_neat _ _ N4)]. Qed.
  Lemma dim_full M st B : here M st B -> same_pattern M o -> forall idx nd, neat_dim P nd ->
    (has_meaning W (at_index dst_x (fill M idx) (of_context c0)) nd -> has_meaning W (rt (s_ctx X st)) nd) /\
    forall d, matches W (rt (s_ctx X st)) nd d -> matches W (at_index dst_x (fill M idx) (of_context c0)) nd d.
  Proof.
    intros Hr Pt idx nd (N1 & N2 & N3 & N4). destruct pass_form as (Fo & _).
    assert (Q : forall e, neat P e -> meaning W (rt (s_ctx X st)) e = meaning W (at_index dst_x (fill M idx) (of_context c0)) e).
    { intros e (N & _). eapply rt_full; eauto. }
    unfold has_meaning, matches. rewrite (Q _ N1), (Q _ N2), (Q _ N3), (Q _ N4). auto.
  Qed.
  Lemma ptr_of_value p : p <> Some 0 -> ptr_of (ptr_value p) = p.
  Proof. intros N. unfold ptr_of, ptr_value. destruct p as [z|]; [|reflexivity]. destruct (Z.eqb_spec z 0) as [->|]; [congruence|reflexivity]. Qed.
  Lemma args_fin r : forall n l (f : nat -> Z), (n <= length l)%nat -> (forall i e, nth_error l i = Some e -> meaning W r e = Fin (f i)) ->
    exists vs, length vs = n /\ (forall k, (k < n)%nat -> nth k vs 0 = f k) /\ firstn n (map (fun e => (defined e, meaning W r e)) l) = map (fun v => (true, Fin v)) vs.
  Proof.
    induction n as [|n IH]; intros [|e l] f L M; cbn [length] in L; try lia.
    - exists []. split; [reflexivity|]. split; [intros; lia|reflexivity].
    - exists []. split; [reflexivity|]. split; [intros; lia|reflexivity].
    - destruct (IH l (fun k => f (S k))) as (vs & A1 & A2 & A3); [lia|intros i e' Ei; exact (M (S i) e' Ei)|]. exists (f O :: vs).
      split; [cbn [length]; lia|]. split; [intros [|k] Hk; [reflexivity|apply A2; lia]|]. cbn [map firstn]. rewrite A3. pose proof (M O e eq_refl) as M0. rewrite M0.
      destruct e; [discriminate|reflexivity..].
  Qed.
  Lemma buffer_at_mean r ps va : r src = Fin ps -> w_buf W ps = Some bs -> (rank bs <= length a)%nat ->
    (forall i e, nth_error a i = Some e -> meaning W r e = Fin (va i)) -> meaning W r (e_buffer_at src a) = Fin (ptr_value (locate bs va)).
  Proof.
    intros Rs Bs La Ma. unfold e_buffer_at. cbn [meaning map xcall]. rewrite Rs, Bs.
    destruct (args_fin r _ _ _ La Ma) as (vs & A1 & A2 & A3). rewrite A3, xargs_fin. f_equal. f_equal. unfold buffer_at, locate. apply buffer_at_all; assumption.
  Qed.

  (** the case without loops: the source is made and the copy is called *)
  Lemma base_ok M st st' B : here M st B -> same_pattern M o -> exec X H body0 st = Val (0, st') ->
    exists b, s_ext X st' = s_ext X st ++ [(b, B, pd)] /\ elementwise B b = expected M B.
  Proof.
    intros Hr Pt E. unfold body0 in E. cbn [exec] in E. unfold exec_make in E. destruct pass_form as (Fo & La & Fs & _).
    apply bind_inv in E as ((es, st1) & E1 & E). apply bind_inv in E as ((p, st2) & E2 & E). apply bind_inv in E as ((dl, st3) & E3 & E).
    destruct (validate_buffer _); [|discriminate].
    destruct (cp_src _ _ _ _ _ _ _ _ _ Ok) as (ps & Rs & Bs). destruct (cp_rank _ _ _ _ _ _ _ _ _ Ok) as (Rk & Rb).
    destruct (cp_distinct _ _ _ _ _ _ _ _ _ Ok) as (D1 & D2 & D3). destruct Fresh as (F1 & F2 & F3 & F4).
    destruct formed_args as (Fa & Full).
    assert (Fb : formed (e_buffer_at src a)).
    { rewrite Forall_forall in Fa. split; cbn [e_buffer_at lets_distinct consts_ok].
      - split; [exact I|]. apply Forall_go, Forall_forall. intros e Ie. apply (Fa e Ie).
      - split; [exact I|]. apply Forall_go, Forall_forall. intros e Ie. apply (Fa e Ie). }
    assert (Q1 : quiet X st st1) by (eapply ev_def_quiet; [|exact E1]; exact I).
    assert (Q2 : quiet X st1 st2) by (eapply ev_def_quiet; [|exact E2]; apply Fb).
    assert (Q3 : quiet X st2 st3) by (eapply ev_dims_quiet; [|exact E3]; eapply Forall_impl; [|exact Fs]; intros nd N; apply formed_distinct, neat_formed_dim, N).
    pose proof (here_quiet _ _ _ _ Q1 Hr) as Hr1. pose proof (here_quiet _ _ _ _ Q2 Hr1) as Hr2. pose proof (here_quiet _ _ _ _ Q3 Hr2) as Hr3.
    exists (Buf (ptr_of p) es dl). split.
    - destruct (here_new _ _ _ (s_ctx X st3 sliced) Hr3) as (W0 & S0 & Ns). pose proof (hr_sliced _ _ _ Hr3) as Sl. specialize (Ns ltac:(congruence)).
      unfold with_object, with_value, call_stmt in E. cbn [exec] in E.
      rewrite (Call _ _ _ (Buf (ptr_of p) es dl) B) in E.
      + cbn in E. injection E as <-. cbn [s_ext set_buf set_ctx log set_ext].
        assert (Ex : s_ext X st3 = s_ext X st) by (destruct Q1 as (? & -> & _), Q2 as (? & -> & _), Q3 as (? & -> & _); reflexivity). cbn [s_ext set_ctx set_next set_buf s_ctx s_buf]. rewrite Ex. f_equal. f_equal. f_equal.
        destruct pad as [q|]; [|exact (eq_sym Pad)]. destruct Pad as (P1 & P2 & P3 & P4 & P5).
        unfold ctx_set. destruct (Nat.eqb_spec q src); [congruence|]. rewrite (hr_ctx _ _ _ Hr3 q P2 P1).
        destruct pd as [bp|]; [|congruence]. destruct (Z.eqb_spec (c0 q) (s_next X st3)); [congruence|]. exact (hr_buf _ _ _ Hr3 _ _ P5).
      + cbn [s_ctx s_buf set_ctx set_next set_buf]. unfold ctx_set. rewrite Nat.eqb_refl. rewrite Z.eqb_refl. reflexivity.
      + cbn [s_ctx s_buf set_ctx set_next set_buf]. unfold ctx_set. destruct (Nat.eqb_spec sliced src); [congruence|]. destruct (Z.eqb_spec (s_ctx X st3 sliced) (s_next X st3)); [congruence|]. exact Sl.
    - unfold elementwise, expected. apply map_ext_in. intros idx Ib. apply in_box in Ib. f_equal.
      pose proof Ib as Ib'. rewrite (hr_dims _ _ _ Hr) in Ib'.
      assert (Lm : length M = length (dims bd)) by (rewrite (hr_len _ _ _ Hr); symmetry; exact Rk).
      assert (Bf : in_bounds (dims bd) (fill M idx)) by (apply fill_bounds; [exact Lm|exact Ib'|apply (hr_fixed _ _ _ Hr)]).
      destruct (pass_value _ Bf) as (Hm & va & Ma & Pl).
      assert (Kf : kept o (fill M idx) = idx).
      { rewrite <- (kept_pattern M o) by exact Pt. apply (kept_fill M (dims bd)); [exact Lm|]. apply in_bounds_length in Ib'. exact Ib'. }
      rewrite Kf in Pl.
      assert (Rs1 : rt (s_ctx X st1) src = Fin ps).
      { unfold rt. destruct (Nat.eqb_spec src sliced); [congruence|]. destruct (existsb (Nat.eqb src) dst_x) eqn:Ex; [apply in_dst in Ex; tauto|]. cbn [andb].
        rewrite (hr_ctx _ _ _ Hr1) by auto. exact Rs. }
      assert (Mp : meaning W (rt (s_ctx X st1)) (e_buffer_at src a) = Fin (ptr_value (locate bs va))).
      { apply (buffer_at_mean _ ps); auto; [lia|]. intros i e Ei. rewrite (Full _ _ _ Hr1 Pt idx); [apply Ma, Ei|eapply nth_error_In; exact Ei]. }
      assert (Ep : p = ptr_value (locate bs va)).
      { unfold ev_def in E2. cbn [e_buffer_at defined] in E2. exact (ev_fin _ _ _ _ _ _ (rt_part _ _ _ Hr1 Fo Pt) Fb E2 Mp). }
      destruct (ev_dims_known (rt (s_ctx X st2)) s st2 dl st3) as (dl' & Fm & Pd).
      { exact (rt_part _ _ _ Hr2 Fo Pt). }
      { eapply Forall_impl; [|exact Fs]. exact neat_formed_dim. }
      { rewrite Forall_forall in *. intros nd I. apply (dim_full _ _ _ Hr2 Pt idx); auto. }
      { exact E3. }
      unfold locate at 1. cbn [base dims]. rewrite Ep, ptr_of_value by apply Null. rewrite Pd. unfold locate. rewrite <- oadd_assoc. f_equal. apply Pl.
      pose proof (fun nd N => proj2 (dim_full _ _ _ Hr2 Pt idx nd N)) as DF. clear -Fm Fs DF.
      induction Fm as [|nd d s0 dl0 G1 G2 IH]; [constructor|]. inversion Fs; subst. constructor; [|apply IH; assumption]. apply DF; assumption.
  Qed.

  (** *** The loops *)
  Lemma nest_none sl body : forall l d, nest sl d (l ++ [None]) body = nest sl d l body.
  Proof. intros l. revert body. induction l as [|[x|] l IH]; intros body d; cbn [app nest]; auto. Qed.
  Lemma nest_some sl x : forall l d body, nest sl d (l ++ [Some x]) body =
    SLoop x (EConst 1) (buffer_bounds sl (d + length l)) (EConst 1) (SSliceDim sl sl (d + length l) (EVar x f_none (-1)) (nest sl d l body)).
  Proof.
    induction l as [|[y|] l IH]; intros d body; cbn [app nest length].
    - rewrite Nat.add_0_r. reflexivity.
    - rewrite IH. replace (S d + length l)%nat with (d + S (length l))%nat by lia. reflexivity.
    - rewrite IH. replace (S d + length l)%nat with (d + S (length l))%nat by lia. reflexivity.
  Qed.
  Lemma nest_plain sl : forall l d body, distinct body -> async_syms body = [] -> distinct (nest sl d l body) /\ async_syms (nest sl d l body) = [].
  Proof.
    induction l as [|[y|] l IH]; intros d body D A; cbn [nest]; auto. apply IH; [|exact A]. cbn [distinct buffer_bounds]. unfold distinct_interval, buffer_bounds.
    cbn [fst snd lets_distinct]. auto 10.
  Qed.
  Lemma body0_plain : distinct body0 /\ async_syms body0 = [].
  Proof.
    destruct pass_form as (_ & _ & Fs & _). destruct formed_args as (Fa & _). split; [|reflexivity]. unfold body0. cbn [distinct call_stmt e_buffer_at lets_distinct].
    split; [split; [exact I|apply Forall_go; eapply Forall_impl; [|exact Fa]; intros e F; apply F]|]. split; [exact I|]. split; [|exact I].
    eapply Forall_impl; [|exact Fs]. intros nd N. apply formed_distinct, neat_formed_dim, N.
  Qed.
  Lemma nones_at M' v : forall n k w, nth_error (nones n ++ Some v :: M') k = Some (Some w) ->
    (k = n /\ w = v) \/ (k <> n /\ nth_error (nones n ++ None :: M') k = Some (Some w)).
  Proof.
    induction n as [|n IH]; intros [|k] w E; cbn in *; try discriminate.
    - injection E as <-. auto.
    - right. split; [lia|exact E].
    - destruct (IH k w E) as [(-> & ->)|(N & F)]; [auto|right; split; [lia|exact F]].
  Qed.
  Lemma nones_mid M' : forall n, nth_error (nones n ++ None :: M') n = Some None.
  Proof. induction n as [|n IH]; cbn; auto. Qed.
  Lemma loop_range lo hi : forall n i, lo <= i -> loop_values lo hi 1 n i = run_from i (Nat.min n (Z.to_nat (hi - i + 1))).
  Proof.
    induction n as [|n IH]; intros i L; cbn [loop_values]; [reflexivity|]. destruct (Z.leb_spec lo i); [|lia]. destruct (Z.leb_spec i hi); cbn [andb].
    - rewrite IH by lia. replace (Z.to_nat (hi - i + 1)) with (S (Z.to_nat (hi - (i + 1) + 1))) by lia. reflexivity.
    - replace (Z.to_nat (hi - i + 1)) with O by lia. reflexivity.
  Qed.
  Lemma here_change M st st' B n x : here M st B -> nth_error dst_x n = Some x -> nth_error M n = Some None ->
    Stmt_Spec.inv st' -> (forall y, y <> x -> s_ctx X st' y = s_ctx X st y) -> (forall p, s_buf X st' p = s_buf X st p) -> here M st' B.
  Proof.
    intros Hr Ex En Iv Kc Kb. destruct (cp_distinct _ _ _ _ _ _ _ _ _ Ok) as (D1 & D2 & D3). destruct Fresh as (F1 & F2 & F3 & F4).
    assert (Ix : In x dst_x) by (eapply nth_error_In; exact Ex).
    split; [exact Iv| | |exact (hr_fixed _ _ _ Hr)| | |exact (hr_len _ _ _ Hr)|exact (hr_dims _ _ _ Hr)|exact (hr_locate _ _ _ Hr)].
    - intros y N1 N2. rewrite Kc; [apply (hr_ctx _ _ _ Hr); assumption|]. intros ->. exact (N2 Ix).
    - intros k y v Ey Ev. rewrite Kc; [exact (hr_var _ _ _ Hr k y v Ey Ev)|]. intros ->.
      assert (k = n) by (apply (NoDup_nth_error dst_x); [exact D1|apply nth_error_Some; congruence|congruence]). subst k. congruence.
    - intros p b Eb. rewrite Kb. apply (hr_buf _ _ _ Hr), Eb.
    - rewrite Kc, Kb; [apply (hr_sliced _ _ _ Hr)|]. intros Es. rewrite Es in F3. exact (F3 Ix).
  Qed.
  Lemma here_after M st st' B n x q : here M st B -> nth_error dst_x n = Some x -> nth_error M n = Some None -> step X [x] q st 0 st' -> here M st' B.
  Proof.
    intros Hr Ex En K. eapply here_change; eauto; [exact (step_inv X _ _ _ _ _ (hr_inv _ _ _ Hr) K)| |exact (k_buf _ _ _ _ _ _ K)].
    intros y Ny. apply (k_ctx _ _ _ _ _ _ K). intros [->|[]]. congruence.
  Qed.
  Lemma here_set M st B n x v : here M st B -> nth_error dst_x n = Some x -> nth_error M n = Some None -> here M (set_ctx X st (ctx_set (s_ctx X st) x v)) B.
  Proof.
    intros Hr Ex En. eapply here_change; eauto; [exact (hr_inv _ _ _ Hr)|]. intros y Ny. cbn [s_ctx set_ctx]. unfold ctx_set. destruct (Nat.eqb_spec y x); congruence.
  Qed.

  Definition sliced_at (B : buf) (n : nat) (v : Z) : buf := Buf (oadd (base B) (place (dim_at B n) v)) (elem_size B) (remove_nth (dims B) n).
  Lemma slice_locate M' n st B v : here (nones n ++ None :: M') st B -> (n < length (dims bd))%nat -> forall idx, length idx = length (remove_nth (dims B) n) ->
    locate (sliced_at B n v) (index idx) = locate bd (index (fill (nones n ++ Some v :: M') idx)) /\
    locate B (index (linsert n v idx)) = locate (sliced_at B n v) (index idx) /\ fill (nones n ++ None :: M') (linsert n v idx) = fill (nones n ++ Some v :: M') idx.
  Proof.
    intros Hr Ln idx Li. destruct (kept_nth M' broadcast n (dims bd) Ln) as (Kn & Kl). rewrite <- (hr_dims _ _ _ Hr) in Kn, Kl.
    assert (Lr : length (remove_nth (dims B) n) = (length (dims B) - 1)%nat) by (apply remove_nth_length; exact Kl).
    assert (Lx : (n <= length idx)%nat) by lia. pose proof (fill_insert M' v n idx Lx) as Fi.
    assert (E1 : locate B (index (linsert n v idx)) = locate (sliced_at B n v) (index idx)).
    { symmetry. unfold locate at 1. cbn [sliced_at base dims]. rewrite <- oadd_assoc. unfold locate. f_equal. unfold dim_at. rewrite <- place_all_insert by exact Kl.
      apply place_all_ext. intros k _. symmetry. apply index_linsert, Lx. }
    split; [|split; [exact E1|exact Fi]]. rewrite <- E1, <- Fi. apply (hr_locate _ _ _ Hr). unfold linsert. rewrite app_length, firstn_length. cbn [length]. rewrite skipn_length. lia.
  Qed.
  Lemma here_slice M' n st B x v : here (nones n ++ None :: M') st B -> nth_error dst_x n = Some x -> s_ctx X st x = v -> in64 v ->
    d_min (dim_at bd n) <= v <= d_max (dim_at bd n) ->
    here (nones n ++ Some v :: M')
      (set_ctx X (set_next X (set_buf X st (s_next X st) (Some (sliced_at B n v))) (s_next X st + 1))
         (ctx_set (s_ctx X (set_next X (set_buf X st (s_next X st) (Some (sliced_at B n v))) (s_next X st + 1))) sliced (s_next X st))) (sliced_at B n v).
  Proof.
    intros Hr Ex Xv V64 Bv. destruct (cp_distinct _ _ _ _ _ _ _ _ _ Ok) as (D1 & D2 & D3). destruct Fresh as (F1 & F2 & F3 & F4).
    destruct (cp_rank _ _ _ _ _ _ _ _ _ Ok) as (Rk & Rb).
    assert (Ln : (n < length (dims bd))%nat) by (unfold rank in Rk; rewrite Rk; apply nth_error_Some; congruence).
    destruct (kept_nth M' broadcast n (dims bd) Ln) as (Kn & Kl). rewrite <- (hr_dims _ _ _ Hr) in Kn, Kl.
    destruct (here_new _ _ _ 0 Hr) as (W0 & S0 & _). split; cbn [s_ctx s_buf set_ctx set_next set_buf].
    - exact (new_object_inv X st _ (hr_inv _ _ _ Hr)).
    - intros y N1 N2. unfold ctx_set. destruct (Nat.eqb_spec y sliced); [congruence|]. apply (hr_ctx _ _ _ Hr); assumption.
    - intros k y w Ey Ew. assert (Iy : In y dst_x) by (eapply nth_error_In; exact Ey). unfold ctx_set. destruct (Nat.eqb_spec y sliced) as [Ys|]; [subst; tauto|].
      destruct (nones_at _ _ _ _ _ Ew) as [(-> & ->)|(Nk & Ew')]; [|exact (hr_var _ _ _ Hr k y w Ey Ew')]. assert (y = x) by congruence. subst y. split; assumption.
    - intros k w Ew. destruct (nones_at _ _ _ _ _ Ew) as [(-> & ->)|(Nk & Ew')]; [exact Bv|exact (hr_fixed _ _ _ Hr k w Ew')].
    - intros p b Eb. destruct (Z.eqb_spec p (s_next X st)) as [->|]; [congruence|]. apply (hr_buf _ _ _ Hr), Eb.
    - unfold ctx_set. rewrite Nat.eqb_refl, Z.eqb_refl. reflexivity.
    - rewrite <- (hr_len _ _ _ Hr), !app_length. reflexivity.
    - cbn [sliced_at dims]. rewrite (hr_dims _ _ _ Hr). apply kept_insert.
    - intros idx Li. apply (slice_locate _ _ _ _ _ Hr Ln), Li.
  Qed.

  Definition assignments (l : X) : list (ptr * ptr) := flat_map (fun p => elementwise (snd (fst p)) (fst (fst p))) l.
  Definition copies (st st' : state X) (ops : list (ptr * ptr)) : Prop :=
    exists calls, s_ext X st' = s_ext X st ++ calls /\ Forall (fun p => snd p = pd) calls /\ Permutation (assignments calls) ops.
  Lemma copies_trans st st1 st2 l1 l2 : copies st st1 l1 -> copies st1 st2 l2 -> copies st st2 (l1 ++ l2).
  Proof.
    intros (c1 & E1 & F1 & P1) (c2 & E2 & F2 & P2). exists (c1 ++ c2). split; [rewrite E2, E1, app_assoc; reflexivity|]. split; [apply Forall_app; auto|].
    unfold assignments. rewrite flat_map_app. apply Permutation_app; assumption.
  Qed.
  Lemma copies_perm st st' l l' : copies st st' l -> Permutation l l' -> copies st st' l'.
  Proof. intros (c & E & F & Pm) Q. exists c. split; [exact E|]. split; [exact F|]. eapply perm_trans; eassumption. Qed.
  Lemma copies_ext st st1 st' st2 l : s_ext X st = s_ext X st1 -> s_ext X st' = s_ext X st2 -> copies st st' l -> copies st1 st2 l.
  Proof. intros A1 A2 (c & E & F & Pm). exists c. split; [congruence|]. auto. Qed.

  Lemma expected_slice M' n st B : here (nones n ++ None :: M') st B -> (n < length (dims bd))%nat ->
    Permutation (flat_map (fun v => expected (nones n ++ Some v :: M') (sliced_at B n v)) (range (d_min (dim_at bd n)) (d_max (dim_at bd n)))) (expected (nones n ++ None :: M') B).
  Proof.
    intros Hr Ln. destruct (kept_nth M' broadcast n (dims bd) Ln) as (Kn & Kl). rewrite <- (hr_dims _ _ _ Hr) in Kn, Kl.
    unfold expected at 2. rewrite (Permutation_map _ (box_insert n (dims B) Kl)). rewrite map_flat_map. rewrite Kn. fold (dim_at bd n).
    apply flat_map_perm. intros v Iv. unfold expected. cbn [sliced_at dims]. rewrite map_map.
    match goal with |- Permutation ?u ?w => assert (Q : u = w); [|rewrite Q; apply Permutation_refl] end.
    apply map_ext_in. intros idx Ib. apply in_box, in_bounds_length in Ib. destruct (slice_locate _ _ _ _ v Hr Ln idx Ib) as (_ & E1 & E2). rewrite E1, E2. reflexivity.
  Qed.

  Lemma runs_copies n x M' B q body ops : nth_error dst_x n = Some x -> good X [] q (exec X H body) ->
    forall vs st z st', (forall v, In v vs -> in64 v /\ forall st st', here (nones n ++ None :: M') st B -> s_ctx X st x = v -> exec X H body st = Val (0, st') -> copies st st' (ops v)) ->
      here (nones n ++ None :: M') st B -> Stmt_Spec.runs (map (iteration X x (exec X H body)) vs) st z st' -> z = 0 -> copies st st' (flat_map ops vs).
  Proof.
    intros Ex G. induction vs as [|v vs IH]; intros st z st' Hv Hr R Z; subst z.
    - inversion R; subst. exists []. split; [rewrite app_nil_r; reflexivity|]. split; [constructor|constructor].
    - inversion R as [|f fs s0 s1 z s2 E R'|f fs s0 z s1 E N]; subst; [|congruence].
      assert (Hx : here (nones n ++ None :: M') (set_ctx X st (ctx_set (s_ctx X st) x v)) B).
      { eapply here_set; eauto. apply nones_mid. }
      cbn [map]. unfold iteration in E at 1. cbn [flat_map]. eapply copies_trans.
      + eapply copies_ext; [reflexivity|reflexivity|]. apply (proj2 (Hv v (or_introl eq_refl)) _ s1 Hx); [|exact E].
        cbn [s_ctx set_ctx]. unfold ctx_set. rewrite Nat.eqb_refl. reflexivity.
      + eapply IH; [|eapply here_after; [exact Hr|exact Ex|apply nones_mid|]|exact R'|reflexivity].
        * intros w Iw. apply Hv. right. exact Iw.
        * eapply (iteration_good X [] q); [exact G|exact (hr_inv _ _ _ Hr)|exact E].
  Qed.

  Lemma nest_ok : forall pre suf M' st st' B, o = pre ++ suf -> same_pattern M' suf -> here (nones (length pre) ++ M') st B ->
    exec X H (nest sliced 0 pre body0) st = Val (0, st') -> copies st st' (expected (nones (length pre) ++ M') B).
  Proof.
    destruct pass_form as (Fo & La & Fs & _). destruct body0_plain as (Bd & Ba).
    induction pre as [|k pre IH] using rev_ind; intros suf M' st st' B Eo Pt Hr E.
    - cbn [app length nones repeat nest] in *. subst suf. destruct (base_ok M' st st' B Hr Pt E) as (b & E1 & E2). exists [(b, B, pd)]. split; [exact E1|].
      split; [constructor; [reflexivity|constructor]|]. unfold assignments. cbn [flat_map fst snd]. rewrite app_nil_r, E2. apply Permutation_refl.
    - rewrite app_length in *. cbn [length] in *. rewrite Nat.add_1_r in *. rewrite <- nones_snoc in *. rewrite <- app_assoc in Eo. cbn [app] in Eo.
      destruct k as [x|].
      2: { rewrite nest_none in E. apply (IH (None :: suf) (None :: M') st st' B Eo); auto. constructor; [tauto|exact Pt]. }
      set (n := length pre) in *. rewrite nest_some in E. fold n in E. cbn [Nat.add] in E.
      assert (Ex : nth_error dst_x n = Some x).
      { assert (En : nth_error o n = Some (Some x)) by (rewrite Eo; unfold n; rewrite nth_error_app2, Nat.sub_diag by lia; reflexivity).
        destruct (Forall2_nth _ _ _ Fo n _ En) as (y & Ey & [K|K]); [discriminate|congruence]. }
      destruct (cp_rank _ _ _ _ _ _ _ _ _ Ok) as (Rk & Rb). destruct (cp_dst _ _ _ _ _ _ _ _ _ Ok) as (pd_ & Rd & Bdd).
      assert (Ln : (n < length (dims bd))%nat) by (unfold rank in Rk; rewrite Rk; apply nth_error_Some; congruence).
      destruct (kept_nth M' broadcast n (dims bd) Ln) as (Kn & Kl). rewrite <- (hr_dims _ _ _ Hr) in Kn, Kl. fold (dim_at bd n) (dim_at B n) in Kn.
      apply loop_inv in E; [|exact I|split; exact I|exact I]. destruct E as (k & lo & hi & stp & st0 & st1 & st2 & E1 & E2 & E3 & Q & _ & E).
      unfold ev in E1. cbn [eval bind] in E1. injection E1 as <- <-.
      assert (Fv : forall st1 f, here (nones n ++ None :: M') st1 B -> f = f_min \/ f = f_max ->
        ev X H st1 (EVar sliced f (Z.of_nat n)) = Val (field_value bd f (Z.of_nat n) 0, set_ctx X st1 (s_ctx X st1))).
      { intros su f Hr' Hf. unfold ev. cbn [eval]. destruct Hf; subst f; cbn [world_of w_buf]; rewrite (hr_sliced _ _ _ Hr'); cbn [bind field_value]; rewrite !dim_int_nat; rewrite Kn; reflexivity. }
      unfold ev_interval, buffer_bounds in E2. cbn [fst snd] in E2. rewrite Fv in E2 by (auto; apply here_same, Hr).
      cbn [bind] in E2. rewrite Fv in E2 by (auto; apply here_same, here_same, Hr). cbn [bind] in E2. injection E2 as <- <- <-.
      unfold ev_def, ev in E3. cbn [defined eval bind] in E3. injection E3 as <- <-.
      cbn [field_value] in E. rewrite dim_int_nat in E.
      destruct E as [(_ & st3 & E & ->)|(K & _)]; [|lia].
      pose proof (here_quiet _ _ _ _ Q Hr) as Hr2. apply serial_loop_runs in E. rewrite loop_range in E by lia.
      rewrite Nat.min_id in E. fold (range (d_min (dim_at bd n)) (d_max (dim_at bd n))) in E.
      destruct (nest_plain sliced pre 0 body0 Bd Ba) as (Np & Na).
      set (body := SSliceDim _ _ _ _ _) in *.
      assert (G : good X [] (Stmt_Proofs.flags body) (exec X H body)).
      { replace [] with (async_syms body) by (unfold body; cbn [async_syms]; exact Na). apply exec_good. unfold body. cbn [distinct lets_distinct]. auto. }
      eapply copies_perm; [eapply copies_ext; [| |eapply runs_copies with (B := B) (M' := M') (ops := fun v => expected (nones n ++ Some v :: M') (sliced_at B n v)); [exact Ex|exact G| | |exact E|reflexivity]]|].
      + reflexivity.
      + reflexivity.
      + intros v Iv. apply in_range in Iv.
        assert (V64 : in64 v).
        { assert (P64 : in64 pd_) by (injection Rd as <-; apply C0).
          pose proof (wk_field W HW pd_ bd f_min (Z.of_nat n) P64 Bdd) as L1. pose proof (wk_field W HW pd_ bd f_max (Z.of_nat n) P64 Bdd) as L2.
          cbn [field_value] in L1, L2. rewrite dim_int_nat in L1, L2. unfold in64 in *. lia. }
        split; [exact V64|]. intros sa sb Ha Xa Ea. unfold body in Ea. cbn [exec] in Ea. unfold exec_slice_dim, lookup_buffer in Ea. rewrite (hr_sliced _ _ _ Ha) in Ea. cbn [bind] in Ea.
        destruct (Nat.leb_spec (rank B) n) as [Lr|_]; [unfold rank in Lr; lia|].
        assert (Ep : exists sa', quiet X sa sa' /\ with_object X sliced (sliced_at B n v) (exec X H (nest sliced 0 pre body0)) sa' = Val (0, sb)).
        { unfold sliced_at. rewrite <- place_step. unfold ev in Ea. cbn [eval bind] in Ea. rewrite Xa in Ea. destruct (base B); cbn [bind] in Ea; (eexists; split; [|exact Ea]).
          - exists (s_ctx X sa). split; [reflexivity|]. intros y. reflexivity.
          - apply quiet_refl. }
        destruct Ep as (sa' & Qa & Eb). pose proof (here_quiet _ _ _ _ Qa Ha) as Ha'.
        assert (Xa' : s_ctx X sa' x = v) by (destruct Qa as (c & -> & Qc); cbn [s_ctx set_ctx]; rewrite Qc; exact Xa).
        unfold with_object, with_value in Eb. apply bind_inv in Eb as ((z1, sc) & Eb & Ec). injection Ec as -> <-.
        apply bind_inv in Eb as ((z2, sd) & Eb & Ec). injection Ec as -> <-.
        eapply copies_ext; [| |eapply (IH (Some x :: suf) (Some v :: M')); [exact Eo| |eapply here_slice; eauto|exact Eb]].
        * destruct Qa as (c & -> & _). reflexivity.
        * reflexivity.
        * constructor; [split; discriminate|exact Pt].
      + eapply here_set; eauto. apply nones_mid.
      + eapply expected_slice; eauto.
  Qed.

  Lemma implement_ok body st st' : implement_copy simplify target sliced src src_x dst dst_x pad = Val body ->
    Stmt_Spec.inv st -> s_ctx X st = c0 -> (forall p b, w_buf W p = Some b -> s_buf X st p = Some b) ->
    exec X H body st = Val (0, st') -> copies st st' (copied bd bs coord).
  Proof.
    intros Ei Iv Ec Wb E. unfold implement_copy in Ei. rewrite Pass in Ei. cbn [bind] in Ei. injection Ei as <-. fold call_stmt in E.
    cbn [exec] in E. fold body0 in E. apply bind_inv in E as (b & El & E). apply lookup_buffer_inv in El.
    destruct (cp_distinct _ _ _ _ _ _ _ _ _ Ok) as (D1 & D2 & D3). destruct Fresh as (F1 & F2 & F3 & F4).
    destruct (cp_rank _ _ _ _ _ _ _ _ _ Ok) as (Rk & Rb). destruct (cp_dst _ _ _ _ _ _ _ _ _ Ok) as (pd_ & Rd & Bdd). injection Rd as Rd.
    assert (b = bd) by (rewrite Ec, Rd, (Wb _ _ Bdd) in El; congruence). subst b.
    unfold with_object, with_value in E. apply bind_inv in E as ((z1, sc) & Eb & E). injection E as -> <-.
    apply bind_inv in Eb as ((z2, sd) & Eb & E). injection E as -> <-.
    destruct pass_form as (Fo & _).
    assert (Lo : length o = length dst_x) by (clear -Fo; induction Fo; cbn [length]; congruence).
    assert (S0 : s_buf X st (s_next X st) = None) by (apply Iv; lia).
    eapply copies_ext; [| |eapply copies_perm; [eapply (nest_ok o [] [] _ sd bd); [rewrite app_nil_r; reflexivity|constructor| |exact Eb]|]].
    - reflexivity.
    - reflexivity.
    - rewrite app_nil_r, Lo. split; cbn [s_ctx s_buf set_ctx set_next set_buf].
      + exact (new_object_inv X st _ Iv).
      + intros y N1 N2. unfold ctx_set. destruct (Nat.eqb_spec y sliced); [congruence|]. rewrite Ec. reflexivity.
      + intros k x v _ En. unfold nones in En. apply nth_error_In, repeat_spec in En. discriminate.
      + intros k v En. unfold nones in En. apply nth_error_In, repeat_spec in En. discriminate.
      + intros p b Eb'. apply Wb in Eb'. destruct (Z.eqb_spec p (s_next X st)) as [->|]; [congruence|exact Eb'].
      + unfold ctx_set. rewrite Nat.eqb_refl, Z.eqb_refl. reflexivity.
      + apply repeat_length.
      + symmetry. apply kept_nones, Rk.
      + intros idx Li. rewrite fill_nones; [reflexivity|]. unfold rank in Rk. lia.
    - rewrite app_nil_r, Lo. unfold expected, copied. match goal with |- Permutation ?u ?w => assert (Q : u = w); [|rewrite Q; apply Permutation_refl] end.
      apply map_ext_in. intros idx Ib. apply in_box, in_bounds_length in Ib. rewrite fill_nones by (unfold rank in Rk; lia). reflexivity.
  Qed.
End Exec.
