(** Lemmas about implement_copy: is_linear and is_copy. *)
From Coq Require Import ZArith List Bool Lia.
From Verif Require Import Arith_Model Arith_Spec Arith_Proofs Buf_Model Buf_Spec Buf_Proofs ForEach_Spec Expr_Model Expr_Spec Expr_Proofs Expr_Props Stmt_Model
  Rewrite_Proofs Simplify_Model Simplify_Proofs Match_Model Const_Model Deps_Model Deps_Spec Deps_Proofs Deps_Props Subst_Model Subst_Spec SubstMean_Proofs SubstEval_Proofs
  Subst_Props CopyStmt_Model CopyStmt_Spec.
Import ListNotations.
Open Scope Z_scope.

(** *** Substituting what does not occur *)
Lemma any_takes_in l : any_of takes_address l <-> exists a, In a l /\ takes_address a.
Proof.
  induction l as [|a l IH]; cbn [any_of]; [split; [intros []|intros (? & [] & _)]|]. rewrite IH. split.
  - intros [T|(b & I & T)]; [exists a|exists b]; cbn; auto.
  - intros (b & [->|I] & T); eauto.
Qed.
Lemma occurs_make_bin y ro o a b : occurs y ro (make_bin o a b) <-> occurs y ro a \/ occurs y ro b.
Proof. unfold make_bin. destruct (commutative o && should_commute a b); cbn [occurs]; tauto. Qed.
Lemma takes_make_bin o a b : takes_address (make_bin o a b) <-> takes_address a \/ takes_address b.
Proof. unfold make_bin. destruct (commutative o && should_commute a b); cbn [takes_address]; tauto. Qed.
Lemma takes_lets l b : takes_address (ELet l b) <-> (exists v, In v (map snd l) /\ takes_address v) \/ takes_address b.
Proof.
  cbn [takes_address]. induction l as [|(s, v) l IH]; cbn [map snd In].
  - split; [auto|intros [(? & [] & _)|K]; exact K].
  - rewrite IH. split.
    + intros [K|[(w & I & K)|K]]; eauto.
    + intros [(w & [<-|I] & K)|K]; eauto.
Qed.
Section Absent.
  Variable x : nat.
  Variable rep : expr.
  Notation mut := (var_mutate x rep).
  Definition still (e : expr) : Prop := forall e', ~ free x e -> ~ takes_address e -> mut e = Val e' ->
    (forall y ro, occurs y ro e' -> occurs y ro e) /\ ~ takes_address e'.
  Lemma still_lets b : still b -> forall l, Forall (fun p => still (snd p)) l -> still (ELet l b).
  Proof.
    intros Hb l Hl e' Nf Nt E. unfold var_mutate in E. cbn [mutate] in E. apply bind_inv in E as ((l', all) & El & E). apply bind_inv in E as (b' & Eb & E). injection E as <-.
    revert l' all El Eb. induction Hl as [|(s, v) l Hv Hl IH]; intros l' all El Eb.
    - cbn [mutate_lets] in El. injection El as <- <-.
      assert (Nb : ~ free x b) by (intros K; apply Nf; rewrite <- free_lets; exact K).
      destruct (Hb _ Nb Nt Eb) as (K1 & K2). split; [intros y ro O; exact (K1 y ro O)|exact K2].
    - cbn [mutate_lets] in El. apply bind_inv in El as (v' & Ev & El). cbn [snd] in Hv. rewrite takes_lets in Nt. cbn [map snd In] in Nt.
      assert (Nv : ~ free x v) by (intros K; apply Nf, free_cons; auto). assert (Tv : ~ takes_address v) by (intros K; apply Nt; eauto).
      destruct (Hv _ Nv Tv Ev) as (V1 & V2).
      destruct (enter_var x rep s) eqn:En.
      + destruct (enter_true x rep s En) as (Ns & Ns'). apply bind_inv in El as ((l1, al) & El & K). injection K as <- <-.
        destruct (IH) with (l' := l1) (all := al) as (K1 & K2); auto.
        { intros K. apply Nf, free_cons. auto. }
        { rewrite takes_lets. intros [(w & I & K)|K]; apply Nt; eauto. }
        split.
        * intros y ro O. cbn [occurs in_lets] in *. destruct O as [O|(N & O)]; [left; auto|right; split; [exact N|]]. exact (K1 y ro O).
        * rewrite takes_lets in *. cbn [map snd In]. intros [(w & [<-|I] & K)|K]; [exact (V2 K)|apply K2; eauto|apply K2; eauto].
      + injection El as <- <-. injection Eb as <-. split.
        * intros y ro O. cbn [occurs in_lets] in *. destruct O as [O|O]; [left; auto|right; exact O].
        * rewrite takes_lets. cbn [map snd In]. intros [(w & [<-|I] & K)|K]; [exact (V2 K)|apply Nt; eauto|apply Nt; eauto].
  Qed.
  Lemma still_args l : Forall still l -> (forall a, In a l -> ~ free x a /\ ~ takes_address a) -> forall l', mutate_args mut l = Val l' ->
    (forall y ro, any_of (occurs y ro) l' -> any_of (occurs y ro) l) /\ ~ any_of takes_address l'.
  Proof.
    intros Hl N l' E. apply mutate_args_inv in E. induction E as [|b b' l l' Eb E IH]; cbn [any_of]; [split; auto|].
    inversion Hl; subst. destruct (N b (or_introl eq_refl)) as (N1 & N2). destruct (H1 _ N1 N2 Eb) as (K1 & K2).
    destruct (IH H2) as (J1 & J2); [intros a I; apply N; right; exact I|]. split; [intros y ro [O|O]; auto|tauto].
  Qed.
  Lemma still_all e : still e.
  Proof.
    induction e as [|s f d|l b IHl IHb|o a b IHa IHb|a IHa|q t f IHq IHt IHf|fn t l IHl|k] using expr_ind'.
    - intros e' _ _ E. injection E as <-. auto.
    - intros e' Nf _ E. unfold var_mutate in E. cbn [mutate] in E. unfold visit_var in E. destruct (Nat.eqb_spec s x) as [->|N].
      + destruct Nf. exists (RField f). cbn; auto.
      + injection E as <-. cbn; auto.
    - apply still_lets; assumption.
    - intros e' Nf Nt E. unfold var_mutate in E. cbn [mutate] in E. apply bind_inv in E as (a' & Ea & E). apply bind_inv in E as (b' & Eb & E). injection E as <-.
      rewrite free_bin_parts in Nf. cbn [takes_address] in Nt. destruct (IHa a') as (A1 & A2); auto. destruct (IHb b') as (B1 & B2); auto.
      split; [intros y ro; rewrite occurs_make_bin; cbn [occurs]; intros [O|O]; auto|rewrite takes_make_bin; tauto].
    - intros e' Nf Nt E. unfold var_mutate in E. cbn [mutate] in E. apply bind_inv in E as (a' & Ea & E). injection E as <-. exact (IHa a' Nf Nt Ea).
    - intros e' Nf Nt E. unfold var_mutate in E. cbn [mutate] in E. apply bind_inv in E as (q' & Eq & E). apply bind_inv in E as (t' & Et & E).
      apply bind_inv in E as (f' & Ef & E). injection E as <-. cbn [takes_address] in Nt.
      assert (P : forall a, a = q \/ a = t \/ a = f -> ~ free x a) by (intros a I (ro & O); apply Nf; exists ro; cbn [occurs]; destruct I as [ -> | [ -> | -> ] ]; auto).
      destruct (IHq q') as (Q1 & Q2); auto. destruct (IHt t') as (T1 & T2); auto. destruct (IHf f') as (F1 & F2); auto.
      cbn [occurs takes_address]. split; [intros y ro [O|[O|O]]; auto|tauto].
    - intros e' Nf Nt E. unfold var_mutate in E. cbn [mutate] in E. apply bind_inv in E as (l' & El & E). apply bind_inv in E as (l'' & El' & E). injection E as <-.
      assert (D : fn <> i_buffer_at) by (intros ->; apply Nt; exact I).
      assert (E2 : l'' = l') by (destruct fn; try (injection El' as ->; reflexivity); congruence). subst l''.
      assert (T : forall l, takes_address (ECall fn t l) <-> any_of takes_address l) by (intros; destruct fn; try reflexivity; congruence).
      assert (Oc : forall l y ro, occurs y ro (ECall fn t l) <-> any_of (occurs y ro) l) by (intros; destruct fn; try reflexivity; congruence).
      destruct (still_args l IHl) with (l' := l') as (K1 & K2); auto.
      { intros a I. split; [intros F; apply Nf; rewrite free_args by exact D; eauto|intros K; apply Nt; rewrite T, any_takes_in; eauto]. }
      split; [intros y ro; rewrite !Oc; apply K1|rewrite T; exact K2].
    - intros e' _ _ E. injection E as <-. auto.
  Qed.
End Absent.
Lemma absent_substitute W e x rep e' : ~ free x e -> ~ free x rep -> ~ takes_address e -> substitute e x rep = Val e' ->
  (forall y ro, occurs y ro e' -> occurs y ro e) /\ ~ takes_address e' /\ (forall r z, meaning W r e = Fin z -> meaning W r e' = Fin z).
Proof.
  intros N Nr T E. assert (K : (forall y ro, occurs y ro e' -> occurs y ro e) /\ ~ takes_address e').
  { unfold substitute in E. destruct (is_var rep x); [injection E as <-; auto|]. exact (still_all x rep e e' N T E). }
  destruct K as (K1 & K2). split; [exact K1|]. split; [exact K2|]. intros r z M.
  set (r' := env_set r x (meaning W r rep)).
  assert (Same : forall e, ~ free x e -> meaning W r' e = meaning W r e).
  { intros e0 N0. apply meaning_free. intros y F. unfold r', env_set. destruct (Nat.eqb_spec y x); [congruence|reflexivity]. }
  assert (R : refines (meaning W r' e) (meaning W r' e')).
  { eapply C16_never_captures; [|tauto|exact E]. rewrite Same by exact Nr. unfold r', env_set. rewrite Nat.eqb_refl. reflexivity. }
  rewrite !Same in R; auto; [|intros (ro & O); apply N; exists ro; auto]. rewrite M in R. destruct R as [R|R]; [discriminate|auto].
Qed.
Lemma only_dim_absent W dst d : forall dst_x e i e', ~ In dst dst_x -> (forall k y, nth_error dst_x k = Some y -> (i + k)%nat <> d -> ~ free y e) -> ~ takes_address e ->
  only_dim e dst dst_x i d = Val e' ->
  (forall y ro, occurs y ro e' -> occurs y ro e) /\ ~ takes_address e' /\ (forall r z, meaning W r e = Fin z -> meaning W r e' = Fin z).
Proof.
  induction dst_x as [|x l IH]; intros e i e' Nd N T E; cbn [only_dim] in E.
  - injection E as <-. auto.
  - apply bind_inv in E as (e1 & E1 & E). cbn [In] in Nd.
    assert (K : (forall y ro, occurs y ro e1 -> occurs y ro e) /\ ~ takes_address e1 /\ (forall r z, meaning W r e = Fin z -> meaning W r e1 = Fin z)).
    { destruct (Nat.eqb_spec i d) as [->|n]; [injection E1 as <-; auto|]. apply (absent_substitute W e x (EVar dst f_min (Z.of_nat i))); auto.
      - apply (N O x eq_refl). rewrite Nat.add_0_r. exact n.
      - rewrite free_metadata_var. intros ->. tauto. }
    destruct K as (K1 & K2 & K3). destruct (IH e1 (S i) e') as (J1 & J2 & J3); auto.
    { intros k y Ek Nk (ro & O). apply (N (S k) y Ek); [lia|]. exists ro. auto. }
Qed.

(** *** is_linear *)
Lemma d_var_free e x : (forall ro, occurs x ro e -> ro = RField f_none) -> (d_var (depends_on e x) = true <-> free x e).
Proof.
  intros Ix. rewrite <- C17_depends_on_exact. split.
  - intros V. unfold any_flag. rewrite V. reflexivity.
  - intros A. apply C17_depends_on_exact in A as (ro & O). pose proof (Ix ro O) as ->.
    pose proof (expr_reported false e x (RField f_none) [(x, TTracked 0)] (TTracked 0) O) as K.
    unfold find_deps in K. cbn [find_entry] in K. rewrite Nat.eqb_refl in K. specialize (K eq_refl).
    apply result_of_in in K. apply (proj1 K). reflexivity.
Qed.
Lemma d_var_any e xs : (forall x ro, In x xs -> occurs x ro e -> ro = RField f_none) -> (d_var (depends_on_any e xs) = true <-> exists x, In x xs /\ free x e).
Proof.
  intros Ix. rewrite <- C17_depends_on_any_exact. split.
  - intros V. unfold any_flag. rewrite V. reflexivity.
  - intros A. apply C17_depends_on_any_exact in A as (x & I & ro & O). pose proof (Ix x ro I O) as ->.
    destruct xs as [|x0 xs]; [destruct I|]. unfold depends_on_any.
    assert (K : In (TTracked 0, role_flags (RField f_none)) (visit_expr false (rev (map (fun x => (x, TTracked 0)) (x0 :: xs))) e))
      by (apply (expr_reported false e x); [exact O|]; apply find_tracked, I).
    apply result_of_in in K. apply (proj1 K). reflexivity.
Qed.
Lemma is_var_occurs e x : is_var e x = true -> exists d, e = EVar x f_none d.
Proof. destruct e; try discriminate. destruct f; try discriminate. cbn. intros E. apply Nat.eqb_eq in E. subst. eauto. Qed.
Lemma xadd_fin a b z : xadd a b = Fin z -> exists x y, a = Fin x /\ b = Fin y /\ z = x + y.
Proof. destruct a, b; cbn; intros E; try discriminate. injection E as <-. eauto. Qed.
Lemma xsub_fin a b z : xsub a b = Fin z -> exists x y, a = Fin x /\ b = Fin y /\ z = x - y.
Proof. intros E. apply xadd_fin in E as (x & y & -> & E & ->). destruct b; try discriminate. injection E as <-. exists x, z. split; [reflexivity|]. split; [reflexivity|]. lia. Qed.
Lemma xmul_fin a b z : xmul a b = Fin z -> exists x y, a = Fin x /\ b = Fin y /\ z = x * y.
Proof. destruct a, b; cbn; unfold xinf; intros E; repeat destruct (_ =? 0) in E; repeat destruct (_ <? _) in E; try discriminate. injection E as <-. eauto. Qed.
Definition line (W : world) (x : nat) (y a b : expr) : Prop :=
  forall r v z, r x = Fin v -> meaning W r y = Fin z -> exists va vb, meaning W r a = Fin va /\ meaning W r b = Fin vb /\ z = va * v + vb.
Definition within (x : nat) (a y : expr) : Prop := forall t ro, occurs t ro a -> occurs t ro y /\ t <> x.
Lemma within_bin o a b x y : within x a y -> within x b y -> within x (make_bin o a b) y.
Proof. intros A B t ro K. apply occurs_make_bin in K as [K|K]; auto. Qed.
Lemma within_sub x a y y' : (forall t ro, occurs t ro y -> occurs t ro y') -> within x a y -> within x a y'.
Proof. intros I A t ro K. destruct (A t ro K). auto. Qed.
Lemma within_free x e y : ~ free x e -> (forall t ro, occurs t ro e -> occurs t ro y) -> within x e y.
Proof. intros N I t ro K. split; [auto|]. intros ->. apply N. exists ro. exact K. Qed.
Lemma linear_ok W x : forall y a b, (forall ro, occurs x ro y -> ro = RField f_none) -> is_linear y x = Some (a, b) ->
  within x a y /\ within x b y /\ line W x y a b.
Proof.
  assert (Base : forall y a b, (forall ro, occurs x ro y -> ro = RField f_none) -> negb (d_var (depends_on y x)) = true -> Some (EConst 0, y) = Some (a, b) ->
    within x a y /\ within x b y /\ line W x y a b).
  { intros y a b Ix N E. injection E as <- <-. apply negb_true_iff in N.
    assert (Nf : ~ free x y) by (intros F; apply d_var_free in F; [congruence|exact Ix]).
    split; [intros t ro []|]. split; [apply within_free; auto|]. intros r v z _ M. exists 0, z. auto. }
  assert (Var : forall y a b, is_var y x = true -> Some (EConst 1, EConst 0) = Some (a, b) -> within x a y /\ within x b y /\ line W x y a b).
  { intros y a b V E. injection E as <- <-. apply is_var_occurs in V as (d & ->). split; [intros t ro []|]. split; [intros t ro []|].
    intros r v z R M. cbn [meaning] in *. exists 1, 0. rewrite R in M. injection M as <-. split; [reflexivity|]. split; [reflexivity|]. lia. }
  assert (Free : forall q, (forall ro, occurs x ro q -> ro = RField f_none) -> negb (d_var (depends_on q x)) = true -> ~ free x q).
  { intros q Ix N F. apply d_var_free in F; [|exact Ix]. rewrite F in N. discriminate. }
  induction y as [|s f d|l b0 IHl IHb|o p q IHp IHq|p IHp|c t f IHc IHt IHf|fn tg l IHl|k] using expr_ind'; intros a b Ix E; cbn [is_linear] in E;
    try (destruct (is_var _ x) eqn:V in E; [exact (Var _ _ _ V E)|]; destruct (negb _) eqn:N in E; [exact (Base _ _ _ Ix N E)|discriminate]).
  cbn [is_var] in E. destruct (negb (d_var (depends_on (EBin o p q) x))) eqn:N in E; [exact (Base _ _ _ Ix N E)|]. clear N.
  assert (Ip : forall ro, occurs x ro p -> ro = RField f_none) by (intros ro O; apply Ix; cbn [occurs]; auto).
  assert (Iq : forall ro, occurs x ro q -> ro = RField f_none) by (intros ro O; apply Ix; cbn [occurs]; auto).
  assert (Sp : forall t ro, occurs t ro p -> occurs t ro (EBin o p q)) by (cbn [occurs]; auto).
  assert (Sq : forall t ro, occurs t ro q -> occurs t ro (EBin o p q)) by (cbn [occurs]; auto).
  assert (Wp : forall e, within x e p -> within x e (EBin o p q)) by (intros e We; exact (within_sub x e p _ Sp We)).
  assert (Wq : forall e, within x e q -> within x e (EBin o p q)) by (intros e We; exact (within_sub x e q _ Sq We)).
  destruct o; try discriminate.
  - destruct (is_linear p x) as [(aa, ab)|]; [|discriminate]. destruct (is_linear q x) as [(ba, bb)|]; [|discriminate]. injection E as <- <-.
    destruct (IHp _ _ Ip eq_refl) as (A1 & A2 & A3). destruct (IHq _ _ Iq eq_refl) as (B1 & B2 & B3).
    split; [apply within_bin; auto|]. split; [apply within_bin; auto|]. intros r v z R M. cbn [meaning] in M. apply xadd_fin in M as (zp & zq & Mp & Mq & ->).
    destruct (A3 r v zp R Mp) as (va & vb & Ea & Eb & ->). destruct (B3 r v zq R Mq) as (va' & vb' & Ea' & Eb' & ->).
    exists (va + va'), (vb + vb'). unfold e_add. rewrite !make_bin_mean, Ea, Eb, Ea', Eb'. cbn. split; [reflexivity|]. split; [reflexivity|]. lia.
  - destruct (is_linear p x) as [(aa, ab)|]; [|discriminate]. destruct (is_linear q x) as [(ba, bb)|]; [|discriminate]. injection E as <- <-.
    destruct (IHp _ _ Ip eq_refl) as (A1 & A2 & A3). destruct (IHq _ _ Iq eq_refl) as (B1 & B2 & B3).
    split; [apply within_bin; auto|]. split; [apply within_bin; auto|]. intros r v z R M. cbn [meaning] in M. apply xsub_fin in M as (zp & zq & Mp & Mq & ->).
    destruct (A3 r v zp R Mp) as (va & vb & Ea & Eb & ->). destruct (B3 r v zq R Mq) as (va' & vb' & Ea' & Eb' & ->).
    exists (va - va'), (vb - vb'). unfold e_sub. rewrite !make_bin_mean, Ea, Eb, Ea', Eb'. cbn. split; [f_equal; lia|]. split; [f_equal; lia|]. lia.
  - assert (Left : forall a b a0 b0, is_linear p x = Some (a0, b0) -> negb (d_var (depends_on q x)) = true -> Some (e_mul a0 q, e_mul b0 q) = Some (a, b) ->
      within x a (EBin Mul p q) /\ within x b (EBin Mul p q) /\ line W x (EBin Mul p q) a b).
    { intros a1 b1 a0 b0 L N E'. injection E' as <- <-. destruct (IHp _ _ Ip L) as (A1 & A2 & A3). pose proof (within_free x q (EBin Mul p q) (Free q Iq N) Sq) as Q.
      split; [apply within_bin; auto|]. split; [apply within_bin; auto|]. intros r v z R M. cbn [meaning] in M. apply xmul_fin in M as (zp & zq & Mp & Mq & ->).
      destruct (A3 r v zp R Mp) as (va & vb & Ea & Eb & ->). exists (va * zq), (vb * zq). unfold e_mul. rewrite !make_bin_mean, Ea, Eb, Mq. cbn. split; [reflexivity|]. split; [reflexivity|]. lia. }
    assert (Right : forall a b a0 b0, is_linear q x = Some (a0, b0) -> negb (d_var (depends_on p x)) = true -> Some (e_mul a0 p, e_mul b0 p) = Some (a, b) ->
      within x a (EBin Mul p q) /\ within x b (EBin Mul p q) /\ line W x (EBin Mul p q) a b).
    { intros a1 b1 a0 b0 L N E'. injection E' as <- <-. destruct (IHq _ _ Iq L) as (A1 & A2 & A3). pose proof (within_free x p (EBin Mul p q) (Free p Ip N) Sp) as Q.
      split; [apply within_bin; auto|]. split; [apply within_bin; auto|]. intros r v z R M. cbn [meaning] in M. apply xmul_fin in M as (zp & zq & Mp & Mq & ->).
      destruct (A3 r v zq R Mq) as (va & vb & Ea & Eb & ->). exists (va * zp), (vb * zp). unfold e_mul. rewrite !make_bin_mean, Ea, Eb, Mp. cbn. split; [reflexivity|]. split; [reflexivity|]. lia. }
    destruct (is_linear q x) as [(qa, qb)|] eqn:Lq; destruct (is_linear p x) as [(pa, pb)|] eqn:Lp;
      repeat match type of E with context [negb (d_var (depends_on ?e x))] => destruct (negb (d_var (depends_on e x))) eqn:? in E end;
      try discriminate; eauto.
Qed.

(** *** is_copy *)
Lemma place_line sd a b v : straight sd -> 0 <= a -> let at_ := ediv (d_min sd - b + a - 1) a * a + b in
  oadd (place sd at_) (place (Dim (ediv (at_ - b) a) (ediv (d_max sd - b) a) (d_stride sd * a) (d_fold sd)) v) = place sd (a * v + b).
Proof.
  intros St A at_. unfold place at 2. cbn [d_stride d_min d_max d_fold]. unfold place. destruct (Z.eqb_spec (d_stride sd) 0) as [Z0|Z0].
  { rewrite Z0, Z.mul_0_l. reflexivity. }
  destruct St as [|Fo]; [congruence|]. rewrite Fo. rewrite Z.eqb_refl.
  destruct (Z.eq_dec a 0) as [->|Na].
  { subst at_. rewrite !ediv_0, !Z.mul_0_r, !Z.mul_0_l, !Z.add_0_l. cbn [Z.eqb]. rewrite oadd_0_r. reflexivity. }
  assert (Pa : 0 < a) by lia. destruct (Z.eqb_spec (d_stride sd * a) 0) as [Z1|_]; [nia|].
  rewrite !(ediv_pos _ a) by exact Pa. assert (Ea : at_ = (d_min sd - b + a - 1) / a * a + b) by (subst at_; rewrite ediv_pos by exact Pa; reflexivity). clearbody at_. set (q := (d_min sd - b + a - 1) / a) in *.
  assert (Eq : at_ - b = q * a) by lia. rewrite Eq, Z.div_mul by lia.
  pose proof (Z.div_mod (d_min sd - b + a - 1) a Na) as Dm. pose proof (Z.mod_pos_bound (d_min sd - b + a - 1) a Pa) as Bm. fold q in Dm.
  set (h := (d_max sd - b) / a). pose proof (Z.div_mod (d_max sd - b) a Na) as Dh. pose proof (Z.mod_pos_bound (d_max sd - b) a Pa) as Bh. fold h in Dh.
  assert (L : (d_min sd <=? a * v + b) = (q <=? v)) by (apply Bool.eq_iff_eq_true; rewrite !Z.leb_le; nia).
  assert (R : (a * v + b <=? d_max sd) = (v <=? h)) by (apply Bool.eq_iff_eq_true; rewrite !Z.leb_le; nia).
  assert (L' : (d_min sd <=? at_) = true) by (apply Z.leb_le; nia).
  rewrite L, R, L'. cbn [andb]. destruct (Z.leb_spec q v); destruct (Z.leb_spec v h); cbn [andb]; rewrite ?oadd_none_r; try reflexivity.
  destruct (Z.leb_spec at_ (d_max sd)); [cbn [oadd]; f_equal; nia|nia].
Qed.
Lemma place_direct sd a b lo hi v : straight sd -> lo <= v <= hi ->
  (forall t, lo <= t <= hi -> d_contains sd (a * t + b) = true) ->
  oadd (place sd (lo * a + b)) (place (Dim lo hi (d_stride sd * a) (d_fold sd)) v) = place sd (a * v + b).
Proof.
  intros St V In. unfold place. cbn [d_stride d_min d_max d_fold]. destruct (Z.eqb_spec (d_stride sd) 0) as [Z0|Z0].
  { rewrite Z0, Z.mul_0_l. reflexivity. }
  destruct St as [|Fo]; [congruence|]. rewrite Fo. rewrite Z.eqb_refl.
  pose proof (In lo ltac:(lia)) as C0. pose proof (In v V) as C1. unfold d_contains, d_contains2 in *.
  destruct (Z.eqb_spec (d_stride sd) 0); [congruence|]. cbn [orb] in *. rewrite (Z.mul_comm lo a). rewrite C0, C1.
  destruct (Z.eqb_spec (d_stride sd * a) 0) as [Z1|_].
  - assert (a = 0) by nia. subst a. cbn [oadd]. f_equal. nia.
  - destruct (Z.leb_spec lo v); [|lia]. destruct (Z.leb_spec v hi); [|lia]. cbn [andb oadd]. f_equal. nia.
Qed.

(** Where the element [f v] of a dimension of the source is: at the place of [at_], and from there at the place of [v] in
    the new dimension. *)
Definition new_dim (W : world) (r : env) (at_ : expr) (nd : dim_expr) (sd dd : dim) (f : Z -> Z) : Prop :=
  exists a lo hi s, meaning W r at_ = Fin a /\ meaning W r (fst (de_bounds nd)) = Fin lo /\ meaning W r (snd (de_bounds nd)) = Fin hi /\
    meaning W r (de_stride nd) = Fin s /\
    forall fo, (defined (de_fold nd) = true -> meaning W r (de_fold nd) = Bad \/ meaning W r (de_fold nd) = Fin fo) ->
    forall v, d_min dd <= v <= d_max dd -> oadd (place sd a) (place (Dim lo hi s fo) v) = place sd (f v).

Lemma mean_set W r x v e : ~ free x e -> meaning W (env_set r x v) e = meaning W r e.
Proof. intros N. apply meaning_free. intros y F. unfold env_set. destruct (Nat.eqb_spec y x); [congruence|reflexivity]. Qed.
Lemma select_or_undef_defined c t f : defined t = true -> defined f = true -> select_or_undef c t f = ESelect c t f.
Proof. intros T F. unfold select_or_undef. rewrite T, F. reflexivity. Qed.
Lemma make_bin_defined o a b : defined (make_bin o a b) = true.
Proof. unfold make_bin. destruct (_ && _); reflexivity. Qed.

Section IsCopy.
  Variable W : world.
  Variable simplify : expr -> res expr.
  Hypothesis Sf : simplifies W simplify.
  Variable r : env.
  Variables (src dst : nat) (ps pd : Z) (bs bd : buf).
  Hypothesis Rs : r src = Fin ps.
  Hypothesis Bs : w_buf W ps = Some bs.
  Hypothesis Rd : r dst = Fin pd.
  Hypothesis Bd : w_buf W pd = Some bd.
  Variable dst_x : list nat.
  Hypothesis Nd : NoDup dst_x.
  Hypothesis Ns : ~ In src dst_x.
  Hypothesis Nt : ~ In dst dst_x.
  Variables (src_d dst_d x : nat).
  Hypothesis Ex : nth_error dst_x dst_d = Some x.
  Hypothesis St : straight (dim_at bs src_d).

  Lemma field_mean s p b f d : r s = Fin p -> w_buf W p = Some b -> f <> f_none -> meaning W r (EVar s f (Z.of_nat d)) = Fin (field_value b f (Z.of_nat d) p).
  Proof. intros R B N. cbn [meaning]. destruct f; try congruence; rewrite R, B; reflexivity. Qed.
  Lemma dim_int_nat b d : dim_int b (Z.of_nat d) = dim_at b d.
  Proof. unfold dim_int. destruct (Z.ltb_spec (Z.of_nat d) 0); [lia|]. rewrite Nat2Z.id. reflexivity. Qed.

  Lemma is_copy_ok : forall e at_ nd f, is_copy simplify src e src_d dst dst_x dst_d = Val (Some (at_, nd)) ->
    index_only dst_x x e -> plain_selects dst_x e -> ~ takes_address e ->
    (forall v, meaning W (env_set r x (Fin v)) e = Fin (f v)) ->
    (free dst e -> forall v, d_min (dim_at bd dst_d) <= v <= d_max (dim_at bd dst_d) -> d_contains (dim_at bs src_d) (f v) = true) ->
    new_dim W r at_ nd (dim_at bs src_d) (dim_at bd dst_d) f.
  Proof.
    assert (Hx : In x dst_x) by (eapply nth_error_In; exact Ex).
    assert (Smin : meaning W r (EVar src f_min (Z.of_nat src_d)) = Fin (d_min (dim_at bs src_d))) by (rewrite (field_mean src ps bs), <- dim_int_nat; auto; discriminate).
    assert (Smax : meaning W r (EVar src f_max (Z.of_nat src_d)) = Fin (d_max (dim_at bs src_d))) by (rewrite (field_mean src ps bs), <- dim_int_nat; auto; discriminate).
    assert (Sstr : meaning W r (EVar src f_stride (Z.of_nat src_d)) = Fin (d_stride (dim_at bs src_d))) by (rewrite (field_mean src ps bs), <- dim_int_nat; auto; discriminate).
    assert (Sfold : meaning W r (EVar src f_fold_factor (Z.of_nat src_d)) = Fin (d_fold (dim_at bs src_d))) by (rewrite (field_mean src ps bs), <- dim_int_nat; auto; discriminate).
    assert (Dmin : meaning W r (EVar dst f_min (Z.of_nat dst_d)) = Fin (d_min (dim_at bd dst_d))) by (rewrite (field_mean dst pd bd), <- dim_int_nat; auto; discriminate).
    assert (Dmax : meaning W r (EVar dst f_max (Z.of_nat dst_d)) = Fin (d_max (dim_at bd dst_d))) by (rewrite (field_mean dst pd bd), <- dim_int_nat; auto; discriminate).
    assert (Leaf : forall e at_ nd f,
      (if negb (d_var (depends_on_any e dst_x)) then Val (Some (e, DimE (buffer_bounds dst dst_d) (EConst 0) EUndef))
       else
          e <- only_dim e dst dst_x 0 dst_d ;;
          e <- simplify e ;;
          match is_linear e (nth dst_d dst_x O) with
          | None => Val None
          | Some (a, b) =>
              scale <- simplify a ;;
              offset <- simplify b ;;
              bound <- evaluate_constant_lower_bound scale ;;
              match bound with
              | None => Val None
              | Some k =>
                  if k <? 0 then Val None
                  else
                    let stride := e_mul (buffer_stride src src_d) scale in
                    let fold := buffer_fold_factor src src_d in
                    if negb (any_flag (depends_on offset dst)) then
                      let at_ := e_add (e_align_up (e_sub (EVar src f_min (Z.of_nat src_d)) offset) scale) offset in
                      Val (Some (at_, DimE (e_div (e_sub at_ offset) scale, e_div (e_sub (EVar src f_max (Z.of_nat src_d)) offset) scale) stride fold))
                    else
                      Val (Some (e_add (e_mul (EVar dst f_min (Z.of_nat dst_d)) scale) offset, DimE (buffer_bounds dst dst_d) stride fold))
              end
          end) = Val (Some (at_, nd)) ->
      index_only dst_x x e -> ~ takes_address e -> (forall v, meaning W (env_set r x (Fin v)) e = Fin (f v)) ->
      (free dst e -> forall v, d_min (dim_at bd dst_d) <= v <= d_max (dim_at bd dst_d) -> d_contains (dim_at bs src_d) (f v) = true) ->
      defined (de_stride nd) = true /\ new_dim W r at_ nd (dim_at bs src_d) (dim_at bd dst_d) f).
    { intros e at_ nd f E Ix Ta M Pad. destruct (negb _) eqn:N in E.
      - injection E as <- <-. split; [reflexivity|]. apply negb_true_iff in N.
        assert (Nf : ~ free x e).
        { intros F. rewrite (proj2 (d_var_any e dst_x (fun y ro I O => proj2 (Ix y ro I O)))) in N; [discriminate|eauto]. }
        exists (f 0), (d_min (dim_at bd dst_d)), (d_max (dim_at bd dst_d)), 0. split; [rewrite <- (M 0); symmetry; apply mean_set; exact Nf|].
        split; [exact Dmin|]. split; [exact Dmax|]. split; [reflexivity|]. intros fo _ v _. unfold place at 2. cbn [d_stride Z.eqb]. rewrite oadd_0_r. f_equal.
        pose proof (M 0) as M0. pose proof (M v) as Mv. rewrite mean_set in M0, Mv by exact Nf. congruence.
      - apply bind_inv in E as (e1 & E1 & E). apply bind_inv in E as (e2 & E2 & E).
        destruct (only_dim_absent W dst dst_d dst_x e 0 e1) as (O1 & _ & M1); auto.
        { intros k y Ek Nk (ro & O). apply nth_error_In in Ek as Iy. destruct (Ix y ro Iy O) as (-> & _). apply Nk. cbn [Nat.add].
          apply (NoDup_nth_error dst_x); [exact Nd|apply nth_error_Some; congruence|congruence]. }
        rewrite (nth_error_nth dst_x dst_d O Ex) in E.
        destruct (is_linear e2 x) as [(a, b)|] eqn:L; [|discriminate].
        assert (Sub : forall t ro, occurs t ro e2 -> occurs t ro e) by (intros t ro O; apply O1; eapply (sf_symbols _ _ Sf); eauto).
        destruct (linear_ok W x e2 a b) as (Wa & Wb & Ln); [intros ro O; apply (Ix x ro Hx), Sub, O|exact L|].
        apply bind_inv in E as (scale & Es & E). apply bind_inv in E as (offset & Eo & E). apply bind_inv in E as (bound & Ek & E).
        destruct bound as [k|]; [|discriminate]. destruct (Z.ltb_spec k 0); [discriminate|].
        assert (Nsx : ~ free x scale) by (intros (ro & O); apply (sf_symbols _ _ Sf _ _ x ro Es) in O; destruct (Wa x ro O) as (_ & K); congruence).
        assert (Nox : ~ free x offset) by (intros (ro & O); apply (sf_symbols _ _ Sf _ _ x ro Eo) in O; destruct (Wb x ro O) as (_ & K); congruence).
        assert (Val2 : forall v, exists va vb, meaning W r scale = Fin va /\ meaning W r offset = Fin vb /\ f v = va * v + vb).
        { intros v. destruct (Ln (env_set r x (Fin v)) v (f v)) as (va & vb & Ma & Mb & Ef).
          - unfold env_set. rewrite Nat.eqb_refl. reflexivity.
          - eapply (sf_value _ _ Sf); [exact E2|]. apply M1, M.
          - exists va, vb. rewrite <- (mean_set W r x (Fin v) scale Nsx), <- (mean_set W r x (Fin v) offset Nox).
            split; [eapply (sf_value _ _ Sf); eauto|]. split; [eapply (sf_value _ _ Sf); eauto|exact Ef]. }
        destruct (Val2 0) as (va & vb & Ms & Mo & _).
        assert (Ef : forall v, f v = va * v + vb) by (intros v; destruct (Val2 v) as (va' & vb' & Ms' & Mo' & ->); congruence).
        assert (Pos : 0 <= va) by (pose proof (sf_bound _ _ Sf _ _ r va k Es Ms Ek); lia).
        assert (Mst : meaning W r (e_mul (buffer_stride src src_d) scale) = Fin (d_stride (dim_at bs src_d) * va)).
        { unfold e_mul, buffer_stride. rewrite make_bin_mean, Sstr, Ms. reflexivity. }
        cbn beta zeta in E. destruct (negb _) eqn:Dp in E.
        + set (at1 := e_add _ offset) in E. injection E as <- <-. cbn [de_stride]. split; [apply make_bin_defined|].
          assert (Ma : meaning W r at1 = Fin (ediv (d_min (dim_at bs src_d) - vb + va - 1) va * va + vb)).
          { unfold at1, e_align_up, e_add, e_mul, e_div, e_sub. rewrite !make_bin_mean, Smin, Ms, Mo. reflexivity. }
          pose proof (place_line (dim_at bs src_d) va vb) as Pl. cbn beta zeta in Pl.
          eexists _, _, _, _. cbn [de_bounds de_stride de_fold fst snd]. split; [exact Ma|].
          unfold e_div, e_sub, buffer_fold_factor. rewrite !make_bin_mean, Ma, Smax, Ms, Mo. split; [reflexivity|]. split; [reflexivity|]. split; [exact Mst|].
          intros fo Hf v _. rewrite Sfold in Hf. destruct (Hf eq_refl) as [Hb|Hb]; [discriminate|]. injection Hb as <-. rewrite Ef. rewrite <- (Pl v St Pos). reflexivity.
        + injection E as <- <-. cbn [de_stride]. split; [apply make_bin_defined|].
          apply negb_false_iff, C17_depends_on_exact in Dp.
          assert (Fd : free dst e).
          { destruct Dp as (ro & O). exists ro. apply Sub. apply (sf_symbols _ _ Sf _ _ dst ro Eo) in O. apply (proj1 (Wb dst ro O)). }
          eexists _, _, _, _. cbn [de_bounds de_stride de_fold fst snd buffer_bounds].
          split; [unfold e_add, e_mul; rewrite !make_bin_mean, Dmin, Ms, Mo; reflexivity|]. split; [exact Dmin|]. split; [exact Dmax|]. split; [exact Mst|].
          intros fo Hf v Hv. unfold buffer_fold_factor in Hf. rewrite Sfold in Hf. destruct (Hf eq_refl) as [Hb|Hb]; [discriminate|]. injection Hb as <-. rewrite Ef. apply place_direct; auto.
          intros t Ht. rewrite <- Ef. apply Pad; auto. }
    cut (forall e at_ nd, is_copy simplify src e src_d dst dst_x dst_d = Val (Some (at_, nd)) -> defined (de_stride nd) = true).
    2: { induction e as [|s f d|l b IHl IHb|o p q IHp IHq|p IHp|c t f IHc IHt IHf|fn tg l IHl|k] using expr_ind'; intros at_ nd E; cbn [is_copy] in E.
      6: { apply bind_inv in E as ([(at_t, dim_t)|] & Et & E); [|discriminate]. apply bind_inv in E as ([(at_f, dim_f)|] & Ef & E); [|discriminate].
           injection E as <- <-. cbn [select_dim de_stride]. rewrite select_or_undef_defined by eauto. reflexivity. }
      all: destruct (negb _) in E; [injection E as <- <-; reflexivity|];
        apply bind_inv in E as (e1 & _ & E); apply bind_inv in E as (e2 & _ & E); destruct (is_linear _ _) as [(a, b')|]; [|discriminate];
        apply bind_inv in E as (scale & _ & E); apply bind_inv in E as (offset & _ & E); apply bind_inv in E as ([k'|] & _ & E); [|discriminate];
        destruct (_ <? _); [discriminate|]; cbn beta zeta in E; destruct (negb _) in E; injection E as <- <-; apply make_bin_defined. }
    intros Df. induction e as [|s fd d|l b IHl IHb|o p q IHp IHq|p IHp|c t fl IHc IHt IHf|fn tg l IHl|k] using expr_ind'; intros at_ nd f E Ix Ps Ta M Pad.
    6: { cbn [is_copy] in E. apply bind_inv in E as ([(at_t, dim_t)|] & Et & E); [|discriminate]. apply bind_inv in E as ([(at_f, dim_f)|] & Ef & E); [|discriminate].
         injection E as <- <-. cbn [plain_selects] in Ps. destruct Ps as (Pc & Pt & Pf). cbn [takes_address] in Ta.
         assert (Nc : ~ free x c) by (apply Pc, Hx).
         assert (Mc : exists vc, meaning W r c = Fin vc).
         { specialize (M 0). cbn [meaning] in M. rewrite mean_set in M by exact Nc. destruct (meaning W r c); try discriminate. eauto. }
         destruct Mc as (vc & Mc).
         assert (Mb : forall v, meaning W (env_set r x (Fin v)) (if truthy vc then t else fl) = Fin (f v)).
         { intros v. specialize (M v). cbn [meaning] in M. rewrite (mean_set W r x _ c Nc), Mc in M. cbn [xselect] in M. destruct (truthy vc); exact M. }
         assert (G : new_dim W r (if truthy vc then at_t else at_f) (if truthy vc then dim_t else dim_f) (dim_at bs src_d) (dim_at bd dst_d) f).
         { destruct (truthy vc); [apply (IHt _ _ _ Et)|apply (IHf _ _ _ Ef)]; auto; try tauto.
           1, 3: intros y ro I O; apply (Ix y ro I); cbn [occurs]; auto.
           all: intros (ro & O); apply Pad; exists ro; cbn [occurs]; auto. }
         destruct G as (a & lo & hi & s & Ga & Gl & Gh & Gs & G). exists a, lo, hi, s. cbn [select_dim select_interval de_bounds de_stride de_fold fst snd].
         rewrite (select_or_undef_defined c) by eauto. cbn [meaning]. rewrite Mc. cbn [xselect].
         destruct (truthy vc) eqn:Tv; (split; [exact Ga|]; split; [exact Gl|]; split; [exact Gh|]; split; [exact Gs|]);
           intros fo Hf v Hv; apply G; auto; intros D; unfold select_or_undef in Hf; rewrite D in Hf; rewrite ?andb_true_r in Hf; cbn [andb] in Hf.
         - destruct (defined (de_fold dim_f)); [|exact (Hf D)]. specialize (Hf eq_refl). cbn [meaning] in Hf. rewrite Mc in Hf. cbn [xselect] in Hf. rewrite Tv in Hf. exact Hf.
         - destruct (defined (de_fold dim_t)); [|exact (Hf D)]. specialize (Hf eq_refl). cbn [meaning] in Hf. rewrite Mc in Hf. cbn [xselect] in Hf. rewrite Tv in Hf. exact Hf. }
    all: apply (Leaf _ at_ nd f E Ix Ta M Pad).
  Qed.
End IsCopy.
