(** Substitution and the meaning of expressions. *)
From Coq Require Import ZArith List Bool Lia.
From Verif Require Import Arith_Model Arith_Proofs Buf_Model Alloc_Model Expr_Model Expr_Spec Expr_Proofs Stmt_Model Rewrite_Proofs
  Simplify_Model Simplify_Proofs Deps_Model Deps_Spec Subst_Model Subst_Spec.
Import ListNotations.
Open Scope Z_scope.

Lemma free_lets x l b : in_lets (free x) x l (free x b) <-> free x (ELet l b).
Proof.
  unfold free. cbn [occurs]. induction l as [|(s, v) l IH]; cbn [in_lets]; [tauto|]. split.
  - intros [(ro & O)|(N & K)]; [exists ro; auto|]. apply IH in K as (ro & K). exists ro. auto.
  - intros (ro & [O|(N & K)]); [left; eauto|]. right. split; [exact N|]. apply IH. eauto.
Qed.
Lemma free_cons x s v l b : free x (ELet ((s, v) :: l) b) <-> free x v \/ (s <> x /\ free x (ELet l b)).
Proof. rewrite <- !free_lets. cbn [in_lets]. tauto. Qed.
Lemma any_takes a l : In a l -> takes_address a -> any_of takes_address l.
Proof. induction l as [|b l IH]; [intros []|]. intros [->|I] T; cbn [any_of]; auto. Qed.
Lemma any_free x l : any_of (free x) l <-> exists a, In a l /\ free x a.
Proof.
  induction l as [|b l IH]; cbn [any_of In]; [split; [intros []|intros (? & [] & _)]|]. rewrite IH. split.
  - intros [H|(a & I & H)]; eauto.
  - intros (a & [->|I] & H); eauto.
Qed.
Lemma any_occurs x ro l : any_of (occurs x ro) l <-> exists a, In a l /\ occurs x ro a.
Proof.
  induction l as [|b l IH]; cbn [any_of In]; [split; [intros []|intros (? & [] & _)]|]. rewrite IH. split.
  - intros [H|(a & I & H)]; eauto.
  - intros (a & [->|I] & H); eauto.
Qed.
(** an argument's free symbols are free in the call, except when the argument is the first of
    a buffer_at and not a plain variable *)
Lemma free_arg x fn t l a : In a l -> free x a -> (fn = i_buffer_at -> exists s d l', l = EVar s f_none d :: l') -> free x (ECall fn t l).
Proof.
  intros I (ro & O) B. unfold free. destruct fn; cbn [occurs]; try (exists ro; apply any_occurs; eauto; fail).
  destruct (B eq_refl) as (s & d & l' & ->). destruct I as [<-|I].
  - cbn [occurs] in O. destruct O as (-> & _). exists RAddress. left. auto.
  - exists ro. right. apply any_occurs. eauto.
Qed.
Lemma free_at_tail x t a l b : In b l -> free x b -> free x (ECall i_buffer_at t (a :: l)).
Proof.
  intros I (ro & O). exists ro. cbn [occurs]. assert (any_of (occurs x ro) l) by (apply any_occurs; eauto).
  destruct a; auto. destruct f; auto.
Qed.
Lemma occurs_at_tail x ro t a l b : In b l -> occurs x ro b -> occurs x ro (ECall i_buffer_at t (a :: l)).
Proof.
  intros I O. cbn [occurs]. assert (any_of (occurs x ro) l) by (apply any_occurs; eauto).
  destruct a; auto. destruct f; auto.
Qed.

Section Free.
  Variable W : world.
  Definition mean_free (e : expr) : Prop := forall r r', (forall y, free y e -> r y = r' y) -> meaning W r e = meaning W r' e.
  Lemma lets_free (b : expr) : mean_free b -> forall l, Forall (fun p => mean_free (snd p)) l -> mean_free (ELet l b).
  Proof.
    intros Hb l Hl. induction Hl as [|(s, v) l Hv Hl IH]; intros r r' A.
    - cbn [meaning xlets]. apply Hb. intros y F. apply A. apply free_lets. exact F.
    - cbn [meaning xlets]. cbn [snd] in Hv. rewrite (Hv r r') by (intros; apply A, free_cons; auto).
      destruct (meaning W r' v) as [z| | |] eqn:E; [..|reflexivity]; apply IH; intros y F; unfold env_set;
        (destruct (Nat.eqb_spec y s); [reflexivity|]; apply A, free_cons; auto).
  Qed.
  Lemma meaning_free e : mean_free e.
  Proof.
    induction e as [|s f d|l b IHl IHb|o a b IHa IHb|a IHa|q t f IHq IHt IHf|fn t l IHl|k] using expr_ind'; try (intros r r' A; reflexivity).
    - intros r r' A. cbn [meaning]. rewrite (A s) by (exists (RField f); cbn; auto). reflexivity.
    - apply lets_free; assumption.
    - intros r r' A. cbn [meaning]. rewrite (IHa r r'), (IHb r r'); [reflexivity| |]; intros y (ro & O); apply A; exists ro; cbn; auto.
    - intros r r' A. cbn [meaning]. rewrite (IHa r r'); [reflexivity|]. intros y (ro & O); apply A; exists ro; cbn; auto.
    - intros r r' A. cbn [meaning]. rewrite (IHq r r'), (IHt r r'), (IHf r r'); [reflexivity| | |]; intros y (ro & O); apply A; exists ro; cbn; auto.
    - intros r r' A. rewrite Forall_forall in IHl.
      assert (G : (fn = i_buffer_at -> exists s d l', l = EVar s f_none d :: l') ->
        map (fun a => (defined a, meaning W r a)) l = map (fun a => (defined a, meaning W r' a)) l).
      { intros B. apply map_ext_in. intros a I. f_equal. apply IHl; [exact I|]. intros y F. apply A. eapply free_arg; eauto. }
      destruct fn; cbn [meaning]; try (rewrite G by discriminate; reflexivity).
      destruct l as [|e l]; [reflexivity|]. destruct e; try reflexivity. destruct f; try reflexivity.
      rewrite G by (intros _; eauto). cbn [xcall map]. rewrite (A sym) by (exists RAddress; cbn; auto). reflexivity.
  Qed.
End Free.

(** the relation between arguments before and after *)
Definition arg_ref (a b : bool * xval) : Prop :=
  (fst a = false /\ fst b = false) \/ (fst a = true /\ (snd a = Bad \/ (fst b = true /\ snd a = snd b))).
Lemma xargs_ref l l' : Forall2 arg_ref l l' -> forall vs, xargs l = Some vs -> xargs l' = Some vs.
Proof.
  induction 1 as [|(b, v) (b', v') l l' A H IH]; intros vs E; [exact E|]. cbn [xargs] in *. unfold arg_ref in A. cbn [fst snd] in A.
  destruct b.
  - destruct v as [z| | |]; try discriminate. destruct A as [(K & _)|(_ & [K|(-> & <-)])]; try discriminate.
    destruct (xargs l); [|discriminate]. rewrite (IH _ eq_refl). exact E.
  - destruct A as [(_ & ->)|(K & _)]; [|discriminate]. destruct (xargs l); [|discriminate]. rewrite (IH _ eq_refl). exact E.
Qed.
Lemma refines_xargs l l' (k : list (option Z) -> xval) : Forall2 arg_ref l l' ->
  refines (match xargs l with Some vs => k vs | None => Bad end) (match xargs l' with Some vs => k vs | None => Bad end).
Proof. intros H. destruct (xargs l) as [vs|] eqn:E; [|left; reflexivity]. rewrite (xargs_ref _ _ H _ E). right. reflexivity. Qed.
Lemma refines_xshort stop l l' : Forall2 refines l l' -> refines (xshort stop l) (xshort stop l').
Proof.
  induction 1 as [|v v' l l' A H IH]; [right; reflexivity|]. cbn [xshort]. destruct A as [->|<-]; [left; reflexivity|].
  destruct v; try (left; reflexivity). destruct (Bool.eqb _ _); [right; reflexivity|exact IH].
Qed.
Lemma Forall2_firstn {A B} (R : A -> B -> Prop) n : forall l l', Forall2 R l l' -> Forall2 R (firstn n l) (firstn n l').
Proof. induction n; intros l l' H; [constructor|]. inversion H; subst; cbn [firstn]; constructor; auto. Qed.

Lemma mutate_args_inv m l : forall l', mutate_args m l = Val l' -> Forall2 (fun a a' => m a = Val a') l l'.
Proof.
  induction l as [|a l IH]; intros l' E; cbn [mutate_args] in E; [injection E as <-; constructor|].
  apply bind_inv in E as (a' & Ea & E). apply bind_inv in E as (q & Eq & E). injection E as <-. constructor; auto.
Qed.
Lemma fill_mins_clear impl s l : (forall d, impl s d = EUndef) -> forall d, fill_mins impl s d l = Val (clear_mins s (Z.of_nat d) l).
Proof.
  intros I. induction l as [|a l IH]; intros d; [reflexivity|]. cbn [fill_mins clear_mins]. rewrite I, IH, Nat2Z.inj_succ, <- Z.add_1_r.
  destruct a; reflexivity.
Qed.

(** ** The general statement *)
Section General.
  Variable W : world.
  Variable enter : nat -> bool.
  Variable vis : nat -> field -> Z -> res expr.
  Variable impl : nat -> nat -> expr.
  Variable rk : nat -> nat.
  Variable x : nat.
  (** the symbols of the replacement *)
  Variable F : nat -> Prop.
  Variable vx : xval.
  (** the environments in which the replacement has the right value *)
  Variable good : env -> Prop.
  (** the roles in which the target may occur *)
  Variable allowed : role -> Prop.
  Hypothesis enter_spec : forall s, enter s = true -> s <> x.
  Hypothesis enter_fail : forall s, enter s = false -> s = x \/ F s.
  Hypothesis good_set : forall r s v, good r -> ~ F s -> good (env_set r s v).
  Hypothesis vis_other : forall s f d, s <> x -> vis s f d = Val (EVar s f d).
  Hypothesis vis_target : forall r r' f d e, good r -> r' x = vx -> allowed (RField f) -> vis x f d = Val e ->
    refines (meaning W r' (EVar x f d)) (meaning W r e).
  Hypothesis vis_head : forall r d e, good r -> allowed RAddress -> vis x f_none d = Val e ->
    (e = EUndef -> vx = Bad) /\ forall s k, e = EVar s f_none k -> r s = vx /\ (forall j, impl s j = EUndef) /\ rk s = O.
  Hypothesis impl_other : forall s d, s <> x -> impl s d = EUndef.
  Hypothesis rk_other : forall s, s <> x -> rk s = O.

  Notation mut := (mutate enter vis impl rk).
  Definition related (r r' : env) : Prop := (forall y, y <> x -> r y = r' y) /\ r' x = vx.
  Definition based (e : expr) : Prop := takes_address e -> forall p b, w_buf W p = Some b -> based_at_min b.
  (** nothing is captured, or the target has the value of the replacement anyway *)
  Definition exact_at (r : env) : Prop := (forall s, enter s = true -> ~ F s) /\ r x = vx.
  Definition cap (r : env) (P : Prop) : Prop := P \/ exact_at r.
  Lemma cap_imp r (P Q : Prop) : (P -> Q) -> cap r P -> cap r Q.
  Proof. unfold cap. tauto. Qed.
  Lemma exact_set r s v : exact_at r -> s <> x -> exact_at (env_set r s v).
  Proof. intros (A & B) N. split; [exact A|]. unfold env_set. destruct (Nat.eqb_spec x s); [congruence|exact B]. Qed.
  Definition sok (e : expr) : Prop := forall r r' e', related r r' -> (free x e -> good r) ->
    cap r (no_capture x F e) -> (forall ro, occurs x ro e -> allowed ro) -> based e ->
    mut e = Val e' -> refines (meaning W r' e) (meaning W r e').

  Lemma related_set r r' s v : related r r' -> s <> x -> related (env_set r s v) (env_set r' s v).
  Proof.
    intros (A & B) N. split.
    - intros y Ny. unfold env_set. destruct (y =? s)%nat; auto.
    - unfold env_set. destruct (Nat.eqb_spec x s); [congruence|exact B].
  Qed.

  Lemma lets_sok b : sok b -> forall l, Forall (fun p => sok (snd p)) l -> sok (ELet l b).
  Proof.
    intros Hb l Hl r r' e' R G C A Ba E. cbn [mutate] in E.
    apply bind_inv in E as ((l', all) & El & E). apply bind_inv in E as (b' & Eb & E). injection E as <-.
    cbn [meaning]. revert l' all r r' R G C A Ba El Eb. induction Hl as [|(s, v) l Hv Hl IH]; intros l' all r r' R G C A Ba El Eb.
    - cbn [mutate_lets] in El. injection El as <- <-. cbn [xlets]. apply Hb; auto.
    - cbn [mutate_lets] in El. apply bind_inv in El as (v' & Ev & El). cbn [no_capture no_capture_lets] in C.
      cbn [snd] in Hv. assert (Cv : cap r (no_capture x F v)) by (eapply cap_imp; [|exact C]; tauto).
      assert (Kv : refines (meaning W r' v) (meaning W r v')).
      { apply Hv; auto; [intros K; apply G, free_cons; auto|intros ro O; apply A; cbn [occurs in_lets]; auto|intros K; apply Ba; cbn [takes_address]; auto]. }
      assert (Bl : based (ELet l b)) by (intros K; apply Ba; cbn [takes_address]; right; exact K).
      assert (AL : s <> x -> forall ro, occurs x ro (ELet l b) -> allowed ro).
      { intros N ro O. apply A. cbn [occurs in_lets] in *. auto. }
      destruct (enter s) eqn:En.
      + pose proof (enter_spec s En) as Ns. apply bind_inv in El as ((l1, al) & El & K). injection K as <- <-.
        assert (Cs : in_lets (free x) x l (free x b) -> ~ F s).
        { destruct C as [(_ & [->|(C & _)])|C]; [congruence|exact C|]. intros _. apply C, En. }
        assert (C' : forall w, cap (env_set r s w) (no_capture_lets x F (no_capture x F) b l)).
        { intros w. destruct C as [(_ & [->|(_ & C)])|C]; [congruence|left; exact C|right; apply exact_set; assumption]. }
        cbn [xlets].
        destruct Kv as [Kv|Kv]; [rewrite Kv; left; reflexivity|]. rewrite <- Kv.
        destruct (meaning W r' v) as [z| | |] eqn:Mv; [..|left; reflexivity];
          (eapply IH; [apply related_set; assumption| |apply C'|exact (AL Ns)|exact Bl|exact El|exact Eb];
           intros K; apply good_set; [apply G, free_cons; auto|apply Cs, free_lets, K]).
      + injection El as <- <-. injection Eb as <-. cbn [xlets].
        destruct Kv as [Kv|Kv]; [rewrite Kv; left; reflexivity|]. rewrite <- Kv.
        assert (Q : forall w, meaning W (env_set r' s w) (ELet l b) = meaning W (env_set r s w) (ELet l b)).
        { intros w. apply meaning_free. intros y Fy. unfold env_set. destruct (Nat.eqb_spec y s); [reflexivity|].
          destruct R as (R & Rx). symmetry. destruct (Nat.eq_dec y x) as [->|Ny]; [|exact (R y Ny)].
          destruct C as [(_ & C)|C]; [|rewrite Rx; apply C].
          destruct (enter_fail s En) as [->|Fs]; [congruence|]. destruct C as [->|(Cs & _)]; [congruence|].
          exfalso. apply Cs; [|exact Fs]. apply free_lets. exact Fy. }
        cbn [meaning] in Q. destruct (meaning W r' v); rewrite ?Q; right; reflexivity.
  Qed.

  Lemma args_ref r r' l l' : related r r' -> Forall sok l -> (forall a, In a l -> free x a -> good r) -> cap r (no_capture_all (no_capture x F) l) ->
    (forall a ro, In a l -> occurs x ro a -> allowed ro) -> (forall a, In a l -> based a) ->
    mutate_args mut l = Val l' ->
    Forall2 refines (map (meaning W r') l) (map (meaning W r) l') /\
    Forall2 arg_ref (map (fun a => (defined a, meaning W r' a)) l) (map (fun a => (defined a, meaning W r a)) l').
  Proof.
    intros R Hl G C A Ba E. apply mutate_args_inv in E. induction E as [|a a' l l' Ea E IH]; [split; constructor|].
    inversion Hl as [|? ? Ha Hl']; subst. cbn [no_capture_all] in C.
    assert (Ca : cap r (no_capture x F a)) by (eapply cap_imp; [|exact C]; tauto). apply (cap_imp _ _ (no_capture_all (no_capture x F) l)) in C; [|tauto].
    assert (K : refines (meaning W r' a) (meaning W r a')).
    { apply Ha; auto; [intros K; apply (G a); cbn; auto|intros ro O; apply (A a ro); cbn; auto|apply Ba; cbn; auto]. }
    destruct IH as (I1 & I2); auto; [intros b I; apply G; cbn; auto|intros b ro I; apply A; cbn; auto|intros b I; apply Ba; cbn; auto|].
    cbn [map]. split; constructor; auto. unfold arg_ref. cbn [fst snd]. destruct a; cbn [defined].
    { left. cbn [mutate] in Ea. injection Ea as <-. auto. }
    all: right; split; [reflexivity|]; destruct K as [K|K]; [left; exact K|]; destruct (defined a') eqn:D; [right; auto|left; destruct a'; try discriminate D; exact K].
  Qed.

  Lemma sub_mean e : sok e.
  Proof.
    induction e as [|s f d|l b IHl IHb|o a b IHa IHb|a IHa|q t f IHq IHt IHf|fn t l IHl|k] using expr_ind'.
    - intros r r' e' R G C A Ba E. injection E as <-. left. reflexivity.
    - intros r r' e' R G C A Ba E. cbn [mutate] in E. destruct (Nat.eq_dec s x) as [->|N].
      + apply (vis_target r r' f d e'); [apply G; exists (RField f); cbn; auto|apply R|apply A; cbn; auto|exact E].
      + rewrite vis_other in E by exact N. injection E as <-. right. cbn [meaning]. destruct R as (R & _). rewrite (R s N). reflexivity.
    - apply lets_sok; assumption.
    - intros r r' e' R G C A Ba E. cbn [no_capture] in C.
      assert (Ca : cap r (no_capture x F a)) by (eapply cap_imp; [|exact C]; tauto). assert (Cb : cap r (no_capture x F b)) by (eapply cap_imp; [|exact C]; tauto). cbn [mutate] in E. apply bind_inv in E as (a' & Ea & E). apply bind_inv in E as (b' & Eb & E). injection E as <-.
      rewrite make_bin_mean. cbn [meaning]. apply refines_xbin.
      + apply IHa; auto; [intros (ro & O); apply G; exists ro; cbn; auto|intros ro O; apply A; cbn; auto|intros K; apply Ba; cbn; auto].
      + apply IHb; auto; [intros (ro & O); apply G; exists ro; cbn; auto|intros ro O; apply A; cbn; auto|intros K; apply Ba; cbn; auto].
    - intros r r' e' R G C A Ba E. cbn [mutate] in E. apply bind_inv in E as (a' & Ea & E). injection E as <-. cbn [meaning]. apply refines_xnot. apply IHa; auto.
    - intros r r' e' R G C A Ba E. cbn [no_capture] in C.
      assert (Cq : cap r (no_capture x F q)) by (eapply cap_imp; [|exact C]; tauto). assert (Ct : cap r (no_capture x F t)) by (eapply cap_imp; [|exact C]; tauto).
      assert (Cf : cap r (no_capture x F f)) by (eapply cap_imp; [|exact C]; tauto). cbn [mutate] in E. apply bind_inv in E as (q' & Eq & E). apply bind_inv in E as (t' & Et & E).
      apply bind_inv in E as (f' & Ef & E). injection E as <-. cbn [meaning]. apply refines_xselect.
      + apply IHq; auto; [intros (ro & O); apply G; exists ro; cbn; auto|intros ro O; apply A; cbn; auto|intros K; apply Ba; cbn; auto].
      + apply IHt; auto; [intros (ro & O); apply G; exists ro; cbn; auto|intros ro O; apply A; cbn; auto|intros K; apply Ba; cbn; auto].
      + apply IHf; auto; [intros (ro & O); apply G; exists ro; cbn; auto|intros ro O; apply A; cbn; auto|intros K; apply Ba; cbn; auto].
    - intros r r' e' R G C A Ba E. cbn [mutate] in E. apply bind_inv in E as (l' & El & E). apply bind_inv in E as (l'' & El' & E). injection E as <-.
      cbn [no_capture] in C. assert (D : fn = i_buffer_at \/ fn <> i_buffer_at) by (destruct fn; auto; right; discriminate).
      destruct D as [->|D].
      + destruct l as [|e l]; [left; reflexivity|]. destruct e as [|s f d| | | | | |]; try (left; reflexivity). destruct f; try (left; reflexivity).
        cbn [mutate_args mutate] in El. apply bind_inv in El as (h & Eh & El). apply bind_inv in El as (m & Em & El). injection El as <-.
        inversion IHl as [|? ? _ IHl']; subst. cbn [no_capture_all] in C. apply (cap_imp _ _ (no_capture_all (no_capture x F) l)) in C; [|tauto].
        destruct (args_ref r r' l m) as (_ & K); auto.
        { intros a I Fa. apply G. eapply free_at_tail; eauto. }
        { intros a ro I O. apply A. eapply occurs_at_tail; eauto. }
        { intros a I T. apply Ba. cbn. exact Logic.I. }
        assert (H : h = EUndef \/ exists s' k', h = EVar s' f_none k' /\ r s' = r' s /\ (forall j, impl s' j = EUndef) /\ rk s' = O \/ (forall s k, h <> EVar s f_none k) /\ h <> EUndef).
        { destruct (Nat.eq_dec s x) as [->|N].
          - assert (Gr : good r) by (apply G; exists RAddress; cbn; auto). assert (AR : allowed RAddress) by (apply A; cbn; auto).
            destruct (vis_head r d h Gr AR Eh) as (_ & K'). destruct R as (_ & R).
            destruct h as [|s' f' k'| | | | | |]; try (right; exists O, 0; right; split; [intros; discriminate|discriminate]); [auto|].
            destruct f'; try (right; exists O, 0; right; split; [intros; discriminate|discriminate]).
            right. exists s', k'. left. destruct (K' s' k' eq_refl) as (K1 & K2 & K3). rewrite R. auto.
          - rewrite vis_other in Eh by exact N. injection Eh as <-. right. exists s, d. left. destruct R as (R & _). auto. }
        cbn [map] in *. destruct H as [->|(s' & k' & [(-> & Rs & Im & Rk)|(H1 & H2)])].
        * (* the head became undefined: it had no value *)
          destruct (Nat.eq_dec s x) as [->|N]; [|rewrite vis_other in Eh by exact N; discriminate Eh].
          left. assert (Gr : good r) by (apply G; exists RAddress; cbn; auto).
          assert (AR : allowed RAddress) by (apply A; cbn; auto).
          destruct R as (_ & R). cbn [meaning xcall map]. rewrite R.
          rewrite (proj1 (vis_head r d EUndef Gr AR Eh) eq_refl). reflexivity.
        * cbn [finish_at] in El'. rewrite Rk in El'. unfold pad in El'. cbn [Nat.sub repeat] in El'. rewrite app_nil_r in El'.
          rewrite (fill_mins_clear impl s' m Im 0) in El'. cbn [bind] in El'. injection El' as <-. cbn [Z.of_nat].
          eapply refines_trans; [|apply buffer_at_args; intros p b _; apply Ba; exact Logic.I].
          cbn [meaning xcall map]. rewrite Rs. destruct (r' s) as [p| | |]; try (left; reflexivity). destruct (w_buf W p) as [b|]; [|left; reflexivity].
          apply (refines_xargs _ _ (fun l => Fin (ptr_value (buffer_at b l)))). apply Forall2_firstn. exact K.
        * exfalso. destruct h as [|? f ?| | | | | |]; cbn [finish_at] in El'; try discriminate; [congruence|]. destruct f; try discriminate. eapply H1. reflexivity.
      + assert (E2 : l'' = l') by (destruct fn; try (injection El' as ->; reflexivity); congruence). subst l''.
        destruct (args_ref r r' l l') as (K1 & K2); auto.
        { intros a I Fa. apply G. eapply free_arg; eauto. intros ->; congruence. }
        { intros a ro I O. apply A. destruct fn; try (cbn [occurs]; apply any_occurs; eauto; fail). congruence. }
        { intros a I T. apply Ba. destruct fn; try (cbn [takes_address]; exact (any_takes a l I T)). exact Logic.I. }
        cbn [meaning]. assert (M : forall e, map snd (map (fun a => (defined a, meaning W e a)) l) = map (meaning W e) l) by (intros; rewrite map_map; reflexivity).
        assert (M' : forall e, map snd (map (fun a => (defined a, meaning W e a)) l') = map (meaning W e) l') by (intros; rewrite map_map; reflexivity).
        destruct fn; cbn [xcall]; try (right; reflexivity); try congruence;
          try exact (refines_xargs _ _ (fun l => Fin (w_intrinsic W _ l)) K2); try (rewrite M, M'; apply refines_xshort; exact K1).
        * destruct t as [t|]; [|left; reflexivity]. exact (refines_xargs _ _ (fun l => Fin (w_user W t l)) K2).
        * clear - K1. destruct l as [|a0 [|a1 l]]; [left; reflexivity| |left; reflexivity].
          destruct l' as [|b0 l']; [inversion K1|]. cbn [map] in K1. inversion K1 as [|? ? ? ? U V]; subst.
          destruct l' as [|b1 l']; [|inversion V]. cbn [map]. destruct U as [->| ->]; [left|right]; reflexivity.
    - intros r r' e' R G C A Ba E. injection E as <-. right. reflexivity.
  Qed.
End General.
