(** The dimensions that are cropped, and the values of bounds. *)
From Coq Require Import ZArith List Bool Arith Lia.
From Verif Require Import Arith_Model Arith_Proofs Buf_Model Buf_Proofs Expr_Model Expr_Proofs Subst_Spec SubstMean_Proofs Subst_Props StmtSubst2_Proofs OptSym_Proofs Deps_Spec VSem_Spec VExec_Proofs VFrame_Proofs Concat_Model Stmt_Model Crops_Model Crops_Spec Crops_Proofs.
Import ListNotations.
Open Scope Z_scope.

Definition hit (m : dim_map) (t : nat * field * Z) : bool :=
  match t with (s, f, d) => match f with f_min | f_max => existsb (fun k => d =? Z.of_nat k) (m s) | _ => false end end.
Lemma finds_hit m e : finds m e = existsb (hit m) (vars e).
Proof.
  induction e as [|s f d|l b IHl IHb|o a b IHa IHb|a IHa|q t f IHq IHt IHf|fn t args IHargs|c0] using expr_ind'; cbn [finds vars existsb].
  - reflexivity.
  - cbn [hit]. rewrite orb_false_r. destruct f; reflexivity.
  - induction IHl as [|(s, x) l Hx _ IH]; [exact IHb|]. rewrite existsb_app. cbn [snd] in Hx. rewrite Hx, IH. reflexivity.
  - rewrite existsb_app, IHa, IHb. reflexivity.
  - exact IHa.
  - rewrite !existsb_app, IHq, IHt, IHf, orb_assoc. reflexivity.
  - induction IHargs as [|x l Hx _ IH]; [reflexivity|]. cbn [existsb flat_map]. rewrite existsb_app, Hx, IH. reflexivity.
  - reflexivity.
Qed.
Lemma finds_uses m e : finds m e = true <-> exists y k, uses_bound y (Z.of_nat k) e /\ In k (m y).
Proof.
  rewrite finds_hit, existsb_exists. split.
  - intros (((y, f), d) & I & T). cbn [hit] in T. destruct f; try discriminate; apply existsb_exists in T; destruct T as (k & Ik & T); apply Z.eqb_eq in T; subst d; exists y, k; (split; [|exact Ik]); [left|right]; exact I.
  - intros (y & k & [U|U] & I).
    + exists (y, f_min, Z.of_nat k). split; [exact U|]. cbn [hit]. apply existsb_exists. exists k. split; [exact I|apply Z.eqb_refl].
    + exists (y, f_max, Z.of_nat k). split; [exact U|]. cbn [hit]. apply existsb_exists. exists k. split; [exact I|apply Z.eqb_refl].
Qed.
Definition finds_i (m : dim_map) (b : interval) : bool := finds m (fst b) || finds m (snd b).
Lemma finds_i_uses m b : finds_i m b = true <-> exists y k, (uses_bound y (Z.of_nat k) (fst b) \/ uses_bound y (Z.of_nat k) (snd b)) /\ In k (m y).
Proof. unfold finds_i. rewrite orb_true_iff, !finds_uses. split; [intros [(y & k & U & I)|(y & k & U & I)]; exists y, k; auto|intros (y & k & [U|U] & I); [left|right]; exists y, k; auto]. Qed.
Lemma finds_i_same m m' b : (forall y d, uses_bound y d (fst b) \/ uses_bound y d (snd b) -> m y = m' y) -> finds_i m b = finds_i m' b.
Proof.
  intro Q. apply eq_true_iff_eq. rewrite !finds_i_uses. split; intros (y & k & U & I); exists y, k; (split; [exact U|]); [rewrite <- (Q y _ U)|rewrite (Q y _ U)]; exact I.
Qed.
Lemma push_other m s i y : y <> s -> push m s i y = m y. Proof. intro n. unfold push. apply Nat.eqb_neq in n. rewrite n. reflexivity. Qed.
Lemma push_same m s i : push m s i s = m s ++ [i]. Proof. unfold push. rewrite Nat.eqb_refl. reflexivity. Qed.
Lemma find_from_other s y : y <> s -> forall bounds i m, find_dims_from s i bounds m y = m y.
Proof. intros n. induction bounds as [|b l IH]; intros i m; [reflexivity|]. cbn [find_dims_from]. rewrite IH. destruct (_ || _); [apply push_other, n|reflexivity]. Qed.
Lemma find_from_in s : forall bounds i m, (forall d, ~ bounds_use s d bounds) ->
  forall j, In j (find_dims_from s i bounds m s) <-> In j (m s) \/ exists k b, nth_error bounds k = Some b /\ j = (i + k)%nat /\ finds_i m b = true.
Proof.
  induction bounds as [|b l IH]; intros i m N j; cbn [find_dims_from].
  - split; [auto|]. intros [?|(k & b & E & _)]; [assumption|]. destruct k; discriminate.
  - change (finds m (fst b) || finds m (snd b)) with (finds_i m b). set (m' := if finds_i m b then push m s i else m).
    assert (Nl : forall d, ~ bounds_use s d l) by (intros d (x & Ix & U); exact (N d (ex_intro _ x (conj (or_intror Ix) U)))).
    assert (Q : forall x, In x l -> finds_i m' x = finds_i m x).
    { intros x Ix. apply finds_i_same. intros y d U. unfold m'. destruct (finds_i m b); [|reflexivity]. apply push_other. intros ->. exact (Nl d (ex_intro _ x (conj Ix U))). }
    rewrite (IH (S i) m' Nl j). assert (P : In j (m' s) <-> In j (m s) \/ j = i /\ finds_i m b = true).
    { unfold m'. destruct (finds_i m b); [rewrite push_same, in_app_iff; cbn [In]; intuition congruence|intuition discriminate]. }
    rewrite P. split.
    + intros [[?|(-> & F)]|(k & x & E & -> & F)]; [left; assumption| |].
      * right. exists O, b. cbn. repeat split; auto; lia.
      * right. exists (S k), x. cbn [nth_error]. split; [exact E|]. split; [lia|]. rewrite <- (Q x (nth_error_In _ _ E)). exact F.
    + intros [?|(k & x & E & -> & F)]; [left; left; assumption|]. destruct k as [|k]; cbn [nth_error] in E.
      * injection E as ->. left. right. split; [lia|exact F].
      * right. exists k, x. split; [exact E|]. split; [lia|]. rewrite (Q x (nth_error_In _ _ E)). exact F.
Qed.

(** every buffer's bounds use only those of buffers before it *)
Fixpoint inorder (l : list item) : Prop :=
  match l with [] => True | (s, b) :: l' => (forall y d, bounds_use y d b -> ~ In y (s :: map fst l')) /\ inorder l' end.
Lemma find_all_other keep y l : forall m, ~ In y (map fst l) -> find_all keep l m y = m y.
Proof.
  unfold find_all. induction l as [|(s, b) l IH]; intros m N; [reflexivity|]. cbn [fold_left map fst snd In] in *. rewrite IH by tauto. destruct (keep s); [|reflexivity]. apply find_from_other. intros ->. apply N. left. reflexivity.
Qed.
Lemma find_all_in keep l : forall m, NoDup (map fst l) -> inorder l ->
  let mf := find_all keep l m in
  forall s b, In (s, b) l ->
    if keep s then forall j, In j (mf s) <-> In j (m s) \/ exists i, nth_error b j = Some i /\ finds_i mf i = true else mf s = m s.
Proof.
  induction l as [|(s, b) l IH]; intros m N O mf s' b' I; [destruct I|]. cbn [map fst] in N. inversion N as [|? ? N1 N2]; subst. destruct O as (O1 & O2).
  set (m1 := if keep s then find_dims s b m else m). assert (Em : mf = find_all keep l m1) by reflexivity.
  assert (Old : forall y, y <> s -> m1 y = m y) by (intros y n; unfold m1; destruct (keep s); [apply find_from_other, n|reflexivity]).
  assert (Ms : mf s = m1 s) by (rewrite Em; apply find_all_other, N1).
  destruct I as [Q|I].
  - injection Q as <- <-. destruct (keep s) eqn:Ks.
    + intro j. rewrite Ms. assert (M1 : m1 = find_dims s b m) by reflexivity. clearbody m1. subst m1. unfold find_dims. rewrite find_from_in by (intros d U; apply (O1 s d U); left; reflexivity).
      assert (Same : forall x, In x b -> finds_i m x = finds_i mf x).
      { intros x Ix. apply finds_i_same. intros y d U. assert (Ny : ~ In y (s :: map fst l)) by (apply (O1 y d); exists x; auto). rewrite Em, find_all_other by (intro; apply Ny; right; assumption). symmetry. apply Old. intros ->. apply Ny. left. reflexivity. }
      split.
      * intros [?|(k & i & E & -> & F)]; [left; assumption|]. right. exists i. split; [exact E|]. rewrite <- (Same i (nth_error_In _ _ E)). exact F.
      * intros [?|(i & E & F)]; [left; assumption|]. right. exists j, i. split; [exact E|]. split; [reflexivity|]. rewrite (Same i (nth_error_In _ _ E)). exact F.
    + rewrite Ms. unfold m1. reflexivity.
  - assert (n : s' <> s) by (intros ->; apply N1; apply (in_map fst) in I; exact I). specialize (IH m1 N2 O2 s' b' I). rewrite <- Em in IH. rewrite (Old s' n) in IH. exact IH.
Qed.

(** *** the body with its crops *)
Definition wrap (keep : nat -> bool) (m : dim_map) (l : list item) (body : stmt) : stmt :=
  fold_right (fun i body => if keep (fst i) then add_crop body (fst i) (snd i) (m (fst i)) else body) body l.
Lemma wrap_app keep m l1 l2 body : wrap keep m (l1 ++ l2) body = wrap keep m l1 (wrap keep m l2 body).
Proof. apply fold_right_app. Qed.
Lemma wrap_same keep m m' l body : (forall s, In s (map fst l) -> m s = m' s) -> wrap keep m l body = wrap keep m' l body.
Proof. induction l as [|(s, b) l IH]; intro Q; [reflexivity|]. cbn [wrap fold_right fst snd map In] in *. rewrite (Q s) by auto. destruct (keep s); [f_equal|]; apply IH; auto. Qed.
Lemma crop_outputs_wrap keep m f : forall body, crop_outputs keep m f body = wrap keep m (rev f) body.
Proof. intro body. unfold crop_outputs, wrap. rewrite fold_left_rev_right. reflexivity. Qed.
Lemma crop_funcs_wrap keep m order : forall body, crop_funcs keep m order body = wrap keep m (concat (map (@rev item) order)) body.
Proof.
  unfold crop_funcs. induction order as [|f order IH]; intro body; [reflexivity|]. cbn [rev map concat]. rewrite fold_left_app, IH. cbn [fold_left]. rewrite crop_outputs_wrap, wrap_app. reflexivity.
Qed.
Lemma crop_inputs_fst keep l : forall m body, fst (crop_inputs keep l m body) = find_all keep l m.
Proof. induction l as [|(s, b) l IH]; intros m body; [reflexivity|]. cbn [crop_inputs find_all fold_left fst snd]. destruct (keep s); apply IH. Qed.
Lemma crop_inputs_snd keep l : forall m body, NoDup (map fst l) -> snd (crop_inputs keep l m body) = wrap keep (find_all keep l m) (rev l) body.
Proof.
  induction l as [|(s, b) l IH]; intros m body N; [reflexivity|]. cbn [map fst] in N. inversion N as [|? ? N1 N2]; subst. cbn [crop_inputs find_all fold_left fst snd rev]. rewrite wrap_app. cbn [wrap fold_right fst snd].
  destruct (keep s).
  - rewrite IH by exact N2. f_equal. f_equal. symmetry. apply (find_all_other keep s l), N1.
  - apply IH, N2.
Qed.
Lemma find_all_app keep l1 l2 m : find_all keep (l1 ++ l2) m = find_all keep l2 (find_all keep l1 m). Proof. apply fold_left_app. Qed.
Lemma crop_body_wrap keep m order inputs body : NoDup (map fst inputs) ->
  crop_body keep m order inputs body = wrap keep (find_all keep (concat order ++ inputs) m) (concat (map (@rev item) (order ++ [inputs]))) body.
Proof.
  intro N. unfold crop_body. rewrite crop_inputs_fst, crop_inputs_snd by exact N. rewrite crop_funcs_wrap, <- find_all_app, map_app, concat_app, wrap_app. cbn [map concat]. rewrite app_nil_r. reflexivity.
Qed.

(** *** values of bounds *)
Section Frame.
  Variable X : Type.
  Variable H : host X.
  Notation veval := (veval X H).
  Variable Q : nat -> Z -> Prop.
  Definition alike (y : nat) (b b' : buf) : Prop :=
    elem_size b = elem_size b' /\ length (dims b) = length (dims b') /\
    (forall k, d_stride (nth k (dims b) broadcast) = d_stride (nth k (dims b') broadcast) /\ d_fold (nth k (dims b) broadcast) = d_fold (nth k (dims b') broadcast)) /\
    (forall k, Q y (Z.of_nat k) -> d_min (nth k (dims b) broadcast) = d_min (nth k (dims b') broadcast) /\ d_max (nth k (dims b) broadcast) = d_max (nth k (dims b') broadcast)).
  Definition rel (E E' : venv) : Prop :=
    forall y, E y = E' y \/ exists k b k' b', E y = Buffer k b /\ E' y = Buffer k' b' /\ alike y b b'.
  Definition okt (t : nat * field * Z) : Prop := match t with (y, f, d) => match f with f_min | f_max => Q y d | f_size_bytes => False | _ => True end end.
  Definition ok (e : expr) : Prop := ~ takes_address e /\ forall t, In t (vars e) -> okt t.
  Definition efr (e : expr) : Prop := forall E E', ok e -> rel E E' -> veval E e = veval E' e.
  Lemma rel_set E E' s v : rel E E' -> rel (vset E s (Num v)) (vset E' s (Num v)).
  Proof. intros R y. unfold vset. destruct (y =? s)%nat; [left; reflexivity|apply R]. Qed.
  Lemma ok_args fn t args : ok (ECall fn t args) -> forall a, In a args -> ok a.
  Proof.
    intros (T & V) a I. split.
    - intro Ta. apply T. assert (A : any_of takes_address args) by (apply any_of_in; exists a; auto). destruct fn; cbn [takes_address]; auto.
    - intros u Iu. apply V. cbn [vars]. apply in_flat_map. exists a. auto.
  Qed.
  Lemma args_fr l : Forall efr l -> (forall a, In a l -> ok a) -> forall E E', rel E E' -> veval_args veval E l = veval_args veval E' l.
  Proof.
    induction 1 as [|a l Fa _ IH]; intros O E E' R; [reflexivity|]. cbn [veval_args]. rewrite (Fa E E' (O a (or_introl eq_refl)) R), (IH (fun x I => O x (or_intror I)) E E' R). reflexivity.
  Qed.
  Lemma short_fr stop l : Forall efr l -> (forall a, In a l -> ok a) -> forall E E', rel E E' -> veval_short veval E stop l = veval_short veval E' stop l.
  Proof.
    induction 1 as [|a l Fa _ IH]; intros O E E' R; [reflexivity|]. cbn [veval_short]. rewrite (Fa E E' (O a (or_introl eq_refl)) R), (IH (fun x I => O x (or_intror I)) E E' R). reflexivity.
  Qed.
  Lemma eval_fr e : efr e.
  Proof.
    induction e as [|s f d|l b IHl IHb|o a b IHa IHb|a IHa|q t f IHq IHt IHf|fn t args IHargs|c0] using expr_ind'; intros E E' O R.
    - reflexivity.
    - cbn [VSem_Spec.veval]. destruct (R s) as [<-|(k & b & k' & b' & -> & -> & A1 & A2 & A3 & A4)]; [reflexivity|]. destruct O as (_ & O). specialize (O _ (or_introl eq_refl)). cbn [okt] in O.
      destruct f; try reflexivity; cbn [field_value]; f_equal; unfold rank, dim_int, dim_at; try congruence; try contradiction; (destruct (Z.ltb_spec d 0); [reflexivity|]);
        try apply A3; rewrite <- (Z2Nat.id d) in O by lia; apply A4; exact O.
    - cbn [VSem_Spec.veval]. revert E E' O R. induction l as [|(s, x) l IH]; intros E E' O R; cbn [veval_lets].
      + cbn [bind]. apply IHb; [|exact R]. exact O.
      + inversion IHl as [|? ? H1 H2]; subst. cbn [snd] in H1. destruct O as (T & V). rewrite (H1 E E').
        2:{ split; [intro C; apply T; left; exact C|]. intros u Iu. apply V. cbn [vars]. apply in_app_iff. left. exact Iu. }
        2:{ exact R. }
        destruct (veval E' x) as [v|]; [|reflexivity]. cbn [bind]. apply (IH H2); [|apply rel_set; exact R]. split; [intro C; apply T; right; exact C|]. intros u Iu. apply V. cbn [vars]. apply in_app_iff. right. exact Iu.
    - cbn [VSem_Spec.veval]. destruct O as (T & V). rewrite (IHa E E'), (IHb E E'); auto; (split; [intro C; apply T; cbn [takes_address]; auto|]; intros u Iu; apply V; cbn [vars]; rewrite in_app_iff; auto).
    - cbn [VSem_Spec.veval]. rewrite (IHa E E'); auto.
    - cbn [VSem_Spec.veval]. destruct O as (T & V). rewrite (IHq E E'), (IHt E E'), (IHf E E'); auto; (split; [intro C; apply T; cbn [takes_address]; auto|]; intros u Iu; apply V; cbn [vars]; rewrite !in_app_iff; auto).
    - pose proof (ok_args fn t args O) as A.
      destruct fn; cbn [VSem_Spec.veval]; try (rewrite (args_fr args IHargs A E E' R); reflexivity); try reflexivity.
      + destruct args as [|a [|a2 l]]; try reflexivity. inversion IHargs as [|? ? H1 _]; subst. rewrite (H1 E E' (A a (or_introl eq_refl)) R). reflexivity.
      + exact (short_fr false args IHargs A E E' R).
      + exact (short_fr true args IHargs A E E' R).
      + destruct O as (T & _). destruct (T I).
    - reflexivity.
  Qed.
End Frame.
