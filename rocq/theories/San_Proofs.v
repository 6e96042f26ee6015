(** The sanitizer of the user's expressions: the replacements, and the values of what is left. *)
From Coq Require Import ZArith List Bool Arith Lia Permutation.
From Verif Require Import Arith_Model Arith_Proofs Buf_Model Expr_Model Expr_Proofs Rewrite_Model Const_Model Match_Proofs Stmt_Model Deps_Spec VSem_Spec StmtSubst2_Proofs OptSym_Proofs VFrame_Proofs San_Model San_Spec.
Import ListNotations.
Open Scope Z_scope.

(** *** The entries *)
Lemma same_eq a b : same a b = true <-> a = b. Proof. unfold same. apply match_eq. Qed.
Lemma find_entry_in r e g : find_entry r e = Some g -> In (e, g) r.
Proof.
  unfold find_entry. destruct (find _ r) as [(m, g')|] eqn:F; cbn; [|discriminate]. intros [= <-]. apply find_some in F as (I & Q). cbn in Q. apply same_eq in Q. subst m. exact I.
Qed.
Lemma find_entry_none r e : find_entry r e = None -> ~ In e (map fst r).
Proof.
  unfold find_entry. destruct (find _ r) as [|] eqn:F; [discriminate|]. intros _ I. apply in_map_iff in I as ((m, g) & Q & I). cbn in Q. subst m.
  pose proof (find_none _ _ F _ I) as N. cbn in N. assert (same e e = true) by (apply same_eq; reflexivity). congruence.
Qed.
Lemma find_entry_some r e : In e (map fst r) -> exists g, find_entry r e = Some g.
Proof. intro I. destruct (find_entry r e) as [g|] eqn:F; [eauto|]. destruct (find_entry_none _ _ F I). Qed.
Lemma find_app A (P : A -> bool) l l' : find P (l ++ l') = match find P l with Some x => Some x | None => find P l' end.
Proof. induction l as [|x l IH]; cbn; [reflexivity|]. destruct (P x); auto. Qed.
Definition extends (r r' : entries) : Prop := forall m g, find_entry r m = Some g -> find_entry r' m = Some g.
Lemma extends_refl r : extends r r. Proof. intros m g Q. exact Q. Qed.
Lemma extends_trans a b c : extends a b -> extends b c -> extends a c. Proof. intros P Q m g F. apply Q, P, F. Qed.

Definition add (st : san_state) (m : expr) : san_state := snd (replace m st).
Definition adds (ms : list expr) (st : san_state) : san_state := fold_left add ms st.
Lemma add_extends st m : extends (fst st) (fst (add st m)).
Proof.
  unfold add, replace. destruct (find_entry (fst st) m) eqn:F; cbn [fst snd]; [apply extends_refl|].
  intros x g Q. unfold find_entry in *. rewrite find_app. destruct (find (fun p => same (fst p) x) (fst st)); [exact Q|discriminate].
Qed.
Lemma adds_extends ms : forall st, extends (fst st) (fst (adds ms st)).
Proof. induction ms as [|m ms IH]; intro st; cbn; [apply extends_refl|]. eapply extends_trans; [apply add_extends|apply IH]. Qed.
Lemma adds_app a b st : adds (a ++ b) st = adds b (adds a st). Proof. unfold adds. apply fold_left_app. Qed.
Lemma replace_entry m st : exists g, fst (replace m st) = EVar g f_none (-1) /\ find_entry (fst (add st m)) m = Some g.
Proof.
  unfold add, replace. destruct (find_entry (fst st) m) as [g|] eqn:F; cbn [fst snd]; [exists g; auto|]. exists (snd st). split; [reflexivity|].
  unfold find_entry in *. rewrite find_app. destruct (find _ (fst st)); [discriminate|]. cbn. assert (same m m = true) as -> by (apply same_eq; reflexivity). reflexivity.
Qed.

Record entries_ok (n : nat) (st : san_state) : Prop := {
  eo_names : map snd (fst st) = seq n (length (fst st));
  eo_next : snd st = (n + length (fst st))%nat;
  eo_once : NoDup (map fst (fst st)) }.
Lemma entries_start n : entries_ok n ([], n). Proof. constructor; cbn; [reflexivity|lia|constructor]. Qed.
Lemma nodup_snoc A (l : list A) a : NoDup l -> ~ In a l -> NoDup (l ++ [a]).
Proof. intros D N. apply NoDup_rev in D. rewrite <- (rev_involutive (l ++ [a])). apply NoDup_rev. rewrite rev_app_distr. cbn. constructor; [rewrite <- in_rev; exact N|exact D]. Qed.
Lemma add_ok n st m : entries_ok n st -> entries_ok n (add st m).
Proof.
  intros [N1 N2 N3]. unfold add, replace. destruct (find_entry (fst st) m) as [g|] eqn:F; cbn [snd]; [constructor; assumption|].
  constructor; cbn [fst snd].
  - rewrite map_app, app_length, N1, N2. cbn [map snd length]. rewrite seq_app. reflexivity.
  - rewrite app_length, N2. cbn. lia.
  - rewrite map_app. cbn [map fst]. apply nodup_snoc; [exact N3|apply find_entry_none, F].
Qed.
Lemma adds_ok n ms : forall st, entries_ok n st -> entries_ok n (adds ms st).
Proof. induction ms as [|m ms IH]; intros st O; cbn; [exact O|]. apply IH, add_ok, O. Qed.
Lemma add_keys st m x : In x (map fst (fst (add st m))) <-> In x (map fst (fst st)) \/ x = m.
Proof.
  unfold add, replace. destruct (find_entry (fst st) m) as [g|] eqn:F; cbn [fst snd].
  - split; [auto|]. intros [I| ->]; [exact I|]. apply find_entry_in in F. apply in_map_iff. exists (m, g). auto.
  - rewrite map_app, in_app_iff. cbn. split; [intros [I|[I|[]]]; auto|intros [I| ->]; auto].
Qed.
Lemma adds_keys ms : forall st x, In x (map fst (fst (adds ms st))) <-> In x (map fst (fst st)) \/ In x ms.
Proof.
  induction ms as [|m ms IH]; intros st x; cbn; [tauto|]. rewrite IH, add_keys. split; [intros [[A|A]|A]; auto|intros [A|[A|A]]; auto].
Qed.

(** *** What the sanitizer does, given all entries *)
Definition sub (r : entries) (m : expr) : expr := match find_entry r m with Some g => EVar g f_none (-1) | None => m end.
Fixpoint rw (r : entries) (e : expr) : expr :=
  match e with
  | EUndef | EConst _ => e
  | EVar s f d => match f with f_none => e | _ => sub r e end
  | ELet l b => ELet (map (fun p => (fst p, rw r (snd p))) l) (rw r b)
  | EBin o a b => EBin o (rw r a) (rw r b)
  | ENot a => ENot (rw r a)
  | ESelect c t f => ESelect (rw r c) (rw r t) (rw r f)
  | ECall fn t args => match fn with i_buffer_at => sub r e | _ => ECall fn t (map (rw r) args) end
  end.

Section San.
  Variable ext : list nat.
  Notation ok m := (of_buffer (fun s => In s ext) m).
  Lemma ext_in s : existsb (Nat.eqb s) ext = true <-> In s ext.
  Proof. rewrite existsb_exists. split; [intros (y & I & Q); apply Nat.eqb_eq in Q; subst; exact I|intro I; exists s; split; [exact I|apply Nat.eqb_refl]]. Qed.

  Definition sound (e : expr) : Prop := forall st e' st', sanitize ext e st = Val (e', st') ->
    st' = adds (metadata e) st /\ (forall r, extends (fst st') r -> e' = rw r e) /\ Forall (fun m => ok m) (metadata e).
  Definition complete (e : expr) : Prop := forall st, Forall (fun m => ok m) (metadata e) -> exists a, sanitize ext e st = Val a.

  Lemma replace_sound m st e' st' : replace m st = (e', st') -> st' = adds [m] st /\ forall r, extends (fst st') r -> e' = sub r m.
  Proof.
    intro R. destruct (replace_entry m st) as (g & Eg & F). unfold adds. cbn [fold_left]. unfold add in *. rewrite R in *. cbn [fst snd] in *. split; [reflexivity|].
    intros r X. unfold sub. rewrite (X _ _ F). exact Eg.
  Qed.
  Lemma list_sound l : Forall sound l -> forall st l' st', san_list (sanitize ext) l st = Val (l', st') ->
    st' = adds (flat_map metadata l) st /\ (forall r, extends (fst st') r -> l' = map (rw r) l) /\ Forall (fun m => ok m) (flat_map metadata l).
  Proof.
    induction 1 as [|e l Hs _ IH]; intros st l' st' Q; cbn [san_list] in Q.
    - injection Q as <- <-. split; [reflexivity|]. split; [reflexivity|constructor].
    - apply bind_inv in Q as ((e1, st1) & Q1 & Q). apply bind_inv in Q as ((l1, st2) & Q2 & Q). cbn [fst snd] in *. injection Q as <- <-.
      destruct (Hs _ _ _ Q1) as (S1 & R1 & O1). destruct (IH _ _ _ Q2) as (S2 & R2 & O2). cbn [flat_map map]. rewrite adds_app, <- S1. split; [exact S2|]. split.
      + intros r X. rewrite <- (R1 r), <- (R2 r X); [reflexivity|]. eapply extends_trans; [|exact X]. rewrite S2. apply adds_extends.
      + apply Forall_app. auto.
  Qed.
  Lemma list_complete l : Forall complete l -> forall st, Forall (fun m => ok m) (flat_map metadata l) -> exists a, san_list (sanitize ext) l st = Val a.
  Proof.
    induction 1 as [|e l Hc _ IH]; intros st O; cbn [san_list]; [eauto|]. cbn [flat_map] in O. apply Forall_app in O as (O1 & O2).
    destruct (Hc st O1) as (a & ->). cbn [bind]. destruct (IH (snd a) O2) as (b & ->). cbn. eauto.
  Qed.
  Lemma metadata_let l b : metadata (ELet l b) = flat_map (fun p => metadata (snd p)) l ++ metadata b.
  Proof. induction l as [|(s, v) l IH]; [reflexivity|]. cbn [flat_map snd]. rewrite <- app_assoc, <- IH. reflexivity. Qed.
  Lemma metadata_call fn t args : fn <> i_buffer_at -> metadata (ECall fn t args) = flat_map metadata args.
  Proof. intro N. destruct fn; try reflexivity. destruct (N eq_refl). Qed.
  Lemma lets_sound l : Forall (fun p => sound (snd p)) l -> forall st l' st', san_lets (sanitize ext) l st = Val (l', st') ->
    st' = adds (flat_map (fun p => metadata (snd p)) l) st /\ (forall r, extends (fst st') r -> l' = map (fun p => (fst p, rw r (snd p))) l) /\
      Forall (fun m => ok m) (flat_map (fun p => metadata (snd p)) l).
  Proof.
    induction 1 as [|(s, e) l Hs _ IH]; intros st l' st' Q; cbn [san_lets snd] in *.
    - injection Q as <- <-. split; [reflexivity|]. split; [reflexivity|constructor].
    - apply bind_inv in Q as ((e1, st1) & Q1 & Q). apply bind_inv in Q as ((l1, st2) & Q2 & Q). cbn [fst snd] in *. injection Q as <- <-.
      destruct (Hs _ _ _ Q1) as (S1 & R1 & O1). destruct (IH _ _ _ Q2) as (S2 & R2 & O2). cbn [flat_map map fst snd]. rewrite adds_app, <- S1. split; [exact S2|]. split.
      + intros r X. rewrite <- (R1 r), <- (R2 r X); [reflexivity|]. eapply extends_trans; [|exact X]. rewrite S2. apply adds_extends.
      + apply Forall_app. auto.
  Qed.
  Lemma lets_complete l : Forall (fun p => complete (snd p)) l -> forall st, Forall (fun m => ok m) (flat_map (fun p => metadata (snd p)) l) -> exists a, san_lets (sanitize ext) l st = Val a.
  Proof.
    induction 1 as [|(s, e) l Hc _ IH]; intros st O; cbn [san_lets snd] in *; [eauto|]. cbn [flat_map snd] in O. apply Forall_app in O as (O1 & O2).
    destruct (Hc st O1) as (a & ->). cbn [bind]. destruct (IH (snd a) O2) as (b & ->). cbn. eauto.
  Qed.
  Lemma san_call fn t args st : fn <> i_buffer_at -> sanitize ext (ECall fn t args) st = (l <- san_list (sanitize ext) args st ;; Val (ECall fn t (fst l), snd l)).
  Proof. intro N. destruct fn; try reflexivity. destruct (N eq_refl). Qed.
  Lemma rw_call r fn t args : fn <> i_buffer_at -> rw r (ECall fn t args) = ECall fn t (map (rw r) args).
  Proof. intro N. destruct fn; try reflexivity. destruct (N eq_refl). Qed.

  Lemma san_sound e : sound e.
  Proof.
    induction e as [|s f d|l b IHl IHb|o a b IHa IHb|a IHa|q t f IHq IHt IHf|fn t args IHargs|c0] using expr_ind'; intros st e' st' Q.
    - injection Q as <- <-. split; [reflexivity|]. split; [reflexivity|constructor].
    - cbn [sanitize metadata rw] in *. destruct f; [injection Q as <- <-; split; [reflexivity|]; split; [reflexivity|constructor]|..];
        (destruct (existsb (Nat.eqb s) ext) eqn:I; [|discriminate]; injection Q as Q; apply replace_sound in Q as (Q1 & Q2); split; [exact Q1|]; split; [exact Q2|]; constructor; [apply ext_in, I|constructor]).
    - cbn [sanitize] in Q. apply bind_inv in Q as ((l1, st1) & Q1 & Q). apply bind_inv in Q as ((b1, st2) & Q2 & Q). cbn [fst snd] in *. injection Q as <- <-.
      destruct (lets_sound l IHl _ _ _ Q1) as (S1 & R1 & O1). destruct (IHb _ _ _ Q2) as (S2 & R2 & O2). rewrite metadata_let, adds_app, <- S1. split; [exact S2|]. split.
      + intros r X. cbn [rw]. rewrite <- (R1 r), <- (R2 r X); [reflexivity|]. eapply extends_trans; [|exact X]. rewrite S2. apply adds_extends.
      + apply Forall_app. auto.
    - cbn [sanitize] in Q. apply bind_inv in Q as ((l1, st1) & Q1 & Q). apply bind_inv in Q as ((b1, st2) & Q2 & Q). cbn [fst snd] in *. injection Q as <- <-.
      destruct (IHa _ _ _ Q1) as (S1 & R1 & O1). destruct (IHb _ _ _ Q2) as (S2 & R2 & O2). cbn [metadata]. rewrite adds_app, <- S1. split; [exact S2|]. split.
      + intros r X. cbn [rw]. rewrite <- (R1 r), <- (R2 r X); [reflexivity|]. eapply extends_trans; [|exact X]. rewrite S2. apply adds_extends.
      + apply Forall_app. auto.
    - cbn [sanitize] in Q. apply bind_inv in Q as ((l1, st1) & Q1 & Q). cbn [fst snd] in *. injection Q as <- <-.
      destruct (IHa _ _ _ Q1) as (S1 & R1 & O1). cbn [metadata]. split; [exact S1|]. split; [|exact O1]. intros r X. cbn [rw]. rewrite <- (R1 r X). reflexivity.
    - cbn [sanitize] in Q. apply bind_inv in Q as ((q1, st1) & Q1 & Q). apply bind_inv in Q as ((t1, st2) & Q2 & Q). apply bind_inv in Q as ((f1, st3) & Q3 & Q). cbn [fst snd] in *. injection Q as <- <-.
      destruct (IHq _ _ _ Q1) as (S1 & R1 & O1). destruct (IHt _ _ _ Q2) as (S2 & R2 & O2). destruct (IHf _ _ _ Q3) as (S3 & R3 & O3). cbn [metadata]. rewrite !adds_app, <- S1, <- S2. split; [exact S3|]. split.
      + intros r X. cbn [rw].
        assert (X2 : extends (fst st2) r) by (eapply extends_trans; [|exact X]; rewrite S3; apply adds_extends).
        assert (X1 : extends (fst st1) r) by (eapply extends_trans; [|exact X2]; rewrite S2; apply adds_extends).
        rewrite <- (R1 r X1), <- (R2 r X2), <- (R3 r X). reflexivity.
      + rewrite !Forall_app. auto.
    - assert (D : fn = i_buffer_at \/ fn <> i_buffer_at) by (destruct fn; first [left; reflexivity|right; discriminate]). destruct D as [->|N].
      + cbn [sanitize metadata rw] in *. destruct args as [|[|s f d| | | | | |] args]; try discriminate. destruct f; try discriminate.
        destruct (existsb (Nat.eqb s) ext) eqn:I; [|discriminate]. injection Q as Q. apply replace_sound in Q as (Q1 & Q2). split; [exact Q1|]. split; [exact Q2|]. constructor; [cbn; apply ext_in, I|constructor].
      + rewrite san_call in Q by exact N. apply bind_inv in Q as ((l1, st1) & Q1 & Q). cbn [fst snd] in *. injection Q as <- <-.
        destruct (list_sound args IHargs _ _ _ Q1) as (S1 & R1 & O1). rewrite metadata_call by exact N. split; [exact S1|]. split; [|exact O1]. intros r X. rewrite rw_call by exact N. rewrite <- (R1 r X). reflexivity.
    - injection Q as <- <-. split; [reflexivity|]. split; [reflexivity|constructor].
  Qed.
  Lemma san_complete e : complete e.
  Proof.
    induction e as [|s f d|l b IHl IHb|o a b IHa IHb|a IHa|q t f IHq IHt IHf|fn t args IHargs|c0] using expr_ind'; intros st O.
    - eexists; reflexivity.
    - cbn [sanitize metadata] in *. destruct f; [eexists; reflexivity|..]; (inversion O as [|? ? O1 _]; subst; cbn in O1; apply ext_in in O1; rewrite O1; eexists; reflexivity).
    - cbn [sanitize]. rewrite metadata_let in O. apply Forall_app in O as (O1 & O2). destruct (lets_complete l IHl st O1) as (a & ->). cbn [bind]. destruct (IHb (snd a) O2) as (c & ->). cbn. eauto.
    - cbn [sanitize]. cbn [metadata] in O. apply Forall_app in O as (O1 & O2). destruct (IHa st O1) as (x & ->). cbn [bind]. destruct (IHb (snd x) O2) as (c & ->). cbn. eauto.
    - cbn [sanitize]. cbn [metadata] in O. destruct (IHa st O) as (x & ->). cbn. eauto.
    - cbn [sanitize]. cbn [metadata] in O. apply Forall_app in O as (O1 & O2). apply Forall_app in O2 as (O2 & O3). destruct (IHq st O1) as (x & ->). cbn [bind].
      destruct (IHt (snd x) O2) as (c & ->). cbn [bind]. destruct (IHf (snd c) O3) as (c' & ->). cbn. eauto.
    - assert (D : fn = i_buffer_at \/ fn <> i_buffer_at) by (destruct fn; first [left; reflexivity|right; discriminate]). destruct D as [->|N].
      + cbn [sanitize metadata] in *. inversion O as [|? ? O1 _]; subst. cbn in O1. destruct args as [|[|s f d| | | | | |] args]; try (destruct O1; fail). destruct f; try (destruct O1; fail).
        apply ext_in in O1. rewrite O1. eexists; reflexivity.
      + rewrite san_call by exact N. rewrite metadata_call in O by exact N. destruct (list_complete args IHargs st O) as (a & ->). cbn. eauto.
    - eexists; reflexivity.
  Qed.
End San.
