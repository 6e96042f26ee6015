From Coq Require Import ZArith List Bool Lia.
From Verif Require Import Expr_Model Expr_Proofs Stmt_Model Stmt_Proofs Deps_Model Deps_Spec Deps_Proofs DepsStmt_Proofs Deps_Props
  EarlyFree_Model EarlyFree_Spec.
Import ListNotations.

Scheme runs_mind := Minimality for runs Sort Prop
  with runs_list_mind := Minimality for runs_list Sort Prop
  with runs_many_mind := Minimality for runs_many Sort Prop.
Combined Scheme runs_mutind from runs_mind, runs_list_mind, runs_many_mind.

(** ** Traces *)
Definition is_about (j : nat) (e : event) : bool :=
  match e with Make i _ | Use i | Free i | End_ i => Nat.eqb i j | Invalid => false end.
Definition proj (j : nat) (t : list event) : list event := filter (is_about j) t.
Lemma proj_app j a b : proj j (a ++ b) = proj j a ++ proj j b. Proof. apply filter_app. Qed.
Lemma proj_nil_app j a b : proj j a = [] -> proj j b = [] -> proj j (a ++ b) = [].
Proof. intros A B. rewrite proj_app, A, B. reflexivity. Qed.
Lemma made_app a b : made (a ++ b) = made a ++ made b. Proof. apply flat_map_app. Qed.
Lemma uses_proj P t j : uses P t -> ~ P j -> proj j t = [].
Proof.
  intros U N. induction U as [|e t (i & -> & Pi) U IH]; [reflexivity|]. cbn [proj filter is_about].
  destruct (Nat.eqb_spec i j); [subst; contradiction|exact IH].
Qed.
Lemma uses_made P t : uses P t -> made t = [].
Proof. intros U. induction U as [|e t (i & -> & Pi) U IH]; [reflexivity|]. exact IH. Qed.
Lemma shuffle_proj j a b c : shuffle a b c -> shuffle (proj j a) (proj j b) (proj j c).
Proof.
  induction 1 as [|x a b c S1 IH|x a b c S1 IH]; cbn [proj filter]; [constructor|..]; destruct (is_about j x); try constructor; exact IH.
Qed.
Lemma shuffle_nil_l {A} (b c : list A) : shuffle [] b c -> c = b.
Proof. revert c. induction b as [|x b IH]; intros c S1; inversion S1; subst; [reflexivity|]. f_equal. apply IH. assumption. Qed.
Lemma shuffle_comm {A} (a b c : list A) : shuffle a b c -> shuffle b a c.
Proof. induction 1; constructor; assumption. Qed.
Lemma shuffle_nil_r {A} (b c : list A) : shuffle b [] c -> c = b.
Proof. intro S1. apply shuffle_comm in S1. apply shuffle_nil_l. exact S1. Qed.
Lemma shuffle_refl_l {A} (b : list A) : shuffle [] b b.
Proof. induction b; constructor; assumption. Qed.
Lemma shuffle_app {A} (a b : list A) : shuffle a b (a ++ b).
Proof. induction a; cbn [app]; [apply shuffle_refl_l|constructor; assumption]. Qed.
Lemma shuffle_in {A} (a b c : list A) : shuffle a b c -> forall x, In x c <-> In x a \/ In x b.
Proof. induction 1 as [| |]; intro y; cbn [In]; [tauto|rewrite IHshuffle; tauto|rewrite IHshuffle; tauto]. Qed.
Lemma in_made i t : In i (made t) <-> exists w, In (Make i w) t.
Proof.
  unfold made. rewrite in_flat_map. split.
  - intros (e & I & K). destruct e; try destruct K as [->|[]]; try destruct K. eauto.
  - intros (w & I). exists (Make i w). split; [exact I|left; reflexivity].
Qed.
Lemma shuffle_made a b c : shuffle a b c -> forall i, In i (made c) <-> In i (made a) \/ In i (made b).
Proof.
  intros S1 i. rewrite !in_made. split.
  - intros (w & I). apply (shuffle_in _ _ _ S1) in I as [I|I]; eauto.
  - intros [(w & I)|(w & I)]; exists w; apply (shuffle_in _ _ _ S1); auto.
Qed.

(** ** What is not pointed to is not touched *)
Definition unpointed (j : nat) (r : pointers) : Prop := forall y, ~ r y j.
Lemma pointed_un j r e : unpointed j r -> ~ pointed r e j.
Proof. intros U (y & ro & _ & _ & K). exact (U y K). Qed.
Lemma point_un j r v (P : nat -> Prop) : unpointed j r -> ~ P j -> unpointed j (point r v P).
Proof. intros U N y. unfold point. destruct (y =? v)%nat; auto. Qed.
Lemma lets_un j r l r' t : lets_run r l r' t -> unpointed j r -> unpointed j r' /\ proj j t = [].
Proof.
  induction 1 as [|r x v l r' t1 t2 U L IH]; intros N; [auto|].
  destruct IH as [A B]; [apply point_un; auto using pointed_un|]. split; [exact A|]. apply proj_nil_app; [|exact B].
  eapply uses_proj; [exact U|]. apply pointed_un; assumption.
Qed.
Lemma lets_made r l r' t : lets_run r l r' t -> made t = [].
Proof. induction 1 as [|r x v l r' t1 t2 U L IH]; [reflexivity|]. rewrite made_app, (uses_made _ _ U), IH. reflexivity. Qed.
Lemma shuffle_untouched j a b c : shuffle a b c -> proj j a = [] -> proj j b = [] -> proj j c = [].
Proof. intros S1 A B. apply (shuffle_proj j) in S1. rewrite A, B in S1. apply shuffle_nil_l in S1. exact S1. Qed.
Ltac notmade := repeat match goal with
  | H : ~ In _ (made (_ ++ _)) |- _ => rewrite made_app, in_app_iff in H
  | S : shuffle _ _ ?c, H : ~ In _ (made ?c) |- _ => rewrite (shuffle_made _ _ _ S) in H
  end.
Lemma untouched j :
  (forall r s ok t, runs r s ok t -> unpointed j r -> ~ In j (made t) -> proj j t = []) /\
  (forall r l ok t, runs_list r l ok t -> unpointed j r -> ~ In j (made t) -> proj j t = []) /\
  (forall r s ok t, runs_many r s ok t -> unpointed j r -> ~ In j (made t) -> proj j t = []).
Proof.
  apply runs_mutind; intros; notmade; try (match goal with U : unpointed j ?r, IH : unpointed j (point ?r ?v (?r ?x)) -> _ |- _ => apply IH; [apply point_un; auto|assumption] end); try reflexivity.
  - eapply uses_proj; [eassumption|]. intros [(y & _ & K)|(e & _ & K)]; [exact (H0 y K)|exact (pointed_un _ _ _ H0 K)].
  - eapply uses_proj; [eassumption|]. intros [K|[K|(p & _ & K)]]; exact (H0 _ K).
  - destruct (lets_un j _ _ _ _ H H2) as [A B]. apply proj_nil_app; [exact B|]. apply H1; tauto.
  - auto.
  - apply H0; [apply point_un; auto|auto].
  - cbn [made flat_map app In] in H2. change (flat_map _ (t ++ [End_ i])) with (made (t ++ [End_ i])) in H2. rewrite made_app, in_app_iff in H2.
    cbn [proj filter is_about]. destruct (Nat.eqb_spec i j); [tauto|]. change (filter (is_about j) (t ++ [End_ i])) with (proj j (t ++ [End_ i])).
    apply proj_nil_app.
    + apply H0; [apply point_un; auto; congruence|tauto].
    + cbn [proj filter is_about]. destruct (Nat.eqb_spec i j); [tauto|reflexivity].
  - apply proj_nil_app; [eapply uses_proj; [exact H|apply pointed_un; assumption]|]. apply H1; [apply point_un; auto using pointed_un|tauto].
  - eapply uses_proj; [eassumption|apply pointed_un; assumption].
  - apply H0; [apply point_un; auto|auto].
  - eapply shuffle_untouched; [eassumption|apply H0; tauto|]. apply H2; [|tauto]. destruct v; [apply point_un; auto|assumption].
  - eapply uses_proj; [eassumption|apply pointed_un; assumption].
  - cbn [proj filter is_about]. destruct (Nat.eqb_spec i j); [subst; exfalso; exact (H1 _ H0)|reflexivity].
  - auto.
  - apply proj_nil_app; [apply H0; tauto|apply H2; tauto].
  - eapply shuffle_untouched; [eassumption|apply H0; tauto|apply H2; tauto].
Qed.

(** ** depends_on finds what a statement uses *)
Definition quiet (w : writes) : Prop := forall f, In (TTracked 0, f) w -> any_flag f = false.
Lemma quiet_app a b : quiet (a ++ b) <-> quiet a /\ quiet b.
Proof.
  unfold quiet. split; [intro H; split; intros f I; apply H; rewrite in_app_iff; auto|].
  intros [A B] f I. apply in_app_iff in I as [I|I]; auto.
Qed.
Definition covers_ (j : nat) (r : pointers) (vd : var_deps) : Prop := forall y, r y j -> find_deps false vd y = Some (TTracked 0).
Lemma quiet_set vd s f : any_flag f = true -> quiet (set_flags false vd s f) -> find_deps false vd s <> Some (TTracked 0).
Proof. intros A Q E. unfold set_flags in Q. rewrite E in Q. rewrite (Q f) in A; [discriminate|left; reflexivity]. Qed.
Lemma quiet_pointed j r vd e : covers_ j r vd -> quiet (visit_expr false vd e) -> ~ pointed r e j.
Proof.
  intros C Q (y & ro & O & _ & K). apply C in K. pose proof (expr_in false e y ro vd _ O K) as I. apply Q in I.
  rewrite (role_any ro) in I. discriminate.
Qed.
Lemma quiet_all j r vd l e : covers_ j r vd -> quiet (visit_all (visit_expr false) vd l) -> In e l -> ~ pointed r e j.
Proof.
  intros C Q I. induction l as [|x l IH]; [destruct I|]. cbn [visit_all] in Q. apply quiet_app in Q as [Q1 Q2].
  destruct I as [->|I]; [eapply quiet_pointed; eassumption|auto].
Qed.
Lemma covers_shadow j r vd v (P : nat -> Prop) : covers_ j r vd -> ~ P j -> covers_ j (point r v P) (shadow false vd v).
Proof.
  intros C N y. unfold point. destruct (Nat.eqb_spec y v) as [->|D]; [contradiction|]. intro K. apply C in K.
  rewrite <- K. apply shadow_other. congruence.
Qed.
Lemma covers_lets j r l r' t : lets_run r l r' t -> forall vd, covers_ j r vd ->
  quiet (fst (visit_lets false (visit_expr false) vd l)) -> proj j t = [] /\ covers_ j r' (snd (visit_lets false (visit_expr false) vd l)).
Proof.
  induction 1 as [|r x v l r' t1 t2 U L IH]; intros vd C Q; [auto|]. cbn [visit_lets] in *.
  destruct (visit_lets false (visit_expr false) (shadow false vd x) l) as [ws vd1] eqn:E. cbn [fst snd] in *.
  apply quiet_app in Q as [Q1 Q2]. pose proof (quiet_pointed _ _ _ _ C Q1) as N.
  specialize (IH (shadow false vd x)). rewrite E in IH. cbn [fst snd] in IH.
  destruct IH as [A B]; [apply covers_shadow; assumption|exact Q2|]. split; [|exact B].
  apply proj_nil_app; [eapply uses_proj; eassumption|exact A].
Qed.
(** the body of a declaration: visited with var_deps that cover the pointers in it, or not at all because there are none *)
Lemma quiet_body j r vd v (P : nat -> Prop) body : covers_ j r vd -> ~ P j -> quiet (visit_sym_body false vd v None body) ->
  unpointed j (point r v P) \/ exists vd', covers_ j (point r v P) vd' /\ quiet (body vd').
Proof.
  intros C N Q. unfold visit_sym_body in Q.
  assert (C' : covers_ j (point r v P) (shadow false vd v)) by (apply covers_shadow; assumption).
  unfold shadow in C'. destruct (decl_needs_shadow false vd v) eqn:D.
  - destruct (negb false && (length vd =? 1)%nat) eqn:L; [|right; eauto]. left. cbn [negb andb] in L. apply Nat.eqb_eq in L.
    destruct vd as [|[z d] [|? ?]]; try discriminate L. intros y K.
    unfold point in K. destruct (Nat.eqb_spec y v) as [Dy|Dy]; [contradiction|]. apply C in K. unfold find_deps in K. cbn [find_entry] in K.
    unfold decl_needs_shadow in D. cbn [find_entry] in D. destruct (Nat.eqb_spec z v) as [Dz|]; [|discriminate D].
    destruct (Nat.eqb_spec z y); [congruence|discriminate K].
  - right; eauto.
Qed.
Lemma quiet_src_body j (r : pointers) vd v x body : covers_ j r vd -> quiet (visit_src_body false vd v x body) ->
  unpointed j (point r v (r x)) \/ exists vd', covers_ j (point r v (r x)) vd' /\ quiet (body vd').
Proof.
  intros C Q. unfold visit_src_body in Q. destruct (Nat.eqb_spec v x) as [->|D].
  - right. exists vd. split; [|exact Q]. intros y K. apply C. unfold point in K. destruct (Nat.eqb_spec y x); [subst|]; exact K.
  - destruct (find_deps false vd x) as [d|] eqn:F.
    + destruct (is_dummy d) eqn:Dd.
      * apply (quiet_body j r vd v (r x) body C); [|unfold visit_sym_body in *; rewrite Dd in Q; exact Q].
        intro K. apply C in K. rewrite F in K. injection K as ->. discriminate Dd.
      * unfold visit_sym_body in Q. rewrite Dd in Q. right. exists ((v, d) :: vd). split; [|exact Q].
        intros y K. unfold point in K. destruct (Nat.eqb_spec y v) as [Dy|Dy].
        -- rewrite Dy, push_same. apply C in K. congruence.
        -- rewrite push_other by congruence. apply C. exact K.
    + apply (quiet_body j r vd v (r x) body C); [|exact Q]. intro K. apply C in K. congruence.
Qed.
Lemma freed_inv c x : freed c = Some x -> exists f d, c = ECall i_free f [EVar x f_none d].
Proof.
  destruct c as [| | | | | |fn tg args|]; try discriminate. destruct fn; try discriminate. destruct args as [|[|s f d| | | | | |] [|? ?]]; try discriminate;
    destruct f; try discriminate. intro E. injection E as ->. eauto.
Qed.
Ltac qapp := repeat match goal with H : quiet (_ ++ _) |- _ => apply quiet_app in H; destruct H end.
Lemma depends j :
  (forall r s ok t, runs r s ok t -> forall vd, covers_ j r vd -> quiet (visit_stmt false vd s) -> ~ In j (made t) -> proj j t = []) /\
  (forall r l ok t, runs_list r l ok t -> forall vd, covers_ j r vd -> Forall (fun s => quiet (visit_stmt false vd s)) l -> ~ In j (made t) -> proj j t = []) /\
  (forall r s ok t, runs_many r s ok t -> forall vd, covers_ j r vd -> quiet (visit_stmt false vd s) -> ~ In j (made t) -> proj j t = []).
Proof.
  apply runs_mutind; intros; notmade;
    try match goal with H : quiet (visit_stmt _ _ ?s) |- _ => match s with _ _ => cbn [visit_stmt] in H end end; try reflexivity; qapp;
    try match goal with C : covers_ _ _ _, Q : quiet (visit_src_body _ _ _ _ _), R : runs (point ?r ?v (?r ?x)) ?b ?ok ?t |- proj j ?t = [] =>
      destruct (quiet_src_body _ _ _ _ _ _ C Q) as [U|(vd' & C' & Q')]; [eapply (proj1 (untouched j)); eassumption|eauto] end;
    try match goal with C : covers_ _ ?r _, Q : quiet (visit_sym_body _ _ ?v None _), R : runs (point ?r ?v ?P) ?b ?ok ?t |- proj j ?t = [] =>
      destruct (quiet_body _ _ _ _ P _ C (fun K => match K with end) Q) as [U|(vd' & C' & Q')]; [eapply (proj1 (untouched j)); eassumption|eauto] end.
  - eapply uses_proj; [eassumption|]. intros [(y & I & K)|(e & I & K)]; [|eapply quiet_all; eassumption].
    apply H0 in K. destruct I as [I|I].
    + pose proof (set_all_in _ _ _ _ input_flags _ I K) as I'. apply H1 in I'. discriminate I'.
    + pose proof (set_all_in _ _ _ _ output_flags _ I K) as I'. apply H3 in I'. discriminate I'.
  - eapply uses_proj; [eassumption|]. intros [K|[K|(p & -> & K)]]; apply H0 in K; revert K; eapply quiet_set; try eassumption; try reflexivity.
  - destruct (visit_lets false (visit_expr false) vd l) as [w vd1] eqn:E. qapp. pose proof (covers_lets _ _ _ _ _ H _ H2) as K.
    rewrite E in K. cbn [fst snd] in K. destruct K as [A B]; [assumption|]. apply proj_nil_app; [exact A|]. eapply H1; [exact B|assumption|tauto].
  - eapply H0; [eassumption| |assumption]. clear - H2. induction l as [|x l IH]; constructor.
    + apply quiet_app in H2. tauto.
    + apply IH. apply quiet_app in H2. tauto.
  - destruct (quiet_body _ _ _ _ nothing _ H1 (fun K => match K with end) H6) as [U|(vd' & C' & Q')]; [eapply (proj2 (proj2 (untouched j))); eassumption|eauto].
  - cbn [made flat_map app In] in H3. change (flat_map _ (t ++ [End_ i])) with (made (t ++ [End_ i])) in H3. rewrite made_app, in_app_iff in H3.
    cbn [proj filter is_about]. destruct (Nat.eqb_spec i j); [tauto|]. change (filter (is_about j) (t ++ [End_ i])) with (proj j (t ++ [End_ i])).
    apply proj_nil_app.
    + destruct (quiet_body _ _ _ _ (eq i) _ H1 n H5) as [U|(vd' & C' & Q')]; [eapply (proj1 (untouched j)); try eassumption; tauto|eapply H0; try eassumption; tauto].
    + cbn [proj filter is_about]. destruct (Nat.eqb_spec i j); [tauto|reflexivity].
  - pose proof (quiet_pointed _ _ _ _ H2 H3) as N. apply proj_nil_app; [eapply uses_proj; eassumption|].
    destruct (quiet_body _ _ _ _ (pointed r p) _ H2 N H7) as [U|(vd' & C' & Q')]; [eapply (proj1 (untouched j)); try eassumption; tauto|eapply H1; try eassumption; tauto].
  - eapply uses_proj; [eassumption|]. eapply quiet_pointed; eassumption.
  - eapply shuffle_untouched; [eassumption|eapply H0; try eassumption; tauto|]. eapply H2; [|eassumption|tauto].
    destruct v as [v|]; [|exact H4]. intros y K. unfold point in K. destruct (y =? v)%nat; [destruct K|apply H4; exact K].
  - eapply uses_proj; [eassumption|]. eapply quiet_pointed; eassumption.
  - cbn [proj filter is_about]. destruct (Nat.eqb_spec i j) as [->|]; [|reflexivity]. exfalso. eapply quiet_pointed; [eassumption|eassumption|].
    destruct (freed_inv _ _ H) as (f & d & ->). exists x, (RField f_none). split; [left; split; reflexivity|auto].
  - inversion H2; subst. eauto.
  - inversion H4; subst. apply proj_nil_app; [eapply H0; try eassumption; tauto|eapply H2; try eassumption; tauto].
  - eapply shuffle_untouched; [eassumption|eapply H0; try eassumption; tauto|eapply H2; try eassumption; tauto].
Qed.

(** ** A statement that does not name x does not touch what only x points to *)
Definition only (x j : nat) (r : pointers) : Prop := forall y, r y j -> y = x.
Lemma only_un x j r : only x j r -> ~ r x j -> unpointed j r.
Proof. intros O N y K. pose proof (O y K). subst. contradiction. Qed.
Lemma only_pointed x j r e : only x j r -> ~ free x e -> ~ pointed r e j.
Proof. intros O N (y & ro & Oc & _ & K). apply O in K. subst. apply N. exists ro. exact Oc. Qed.
Lemma only_point x j r v (P : nat -> Prop) : only x j r -> ~ P j -> only x j (point r v P).
Proof. intros O N y. unfold point. destruct (y =? v)%nat; [contradiction|apply O]. Qed.
Lemma point_x j x (r : pointers) (P : nat -> Prop) : only x j r -> ~ P j -> unpointed j (point r x P).
Proof. intros O N y. unfold point. destruct (Nat.eqb_spec y x); [exact N|]. intro K. apply O in K. contradiction. Qed.
Lemma only_lets x j r l r' t : lets_run r l r' t -> only x j r -> forall B, ~ in_lets (free x) x l B ->
  proj j t = [] /\ (unpointed j r' \/ (only x j r' /\ ~ B)).
Proof.
  induction 1 as [|r v e l r' t1 t2 U L IH]; intros O B N; cbn [in_lets] in N; [auto|].
  assert (Ne : ~ pointed r e j) by (apply only_pointed with x; tauto).
  destruct (Nat.eqb_spec v x) as [Ev|Ev].
  - assert (Un : unpointed j (point r v (pointed r e))) by (rewrite Ev; apply point_x; assumption).
    destruct (lets_un _ _ _ _ _ L Un) as [A C]. split; [|auto]. apply proj_nil_app; [eapply uses_proj; eassumption|exact C].
  - destruct (IH (only_point _ _ _ _ _ O Ne) B) as [A C]; [tauto|]. split; [|exact C]. apply proj_nil_app; [eapply uses_proj; eassumption|exact A].
Qed.
Lemma any_of_in (P : expr -> Prop) l e : In e l -> P e -> any_of P l.
Proof. induction l as [|y l IH]; [intros []|]. intros [->|I] K; cbn [any_of]; auto. Qed.
Lemma unnamed x j :
  (forall r s ok t, runs r s ok t -> only x j r -> ~ free_stmt x s -> ~ In j (made t) -> proj j t = []) /\
  (forall r l ok t, runs_list r l ok t -> only x j r -> Forall (fun s => ~ free_stmt x s) l -> ~ In j (made t) -> proj j t = []) /\
  (forall r s ok t, runs_many r s ok t -> only x j r -> ~ free_stmt x s -> ~ In j (made t) -> proj j t = []).
Proof.
  apply runs_mutind; intros; notmade; 
    try match goal with H : ~ free_stmt _ ?s |- _ => match s with _ _ => cbn [free_stmt] in H end end; try reflexivity;
    try match goal with O : only x j ?r, R : runs (point ?r ?v (?r ?y)) ?b ?ok ?t |- proj j ?t = [] =>
      assert (~ r y j) by (let K := fresh in intro K; apply O in K; tauto);
      destruct (Nat.eq_dec v x) as [->|]; [eapply (proj1 (untouched j)); try eassumption; apply point_x; assumption
      |match goal with IH : only x j (point _ _ _) -> _ |- _ => apply IH; [apply only_point; assumption|tauto|assumption] end] end.
  - eapply uses_proj; [eassumption|]. intros [(y & I & K)|(e & I & K)].
    + apply H0 in K. subst. tauto.
    + revert K. apply only_pointed with x; [assumption|]. intro. apply H1. do 2 right. eapply any_of_in; eassumption.
  - eapply uses_proj; [eassumption|]. intros [K|[K|(p & -> & K)]]; apply H0 in K; subst; tauto.
  - destruct (only_lets _ _ _ _ _ _ H H2 _ H3) as [A [B|[B C]]]; apply proj_nil_app; try exact A.
    + eapply (proj1 (untouched j)); try eassumption; tauto.
    + apply H1; tauto.
  - apply H0; try assumption. clear - H2. induction l as [|y l IH]; constructor; tauto.
  - destruct (Nat.eq_dec v x) as [->|].
    + eapply (proj2 (proj2 (untouched j))); try eassumption. apply point_x; auto.
    + apply H0; [apply only_point; auto|tauto|assumption].
  - cbn [made flat_map app In] in H3. change (flat_map _ (t ++ [End_ i])) with (made (t ++ [End_ i])) in H3. rewrite made_app, in_app_iff in H3.
    cbn [proj filter is_about]. destruct (Nat.eqb_spec i j) as [|Ni]; [tauto|]. change (filter (is_about j) (t ++ [End_ i])) with (proj j (t ++ [End_ i])).
    apply proj_nil_app.
    + destruct (Nat.eq_dec v x) as [->|].
      * eapply (proj1 (untouched j)); try eassumption; [apply point_x; auto|tauto].
      * apply H0; [apply only_point; auto|tauto|tauto].
    + cbn [proj filter is_about]. destruct (Nat.eqb_spec i j); [tauto|reflexivity].
  - assert (N : ~ pointed r p j) by (apply only_pointed with x; tauto). apply proj_nil_app; [eapply uses_proj; eassumption|].
    destruct (Nat.eq_dec v x) as [->|].
    + eapply (proj1 (untouched j)); try eassumption; [apply point_x; auto|tauto].
    + apply H1; [apply only_point; auto|tauto|tauto].
  - eapply uses_proj; [eassumption|]. apply only_pointed with x; tauto.
  - destruct (Nat.eq_dec v x) as [->|].
    + eapply (proj1 (untouched j)); try eassumption. apply point_x; auto.
    + apply H0; [apply only_point; auto|tauto|assumption].
  - eapply shuffle_untouched; [eassumption|apply H0; tauto|]. destruct v as [v|].
    + destruct (Nat.eq_dec v x) as [->|].
      * eapply (proj1 (untouched j)); try eassumption; [apply point_x; auto|tauto].
      * apply H2; [apply only_point; auto| |tauto]. intro. apply H5. right. split; [congruence|assumption].
    + apply H2; [assumption| |tauto]. intro. apply H5. right. split; [discriminate|assumption].
  - eapply uses_proj; [eassumption|]. apply only_pointed with x; assumption.
  - cbn [proj filter is_about]. destruct (Nat.eqb_spec i j) as [->|]; [|reflexivity]. exfalso. apply H1 in H0. subst.
    destruct (freed_inv _ _ H) as (f & d & ->). apply H2. exists (RField f_none). left. split; reflexivity.
  - inversion H2; subst. auto.
  - inversion H4; subst. apply proj_nil_app; [apply H0; tauto|apply H2; tauto].
  - eapply shuffle_untouched; [eassumption|apply H0; tauto|apply H2; tauto].
Qed.

(** ** depends_on does not find what is not mentioned *)
Lemma quiet_nil : quiet []. Proof. intros f []. Qed.
Lemma quiet_expr x e : ~ free x e -> quiet (visit_expr false [(x, TTracked 0)] e).
Proof.
  intros N f I. destruct (expr_exact false e _ _ _ I eq_refl) as (y & ro & O & _ & F). unfold find_deps in F. cbn [find_entry] in F.
  destruct (Nat.eqb_spec x y) as [->|]; [|discriminate F]. exfalso. apply N. exists ro. exact O.
Qed.
Lemma quiet_exprs x l : ~ any_of (free x) l -> quiet (visit_all (visit_expr false) [(x, TTracked 0)] l).
Proof. induction l as [|e l IH]; intro N; cbn [visit_all any_of] in *; [apply quiet_nil|]. apply quiet_app. split; [apply quiet_expr|apply IH]; tauto. Qed.
Lemma quiet_interval x i : ~ free_interval x i -> quiet (visit_interval false [(x, TTracked 0)] i).
Proof. unfold free_interval, visit_interval. intro N. apply quiet_app. split; apply quiet_expr; tauto. Qed.
Lemma quiet_flat {A} (P : A -> Prop) (f : A -> writes) l : (forall a, ~ P a -> quiet (f a)) -> ~ Exists P l -> quiet (flat_map f l).
Proof.
  intros H. induction l as [|a l IH]; intro N; cbn [flat_map]; [apply quiet_nil|]. apply quiet_app. split; [apply H|apply IH]; intro; apply N; [left|right]; assumption.
Qed.
Lemma quiet_dim x d : ~ free_dim x d -> quiet (visit_dim false [(x, TTracked 0)] d).
Proof. unfold free_dim, visit_dim. intro N. rewrite !quiet_app. split; [apply quiet_interval; tauto|split; apply quiet_expr; tauto]. Qed.
Lemma find_ne x y : y <> x -> find_deps false [(x, TTracked 0)] y = None.
Proof. intro N. unfold find_deps. cbn [find_entry]. destruct (Nat.eqb_spec x y); [congruence|reflexivity]. Qed.
Lemma shadow_ne x y : y <> x -> shadow false [(x, TTracked 0)] y = [(x, TTracked 0)].
Proof. intro N. unfold shadow, decl_needs_shadow. cbn [find_entry]. destruct (Nat.eqb_spec x y); [congruence|reflexivity]. Qed.
Lemma quiet_set_ne x y f : y <> x -> quiet (set_flags false [(x, TTracked 0)] y f).
Proof. intro N. unfold set_flags. rewrite find_ne by assumption. apply quiet_nil. Qed.
Lemma quiet_set_all x l f : ~ In x l -> quiet (set_all false [(x, TTracked 0)] l f).
Proof. induction l as [|y l IH]; intro N; cbn [set_all In] in *; [apply quiet_nil|]. apply quiet_app. split; [apply quiet_set_ne; tauto|apply IH; tauto]. Qed.
Lemma body_ne x v body : v <> x -> visit_sym_body false [(x, TTracked 0)] v None body = body [(x, TTracked 0)].
Proof. intro N. unfold visit_sym_body, decl_needs_shadow. cbn [find_entry]. destruct (Nat.eqb_spec x v); [congruence|reflexivity]. Qed.
Lemma src_body_ne x v y body : v <> x -> y <> x -> visit_src_body false [(x, TTracked 0)] v y body = body [(x, TTracked 0)].
Proof. intros N M. unfold visit_src_body. destruct (v =? y)%nat; [reflexivity|]. rewrite find_ne by assumption. apply body_ne. exact N. Qed.
Lemma shadow_all_ne x l : ~ In x l -> shadow_all false [(x, TTracked 0)] l = [(x, TTracked 0)].
Proof. induction l as [|y l IH]; intro N; cbn [shadow_all In] in *; [reflexivity|]. rewrite shadow_ne by tauto. apply IH. tauto. Qed.
Lemma quiet_lets x l : ~ Exists (fun p => fst p = x \/ free x (snd p)) l ->
  quiet (fst (visit_lets false (visit_expr false) [(x, TTracked 0)] l)) /\ snd (visit_lets false (visit_expr false) [(x, TTracked 0)] l) = [(x, TTracked 0)].
Proof.
  induction l as [|(y, e) l IH]; intro N; cbn [visit_lets fst snd]; [split; [apply quiet_nil|reflexivity]|].
  assert (D : y <> x) by (intro; apply N; left; left; assumption). assert (F : ~ free x e) by (intro; apply N; left; right; assumption).
  rewrite shadow_ne by exact D. destruct IH as [A B]; [intro; apply N; right; assumption|].
  destruct (visit_lets false (visit_expr false) [(x, TTracked 0)] l) as [w vd]. cbn [fst snd] in *. split; [|exact B].
  apply quiet_app. split; [apply quiet_expr; exact F|exact A].
Qed.
Lemma quiet_unmentioned x s : ~ mentioned x s -> quiet (visit_stmt false [(x, TTracked 0)] s).
Proof.
  induction s using stmt_ind'; cbn [mentioned visit_stmt]; intro N;
    rewrite ?quiet_app, ?body_ne, ?src_body_ne by tauto; try apply quiet_nil;
    repeat split; try (apply quiet_expr; tauto); try (apply quiet_interval; tauto); try (apply quiet_set_ne; tauto);
    try (apply quiet_exprs; tauto); try (apply quiet_set_all; tauto); try (apply (quiet_flat (free_dim x)); [apply quiet_dim|tauto]);
    try (apply (quiet_flat (free_interval x)); [apply quiet_interval|tauto]); try match goal with IH : _ -> quiet _ |- _ => apply IH; tauto end.
  all: try (match goal with |- context [shadow_all] => rewrite shadow_all_ne by tauto; apply quiet_exprs; tauto end).
  - match goal with |- quiet match ?e with _ => _ end => destruct e; [apply quiet_set_ne; intro; subst; tauto|apply quiet_nil] end.
  - destruct (quiet_lets x l) as [A B]; [tauto|]. destruct (visit_lets false (visit_expr false) [(x, TTracked 0)] l) as [w vd]. cbn [fst snd] in *.
    subst vd. apply quiet_app. split; [exact A|]. apply IHs. tauto.
  - match goal with F : Forall _ l |- _ => induction F as [|y l0 Hy F IH] end; [apply quiet_nil|]. apply quiet_app. split; [apply Hy|apply IH]; tauto.
Qed.
Lemma dep_quiet x s : any_flag (depends_on_any_stmt s [x]) = false <-> quiet (visit_stmt false [(x, TTracked 0)] s).
Proof.
  unfold depends_on_any_stmt. cbn [map rev app]. split.
  - intros D f I. destruct (any_flag f) eqn:A; [|reflexivity]. rewrite (result_any _ _ _ I A) in D. discriminate D.
  - intro Q. destruct (any_flag (result_of _ _)) eqn:A; [|reflexivity]. apply result_inv in A as (f & I & B); [|apply any_or|reflexivity].
    apply Q in I. congruence.
Qed.

(** ** Blocks *)
Lemma list_app r a b ok t : runs_list r (a ++ b) ok t <->
  (ok = false /\ runs_list r a false t) \/ exists t1 t2, runs_list r a true t1 /\ runs_list r b ok t2 /\ t = t1 ++ t2.
Proof.
  revert t. induction a as [|s a IH]; intro t; cbn [app].
  - split.
    + intro R. right. exists [], t. repeat split; [constructor|assumption].
    + intros [(_ & R)|(t1 & t2 & R1 & R2 & ->)]; [inversion R|]. inversion R1; subst. exact R2.
  - split.
    + intro R. inversion R as [|? ? ? ? R1|? ? ? u1 ? u2 R1 R2]; subst.
      * left. split; [reflexivity|]. constructor. exact R1.
      * apply IH in R2 as [(-> & R2)|(v1 & v2 & R3 & R4 & ->)].
        -- left. split; [reflexivity|]. constructor; assumption.
        -- right. exists (u1 ++ v1), v2. rewrite app_assoc. repeat split; [constructor; assumption|assumption].
    + intros [(-> & R)|(t1 & t2 & R1 & R2 & ->)].
      * inversion R as [|? ? ? ? R1|? ? ? u1 ? u2 R1 R2]; subst; [constructor; assumption|]. constructor; [assumption|]. apply IH. left. auto.
      * inversion R1 as [| |? ? ? u1 ? u2 R3 R4]; subst. rewrite <- app_assoc. constructor; [assumption|]. apply IH. right. eauto.
Qed.
Lemma list_one r s ok t : runs_list r [s] ok t <-> runs r s ok t.
Proof.
  split.
  - intro R. inversion R as [|? ? ? ? R1|? ? ? u1 ? u2 R1 R2]; subst; [assumption|]. inversion R2; subst. rewrite app_nil_r. exact R1.
  - intro R. destruct ok; [|constructor; exact R]. rewrite <- (app_nil_r t). constructor; [exact R|constructor].
Qed.
Lemma list_block r l ok t : runs r (SBlock l) ok t <-> runs_list r l ok t.
Proof. split; intro R; [inversion R; subst; assumption|constructor; assumption]. Qed.
Lemma list_flatten r l : forall ok t, runs_list r (flatten_blocks l) ok t <-> runs_list r l ok t.
Proof.
  induction l as [|s l IH]; intros ok t; [reflexivity|].
  assert (G : forall a, (forall ok t, runs_list r a ok t <-> runs r s ok t) -> (runs_list r (a ++ flatten_blocks l) ok t <-> runs_list r (s :: l) ok t)).
  { intros a Ha. change (s :: l) with ([s] ++ l). rewrite !list_app. rewrite Ha, list_one. split.
    - intros [K|(t1 & t2 & A & B & C)]; [left; exact K|right; exists t1, t2]. rewrite list_one, <- Ha, <- IH. auto.
    - intros [K|(t1 & t2 & A & B & C)]; [left; exact K|right; exists t1, t2]. rewrite list_one, <- Ha in A. rewrite IH. auto. }
  destruct s; cbn [flatten_blocks]; try (apply (G [_]); intros; apply list_one). apply G. intros. symmetry. apply list_block.
Qed.
Lemma list_erase r l : forall ok t, runs_list r (erase_undefs l) ok t <-> runs_list r l ok t.
Proof.
  induction l as [|s l IH]; intros ok t; [reflexivity|].
  assert (G : runs_list r (s :: erase_undefs l) ok t <-> runs_list r (s :: l) ok t).
  { split; intro R; (inversion R as [|? ? ? ? R1|? ? ? u1 ? u2 R1 R2]; subst; [constructor; assumption|constructor; [assumption|apply IH; assumption]]). }
  unfold erase_undefs in *. destruct s; cbn [filter sdefined]; try exact G.
  rewrite IH. split; intro R.
  - change t with ([] ++ t). constructor; [constructor|exact R].
  - inversion R as [|? ? ? ? R1|? ? ? u1 ? u2 R1 R2]; subst; inversion R1; subst. exact R2.
Qed.
Lemma list_made r l ok t : runs r (block_make l) ok t <-> runs_list r l ok t.
Proof.
  rewrite <- list_flatten, <- list_erase. unfold block_make. destruct (erase_undefs (flatten_blocks l)) as [|s [|s' l']].
  - split; intro R; inversion R; constructor.
  - symmetry. apply list_one.
  - apply list_block.
Qed.

(** ** The free comes late *)
Definition late (j : nat) (t t' : list event) : Prop := t' = t \/ exists a c, t' = a ++ Free j :: c /\ t = a ++ c /\ proj j c = [].
Lemma late_refl j t : late j t t. Proof. left. reflexivity. Qed.
Lemma late_pre j u t t' : late j t t' -> late j (u ++ t) (u ++ t').
Proof. intros [->|(a & c & -> & -> & N)]; [left; reflexivity|]. right. exists (u ++ a), c. rewrite <- !app_assoc. auto. Qed.
Lemma late_post j u t t' : proj j u = [] -> late j t t' -> late j (t ++ u) (t' ++ u).
Proof.
  intros U [->|(a & c & -> & -> & N)]; [left; reflexivity|]. right. exists a, (c ++ u). rewrite <- !app_assoc. repeat split. apply proj_nil_app; assumption.
Qed.
Lemma shuffle_split {A} (a c : list A) : forall b t, shuffle (a ++ c) b t -> exists b1 b2 t1 t2, b = b1 ++ b2 /\ t = t1 ++ t2 /\ shuffle a b1 t1 /\ shuffle c b2 t2.
Proof.
  intros b t H. remember (a ++ c) as ac eqn:E. revert a c E. induction H as [|x a b t S1 IH|x a b t S1 IH]; intros a1 c E.
  - symmetry in E. apply app_eq_nil in E as [-> ->]. exists [], [], [], []. repeat split; constructor.
  - destruct a1 as [|y a1]; cbn [app] in E.
    + subst. exists [], b, [], (x :: t). repeat split; constructor. exact S1.
    + injection E as -> E. destruct (IH _ _ E) as (b1 & b2 & t1 & t2 & -> & -> & P & Q). exists b1, b2, (y :: t1), t2. repeat split; [constructor|]; assumption.
  - destruct (IH _ _ E) as (b1 & b2 & t1 & t2 & -> & -> & P & Q). exists (x :: b1), b2, (x :: t1), t2. repeat split; [constructor|]; assumption.
Qed.
Lemma shuffle_join {A} (a b t c b' t' : list A) : shuffle a b t -> shuffle c b' t' -> shuffle (a ++ c) (b ++ b') (t ++ t').
Proof. induction 1; intro K; cbn [app]; [assumption|constructor; auto|constructor; auto]. Qed.
Lemma late_shuffle j a a' b c' : late j a a' -> proj j b = [] -> shuffle a' b c' -> exists c, shuffle a b c /\ late j c c'.
Proof.
  intros [->|(u & w & -> & -> & N)] B S1; [exists c'; split; [assumption|apply late_refl]|].
  apply shuffle_split in S1 as (b1 & b2 & t1 & t2 & -> & -> & P & Q). change (Free j :: w) with ([Free j] ++ w) in Q.
  apply shuffle_split in Q as (b3 & b4 & t3 & t4 & -> & -> & Q & R).
  rewrite !proj_app in B. apply app_eq_nil in B as [B1 B]. apply app_eq_nil in B as [B3 B4].
  assert (exists u1 u2, b3 = u1 ++ u2 /\ t3 = u1 ++ Free j :: u2) as (u1 & u2 & -> & ->).
  { remember [Free j] as f eqn:E. clear - Q E. revert E. induction Q as [|x a b t S1 IH|x a b t S1 IH]; intro E; [discriminate E| |].
    - injection E as -> ->. apply shuffle_nil_l in S1. subst. exists [], b. auto.
    - destruct (IH E) as (u1 & u2 & -> & ->). exists (x :: u1), u2. auto. }
  exists (t1 ++ (u1 ++ u2) ++ t4). split.
  - apply shuffle_join; [exact P|]. change w with ([] ++ w). apply shuffle_join; [apply shuffle_refl_l|exact R].
  - right. exists (t1 ++ u1), (u2 ++ t4). rewrite <- !app_assoc. repeat split. rewrite proj_app in B3. apply app_eq_nil in B3 as [_ B3].
    apply proj_nil_app; [exact B3|]. eapply shuffle_untouched; eassumption.
Qed.
Lemma late_shuffle' j a a' b c : late j a a' -> proj j b = [] -> shuffle a b c -> exists c', shuffle a' b c' /\ late j c c'.
Proof.
  intros [->|(u & w & -> & -> & N)] B S1; [exists c; split; [assumption|apply late_refl]|].
  apply shuffle_split in S1 as (b1 & b2 & t1 & t2 & -> & -> & P & Q). rewrite !proj_app in B. apply app_eq_nil in B as [B1 B2].
  exists (t1 ++ Free j :: t2). split.
  - apply shuffle_join; [exact P|]. constructor. exact Q.
  - right. exists t1, t2. repeat split. eapply shuffle_untouched; eassumption.
Qed.
Lemma late_made j t t' : late j t t' -> made t' = made t.
Proof. intros [->|(a & c & -> & -> & _)]; [reflexivity|]. rewrite !made_app. reflexivity. Qed.
Lemma late_other j i t t' : late j t t' -> i <> j -> proj i t' = proj i t.
Proof.
  intros [->|(a & c & -> & -> & _)] N; [reflexivity|]. rewrite !proj_app. f_equal. cbn [proj filter is_about].
  destruct (Nat.eqb_spec j i); [congruence|reflexivity].
Qed.
Lemma late_kept j t t' : late j t t' -> without_frees t' = without_frees t.
Proof. intros [->|(a & c & -> & -> & _)]; [reflexivity|]. unfold without_frees. rewrite !filter_app. reflexivity. Qed.
Lemma late_in j e t t' : late j t t' -> In e t' -> In e t \/ e = Free j.
Proof.
  intros [->|(a & c & -> & -> & _)] I; [auto|]. rewrite in_app_iff in *. cbn [In] in I. destruct I as [I|[I|I]]; auto.
Qed.
Lemma late_self j t t' : late j t t' -> proj j t' = proj j t \/ proj j t' = proj j t ++ [Free j].
Proof.
  intros [->|(a & c & -> & -> & N)]; [auto|]. right. rewrite !proj_app, N, app_nil_r. cbn [proj filter is_about]. rewrite Nat.eqb_refl.
  change (filter (is_about j) c) with (proj j c). rewrite N. reflexivity.
Qed.

(** ** insert_free_into_allocate *)
Lemma ins_list_unchanged f l : Forall (fun s => forall v, exists v', f s true v = (s, false, true, v')) l ->
  forall v, exists v', ins_list f l true v = (l, false, true, v').
Proof.
  induction 1 as [|s l Hs Hl IH]; intro v; cbn [ins_list]; [eauto|]. destruct (IH v) as (v' & ->). cbn [orb]. eauto.
Qed.
Lemma ins_found s : forall names vi, exists v', ins names s true vi = (s, false, true, v').
Proof.
  induction s using stmt_ind'; intros names vi; cbn [ins]; unfold visit_terminal; cbn [negb andb orb]; try (eexists; reflexivity);
    try match goal with |- context [named ?y names] => destruct (named y names); [eexists; reflexivity|] end;
    try match goal with IH : forall names vi, exists v', ins names ?b true vi = _ |- context [ins ?n ?b true vi] =>
      destruct (IH n vi) as (v' & ->); cbn [with_body]; eexists; reflexivity end.
  - destruct (ins_list_unchanged (ins names) l) with (v := vi) as (v' & ->); [|eexists; reflexivity].
    match goal with F : Forall _ l |- _ => induction F; constructor; auto end.
  - destruct (IHs1 names vi) as (v' & ->). destruct (IHs2 names v') as (v'' & ->). eexists; reflexivity.
Qed.
Lemma ins_same s : forall names f vi s' f' v', ins names s f vi = (s', false, f', v') -> s' = s.
Proof.
  destruct s; intros names f vi s' f' v'; cbn [ins]; unfold visit_terminal, with_body;
    repeat match goal with
    | |- context [if ?b then _ else _] => destruct b
    | |- context [let '(_, _) := ?m in _] => destruct m as [[[? []] ?] ?]
    end; cbn [orb]; intro E; try discriminate E; injection E; intros; subst; try reflexivity; try discriminate.
Qed.
Lemma named_one y x : named y [x] = (y =? x)%nat.
Proof. unfold named. cbn [existsb]. apply orb_false_r. Qed.
Lemma named_ne y x : y <> x -> named y [x] = false.
Proof. intro N. rewrite named_one. apply Nat.eqb_neq. exact N. Qed.
Lemma dep_expr x e : any_flag (depends_on_any e [x]) = false <-> ~ free x e.
Proof.
  pose proof (C17_depends_on_any_exact e [x]) as C. destruct (any_flag (depends_on_any e [x])).
  - split; [discriminate|]. intro N. destruct C as [C _]. destruct (C eq_refl) as (y & [->|[]] & F). contradiction.
  - split; [|reflexivity]. intros _ F. destruct C as [_ C]. assert (false = true); [|discriminate]. apply C. exists x. split; [left; reflexivity|exact F].
Qed.
Lemma ins_unmentioned x s : ~ mentioned x s -> forall vi, exists v', ins [x] s false vi = (s, false, false, v').
Proof.
  induction s using stmt_ind'; intros N vi; try match goal with |- context [ins _ ?t _ _] => 
      assert (Q : any_flag (depends_on_any_stmt t [x]) = false) by (apply dep_quiet, quiet_unmentioned, N) end;
    cbn [ins mentioned] in *; unfold visit_terminal; rewrite ?Q; cbn [negb andb orb]; try (eexists; reflexivity);
    rewrite ?(proj2 (dep_expr x _)) by tauto; rewrite ?named_ne by tauto; cbn [orb];
    try match goal with IH : _ -> forall vi, exists v', ins _ ?b false vi = _ |- context [ins ?n ?b false vi] =>
      destruct (IH ltac:(tauto) vi) as (v' & ->); cbn [with_body]; eexists; reflexivity end.
  - clear Q. assert (G : exists v', ins_list (ins [x]) l false vi = (l, false, false, v')); [|destruct G as (v' & ->); eexists; reflexivity].
    match goal with F : Forall _ l |- _ => revert N; induction F as [|y l Hy F IH]; intro N; cbn [ins_list]; [eauto|] end.
    destruct IH as (v' & ->); [tauto|]. cbn [orb]. destruct (Hy ltac:(tauto) v') as (v'' & ->). eauto.
  - destruct (IHs1 ltac:(tauto) vi) as (v' & ->). destruct (IHs2 ltac:(tauto) v') as (v'' & ->). eexists; reflexivity.
Qed.

(** the free is put after everything that touches the allocation *)
Definition pointing (x j : nat) (r : pointers) : Prop := only x j r /\ forall i, r x i <-> i = j.
Lemma pointing_point x j r v (P : nat -> Prop) : pointing x j r -> v <> x -> ~ P j -> pointing x j (point r v P).
Proof.
  intros [A B] D N. split; [apply only_point; assumption|]. intro i. unfold point. destruct (Nat.eqb_spec x v); [congruence|apply B].
Qed.
Definition no_touch (j : nat) (r : pointers) (s : stmt) : Prop := forall ok t, runs r s ok t -> ~ In j (made t) -> proj j t = [].
Definition later (j : nat) (r : pointers) (s s' : stmt) : Prop :=
  (forall ok t', runs r s' ok t' -> ~ In j (made t') -> exists t, runs r s ok t /\ late j t t') /\
  (forall ok t, runs r s ok t -> ~ In j (made t) -> exists t', runs r s' ok t' /\ late j t t').
Definition inserted (x j : nat) (r : pointers) (s : stmt) (m : mutated) : Prop :=
  let '(s', ch, fo, _) := m in (fo = false /\ ch = false /\ s' = s /\ no_touch j r s) \/ (fo = true /\ later j r s s').
Lemma later_refl j r s : later j r s s.
Proof. split; intros ok t R _; exists t; split; try assumption; apply late_refl. Qed.
Lemma quiet_no_touch x j r s : pointing x j r -> quiet (visit_stmt false [(x, TTracked 0)] s) -> no_touch j r s.
Proof.
  intros [O _] Q ok t R M. eapply (proj1 (depends j)); try eassumption. intros y K. apply O in K. subst. unfold find_deps. cbn [find_entry].
  rewrite Nat.eqb_refl. reflexivity.
Qed.
Lemma free_run x j r ok t : pointing x j r -> runs r (free_check x) ok t <-> ok = true /\ t = [Free j].
Proof.
  intros [_ B]. split.
  - intro R. inversion R; subst; try discriminate. 
    + match goal with H : freed _ = Some _ |- _ => injection H as <- end. split; [reflexivity|]. f_equal. f_equal. apply B. assumption.
    + match goal with H : freed _ = Some _ |- _ => injection H as <- end. exfalso. match goal with H : forall i, ~ _ |- _ => apply (H j) end. apply B. reflexivity.
  - intros [-> ->]. eapply run_free; [reflexivity|]. apply B. reflexivity.
Qed.
Lemma terminal_inserted x j r s vi : pointing x j r -> inserted x j r s (visit_terminal [x] s false vi).
Proof.
  intro P. unfold visit_terminal. cbn [negb andb]. destruct (any_flag (depends_on_any_stmt s [x])) eqn:D.
  - destruct vi; right; (split; [reflexivity|]); [|apply later_refl]. cbn [hd]. split.
    + intros ok t' R M. apply list_made in R. inversion R as [|? ? ? ? R1|? ? ? u1 ? u2 R1 R2]; subst; [exists t'; split; [assumption|apply late_refl]|].
      apply list_one in R2. apply (free_run x j) in R2 as [-> ->]; [|exact P]. exists u1. split; [assumption|]. right. exists u1, []. rewrite app_nil_r. auto.
    + intros [] t R M.
      * exists (t ++ [Free j]). split; [|right; exists t, []; rewrite app_nil_r; auto]. apply list_made. constructor; [exact R|].
        apply list_one. apply (free_run x j); auto.
      * exists t. split; [|apply late_refl]. apply list_made. constructor. exact R.
  - left. repeat split. apply quiet_no_touch with x; [exact P|]. apply dep_quiet. exact D.
Qed.
Definition frame (x j : nat) (r : pointers) (f : stmt -> stmt) : Prop := forall b ok t, runs r (f b) ok t -> ~ In j (made t) ->
  (exists r' u t1 w, pointing x j r' /\ runs r' b ok t1 /\ t = u ++ t1 ++ w /\ proj j u = [] /\ proj j w = [] /\
     forall b' t1', runs r' b' ok t1' -> runs r (f b') ok (u ++ t1' ++ w)) \/
  (proj j t = [] /\ forall b', runs r (f b') ok t).
Lemma unmade_mid j u t w : ~ In j (made (u ++ t ++ w)) -> ~ In j (made t).
Proof. rewrite !made_app, !in_app_iff. tauto. Qed.
Lemma frame_inserted x j r f b m : pointing x j r -> frame x j r f -> (forall r', pointing x j r' -> inserted x j r' b m) -> inserted x j r (f b) (with_body f (f b) m).
Proof.
  destruct m as [[[b' ch] fo] v']. unfold inserted, with_body. intros P0 F I. destruct fo.
  - right. split; [reflexivity|]. destruct ch; [|apply later_refl].
    assert (L : forall r', pointing x j r' -> later j r' b b') by (intros r' P; destruct (I r' P) as [(K & _)|(_ & K)]; [discriminate K|exact K]). clear I. split.
    + intros ok t' R M. destruct (F _ _ _ R M) as [(r' & u & t1 & w & P & R1 & -> & U & W & K)|(N & K)]; [|exists t'; split; [apply K|apply late_refl]].
      apply unmade_mid in M. destruct (proj1 (L _ P) _ _ R1) as (t & R2 & A); [exact M|]. exists (u ++ t ++ w). split; [apply K; exact R2|]. apply late_pre, late_post; assumption.
    + intros ok t R M. destruct (F _ _ _ R M) as [(r' & u & t1 & w & P & R1 & -> & U & W & K)|(N & K)]; [|exists t; split; [apply K|apply late_refl]].
      apply unmade_mid in M. destruct (proj2 (L _ P) _ _ R1) as (t' & R2 & A); [exact M|]. exists (u ++ t' ++ w). split; [apply K; exact R2|]. apply late_pre, late_post; assumption.
  - left. assert (E : ch = false) by (destruct (I r P0) as [(_ & K & _)|(K & _)]; [exact K|discriminate K]). subst ch.
    repeat split. intros ok t R M. destruct (F _ _ _ R M) as [(r' & u & t1 & w & P & R1 & -> & U & W & K)|(N & _)]; [|exact N].
    destruct (I r' P) as [(_ & _ & _ & N)|(N & _)]; [|discriminate N]. apply unmade_mid in M. rewrite !proj_app, U, W, (N _ _ R1) by exact M. reflexivity.
Qed.

Lemma src_frame x j r f v y : pointing x j r -> v <> x -> y <> x ->
  (forall b ok t, runs r (f b) ok t <-> runs (point r v (r y)) b ok t) -> frame x j r f.
Proof.
  intros P V Y E b ok t R M. left. apply E in R. exists (point r v (r y)), [], t, []. rewrite app_nil_r.
  split; [|repeat split; try assumption; try reflexivity; intros b' t1' R'; rewrite app_nil_r; apply E; exact R'].
  apply pointing_point; try assumption. intro K. apply (proj1 P) in K. contradiction.
Qed.
Lemma src_no_touch x j r f v y b : pointing x j r -> v = x -> y <> x ->
  (forall b ok t, runs r (f b) ok t <-> runs (point r v (r y)) b ok t) -> no_touch j r (f b).
Proof.
  intros P V Y E ok t R M. apply E in R. eapply (proj1 (untouched j)); try eassumption. subst v. apply point_x; [apply P|].
  intro K. apply (proj1 P) in K. contradiction.
Qed.
Lemma src_inserted x j r f v y b vi : pointing x j r -> (forall b ok t, runs r (f b) ok t <-> runs (point r v (r y)) b ok t) ->
  (forall r' vi, pointing x j r' -> inserted x j r' b (ins [x] b false vi)) ->
  inserted x j r (f b) (if named v [x] then (f b, false, false || named y [x], vi)
    else with_body f (f b) (ins (if named y [x] then [x] ++ [v] else [x]) b (false || named y [x]) vi)).
Proof.
  intros P E I. rewrite !named_one. cbn [orb]. destruct (Nat.eqb_spec y x) as [Y|Y]; destruct (Nat.eqb_spec v x) as [V|V].
  - right. split; [reflexivity|apply later_refl].
  - destruct (ins_found b ([x] ++ [v]) vi) as (v' & ->). right. split; [reflexivity|apply later_refl].
  - left. repeat split. apply (src_no_touch x j r f v y b); assumption.
  - apply frame_inserted; [exact P|apply (src_frame x j r f v y); assumption|]. intros. apply I. assumption.
Qed.
Lemma mentioned_free x s : free_stmt x s -> mentioned x s.
Proof.
  induction s using stmt_ind'; cbn [free_stmt mentioned]; try tauto.
  - generalize dependent (free_stmt x s). intros P IH. induction l as [|(y, e) l IHl]; cbn [in_lets]; [tauto|]. intros [K|[_ K]].
    + left. left. right. exact K.
    + destruct (IHl K) as [A|A]; [left; right; exact A|right; exact A].
  - match goal with F : Forall _ l |- _ => induction F as [|y l Hy F IH]; tauto end.
Qed.
Definition later_list (j : nat) (r : pointers) (s s' : list stmt) : Prop :=
  (forall ok t', runs_list r s' ok t' -> ~ In j (made t') -> exists t, runs_list r s ok t /\ late j t t') /\
  (forall ok t, runs_list r s ok t -> ~ In j (made t) -> exists t', runs_list r s' ok t' /\ late j t t').
Lemma later_list_tail j r s a b : later_list j r a b -> later_list j r (s :: a) (s :: b).
Proof.
  intros [A B]. split; intros ok t R M; (inversion R as [|? ? ? ? R1|? ? ? u1 ? u2 R1 R2]; subst; [exists t; split; [constructor; assumption|apply late_refl]|]); notmade.
  - destruct (A _ _ R2) as (u & R3 & L); [tauto|]. exists (u1 ++ u). split; [constructor; assumption|apply late_pre; exact L].
  - destruct (B _ _ R2) as (u & R3 & L); [tauto|]. exists (u1 ++ u). split; [constructor; assumption|apply late_pre; exact L].
Qed.
Lemma later_list_head j (r : pointers) a b l : later j r a b -> (forall ok t, runs_list r l ok t -> ~ In j (made t) -> proj j t = []) -> later_list j r (a :: l) (b :: l).
Proof.
  intros [A B] N. split; intros ok t R M; (inversion R as [|? ? ? ? R1|? ? ? u1 ? u2 R1 R2]; subst; notmade).
  - destruct (A _ _ R1 M) as (u & R3 & L). exists u. split; [constructor|]; assumption.
  - destruct (A _ _ R1) as (u & R3 & L); [tauto|]. exists (u ++ u2). split; [constructor; assumption|]. apply late_post; [|exact L]. eapply N; [eassumption|tauto].
  - destruct (B _ _ R1 M) as (u & R3 & L). exists u. split; [constructor|]; assumption.
  - destruct (B _ _ R1) as (u & R3 & L); [tauto|]. exists (u ++ u2). split; [constructor; assumption|]. apply late_post; [|exact L]. eapply N; [eassumption|tauto].
Qed.
Lemma inserted_list x j r l : pointing x j r -> Forall (fun s => forall vi, inserted x j r s (ins [x] s false vi)) l -> forall vi,
  let '(r', ch, fo, _) := ins_list (ins [x]) l false vi in
  (fo = false /\ ch = false /\ r' = l /\ forall ok t, runs_list r l ok t -> ~ In j (made t) -> proj j t = []) \/ (fo = true /\ later_list j r l r').
Proof.
  intro P. induction 1 as [|s l Hs Hl IH]; intro vi; cbn [ins_list].
  - left. repeat split. intros ok t R _. inversion R. reflexivity.
  - specialize (IH vi). destruct (ins_list (ins [x]) l false vi) as [[[r' ch] fo] v']. destruct IH as [(-> & -> & -> & N)|(-> & L)].
    + cbn [orb]. specialize (Hs v'). destruct (ins [x] s false v') as [[[s' ch] fo] v'']. destruct Hs as [(-> & -> & -> & N')|(-> & L)].
      * left. repeat split. intros ok t R M. inversion R as [|? ? ? ? R1|? ? ? u1 ? u2 R1 R2]; subst; notmade; [eapply N'; eassumption|].
        apply proj_nil_app; [eapply N'; [eassumption|tauto]|eapply N; [eassumption|tauto]].
      * right. split; [reflexivity|]. apply later_list_head; assumption.
    + rewrite orb_true_r. right. split; [reflexivity|]. apply later_list_tail. exact L.
Qed.
Lemma async_inv (r : pointers) v a b ok t : runs r (SAsync v a b) ok t -> exists ok1 t1 ok2 t2,
  runs r a ok1 t1 /\ runs (match v with Some v => point r v nothing | None => r end) b ok2 t2 /\ shuffle t1 t2 t /\ ok = ok1 && ok2.
Proof. intro R. inversion R; subst. eauto 10. Qed.
Lemma async_later_task j (r : pointers) v a a' b : later j r a a' -> no_touch j (match v with Some v => point r v nothing | None => r end) b -> later j r (SAsync v a b) (SAsync v a' b).
Proof.
  intros [A B] N. split; intros ok t R M; apply async_inv in R as (ok1 & t1 & ok2 & t2 & Ra & Rb & Sh & ->); notmade.
  - destruct (A _ _ Ra) as (u & R3 & L); [tauto|]. destruct (late_shuffle j u t1 t2 t L) as (c & S1 & L'); [eapply N; [eassumption|tauto]|assumption|].
    exists c. split; [econstructor; eassumption|exact L'].
  - destruct (B _ _ Ra) as (u & R3 & L); [tauto|]. destruct (late_shuffle' j t1 u t2 t L) as (c & S1 & L'); [eapply N; [eassumption|tauto]|assumption|].
    exists c. split; [econstructor; eassumption|exact L'].
Qed.
Lemma async_later_body j (r : pointers) v a b b' : no_touch j r a -> later j (match v with Some v => point r v nothing | None => r end) b b' -> later j r (SAsync v a b) (SAsync v a b').
Proof.
  intros N [A B]. split; intros ok t R M; apply async_inv in R as (ok1 & t1 & ok2 & t2 & Ra & Rb & Sh & ->); notmade.
  - destruct (A _ _ Rb) as (u & R3 & L); [tauto|]. apply shuffle_comm in Sh.
    destruct (late_shuffle j u t2 t1 t L) as (c & S1 & L'); [eapply N; [eassumption|tauto]|assumption|].
    exists c. split; [econstructor; try eassumption; apply shuffle_comm; assumption|exact L'].
  - destruct (B _ _ Rb) as (u & R3 & L); [tauto|]. apply shuffle_comm in Sh.
    destruct (late_shuffle' j t2 u t1 t L) as (c & S1 & L'); [eapply N; [eassumption|tauto]|assumption|].
    exists c. split; [econstructor; try eassumption; apply shuffle_comm; assumption|exact L'].
Qed.
Lemma inserted_ok x j s : not_reused x s -> forall r vi, pointing x j r -> inserted x j r s (ins [x] s false vi).
Proof.
  induction s using stmt_ind'; intros N r vi P; cbn [ins not_reused] in *; try (apply terminal_inserted; exact P).
  - left. repeat split. intros ok t R _. inversion R. reflexivity.
  - pose proof (inserted_list x j r l P) as L. assert (F : Forall (fun s => forall vi, inserted x j r s (ins [x] s false vi)) l).
    { clear L. match goal with F : Forall _ l |- _ => induction F as [|y l Hy F IH]; constructor end; [|apply IH; tauto]. intro. apply Hy; tauto. }
    specialize (L F vi). destruct (ins_list (ins [x]) l false vi) as [[[r' ch] fo] v']. destruct L as [(-> & -> & -> & L)|(-> & L)].
    + left. repeat split. intros ok t R M. apply list_block in R. eapply L; eassumption.
    + right. split; [reflexivity|]. destruct ch; [|apply later_refl]. split; intros ok t R M.
      * apply list_made in R. destruct (proj1 L _ _ R M) as (u & R' & K). exists u. split; [constructor|]; assumption.
      * apply list_block in R. destruct (proj2 L _ _ R M) as (u & R' & K). exists u. split; [apply list_made|]; assumption.
  - apply (frame_inserted x j r (SAllocate s w e ds)); [exact P| |intros; apply IHs; tauto].
    intros b ok t R M. inversion R; subst; [|right; split; [reflexivity|intro; constructor]].
    left. change (Make i w :: t0 ++ [End_ i]) with ([Make i w] ++ t0 ++ [End_ i]) in *.
    assert (D : i <> j) by (intro; subst; apply M; left; reflexivity).
    exists (point r s (eq i)), [Make i w], t0, [End_ i]. split; [apply pointing_point; [assumption|tauto|congruence]|].
    cbn [proj filter is_about]. destruct (Nat.eqb_spec i j); [congruence|]. repeat split; try assumption. intros. constructor. assumption.
  - destruct (any_flag (depends_on_any p [x])) eqn:D; cbn [orb].
    + destruct (named s [x]); [right; split; [reflexivity|apply later_refl]|]. destruct (ins_found s0 ([x] ++ [s]) vi) as (v' & ->).
      right; split; [reflexivity|apply later_refl].
    + apply dep_expr in D. pose proof (only_pointed x j r p (proj1 P) D) as Np. rewrite named_one. destruct (Nat.eqb_spec s x) as [V|V].
      * left. repeat split. intros ok t R M. inversion R; subst; [|eapply uses_proj; eassumption]. notmade. apply proj_nil_app; [eapply uses_proj; eassumption|].
        eapply (proj1 (untouched j)); [eassumption| |tauto]. apply point_x; [apply P|exact Np].
      * apply (frame_inserted x j r (SMake s p e ds)); [exact P| |intros; apply IHs; tauto].
        intros b ok t R M. inversion R; subst.
        -- left. exists (point r s (pointed r p)), t1, t2, []. rewrite app_nil_r. split; [apply pointing_point; assumption|]. repeat split; try assumption.
           ++ eapply uses_proj; eassumption.
           ++ intros. rewrite app_nil_r. constructor; assumption.
        -- right. split; [eapply uses_proj; eassumption|]. intro. constructor. assumption.
  - apply (frame_inserted x j r (SConst s v)); [exact P| |intros; apply IHs; tauto].
    intros b ok t R M. inversion R; subst. left. exists (point r s nothing), [], t, []. rewrite app_nil_r. split; [apply pointing_point; [assumption|tauto|auto]|].
    repeat split; try assumption. intros. rewrite app_nil_r. constructor. assumption.
  - apply (src_inserted x j r (SClone s v)); [exact P| |auto]. intros; split; intro R; [inversion R; subst; assumption|constructor; assumption].
  - apply (src_inserted x j r (SCropBuffer s v l)); [exact P| |auto]. intros; split; intro R; [inversion R; subst; assumption|constructor; assumption].
  - apply (src_inserted x j r (SCropDim s v d x0)); [exact P| |auto]. intros; split; intro R; [inversion R; subst; assumption|constructor; assumption].
  - apply (src_inserted x j r (SSliceBuffer s v l)); [exact P| |auto]. intros; split; intro R; [inversion R; subst; assumption|constructor; assumption].
  - apply (src_inserted x j r (SSliceDim s v d x0)); [exact P| |auto]. intros; split; intro R; [inversion R; subst; assumption|constructor; assumption].
  - apply (src_inserted x j r (STranspose s v p)); [exact P| |auto]. intros; split; intro R; [inversion R; subst; assumption|constructor; assumption].
  - destruct N as (Nv & Nm & N2 & N3).
    assert (P' : pointing x j (match s1 with Some v => point r v nothing | None => r end)).
    { destruct s1; [|exact P]. apply pointing_point; [exact P|congruence|auto]. }
    pose proof (IHs1 N2 r vi P) as I1. destruct (ins [x] s2 false vi) as [[[t' c1] fo] v'] eqn:E1.
    destruct I1 as [(-> & -> & -> & I1)|(-> & I1)].
    + pose proof (IHs2 N3 _ v' P') as I2. destruct (ins [x] s3 false v') as [[[b' c2] fo'] v''] eqn:E2. cbn [orb]. destruct I2 as [(-> & -> & -> & I2)|(-> & I2)].
      * left. repeat split. intros ok t R M. inversion R; subst. notmade. eapply shuffle_untouched; [eassumption|eapply I1; [eassumption|tauto]|eapply I2; [eassumption|tauto]].
      * right. split; [reflexivity|]. destruct c2; [|apply later_refl]. apply async_later_body; assumption.
    + destruct (ins_found s3 [x] v') as (v'' & ->). rewrite orb_false_r. right. split; [reflexivity|]. destruct c1; [|apply later_refl].
      apply async_later_task; [exact I1|]. destruct Nm as [Nm|Nm].
      * destruct (ins_unmentioned x s2 Nm vi) as (v3 & E3). rewrite E3 in E1. discriminate E1.
      * intros ok t R M. eapply (proj1 (unnamed x j)); try eassumption. apply P'.
Qed.

(** ** What the symbols of the program are stays the same *)
Lemma block_all (Q : stmt -> Prop) : Q SUndef -> (forall l, Q (SBlock l) <-> Forall Q l) -> forall l, Q (block_make l) <-> Forall Q l.
Proof.
  intros U B l.
  assert (F : Forall Q (flatten_blocks l) <-> Forall Q l).
  { induction l as [|s l IH]; [reflexivity|]. destruct s; cbn [flatten_blocks]; rewrite ?Forall_app, !Forall_cons_iff, ?IH, ?B; reflexivity. }
  assert (E : forall l, Forall Q (erase_undefs l) <-> Forall Q l).
  { clear - U. induction l as [|s l IH]; [reflexivity|]. unfold erase_undefs in *. destruct s; cbn [filter sdefined]; rewrite !Forall_cons_iff, IH; tauto. }
  rewrite <- F, <- E. unfold block_make. destruct (erase_undefs (flatten_blocks l)) as [|s [|s' l']].
  - split; auto.
  - split; [intro; constructor; auto|intro K; inversion K; assumption].
  - apply B.
Qed.
Definition kept (Y : nat -> Prop) (s s' : stmt) : Prop := forall z, Y z ->
  (~ free_stmt z s -> ~ free_stmt z s') /\ (~ mentioned z s -> ~ mentioned z s') /\ (not_reused z s -> not_reused z s').
Lemma free_block z l : ~ free_stmt z (SBlock l) <-> Forall (fun s => ~ free_stmt z s) l.
Proof.
  cbn [free_stmt]. induction l as [|s l IH]; [split; auto|]. rewrite Forall_cons_iff, <- IH. tauto.
Qed.
Lemma mentioned_block z l : ~ mentioned z (SBlock l) <-> Forall (fun s => ~ mentioned z s) l.
Proof.
  cbn [mentioned]. induction l as [|s l IH]; [split; auto|]. rewrite Forall_cons_iff, <- IH. tauto.
Qed.
Lemma reused_block z l : not_reused z (SBlock l) <-> Forall (not_reused z) l.
Proof. cbn [not_reused]. induction l as [|s l IH]; [split; auto|]. rewrite Forall_cons_iff, <- IH. tauto. Qed.
Lemma kept_refl Y s : kept Y s s. Proof. intros z _. tauto. Qed.
Lemma kept_trans (Y Z : nat -> Prop) a b c : kept Y a b -> kept Z b c -> kept (fun z => Y z /\ Z z) a c.
Proof. intros A B z [H1 H2]. specialize (A z H1). specialize (B z H2). tauto. Qed.
Lemma forall2_all {A} (P Q : A -> Prop) l l' : Forall2 (fun a b => P a -> Q b) l l' -> Forall P l -> Forall Q l'.
Proof. induction 1; intro F; inversion F; subst; constructor; auto. Qed.
Lemma kept_blocks Y l l' : Forall2 (kept Y) l l' -> kept Y (SBlock l) (block_make l').
Proof.
  intros F z Hz. rewrite free_block, mentioned_block, reused_block.
  rewrite (block_all (fun s => ~ free_stmt z s)), (block_all (fun s => ~ mentioned z s)), (block_all (not_reused z));
    try (intro; first [apply free_block|apply mentioned_block|apply reused_block]); try exact I; try (intros []).
  split; [|split].
  - apply forall2_all. clear - F Hz. induction F as [|a b l l' H F IH]; constructor; [apply H; exact Hz|exact IH].
  - apply forall2_all. clear - F Hz. induction F as [|a b l l' H F IH]; constructor; [apply H; exact Hz|exact IH].
  - apply forall2_all. clear - F Hz. induction F as [|a b l l' H F IH]; constructor; [apply H; exact Hz|exact IH].
Qed.
Lemma lets_not (P : expr -> Prop) z l (B B' : Prop) : (~ B -> ~ B') -> ~ in_lets P z l B -> ~ in_lets P z l B'.
Proof.
  intro H. induction l as [|(y, e) l IH]; cbn [in_lets]; [exact H|]. intros N [K|[D K]]; [tauto|]. apply IH; [|exact K]. tauto.
Qed.
Ltac keep := intros; match goal with K : kept _ _ _ |- _ => let z := fresh "z" in let Hz := fresh "Hz" in intros z Hz; specialize (K z Hz);
    cbn [free_stmt mentioned not_reused];
    try match goal with |- context [?v <> z] => destruct (Nat.eq_dec v z) end; tauto end.
Lemma kept_let Y l c b b' : kept Y b b' -> kept Y (SLet l b c) (SLet l b' c).
Proof.
  intros K z Hz. specialize (K z Hz). cbn [free_stmt mentioned not_reused]. split; [|tauto]. apply lets_not. tauto.
Qed.
Lemma kept_loop Y v w i st b b' : kept Y b b' -> kept Y (SLoop v w i st b) (SLoop v w i st b'). Proof. keep. Qed.
Lemma kept_allocate Y v w e ds b b' : kept Y b b' -> kept Y (SAllocate v w e ds b) (SAllocate v w e ds b'). Proof. keep. Qed.
Lemma kept_allocated Y v w e ds b b' : kept (fun z => Y z /\ z <> v) b b' -> kept Y (SAllocate v w e ds b) (SAllocate v w e ds b').
Proof.
  intros K z Hz. specialize (K z). cbv beta in K. cbn [free_stmt mentioned not_reused]. destruct (Nat.eq_dec v z) as [E|E]; [tauto|].
  assert (D : z <> v) by congruence. tauto.
Qed.
Lemma kept_make Y v p e ds b b' : kept Y b b' -> kept Y (SMake v p e ds b) (SMake v p e ds b'). Proof. keep. Qed.
Lemma kept_const Y v x b b' : kept Y b b' -> kept Y (SConst v x b) (SConst v x b'). Proof. keep. Qed.
Lemma kept_clone Y v x b b' : kept Y b b' -> kept Y (SClone v x b) (SClone v x b'). Proof. keep. Qed.
Lemma kept_crop Y v x l b b' : kept Y b b' -> kept Y (SCropBuffer v x l b) (SCropBuffer v x l b'). Proof. keep. Qed.
Lemma kept_crop_dim Y v x d l b b' : kept Y b b' -> kept Y (SCropDim v x d l b) (SCropDim v x d l b'). Proof. keep. Qed.
Lemma kept_slice Y v x l b b' : kept Y b b' -> kept Y (SSliceBuffer v x l b) (SSliceBuffer v x l b'). Proof. keep. Qed.
Lemma kept_slice_dim Y v x d l b b' : kept Y b b' -> kept Y (SSliceDim v x d l b) (SSliceDim v x d l b'). Proof. keep. Qed.
Lemma kept_transpose Y v x p b b' : kept Y b b' -> kept Y (STranspose v x p b) (STranspose v x p b'). Proof. keep. Qed.
Lemma kept_async Y v a a' b b' : kept Y a a' -> kept Y b b' -> kept Y (SAsync v a b) (SAsync v a' b').
Proof.
  intros K L z Hz. specialize (K z Hz). specialize (L z Hz). cbn [free_stmt mentioned not_reused].
  assert (D : v = Some z \/ v <> Some z). { destruct v as [y|]; [destruct (Nat.eq_dec y z); [left|right]; congruence|right; discriminate]. }
  tauto.
Qed.
#[local] Hint Resolve kept_refl kept_let kept_loop kept_allocate kept_make kept_const kept_clone kept_crop kept_crop_dim kept_slice kept_slice_dim kept_transpose kept_async : kept.
Definition insert_stmt (m : mutated) : stmt := let '(s, _, _, _) := m in s.
Lemma kept_terminal x s vi : kept (fun z => z <> x) s (insert_stmt (visit_terminal [x] s false vi)).
Proof.
  unfold visit_terminal. cbn [negb andb]. destruct (any_flag _); [|apply kept_refl]. destruct vi; [|apply kept_refl]. cbn [insert_stmt hd].
  intros z Hz. rewrite (block_all (fun s => ~ free_stmt z s)), (block_all (fun s => ~ mentioned z s)), (block_all (not_reused z));
    try (intro; first [apply free_block|apply mentioned_block|apply reused_block]); try exact I; try (intros []).
  assert (Fz : ~ free z (ECall i_free None [EVar x f_none 0])).
  { intros (ro & O). cbn [occurs any_of] in O. destruct O as [[E _]|[]]. congruence. }
  rewrite !Forall_cons_iff. cbn [free_check free_stmt mentioned not_reused]. auto 10.
Qed.
Lemma kept_inserted x s : forall f vi, kept (fun z => z <> x) s (insert_stmt (ins [x] s f vi)).
Proof.
  induction s using stmt_ind'; intros [] vi; try (match goal with |- context [ins [x] ?s true vi] => destruct (ins_found s [x] vi) as (v' & ->); apply kept_refl end);
    cbn [ins]; try apply kept_terminal; try apply kept_refl; cbn [orb].
  all: try match goal with |- kept _ _ (insert_stmt (if ?b then _ else _)) => destruct b; [apply kept_refl|] end.
  all: try match goal with |- context [ins (if ?b then _ else _) ?s ?c ?vi] => destruct b; 
     [match goal with |- context [ins ?n s true vi] => let v' := fresh in destruct (ins_found s n vi) as (v' & ->) end; apply kept_refl|] end.
  all: try match goal with IH : forall f vi, kept _ ?s _ |- context [with_body _ _ (ins _ ?s false ?vi)] => specialize (IH false vi);
     destruct (ins [x] s false vi) as [[[b' []] fo] v']; cbn [with_body insert_stmt] in *; auto with kept end.
  - assert (G : Forall2 (kept (fun z => z <> x)) l (let '(r, _, _, _) := ins_list (ins [x]) l false vi in r)).
    { match goal with F : Forall _ l |- _ => induction F as [|y l Hy F IH] end; cbn [ins_list]; [constructor|].
      destruct (ins_list (ins [x]) l false vi) as [[[r ch] fo] v']. destruct (ch || fo); [constructor; [apply kept_refl|exact IH]|].
      specialize (Hy fo v'). destruct (ins [x] y fo v') as [[[y' c'] f'] v'']. constructor; assumption. }
    destruct (ins_list (ins [x]) l false vi) as [[[r []] fo] v']; cbn [insert_stmt]; [apply kept_blocks; exact G|apply kept_refl].
  - specialize (IHs1 false vi). destruct (ins [x] s2 false vi) as [[[t' c1] fo] v']. specialize (IHs2 fo v').
    destruct (ins [x] s3 fo v') as [[[b' c2] fo'] v'']. cbn [insert_stmt] in *. destruct (c1 || c2); auto with kept.
Qed.
Lemma early_same s : snd (early s) = false -> fst (early s) = s.
Proof.
  destruct s; cbn [early]; unfold rebuilt; try (intros; reflexivity);
    repeat match goal with
    | |- context [let '(_, _) := ?m in _] => destruct m as [? []]
    end; cbn [orb fst snd]; intro E; try discriminate E; try reflexivity.
Qed.
Lemma kept_early s : kept (fun _ => True) s (insert_early_free s).
Proof.
  unfold insert_early_free. induction s using stmt_ind'; cbn [early]; try apply kept_refl; unfold rebuilt;
    try match goal with IH : kept _ ?s _ |- context [early ?s] => destruct (early s) as [b' []]; cbn [fst] in *; auto with kept; fail end.
  - assert (G : Forall2 (kept (fun _ => True)) l (fst (early_list early l))).
    { match goal with F : Forall _ l |- _ => induction F as [|y l Hy F IH] end; cbn [early_list]; [constructor|].
      destruct (early y) as [y' c]. destruct (early_list early l) as [r c']. constructor; assumption. }
    destruct (early_list early l) as [r []]; cbn [fst] in *; [apply kept_blocks; exact G|apply kept_refl].
  - destruct (early s0) as [b1 c1]. cbn [fst] in IHs. destruct w.
    all: try (destruct c1; cbn [orb fst]; auto with kept; fail).
    unfold insert_free. pose proof (kept_inserted s b1 false false) as K. destruct (ins [s] b1 false false) as [[[b2 c2] fo] v']. cbn [insert_stmt] in K.
    destruct (c1 || c2); cbn [fst]; [|apply kept_refl]. apply kept_allocated. eapply kept_trans; eassumption.
  - destruct (early s2) as [t' c1], (early s3) as [b' c2]. destruct (c1 || c2); cbn [fst] in *; auto with kept.
Qed.

(** ** early_free_inserter *)
Lemma rebuilt_eq f s b : s = f b -> fst (rebuilt f s (early b)) = f (insert_early_free b).
Proof. intros ->. unfold rebuilt, insert_early_free. pose proof (early_same b) as E. destruct (early b) as [b' []]; cbn [fst snd] in *; [reflexivity|rewrite E; reflexivity]. Qed.
Lemma early_allocate v w e ds b : insert_early_free (SAllocate v w e ds b) =
  SAllocate v w e ds (match w with heap => insert_stmt (ins [v] (insert_early_free b) false false) | _ => insert_early_free b end).
Proof.
  unfold insert_early_free. cbn [early]. pose proof (early_same b) as E. destruct (early b) as [b1 c1]. cbn [fst snd] in *. destruct w.
  all: try (destruct c1; cbn [orb fst]; [reflexivity|rewrite E; reflexivity]).
  unfold insert_free. pose proof (ins_same b1 [v] false false) as K. destruct (ins [v] b1 false false) as [[[b2 []] fo] v']; cbn [insert_stmt fst snd orb].
  - rewrite orb_true_r. reflexivity.
  - rewrite (K _ _ _ eq_refl). destruct c1; cbn [orb fst]; [reflexivity|rewrite E; reflexivity].
Qed.
Lemma early_block r l ok t : runs r (insert_early_free (SBlock l)) ok t <-> runs_list r (map insert_early_free l) ok t.
Proof.
  unfold insert_early_free at 1. cbn [early].
  assert (G : fst (early_list early l) = map insert_early_free l /\ (snd (early_list early l) = false -> map insert_early_free l = l)).
  { induction l as [|s l IH]; cbn [early_list map]; [auto|]. destruct (early_list early l) as [r' c']. unfold insert_early_free in *.
    pose proof (early_same s) as E. destruct (early s) as [s' c]. cbn [fst snd] in *. destruct IH as [A B]. split; [congruence|]. intro K.
    apply orb_false_iff in K as [-> ->]. rewrite E, B by reflexivity. reflexivity. }
  destruct (early_list early l) as [r' []]; cbn [fst snd] in *; destruct G as [<- G].
  - apply list_made.
  - rewrite <- (G eq_refl) at 1. apply list_block.
Qed.
Lemma early_async v a b : insert_early_free (SAsync v a b) = SAsync v (insert_early_free a) (insert_early_free b).
Proof.
  unfold insert_early_free. cbn [early]. pose proof (early_same a) as E. pose proof (early_same b) as F. destruct (early a) as [a' c1], (early b) as [b' c2].
  cbn [fst snd] in *. destruct c1, c2; cbn [orb fst]; try reflexivity. rewrite E, F; reflexivity.
Qed.

Definition is_use (j : nat) (e : event) : Prop := e = Use j.
Definition safe (t : list event) : Prop := ~ In Invalid t /\ forall j,
  (In j (made t) -> exists w u f, proj j t = Make j w :: u ++ f ++ [End_ j] /\ Forall (is_use j) u /\ (f = [] \/ (f = [Free j] /\ w = heap))) /\
  (~ In j (made t) -> Forall (is_use j) (proj j t)).
Lemma uses_safe P t : uses P t -> safe t.
Proof.
  intro U. split.
  - intro I. unfold uses in U. rewrite Forall_forall in U. destruct (U _ I) as (i & E & _). discriminate E.
  - intro j. rewrite (uses_made _ _ U). split; [intros []|]. intros _. induction U as [|e t (i & -> & Pi) U IH]; cbn [proj filter is_about]; [constructor|].
    destruct (Nat.eqb_spec i j) as [->|]; [constructor; [reflexivity|exact IH]|exact IH].
Qed.
Lemma shuffle_forall {A} (P : A -> Prop) a b c : shuffle a b c -> Forall P a -> Forall P b -> Forall P c.
Proof. induction 1; intros F G; [constructor|inversion F; subst; constructor; auto|inversion G; subst; constructor; auto]. Qed.
Lemma safe_shuffle a b c : shuffle a b c -> safe a -> safe b ->
  (forall j, In j (made a) -> proj j b = []) -> (forall j, In j (made b) -> proj j a = []) -> safe c.
Proof.
  intros S1 [A1 A2] [B1 B2] AB BA. split; [rewrite (shuffle_in _ _ _ S1); tauto|]. intro j.
  pose proof (shuffle_proj j _ _ _ S1) as Sj. rewrite (shuffle_made _ _ _ S1). destruct (A2 j) as [A3 A4], (B2 j) as [B3 B4].
  destruct (in_dec Nat.eq_dec j (made a)) as [Ia|Ia]; [|destruct (in_dec Nat.eq_dec j (made b)) as [Ib|Ib]].
  - split; [|tauto]. intros _. rewrite (AB j Ia) in Sj. apply shuffle_nil_r in Sj. rewrite Sj. auto.
  - split; [|tauto]. intros _. rewrite (BA j Ib) in Sj. apply shuffle_nil_l in Sj. rewrite Sj. auto.
  - split; [tauto|]. intros _. eapply shuffle_forall; [exact Sj|auto|auto].
Qed.
Lemma shuffle_filter {A} (p : A -> bool) a b c : shuffle a b c -> shuffle (filter p a) (filter p b) (filter p c).
Proof. induction 1 as [|x a b c S1 IH|x a b c S1 IH]; cbn [filter]; [constructor|..]; destruct (p x); try constructor; exact IH. Qed.
Lemma shuffle_unfilter {A} (p : A -> bool) : forall n a b c, (length a + length b <= n)%nat -> shuffle (filter p a) (filter p b) c ->
  exists c', shuffle a b c' /\ filter p c' = c.
Proof.
  induction n as [|n IH]; intros a b c L S1.
  - destruct a; [|cbn [length] in L; lia]. destruct b; [|cbn [length] in L; lia]. inversion S1. exists []. split; [constructor|reflexivity].
  - destruct a as [|x a]; [exists b; cbn [filter] in S1; apply shuffle_nil_l in S1; split; [apply shuffle_refl_l|auto]|]. cbn [filter length] in *.
    destruct (p x) eqn:Px; [|destruct (IH a b c ltac:(lia) S1) as (c' & K & <-); exists (x :: c'); split; [constructor; exact K|cbn [filter]; rewrite Px; reflexivity]].
    induction b as [|y b IHb].
    + cbn [filter] in S1. apply shuffle_nil_r in S1. subst. exists (x :: a). split; [apply shuffle_comm, shuffle_refl_l|cbn [filter]; rewrite Px; reflexivity].
    + cbn [length] in L. cbn [filter] in S1. destruct (p y) eqn:Py.
      * inversion S1 as [|? ? ? c0 S2|? ? ? c0 S2]; subst.
        -- destruct (IH a (y :: b) c0) as (c' & K & <-); [cbn [length]; lia|cbn [filter]; rewrite Py; exact S2|].
           exists (x :: c'). split; [constructor; exact K|cbn [filter]; rewrite Px; reflexivity].
        -- destruct (IH (x :: a) b c0) as (c' & K & <-); [cbn [length]; lia|cbn [filter]; rewrite Px; exact S2|].
           exists (y :: c'). split; [constructor; exact K|cbn [filter]; rewrite Py; reflexivity].
      * destruct (IHb ltac:(lia) S1) as (c' & K & <-). exists (y :: c'). split; [constructor; exact K|cbn [filter]; rewrite Py; reflexivity].
Qed.
Lemma without_app a b : without_frees (a ++ b) = without_frees a ++ without_frees b. Proof. apply filter_app. Qed.
Lemma without_uses P t : uses P t -> without_frees t = t.
Proof. induction 1 as [|e t (i & -> & Pi) U IH]; [reflexivity|]. unfold without_frees in *. cbn [filter]. rewrite IH. reflexivity. Qed.
Lemma without_lets r l r' t : lets_run r l r' t -> without_frees t = t /\ safe t.
Proof.
  induction 1 as [|r x v l r' t1 t2 U L [A B]]; [split; [reflexivity|apply (uses_safe nothing); constructor]|]. split.
  - rewrite without_app, A, (without_uses _ _ U). reflexivity.
  - eapply safe_shuffle; [apply shuffle_app|eapply uses_safe; exact U|exact B| |].
    + intros j K. rewrite (uses_made _ _ U) in K. destruct K.
    + intros j K. rewrite (lets_made _ _ _ _ L) in K. destruct K.
Qed.
Lemma without_made t : made (without_frees t) = made t.
Proof. induction t as [|e t IH]; [reflexivity|]. destruct e; try exact IH. change (i :: made (without_frees t) = i :: made t). congruence. Qed.
Definition sub (r' r : pointers) : Prop := forall y i, r' y i -> exists z, r z i.
Definition contained (r : pointers) (t : list event) : Prop := forall j, unpointed j r -> ~ In j (made t) -> proj j t = [].
Lemma sub_refl r : sub r r. Proof. intros y i K. eauto. Qed.
Lemma sub_point r v (P : nat -> Prop) : (forall i, P i -> exists z, r z i) -> sub (point r v P) r.
Proof. intros H y i. unfold point. destruct (y =? v)%nat; [apply H|eauto]. Qed.
Lemma sub_src (r : pointers) v x : sub (point r v (r x)) r. Proof. apply sub_point. eauto. Qed.
Lemma sub_nothing (r : pointers) v : sub (point r v nothing) r. Proof. apply sub_point. intros i []. Qed.
Lemma sub_expr (r : pointers) v e : sub (point r v (pointed r e)) r. Proof. apply sub_point. intros i (y & _ & _ & _ & K). eauto. Qed.
Lemma sub_trans a b c : sub a b -> sub b c -> sub a c.
Proof. intros H K y i Hy. destruct (H _ _ Hy) as (z & Hz). eapply K. exact Hz. Qed.
Lemma sub_lets r l r' t : lets_run r l r' t -> sub r' r.
Proof. induction 1 as [|r x v l r' t1 t2 U L IH]; [apply sub_refl|]. eapply sub_trans; [exact IH|apply sub_expr]. Qed.
Lemma sub_un a b j : sub a b -> unpointed j b -> unpointed j a.
Proof. intros H U y K. destruct (H _ _ K) as (z & Hz). exact (U z Hz). Qed.
Lemma sub_fresh a b t : sub a b -> fresh b t -> fresh a t.
Proof. intros H [N F]. split; [exact N|]. intros x i K. destruct (H _ _ K) as (z & Hz). eapply F. exact Hz. Qed.
Lemma sub_contained a b t : sub a b -> contained a t -> contained b t.
Proof. intros H C j U. apply C. eapply sub_un; eassumption. Qed.
Lemma contained_uses (r : pointers) P t : uses P t -> (forall i, P i -> exists y, r y i) -> contained r t.
Proof. intros U H j N _. eapply uses_proj; [exact U|]. intro K. destruct (H _ K) as (y & Hy). exact (N y Hy). Qed.
Lemma contained_run r s ok t : runs r s ok t -> contained r t.
Proof. intros R j U M. eapply (proj1 (untouched j)); eassumption. Qed.
Lemma contained_list r s ok t : runs_list r s ok t -> contained r t.
Proof. intros R j U M. eapply (proj1 (proj2 (untouched j))); eassumption. Qed.
Lemma contained_many r s ok t : runs_many r s ok t -> contained r t.
Proof. intros R j U M. eapply (proj2 (proj2 (untouched j))); eassumption. Qed.
Lemma contained_lets r l r' t : lets_run r l r' t -> contained r t.
Proof. intros R j U M. apply (lets_un _ _ _ _ _ R U). Qed.
Lemma nodup_app {A} (a b : list A) : NoDup (a ++ b) <-> NoDup a /\ NoDup b /\ forall x, In x a -> ~ In x b.
Proof.
  induction a as [|x a IH]; cbn [app]; [split; [intro; repeat split; [constructor|assumption|intros ? []]|tauto]|].
  rewrite !NoDup_cons_iff, IH, in_app_iff. cbn [In]. split.
  - intros (A1 & A2 & A3 & A4). repeat split; try tauto. intros y [->|I]; [tauto|auto].
  - intros ((A1 & A2) & A3 & A4). repeat split; try tauto; [|auto]. intros [K|K]; [tauto|]. apply (A4 x); auto.
Qed.
Lemma shuffle_made_list a b c : shuffle a b c -> shuffle (made a) (made b) (made c).
Proof.
  induction 1 as [|x a b c S1 IH|x a b c S1 IH]; [constructor|..]; destruct x; try exact IH; cbn [made flat_map app]; constructor; exact IH.
Qed.
Lemma shuffle_nodup {A} (a b c : list A) : shuffle a b c -> NoDup c -> NoDup (a ++ b).
Proof.
  induction 1 as [|x a b c S1 IH|x a b c S1 IH]; intro N; [constructor|..]; inversion N as [|? ? N1 N2]; subst; specialize (IH N2); rewrite (shuffle_in _ _ _ S1) in N1.
  - cbn [app]. constructor; [rewrite in_app_iff; exact N1|exact IH].
  - apply nodup_app in IH as (A1 & A2 & A3). apply nodup_app. repeat split; [assumption|constructor; [tauto|assumption]|].
    intros y I [->|J]; [tauto|exact (A3 y I J)].
Qed.
Lemma fresh_shuffle r a b c : shuffle a b c -> fresh r c -> fresh r a /\ fresh r b /\ forall j, In j (made a) -> ~ In j (made b).
Proof.
  intros S1 [N F]. pose proof (shuffle_nodup _ _ _ (shuffle_made_list _ _ _ S1) N) as D. apply nodup_app in D as (D1 & D2 & D3).
  repeat split; try assumption; intros x i K M; apply (F x i K); apply (shuffle_made _ _ _ S1); auto.
Qed.
Lemma pair_safe r a b c : shuffle a b c -> fresh r c -> contained r a -> contained r b -> safe a -> safe b -> safe c.
Proof.
  intros S1 F Ca Cb Sa Sb. destruct (fresh_shuffle _ _ _ _ S1 F) as (Fa & Fb & D). apply (safe_shuffle a b); try assumption.
  - intros j I. apply Cb; [|auto]. intros y K. exact (proj2 Fa _ _ K I).
  - intros j I. apply Ca; [|intro K; exact (D j K I)]. intros y K. exact (proj2 Fb _ _ K I).
Qed.
Definition sound (s s' : stmt) : Prop := forall r ok t', runs r s' ok t' -> fresh r t' -> runs r s ok (without_frees t') /\ safe t'.
Definition complete (s s' : stmt) : Prop := forall r ok t, runs r s ok t -> fresh r t -> exists t', runs r s' ok t' /\ without_frees t' = t.
Lemma fresh_without r t : fresh r (without_frees t) <-> fresh r t.
Proof. unfold fresh. rewrite without_made. reflexivity. Qed.
Lemma safe_nil : safe []. Proof. apply (uses_safe nothing). constructor. Qed.
Lemma sound_many s s' : sound s s' -> forall r ok t', runs_many r s' ok t' -> fresh r t' -> runs_many r s ok (without_frees t') /\ safe t'.
Proof.
  intros H.
  assert (G : forall r b ok t', runs_many r b ok t' -> b = s' -> fresh r t' -> runs_many r s ok (without_frees t') /\ safe t').
  { fix G 5. intros r b ok t' R E F. destruct R as [r b|r b ok1 t1 ok2 t2 t R1 R2 S1].
    - split; [constructor|apply safe_nil].
    - destruct (fresh_shuffle _ _ _ _ S1 F) as (F1 & F2 & _). destruct (G _ _ _ _ R2 E F2) as [A B]. rewrite E in R1. destruct (H _ _ _ R1 F1) as [A' B'].
      split; [econstructor; [exact A'|exact A|apply shuffle_filter; exact S1]|].
      eapply pair_safe; [exact S1|exact F| | |exact B'|exact B]; [eapply contained_run; exact R1|eapply contained_many; exact R2]. }
  intros r ok t' R. exact (G _ _ _ _ R eq_refl).
Qed.
Lemma complete_many s s' : complete s s' -> forall r ok t, runs_many r s ok t -> fresh r t -> exists t', runs_many r s' ok t' /\ without_frees t' = t.
Proof.
  intros H.
  assert (G : forall r b ok t, runs_many r b ok t -> b = s -> fresh r t -> exists t', runs_many r s' ok t' /\ without_frees t' = t).
  { fix G 5. intros r b ok t' R E F. destruct R as [r b|r b ok1 t1 ok2 t2 t R1 R2 S1].
    - exists []. split; [constructor|reflexivity].
    - destruct (fresh_shuffle _ _ _ _ S1 F) as (F1 & F2 & _). destruct (G _ _ _ _ R2 E F2) as (u2 & A & <-). rewrite E in R1. destruct (H _ _ _ R1 F1) as (u1 & A' & <-).
      destruct (shuffle_unfilter _ _ _ _ _ (le_n _) S1) as (u & S2 & <-). exists u. split; [econstructor; eassumption|reflexivity]. }
  intros r ok t' R. exact (G _ _ _ _ R eq_refl).
Qed.
Lemma sound_list l l' : Forall2 sound l l' -> forall r ok t', runs_list r l' ok t' -> fresh r t' -> runs_list r l ok (without_frees t') /\ safe t'.
Proof.
  induction 1 as [|s s' l l' H F IH]; intros r ok t' R Fr; (inversion R as [|? ? ? ? R1|? ? ? u1 ? u2 R1 R2]; subst).
  - split; [constructor|apply safe_nil].
  - destruct (H _ _ _ R1 Fr) as [A B]. split; [constructor; exact A|exact B].
  - destruct (fresh_shuffle _ _ _ _ (shuffle_app u1 u2) Fr) as (F1 & F2 & _). destruct (H _ _ _ R1 F1) as [A B]. destruct (IH _ _ _ R2 F2) as [A' B'].
    rewrite without_app. split; [constructor; assumption|].
    eapply pair_safe; [apply shuffle_app|exact Fr| | |exact B|exact B']; [eapply contained_run; exact R1|eapply contained_list; exact R2].
Qed.
Lemma complete_list l l' : Forall2 complete l l' -> forall r ok t, runs_list r l ok t -> fresh r t -> exists t', runs_list r l' ok t' /\ without_frees t' = t.
Proof.
  induction 1 as [|s s' l l' H F IH]; intros r ok t' R Fr; (inversion R as [|? ? ? ? R1|? ? ? u1 ? u2 R1 R2]; subst).
  - exists []. split; [constructor|reflexivity].
  - destruct (H _ _ _ R1 Fr) as (u & A & B). exists u. split; [constructor; exact A|exact B].
  - destruct (fresh_shuffle _ _ _ _ (shuffle_app u1 u2) Fr) as (F1 & F2 & _). destruct (H _ _ _ R1 F1) as (v1 & A & <-). destruct (IH _ _ _ R2 F2) as (v2 & A' & <-).
    exists (v1 ++ v2). rewrite without_app. split; [constructor; assumption|reflexivity].
Qed.
Lemma fresh_allocate r v i w t : fresh r (Make i w :: t ++ [End_ i]) -> fresh (point r v (eq i)) t /\ ~ In i (made t) /\ unpointed i r.
Proof.
  intros [N F]. change (made (Make i w :: t ++ [End_ i])) with (i :: made (t ++ [End_ i])) in *. rewrite made_app, app_nil_r in *. inversion N as [|? ? N1 N2]; subst.
  split; [|split; [exact N1|]].
  - split; [exact N2|]. intros x k. unfold point. destruct (x =? v)%nat; [intros <-; exact N1|]. intros K I. exact (F _ _ K (or_intror I)).
  - intros y K. exact (F _ _ K (or_introl eq_refl)).
Qed.
Lemma allocate_pointing r v i : unpointed i r -> pointing v i (point r v (eq i)).
Proof.
  intro U. split; [|intro k; unfold point; rewrite Nat.eqb_refl; split; congruence].
  intros y. unfold point. destruct (Nat.eqb_spec y v); [auto|]. intro K. destruct (U _ K).
Qed.
Lemma safe_allocate i w t t' : safe t -> ~ In i (made t) -> late i t t' -> (t' = t \/ w = heap) -> safe (Make i w :: t' ++ [End_ i]).
Proof.
  intros [A B] N L W. split.
  - intros [K|K]; [discriminate K|]. apply in_app_iff in K as [K|[K|[]]]; [|discriminate K]. apply (late_in _ _ _ _ L) in K as [K|K]; [contradiction|discriminate K].
  - intro j. change (made (Make i w :: t' ++ [End_ i])) with (i :: made (t' ++ [End_ i])). rewrite made_app, app_nil_r, (late_made _ _ _ L).
    cbn [proj filter is_about]. change (filter (is_about j) (t' ++ [End_ i])) with (proj j (t' ++ [End_ i])). rewrite proj_app. cbn [proj filter is_about].
    change (filter (is_about j) t') with (proj j t'). destruct (Nat.eqb_spec i j) as [->|D].
    + split; [|intro K; exfalso; apply K; left; reflexivity]. intros _. exists w. destruct (B j) as [_ B2]. specialize (B2 N).
      destruct W as [->| ->]; [exists (proj j t), []; auto|]. destruct (late_self _ _ _ L) as [->| ->]; [exists (proj j t), []; auto|].
      exists (proj j t), [Free j]. rewrite <- app_assoc. auto.
    + rewrite app_nil_r, (late_other _ _ _ _ L) by congruence. destruct (B j) as [B1 B2]. cbn [In]. split; [intros [K|K]; [contradiction|auto]|auto].
Qed.
(** a declaration that only changes the pointers *)
Lemma frame_sound (f : stmt -> stmt) (g : pointers -> pointers) b b' : (forall r, sub (g r) r) ->
  (forall r b ok t, runs r (f b) ok t <-> runs (g r) b ok t) -> sound b b' /\ complete b b' -> sound (f b) (f b') /\ complete (f b) (f b').
Proof.
  intros H E [A B]. split.
  - intros r ok t' R F. rewrite E in R |- *. apply A; [exact R|]. eapply sub_fresh; eauto.
  - intros r ok t R F. rewrite E in R. destruct (B _ _ _ R) as (t' & R' & <-); [eapply sub_fresh; eauto|]. exists t'. rewrite E. auto.
Qed.
Lemma plain_sound s : (forall r ok t, runs r s ok t -> exists P, uses P t) -> sound s s /\ complete s s.
Proof.
  intro H. split.
  - intros r ok t R _. destruct (H _ _ _ R) as (P & U). rewrite (without_uses _ _ U). split; [exact R|eapply uses_safe; exact U].
  - intros r ok t R _. destruct (H _ _ _ R) as (P & U). exists t. split; [exact R|apply (without_uses _ _ U)].
Qed.
Lemma no_free_block l : no_free (SBlock l) <-> Forall no_free l.
Proof. cbn [no_free]. induction l as [|s l IH]; [split; auto|]. rewrite Forall_cons_iff, <- IH. tauto. Qed.
Lemma well_named_block l : well_named (SBlock l) <-> Forall well_named l.
Proof. cbn [well_named]. induction l as [|s l IH]; [split; auto|]. rewrite Forall_cons_iff, <- IH. tauto. Qed.
Lemma early_ok s : no_free s -> well_named s -> sound s (insert_early_free s) /\ complete s (insert_early_free s).
Proof.
  induction s using stmt_ind'; intros N W;
    try match goal with |- context [insert_early_free ?s] => change (insert_early_free s) with (fst (early s)); cbn [early]; rewrite rebuilt_eq by reflexivity end;
    cbn [no_free well_named] in N, W.
  - apply plain_sound. intros r ok t R. exists nothing. inversion R. constructor.
  - apply plain_sound. intros r ok t' R. inversion R; subst. eauto.
  - apply plain_sound. intros r ok t' R. inversion R; subst. eauto.
  - destruct (IHs N W) as [A B]. split.
    + intros r ok t' R F. inversion R; subst. destruct (fresh_shuffle _ _ _ _ (shuffle_app t1 t2) F) as (F1 & F2 & _).
      match goal with L : lets_run _ _ _ _, R2 : runs _ _ _ t2 |- _ => destruct (without_lets _ _ _ _ L) as [E K]; rewrite without_app, E;
        destruct (A _ _ _ R2) as [A1 A2]; [eapply sub_fresh; [eapply sub_lets; exact L|exact F2]|]; split; [econstructor; eassumption|];
        eapply pair_safe; [apply shuffle_app|exact F| | |exact K|exact A2]; 
        [eapply contained_lets; exact L|eapply sub_contained; [eapply sub_lets; exact L|eapply contained_run; exact R2]] end.
    + intros r ok t' R F. inversion R; subst. destruct (fresh_shuffle _ _ _ _ (shuffle_app t1 t2) F) as (F1 & F2 & _).
      match goal with L : lets_run _ _ _ _, R2 : runs _ _ _ t2 |- _ => destruct (without_lets _ _ _ _ L) as [E K];
        destruct (B _ _ _ R2) as (u & A1 & <-); [eapply sub_fresh; [eapply sub_lets; exact L|exact F2]|]; exists (t1 ++ u); rewrite without_app, E; split; [econstructor; eassumption|reflexivity] end.
  - rename H into IH. assert (G : Forall2 sound l (map insert_early_free l) /\ Forall2 complete l (map insert_early_free l)).
    { apply no_free_block in N. apply well_named_block in W. induction IH as [|s l Hs Hl IH]; [split; constructor|].
      rewrite Forall_cons_iff in N, W. destruct (Hs (proj1 N) (proj1 W)), IH; [tauto|tauto|]. split; constructor; assumption. }
    destruct G as [A B]. split.
    + intros r ok t' R F. apply early_block in R. destruct (sound_list _ _ A _ _ _ R F). split; [constructor|]; assumption.
    + intros r ok t R F. apply list_block in R. destruct (complete_list _ _ B _ _ _ R F) as (t' & R' & E). exists t'. split; [apply early_block|]; assumption.
  - destruct (IHs N W) as [A B]. split.
    + intros r ok t' R F. inversion R; subst. match goal with H : runs_many _ _ _ _ |- _ => rename H into Rm end. destruct (sound_many _ _ A _ _ _ Rm) as [A1 A2]; [eapply sub_fresh; [apply sub_nothing|exact F]|].
      split; [constructor|]; assumption.
    + intros r ok t' R F. inversion R; subst. match goal with H : runs_many _ _ _ _ |- _ => rename H into Rm end. destruct (complete_many _ _ B _ _ _ Rm) as (u & A1 & A2); [eapply sub_fresh; [apply sub_nothing|exact F]|].
      exists u. split; [constructor|]; assumption.
  - rewrite early_allocate. destruct W as [W1 W2]. destruct (IHs N W2) as [A B]. clear IHs.
    set (b' := match w with heap => _ | _ => _ end).
    assert (L : forall i r, pointing s i r -> later i r (insert_early_free s0) b' /\ (w = heap \/ b' = insert_early_free s0)).
    { intros i r P. subst b'. destruct w; try (split; [apply later_refl|auto]). split; [|auto].
      assert (NR : not_reused s (insert_early_free s0)) by (apply (kept_early s0 s I); auto).
      pose proof (inserted_ok s i _ NR r false P) as K. destruct (ins [s] (insert_early_free s0) false false) as [[[b2 c2] fo] v']. cbn [insert_stmt].
      destruct K as [(_ & _ & -> & _)|(_ & K)]; [apply later_refl|exact K]. }
    split.
    + intros r ok t' R F. inversion R; subst; [|split; [constructor|apply safe_nil]]. match goal with H : runs (point _ _ _) _ _ _ |- _ => rename H into Rb end. destruct (fresh_allocate _ s _ _ _ F) as (F1 & M & U).
      destruct (L i _ (allocate_pointing r s i U)) as [[L1 _] L2]. destruct (L1 _ _ Rb M) as (u & Ru & Lu).
      assert (Fu : fresh (point r s (eq i)) u) by (destruct F1 as [F1 F2]; rewrite (late_made _ _ _ Lu) in *; split; assumption).
      destruct (A _ _ _ Ru Fu) as [A1 A2]. split.
      * cbn [without_frees filter]. change (filter _ (t ++ [End_ i])) with (without_frees (t ++ [End_ i])). rewrite without_app. constructor.
        rewrite (late_kept _ _ _ Lu). exact A1.
      * destruct L2 as [L2|L2].
        -- eapply safe_allocate; [exact A2|rewrite (late_made _ _ _ Lu) in M; exact M|exact Lu|right; exact L2].
        -- subst b'. rewrite L2 in Rb. destruct (A _ _ _ Rb F1) as [A3 A4]. eapply safe_allocate; [exact A4|exact M|apply late_refl|left; reflexivity].
    + intros r ok t' R F. inversion R; subst; [|exists []; split; [constructor|reflexivity]]. match goal with H : runs (point _ _ _) _ _ _ |- _ => rename H into Rb end. destruct (fresh_allocate _ s _ _ _ F) as (F1 & M & U).
      destruct (L i _ (allocate_pointing r s i U)) as [[_ L1] L2]. destruct (B _ _ _ Rb F1) as (u & Ru & Eu).
      destruct (L1 _ _ Ru) as (u' & Ru' & Lu); [rewrite <- Eu, without_made in M; exact M|].
      exists (Make i w :: u' ++ [End_ i]). split; [constructor; exact Ru'|]. cbn [without_frees filter]. change (filter _ (u' ++ [End_ i])) with (without_frees (u' ++ [End_ i])).
      rewrite without_app, (late_kept _ _ _ Lu), Eu. reflexivity.
  - destruct (IHs N W) as [A B]. split.
    + intros r ok t' R F. inversion R; subst; match goal with H : uses _ _ |- _ => rename H into Us end; try match goal with H : runs (point _ _ _) _ _ _ |- _ => rename H into Rb end.
      * destruct (fresh_shuffle _ _ _ _ (shuffle_app t1 t2) F) as (F1 & F2 & _). destruct (A _ _ _ Rb) as [A1 A2]; [eapply sub_fresh; [apply sub_expr|exact F2]|].
        rewrite without_app, (without_uses _ _ Us). split; [constructor; assumption|]. eapply pair_safe; [apply shuffle_app|exact F| | |eapply uses_safe; exact Us|exact A2].
        -- eapply contained_uses; [exact Us|]. intros i (y & _ & _ & _ & K). eauto.
        -- eapply sub_contained; [apply sub_expr|eapply contained_run; exact Rb].
      * rewrite (without_uses _ _ Us). split; [constructor; assumption|eapply uses_safe; exact Us].
    + intros r ok t' R F. inversion R; subst; match goal with H : uses _ _ |- _ => rename H into Us end; try match goal with H : runs (point _ _ _) _ _ _ |- _ => rename H into Rb end.
      * destruct (fresh_shuffle _ _ _ _ (shuffle_app t1 t2) F) as (F1 & F2 & _). destruct (B _ _ _ Rb) as (u & A1 & <-); [eapply sub_fresh; [apply sub_expr|exact F2]|].
        exists (t1 ++ u). rewrite without_app, (without_uses _ _ Us). split; [constructor; assumption|reflexivity].
      * exists t'. split; [constructor; assumption|apply (without_uses _ _ Us)].
  - apply (frame_sound (SConst s v) (fun r => point r s nothing)); [intro; apply sub_nothing| |auto]. intros; split; intro R; [inversion R; subst; assumption|constructor; assumption].
  - apply (frame_sound (SClone s v) (fun r => point r s (r v))); [intro; apply sub_src| |auto]. intros; split; intro R; [inversion R; subst; assumption|constructor; assumption].
  - apply (frame_sound (SCropBuffer s v l) (fun r => point r s (r v))); [intro; apply sub_src| |auto]. intros; split; intro R; [inversion R; subst; assumption|constructor; assumption].
  - apply (frame_sound (SCropDim s v d x) (fun r => point r s (r v))); [intro; apply sub_src| |auto]. intros; split; intro R; [inversion R; subst; assumption|constructor; assumption].
  - apply (frame_sound (SSliceBuffer s v l) (fun r => point r s (r v))); [intro; apply sub_src| |auto]. intros; split; intro R; [inversion R; subst; assumption|constructor; assumption].
  - apply (frame_sound (SSliceDim s v d x) (fun r => point r s (r v))); [intro; apply sub_src| |auto]. intros; split; intro R; [inversion R; subst; assumption|constructor; assumption].
  - apply (frame_sound (STranspose s v p) (fun r => point r s (r v))); [intro; apply sub_src| |auto]. intros; split; intro R; [inversion R; subst; assumption|constructor; assumption].
  - rewrite early_async. destruct (IHs1 (proj1 N) (proj1 W)) as [A1 A2]. destruct (IHs2 (proj2 N) (proj2 W)) as [B1 B2].
    assert (Sb : forall r : pointers, sub (match s1 with Some v => point r v nothing | None => r end) r) by (intro r; destruct s1; [apply sub_nothing|apply sub_refl]).
    split.
    + intros r ok t' R F. apply async_inv in R as (ok1 & t1 & ok2 & t2 & Ra & Rb & Sh & ->). destruct (fresh_shuffle _ _ _ _ Sh F) as (F1 & F2 & _).
      destruct (A1 _ _ _ Ra F1) as [P Q]. destruct (B1 _ _ _ Rb) as [P' Q']; [eapply sub_fresh; [apply Sb|exact F2]|].
      split; [econstructor; [exact P|exact P'|apply shuffle_filter; exact Sh]|].
      eapply pair_safe; [exact Sh|exact F| | |exact Q|exact Q']; [eapply contained_run; exact Ra|eapply sub_contained; [apply Sb|eapply contained_run; exact Rb]].
    + intros r ok t' R F. apply async_inv in R as (ok1 & t1 & ok2 & t2 & Ra & Rb & Sh & ->). destruct (fresh_shuffle _ _ _ _ Sh F) as (F1 & F2 & _).
      destruct (A2 _ _ _ Ra F1) as (u1 & P & <-). destruct (B2 _ _ _ Rb) as (u2 & P' & <-); [eapply sub_fresh; [apply Sb|exact F2]|].
      destruct (shuffle_unfilter _ _ _ _ _ (le_n _) Sh) as (u & S2 & <-). exists u. split; [econstructor; eassumption|reflexivity].
  - apply plain_sound. intros r ok t' R. inversion R; subst; [eauto|congruence|congruence].
Qed.
