(** The sanitizer of the user's expressions: values. *)
From Coq Require Import ZArith List Bool Arith Lia Permutation.
From Verif Require Import Arith_Model Arith_Proofs Buf_Model Expr_Model Expr_Proofs Rewrite_Model Const_Model Match_Proofs Stmt_Model Deps_Spec VSem_Spec VExec_Proofs VRef_Proofs StmtSubst2_Proofs OptSym_Proofs VFrame_Proofs San_Model San_Spec San_Proofs.
Import ListNotations.
Open Scope Z_scope.

Lemma fn_cases fn : fn = i_buffer_at \/ fn <> i_buffer_at. Proof. destruct fn; first [left; reflexivity|right; discriminate]. Qed.
Lemma names_let l b : names (ELet l b) = flat_map (fun p => fst p :: names (snd p)) l ++ names b.
Proof. induction l as [|(s, v) l IH]; [reflexivity|]. cbn [flat_map fst snd app]. cbn [names]. f_equal. rewrite <- app_assoc. f_equal. exact IH. Qed.
Lemma locals_let l b : locals (ELet l b) = flat_map (fun p => fst p :: locals (snd p)) l ++ locals b.
Proof. induction l as [|(s, v) l IH]; [reflexivity|]. cbn [flat_map fst snd app]. cbn [locals]. f_equal. rewrite <- app_assoc. f_equal. exact IH. Qed.

Lemma metadata_shape e : forall m, In m (metadata e) -> (exists s f d, m = EVar s f d /\ f <> f_none) \/ exists t args, m = ECall i_buffer_at t args.
Proof.
  induction e as [|s f d|l b IHl IHb|o a b IHa IHb|a IHa|q t f IHq IHt IHf|fn t args IHargs|c0] using expr_ind'; intros m I.
  - destruct I.
  - cbn [metadata] in I. destruct f; [destruct I|..]; (destruct I as [<-|[]]; left; do 3 eexists; split; [reflexivity|discriminate]).
  - rewrite metadata_let in I. apply in_app_iff in I as [I|I]; [|apply IHb, I]. apply in_flat_map in I as (p & Ip & I). rewrite Forall_forall in IHl. apply (IHl _ Ip), I.
  - cbn [metadata] in I. apply in_app_iff in I as [I|I]; auto.
  - apply IHa, I.
  - cbn [metadata] in I. rewrite !in_app_iff in I. destruct I as [I|[I|I]]; auto.
  - destruct (fn_cases fn) as [->|N]; [destruct I as [<-|[]]; right; eauto|]. rewrite metadata_call in I by exact N. apply in_flat_map in I as (p & Ip & I). rewrite Forall_forall in IHargs. apply (IHargs _ Ip), I.
  - destruct I.
Qed.
Lemma metadata_names e : forall m y, In m (metadata e) -> In y (names m) -> In y (names e).
Proof.
  induction e as [|s f d|l b IHl IHb|o a b IHa IHb|a IHa|q t f IHq IHt IHf|fn t args IHargs|c0] using expr_ind'; intros m y I Y.
  - destruct I.
  - cbn [metadata] in I. destruct f; [destruct I|..]; (destruct I as [<-|[]]; exact Y).
  - rewrite metadata_let in I. rewrite names_let, in_app_iff. apply in_app_iff in I as [I|I]; [|right; eapply IHb; eauto]. left.
    apply in_flat_map in I as (p & Ip & I). rewrite Forall_forall in IHl. apply in_flat_map. exists p. split; [exact Ip|]. right. eapply (IHl _ Ip); eauto.
  - cbn [metadata] in I. cbn [names]. rewrite in_app_iff. apply in_app_iff in I as [I|I]; eauto.
  - eapply IHa; eauto.
  - cbn [metadata] in I. cbn [names]. rewrite !in_app_iff in *. destruct I as [I|[I|I]]; eauto.
  - destruct (fn_cases fn) as [->|N]; [destruct I as [<-|[]]; exact Y|]. rewrite metadata_call in I by exact N. apply in_flat_map in I as (p & Ip & I). rewrite Forall_forall in IHargs.
    cbn [names]. apply in_flat_map. exists p. split; [exact Ip|]. eapply (IHargs _ Ip); eauto.
  - destruct I.
Qed.
Lemma free_names y e : free y e -> In y (names e).
Proof.
  intros (ro & O). revert O. induction e as [|s f d|l b IHl IHb|o a b IHa IHb|a IHa|q t f IHq IHt IHf|fn t args IHargs|c0] using expr_ind'; intro O.
  - destruct O.
  - destruct O as (-> & _). cbn. auto.
  - rewrite names_let, in_app_iff. cbn [occurs] in O. induction IHl as [|(s, v) l Hv _ IH]; cbn [in_lets flat_map] in *; [right; apply IHb, O|].
    destruct O as [O|(_ & O)]; [left; right; apply in_app_iff; left; apply Hv, O|]. destruct (IH O) as [I|I]; [left; right; apply in_app_iff; right; exact I|right; exact I].
  - cbn [names]. rewrite in_app_iff. destruct O as [O|O]; auto.
  - apply IHa, O.
  - cbn [names]. rewrite !in_app_iff. destruct O as [O|[O|O]]; auto.
  - cbn [names]. assert (G : forall l, Forall (fun e => occurs y ro e -> In y (names e)) l -> any_of (occurs y ro) l -> In y (flat_map names l)).
    { clear. induction 1 as [|e l Hh _ IH]; intro A; [destruct A|]. cbn [flat_map]. rewrite in_app_iff. destruct A as [A|A]; auto. }
    destruct (fn_cases fn) as [->|N].
    + destruct args as [|a args]; [destruct O|]. inversion IHargs as [|? ? A1 A2]; subst.
      assert (O' : any_of (occurs y ro) args \/ exists s d, a = EVar s f_none d /\ s = y).
      { cbn [occurs] in O. destruct a as [|s f d| | | | | |]; auto. destruct f; auto. destruct O as [(Q & _)|O]; [right; exists s, d; auto|auto]. }
      cbn [flat_map]. apply in_app_iff. destruct O' as [O'|(s & d & -> & ->)]; [right; apply G; auto|left; cbn; auto].
    + apply G; [exact IHargs|]. destruct fn; try exact O. destruct (N eq_refl).
  - destruct O.
Qed.

Section Value.
  Variable X : Type.
  Variable H : host X.
  Variable call_v : nat -> list buf -> list buf -> list Z -> X -> Z * X.
  Variable copy_v : buf -> buf -> option buf -> (list Z -> option (list Z)) -> X -> X.
  Variable consts : Z -> option buf.
  Notation veval := (veval X H).
  Notation vexec := (vexec X H call_v copy_v consts).

  Section Rw.
    Variable n : nat.
    Variable r : entries.
    Variable ms : list expr.
    Definition agree (Fm F2 : venv) : Prop := forall y, (y < n)%nat -> Fm y = F2 y \/ ((exists k b, Fm y = Buffer k b) /\ exists k b, F2 y = Buffer k b).
    Definition known (Fm F2 : venv) : Prop := forall m, In m ms -> exists g z, find_entry r m = Some g /\ (n <= g)%nat /\ F2 g = Num z /\ veval Fm m = Val z.
    Definition fits (e : expr) : Prop := (forall y, In y (names e) -> (y < n)%nat) /\ (forall s m, In s (locals e) -> In m ms -> ~ free s m) /\ incl (metadata e) ms.
    Definition valued (e : expr) : Prop := fits e -> forall Fm F2, agree Fm F2 -> known Fm F2 -> veval F2 (rw r e) = veval Fm e.

    Lemma sub_value Fm F2 m : known Fm F2 -> In m ms -> veval F2 (sub r m) = veval Fm m.
    Proof. intros K I. destruct (K m I) as (g & z & F & _ & Q & V). unfold sub. rewrite F, V. cbn [VSem_Spec.veval]. rewrite Q. reflexivity. Qed.
    Lemma agree_set Fm F2 s v : agree Fm F2 -> agree (vset Fm s v) (vset F2 s v).
    Proof. intros A y L. destruct (Nat.eq_dec s y) as [->|N]; [rewrite !vset_same; auto|]. rewrite !vset_other by congruence. apply A, L. Qed.
    Lemma known_set Fm F2 s v : (s < n)%nat -> (forall m, In m ms -> ~ free s m) -> known Fm F2 -> known (vset Fm s v) (vset F2 s v).
    Proof.
      intros L N K m I. destruct (K m I) as (g & z & F & G & Q & V). exists g, z. split; [exact F|]. split; [exact G|]. rewrite vset_other by lia. split; [exact Q|].
      rewrite <- V. apply eval_frame. intros y Fy. apply vset_other. intros ->. destruct (N m I Fy).
    Qed.
    Lemma defined_rw e : defined (rw r e) = defined e.
    Proof.
      destruct e as [|s f d| | | | |fn t args|]; try reflexivity.
      - destruct f; try reflexivity; cbn [rw]; unfold sub; destruct (find_entry r _); reflexivity.
      - destruct (fn_cases fn) as [->|N]; [cbn [rw]; unfold sub; destruct (find_entry r _); reflexivity|]. rewrite rw_call by exact N. reflexivity.
    Qed.
    Lemma args_value l : Forall valued l -> (forall e, In e l -> fits e) -> forall Fm F2, agree Fm F2 -> known Fm F2 -> veval_args veval F2 (map (rw r) l) = veval_args veval Fm l.
    Proof.
      intros V W Fm F2 A K. induction V as [|e l Ve _ IH]; [reflexivity|]. cbn [map veval_args]. rewrite defined_rw, (Ve (W e (or_introl eq_refl)) Fm F2 A K), IH; [reflexivity|]. intros e' I. apply W. right. exact I.
    Qed.
    Lemma short_value stop l : Forall valued l -> (forall e, In e l -> fits e) -> forall Fm F2, agree Fm F2 -> known Fm F2 -> veval_short veval F2 stop (map (rw r) l) = veval_short veval Fm stop l.
    Proof.
      intros V W Fm F2 A K. induction V as [|e l Ve _ IH]; [reflexivity|]. cbn [map veval_short]. rewrite (Ve (W e (or_introl eq_refl)) Fm F2 A K), IH; [reflexivity|]. intros e' I. apply W. right. exact I.
    Qed.
    Lemma fits_parts e l : (forall y, In y (flat_map names l) -> In y (names e)) -> (forall y, In y (flat_map locals l) -> In y (locals e)) -> (forall y, In y (flat_map metadata l) -> In y (metadata e)) ->
      fits e -> forall a, In a l -> fits a.
    Proof.
      intros P1 P2 P3 (F1 & F2 & F3) a I. split; [|split].
      - intros y Y. apply F1, P1, in_flat_map. eauto.
      - intros s m Y. apply F2, P2, in_flat_map. eauto.
      - intros m Y. apply F3, P3, in_flat_map. eauto.
    Qed.
    Lemma rw_value e : valued e.
    Proof.
      induction e as [|s f d|l b IHl IHb|o a b IHa IHb|a IHa|q t f IHq IHt IHf|fn t args IHargs|c0] using expr_ind'; intros W Fm F2 A K.
      - reflexivity.
      - destruct W as (W1 & _ & W3). cbn [metadata] in W3.
        destruct f; [|(cbn [rw]; apply sub_value; [exact K|apply W3; left; reflexivity])..].
        cbn [rw VSem_Spec.veval]. destruct (A s (W1 s (or_introl eq_refl))) as [Q|((k & x & Q1) & k' & x' & Q2)]; [rewrite Q; reflexivity|]. rewrite Q1, Q2. reflexivity.
      - cbn [rw]. destruct W as (W1 & W2 & W3). rewrite names_let in W1. rewrite locals_let in W2. rewrite metadata_let in W3.
        revert Fm F2 A K W1 W2 W3. cbn [VSem_Spec.veval]. induction IHl as [|(s, v) l Hv _ IH]; intros Fm F2 A K W1 W2 W3; cbn [map veval_lets fst snd flat_map] in *.
        + cbn [bind]. apply IHb; auto. split; [|split]; auto.
        + assert (Wv : fits v).
          { split; [intros y Y; apply W1; rewrite in_app_iff; left; right; rewrite in_app_iff; auto|]. split; [intros y m Y; apply W2; rewrite in_app_iff; left; right; rewrite in_app_iff; auto|intros m Y; apply W3; rewrite !in_app_iff; auto]. }
          rewrite (Hv Wv Fm F2 A K). destruct (veval Fm v) as [z|]; [|reflexivity]. cbn [bind]. apply IH.
          * apply agree_set, A.
          * apply known_set; [apply W1; left; reflexivity| |exact K]. intros m I. apply W2; [left; reflexivity|exact I].
          * intros y Y. apply W1. rewrite in_app_iff in *. destruct Y as [Y|Y]; [|auto]. left. right. rewrite in_app_iff. auto.
          * intros y m Y. apply W2. rewrite in_app_iff in *. destruct Y as [Y|Y]; [|auto]. left. right. rewrite in_app_iff. auto.
          * intros m Y. apply W3. rewrite !in_app_iff in *. destruct Y as [Y|Y]; auto.
      - pose proof (fits_parts (EBin o a b) [a; b]) as P. cbn [flat_map names locals metadata] in P. rewrite !app_nil_r in P. specialize (P (fun y Y => Y) (fun y Y => Y) (fun y Y => Y) W).
        cbn [rw VSem_Spec.veval]. rewrite (IHa (P a (or_introl eq_refl)) Fm F2 A K), (IHb (P b (or_intror (or_introl eq_refl))) Fm F2 A K). reflexivity.
      - cbn [rw VSem_Spec.veval]. rewrite (IHa W Fm F2 A K). reflexivity.
      - pose proof (fits_parts (ESelect q t f) [q; t; f]) as P. cbn [flat_map names locals metadata] in P. rewrite !app_nil_r in P. specialize (P (fun y Y => Y) (fun y Y => Y) (fun y Y => Y) W).
        cbn [rw VSem_Spec.veval]. rewrite (IHq (P q (or_introl eq_refl)) Fm F2 A K), (IHt (P t (or_intror (or_introl eq_refl))) Fm F2 A K), (IHf (P f (or_intror (or_intror (or_introl eq_refl)))) Fm F2 A K). reflexivity.
      - destruct (fn_cases fn) as [->|N]; [cbn [rw]; apply sub_value; [exact K|apply (proj2 (proj2 W)); left; reflexivity]|]. rewrite rw_call by exact N.
        assert (P : forall a, In a args -> fits a).
        { apply (fits_parts (ECall fn t args) args); [auto|auto| |exact W]. rewrite metadata_call by exact N. auto. }
        pose proof (args_value args IHargs P Fm F2 A K) as V.
        destruct fn; cbn [VSem_Spec.veval]; try reflexivity; try (rewrite V; reflexivity).
        + destruct args as [|x [|x' args]]; [reflexivity| |reflexivity]. cbn [map]. inversion IHargs as [|? ? Hx _]; subst. rewrite (Hx (P x (or_introl eq_refl)) Fm F2 A K). reflexivity.
        + apply short_value; auto.
        + apply short_value; auto.
        + destruct (N eq_refl).
      - reflexivity.
    Qed.
  End Rw.

  (** *** The lets *)
  Definition is_metadata (m : expr) : Prop := (exists s f d, m = EVar s f d /\ f <> f_none) \/ exists t args, m = ECall i_buffer_at t args.
  Lemma let_metadata E g m : is_metadata m -> vlet X H E g m = (v <- veval E m ;; Val (vset E g (Num v))).
  Proof. intros [(s & f & d & -> & N)|(t & args & ->)]; [|reflexivity]. destruct f; try reflexivity. destruct (N eq_refl). Qed.
  Definition lets_of (r : entries) : list (nat * expr) := map (fun p => (snd p, fst p)) r.
  Lemma lets_value n E L : NoDup (map snd L) -> (forall m g, In (m, g) L -> is_metadata m /\ (n <= g)%nat /\ (forall y, free y m -> (y < n)%nat) /\ exists z, veval E m = Val z) ->
    forall Ec, (forall y, (y < n)%nat -> Ec y = E y) -> exists E1, vlets X H (lets_of L) Ec = Val E1 /\ (forall y, ~ In y (map snd L) -> E1 y = Ec y) /\ forall m g, In (m, g) L -> exists z, veval E m = Val z /\ E1 g = Num z.
  Proof.
    induction L as [|(m, g) L IH]; intros D W Ec Q.
    - exists Ec. split; [reflexivity|]. split; [reflexivity|intros m g []].
    - inversion D as [|? ? N D']; subst. destruct (W m g (or_introl eq_refl)) as (Mm & G & Fm & z & V). cbn [lets_of map fst snd vlets] in *. rewrite let_metadata by exact Mm.
      assert (VE : veval Ec m = Val z). { rewrite <- V. apply eval_frame. intros y Y. apply Q, Fm, Y. }
      rewrite VE. cbn [bind]. destruct (IH D' (fun m' g' I => W m' g' (or_intror I)) (vset Ec g (Num z))) as (E1 & L1 & O1 & V1).
      { intros y Y. rewrite vset_other by lia. apply Q, Y. }
      exists E1. split; [exact L1|]. split.
      + intros y Y. rewrite (O1 y) by (intro I; apply Y; right; exact I). apply vset_other. intros ->. apply Y. left. reflexivity.
      + intros m' g' [[= <- <-]|I]; [|apply V1, I]. exists z. split; [exact V|]. rewrite (O1 g N). apply vset_same.
  Qed.
  Lemma lets_fail n E m L : (forall m g, In (m, g) L -> is_metadata m /\ (n <= g)%nat /\ (forall y, free y m -> (y < n)%nat)) ->
    In m (map fst L) -> veval E m = UB -> forall Ec, (forall y, (y < n)%nat -> Ec y = E y) -> vlets X H (lets_of L) Ec = UB.
  Proof.
    induction L as [|(m0, g) L IH]; intros W I V Ec Q; [destruct I|].
    destruct (W m0 g (or_introl eq_refl)) as (Mm & G & Fm). cbn [lets_of map fst snd vlets] in *. rewrite let_metadata by exact Mm.
    assert (VE : veval Ec m0 = veval E m0). { apply eval_frame. intros y Y. apply Q, Fm, Y. }
    rewrite VE. destruct (veval E m0) as [z|] eqn:V0; [|reflexivity]. cbn [bind]. destruct I as [->|I]; [congruence|].
    apply (IH (fun m' g' I => W m' g' (or_intror I)) I V). intros y Y. rewrite vset_other by lia. apply Q, Y.
  Qed.
End Value.
