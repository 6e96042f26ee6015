(** Proofs for C56: names of symbols, and what happens to the state. *)
From Coq Require DecimalNat DecimalFacts.
From Coq Require Import ZArith String DecimalString List Bool Lia FinFun.
From Verif Require Import Arith_Model Arith_Proofs Buf_Model Expr_Model Expr_Proofs Stmt_Model Stmt_Spec Stmt_Proofs Simplify_Model Deps_Model Deps_Spec Subst_Model StmtSubst_Model StmtSubst_Spec OptSym_Spec
  Deshadow_Model Deshadow_Spec.
Import ListNotations.
Open Scope Z_scope.

(** ** Names *)
Lemma to_string_inj i j : to_string i = to_string j -> i = j.
Proof.
  unfold to_string. intro Q.
  assert (N : forall n, Nat.to_uint n <> Decimal.Nil) by (intro n; rewrite <- (DecimalNat.Unsigned.of_to n), DecimalNat.Unsigned.to_of; apply DecimalFacts.unorm_nonnil).
  assert (U : forall n, NilZero.uint_of_string (NilZero.string_of_uint (Nat.to_uint n)) = Some (Nat.to_uint n)) by (intro n; apply NilZero.usu, N).
  pose proof (U i) as Ui. rewrite Q, U in Ui. injection Ui as Ui. apply DecimalNat.Unsigned.to_uint_inj in Ui. congruence.
Qed.
Lemma append_inj (p a b : string) : (p ++ a)%string = (p ++ b)%string -> a = b.
Proof. induction p as [|c p IH]; cbn [append]; intro Q; [exact Q|]. injection Q as Q. auto. Qed.
Lemma append_self (p a : string) : (p ++ a)%string = p -> a = EmptyString.
Proof. intro Q. apply (append_inj p). rewrite Q. clear. induction p as [|c p IH]; [reflexivity|]. cbn [append]. congruence. Qed.
Lemma candidate_inj p i j : candidate p i = candidate p j -> i = j.
Proof. unfold candidate. intro Q. apply append_inj in Q. cbn [append] in Q. injection Q as Q. apply to_string_inj. exact Q. Qed.
Lemma candidate_new p i : candidate p i <> p.
Proof. unfold candidate. intro Q. apply append_self in Q. discriminate Q. Qed.
Lemma find_name_none c s : find_name c s = None <-> ~ In s c.
Proof.
  induction c as [|t c IH]; cbn [find_name In]; [tauto|]. destruct (String.eqb_spec s t) as [->|n].
  - split; [discriminate|tauto].
  - destruct (find_name c s); cbn [option_map]; split; intro Q; try discriminate; [|intros [q|I]; [congruence|]; apply IH in I; auto|reflexivity].
    exfalso. apply Q. right. destruct (in_dec string_dec s c) as [I|N]; [exact I|]. apply IH in N. discriminate N.
Qed.
(** the names tried, up to number [k] *)
Definition tried (p : string) (k : nat) : list string := p :: map (candidate p) (seq 0 k).
Lemma tried_nodup p k : NoDup (tried p k).
Proof.
  constructor.
  - intro I. apply in_map_iff in I as (i & Q & _). exact (candidate_new _ _ Q).
  - apply Injective_map_NoDup; [exact (candidate_inj p)|apply seq_NoDup].
Qed.
Lemma tried_S p k : tried p (S k) = tried p k ++ [candidate p k].
Proof. unfold tried. rewrite seq_S, map_app. reflexivity. Qed.
Definition nth_name (p : string) (i : nat) : string := match i with O => p | S j => candidate p j end.
Lemma unique_loop c p n : forall i, (forall s, In s (tried p i) -> s = nth_name p i \/ In s c) ->
  let r := unique_name c p (nth_name p i) i n in
  ~ In r c \/ (r = nth_name p (i + n) /\ forall s, In s (tried p (i + n)) -> s = nth_name p (i + n) \/ In s c).
Proof.
  induction n as [|n IH]; intros i T; cbn [unique_name].
  - right. rewrite Nat.add_0_r. auto.
  - destruct (find_name c (nth_name p i)) eqn:Q.
    + specialize (IH (S i)). cbn [nth_name] in IH. replace (i + S n)%nat with (S i + n)%nat by lia. apply IH.
      intros s I. rewrite tried_S in I. apply in_app_or in I as [I|[<-|[]]]; [|left; reflexivity]. right. destruct (T s I) as [->|I']; [|exact I'].
      destruct (in_dec string_dec (nth_name p i) c) as [J|N]; [exact J|]. apply find_name_none in N. congruence.
    + left. apply find_name_none. exact Q.
Qed.
Lemma unique_new c p : ~ In (unique_name c p p 0 (List.length c)) c.
Proof.
  destruct (unique_loop c p (List.length c) 0) as [N|(Q & T)]; [cbn; intros s [<-|[]]; left; reflexivity|exact N|]. cbn [Nat.add nth_name] in *.
  rewrite Q. intro I. (* all the names tried are in the context: there are too many of them *)
  assert (Inc : incl (tried p (List.length c)) c) by (intros s Is; destruct (T s Is) as [->|J]; [exact I|exact J]).
  pose proof (NoDup_incl_length (tried_nodup p (List.length c)) Inc) as L. unfold tried in L. cbn [List.length] in L. rewrite map_length, seq_length in L. lia.
Qed.
Lemma insert_unique_new c p : let n := unique_name c p p 0 (List.length c) in insert_unique c p = (List.length c, c ++ [n]) /\ ~ In n c.
Proof.
  cbv zeta. pose proof (unique_new c p) as N. split; [|exact N]. unfold insert_unique, insert_name. apply find_name_none in N. rewrite N. reflexivity.
Qed.
Lemma rename_new il x c : exists s, rename il x c = (List.length c, c ++ [s]) /\ ~ In s c.
Proof. unfold rename. eexists. apply insert_unique_new. Qed.

(** ** The state *)
Lemma put_same m x v : put m x v x = v. Proof. unfold put. rewrite Nat.eqb_refl. reflexivity. Qed.
Lemma put_other m x v y : y <> x -> put m x v y = m y. Proof. intro n. unfold put. apply Nat.eqb_neq in n. rewrite n. reflexivity. Qed.
Definition grows (c c' : context_names) : Prop := exists k, c' = c ++ k.
Lemma grows_refl c : grows c c. Proof. exists []. symmetry. apply app_nil_r. Qed.
Lemma grows_trans a b c : grows a b -> grows b c -> grows a c. Proof. intros (k & ->) (l & ->). exists (k ++ l). symmetry. apply app_assoc. Qed.
Lemma grows_length a b : grows a b -> (List.length a <= List.length b)%nat. Proof. intros (k & ->). rewrite app_length. lia. Qed.
(** nothing has changed but for new symbols in the context *)
Definition framed (t t' : dstate) : Prop := (forall x, fst t' x = fst t x) /\ grows (snd t) (snd t').
Lemma framed_refl t : framed t t. Proof. split; [reflexivity|apply grows_refl]. Qed.
Lemma framed_trans a b c : framed a b -> framed b c -> framed a c.
Proof. intros (A & A') (B & B'). split; [intro x; rewrite B; apply A|eapply grows_trans; eassumption]. Qed.
(** [x] is declared under the name [x'] *)
Definition decl_step (x : nat) (t : dstate) (x' : nat) (t' : dstate) : Prop :=
  fst t' = put (fst t) x (Some x') /\ ((x' = x /\ snd t' = snd t) \/ (x' = List.length (snd t) /\ exists s, snd t' = snd t ++ [s])).
Lemma step_grows x t x' t' : decl_step x t x' t' -> grows (snd t) (snd t').
Proof. intros (_ & [(_ & ->)|(_ & s & ->)]); [apply grows_refl|exists [s]; reflexivity]. Qed.
Lemma enter_step il x t : exists x' t', enter_decl il x t = (x', t') /\ decl_step x t x' t' /\ (fst t x = None -> x' = x) /\ (fst t x <> None -> x' = List.length (snd t)).
Proof.
  unfold enter_decl. destruct (fst t x) as [y|].
  - destruct (rename_new il x (snd t)) as (s & -> & _). eexists. eexists. split; [reflexivity|]. split; [split; [reflexivity|right; split; [reflexivity|exists s; reflexivity]]|]. split; [discriminate|reflexivity].
  - eexists. eexists. split; [reflexivity|]. split; [split; [reflexivity|left; split; reflexivity]|]. split; [reflexivity|congruence].
Qed.
Lemma rename_step il x t : exists x' c, rename il x (snd t) = (x', c) /\ decl_step x t x' (declare x x' (fst t, c)) /\ x' = List.length (snd t).
Proof.
  destruct (rename_new il x (snd t)) as (s & -> & _). eexists. eexists. split; [reflexivity|]. split; [split; [reflexivity|right; split; [reflexivity|exists s; reflexivity]]|reflexivity].
Qed.
Lemma keep_step x t : decl_step x t x (declare x x t). Proof. split; [reflexivity|left; split; reflexivity]. Qed.

Lemma fold_put g l : Forall (fun p => snd p = g (fst p)) l -> forall m y,
  (In y (map fst l) -> fold_left (fun m (p : nat * option nat) => put m (fst p) (snd p)) l m y = g y) /\
  (~ In y (map fst l) -> fold_left (fun m (p : nat * option nat) => put m (fst p) (snd p)) l m y = m y).
Proof.
  induction 1 as [|(x, v) l Q F IH]; intros m y; cbn [fold_left map fst snd In] in *; [split; [intros []|reflexivity]|]. destruct (IH (put m x v) y) as (I1 & I2). split.
  - intros I. destruct (in_dec Nat.eq_dec y (map fst l)) as [J|N]; [exact (I1 J)|]. rewrite (I2 N). destruct I as [<-|I]; [|contradiction]. rewrite put_same. exact Q.
  - intros N. rewrite I2 by tauto. apply put_other. intros ->. apply N. left. reflexivity.
Qed.
(** what a list of declarations, entered one after the other, does *)
Definition list_step (l : list nat) (e : entered) (t t' : dstate) : Prop :=
  map fst e = l /\ Forall (fun p => snd p = fst t (fst p)) e /\ (forall y, ~ In y l -> fst t' y = fst t y) /\ grows (snd t) (snd t').
Lemma list_exit l e t t1 t2 : list_step l e t t1 -> framed t1 t2 -> framed t (exit_decls e t2).
Proof.
  intros (K & F & N & G) (M & G2). split; [|eapply grows_trans; eassumption]. intro x. unfold exit_decls. cbn [fst]. destruct (fold_put (fst t) e F (fst t2) x) as (I1 & I2). rewrite K in *.
  destruct (in_dec Nat.eq_dec x l) as [I|I]; [exact (I1 I)|]. rewrite (I2 I), M. exact (N x I).
Qed.
Lemma list_nil t : list_step [] [] t t.
Proof. split; [reflexivity|]. split; [constructor|]. split; [reflexivity|apply grows_refl]. Qed.
Lemma list_cons x x' l e t0 t t1 t2 : ~ In x l -> framed t0 t -> decl_step x t x' t1 -> list_step l e t1 t2 -> list_step (x :: l) (saved x t :: e) t0 t2.
Proof.
  intros Nx (M & G0) Sp (K & F & N & G). pose proof (step_grows _ _ _ _ Sp) as G1. destruct Sp as (Q & _). split; [cbn [map saved fst]; congruence|]. split; [|split; [|eapply grows_trans; [exact G0|eapply grows_trans; eassumption]]].
  - constructor; [cbn [saved fst snd]; apply M|]. rewrite Forall_forall in *. intros (y, v) I. specialize (F _ I). cbn [fst snd] in *. rewrite F, Q, <- M. apply put_other. intros ->.
    apply Nx. rewrite <- K. apply (in_map fst _ _ I).
  - intros y Ny. cbn [In] in Ny. rewrite N by tauto. rewrite Q, <- M. apply put_other. intros ->. tauto.
Qed.
Lemma step_exit x t x' t1 t2 : decl_step x t x' t1 -> framed t1 t2 -> framed t (exit_decls [(x, fst t x)] t2).
Proof.
  intros Sp F. apply (list_exit [x] _ t t1); [|exact F]. apply (list_cons x x' [] [] t t t1 t1); [intros []|apply framed_refl|exact Sp|apply list_nil].
Qed.

Definition frames {A B} (f : A -> dstate -> res (B * dstate)) (a : A) : Prop := forall t b t', f a t = Val (b, t') -> framed t t'.
Lemma each_frame {A B} (f : A -> dstate -> res (B * dstate)) l : Forall (frames f) l -> frames (each f) l.
Proof.
  induction 1 as [|a l Ha F IH]; intros t bs t' M; cbn [each] in M; [injection M as <- <-; apply framed_refl|].
  apply bind_inv in M as ((b, t1) & M1 & M). apply bind_inv in M as ((bs', t2) & M2 & M). injection M as <- <-. eapply framed_trans; [exact (Ha _ _ _ M1)|exact (IH _ _ _ M2)].
Qed.
Lemma lets_step il (f : expr -> dstate -> res (expr * dstate)) l : Forall (frames f) (map snd l) -> NoDup (map fst l) -> forall t l' e t', d_lets il f l t = Val (l', e, t') -> list_step (map fst l) e t t'.
Proof.
  induction l as [|(s, v) l IH]; intros F N t l' e t' M; cbn [d_lets] in M; [injection M as <- <- <-; apply list_nil|]. cbn [map fst snd] in *.
  inversion F as [|? ? Fv Fl]; subst. inversion N as [|? ? Ns Nl]; subst. apply bind_inv in M as ((v', t1) & Mv & M).
  destruct (enter_step il s t1) as (s' & t2 & Qe & Sp & _). rewrite Qe in M. apply bind_inv in M as (((l1, e1), t3) & Ml & M). injection M as <- <- <-.
  eapply list_cons; [exact Ns|exact (Fv _ _ _ Mv)|exact Sp|exact (IH Fl Nl _ _ _ _ Ml)].
Qed.
Lemma all_step il l : NoDup l -> forall t l' e t', enter_all il l t = (l', e, t') -> list_step l e t t'.
Proof.
  induction l as [|x l IH]; intros N t l' e t' M; cbn [enter_all] in M; [injection M as <- <- <-; apply list_nil|]. inversion N as [|? ? Ns Nl]; subst.
  destruct (enter_step il x t) as (x' & t1 & Qe & Sp & _). rewrite Qe in M. destruct (enter_all il l t1) as ((l1, e1), t2) eqn:Q. injection M as <- <- <-.
  eapply list_cons; [exact Ns|apply framed_refl|exact Sp|exact (IH Nl _ _ _ _ Q)].
Qed.
Lemma distinct_lets l b : lets_distinct (ELet l b) -> NoDup (map fst l) /\ Forall lets_distinct (map snd l) /\ lets_distinct b.
Proof. cbn [lets_distinct]. intros (N & G & B). split; [exact N|]. split; [|exact B]. clear -G. induction l as [|(s, v) l IH]; [constructor|]. destruct G. constructor; auto. Qed.
Lemma distinct_args fn t l : lets_distinct (ECall fn t l) -> Forall lets_distinct l.
Proof. cbn [lets_distinct]. induction l as [|a l IH]; [constructor|]. intros (A & B). constructor; auto. Qed.
Lemma expr_frame il e : lets_distinct e -> frames (d_expr il) e.
Proof.
  induction e as [|s f d|l b IHl IHb|o a b IHa IHb|a IHa|q t f IHq IHt IHf|fn t args IHargs|c0] using expr_ind'; intros D t0 e' t' M; cbn [d_expr] in M.
  - injection M as <- <-. apply framed_refl.
  - injection M as <- <-. apply framed_refl.
  - apply distinct_lets in D as (N & Dl & Db). apply (Forall_snd (fun v => lets_distinct v -> frames (d_expr il) v)) in IHl. apply bind_inv in M as (((l', e), t1) & Ml & M). apply bind_inv in M as ((b', t2) & Mb & M). injection M as <- <-.
    eapply list_exit; [|exact (IHb Db _ _ _ Mb)]. eapply (lets_step il (d_expr il) l); [|exact N|exact Ml]. clear -IHl Dl. rewrite Forall_forall in *. intros v I. apply IHl; auto.
  - destruct D as (Da & Db). apply bind_inv in M as ((a', t1) & Ma & M). apply bind_inv in M as ((b', t2) & Mb & M). injection M as <- <-. eapply framed_trans; [exact (IHa Da _ _ _ Ma)|exact (IHb Db _ _ _ Mb)].
  - apply bind_inv in M as ((a', t1) & Ma & M). injection M as <- <-. exact (IHa D _ _ _ Ma).
  - destruct D as (Dq & Dt & Df). apply bind_inv in M as ((q', t1) & Mq & M). apply bind_inv in M as ((x', t2) & Mt & M). apply bind_inv in M as ((f', t3) & Mf & M). injection M as <- <-.
    eapply framed_trans; [exact (IHq Dq _ _ _ Mq)|]. eapply framed_trans; [exact (IHt Dt _ _ _ Mt)|exact (IHf Df _ _ _ Mf)].
  - apply distinct_args in D. apply bind_inv in M as ((args', t1) & Ma & M). apply bind_inv in M as (args'' & _ & M). injection M as <- <-.
    refine (each_frame _ _ _ _ _ _ Ma). rewrite Forall_forall in *. intros a I. apply IHargs; auto.
  - injection M as <- <-. apply framed_refl.
Qed.
Lemma interval_frame il i : distinct_interval i -> frames (d_interval il) i.
Proof.
  intros (A & B) t i' t' M. unfold d_interval in M. apply bind_inv in M as ((a', t1) & Ma & M). apply bind_inv in M as ((b', t2) & Mb & M). injection M as <- <-.
  eapply framed_trans; [exact (expr_frame il _ A _ _ _ Ma)|exact (expr_frame il _ B _ _ _ Mb)].
Qed.
Lemma dim_frame il d : distinct_dim d -> frames (d_dim il) d.
Proof.
  intros (A & B & C) t i' t' M. unfold d_dim in M. apply bind_inv in M as ((a', t1) & Ma & M). apply bind_inv in M as ((b', t2) & Mb & M). apply bind_inv in M as ((c', t3) & Mc & M). injection M as <- <-.
  eapply framed_trans; [exact (interval_frame il _ A _ _ _ Ma)|]. eapply framed_trans; [exact (expr_frame il _ B _ _ _ Mb)|exact (expr_frame il _ C _ _ _ Mc)].
Qed.
Lemma crop_frame il src d i : distinct_interval i -> frames (d_crop il src d) i.
Proof. intros D t i' t' M. unfold d_crop in M. apply bind_inv in M as ((a', t1) & Ma & M). injection M as <- <-. exact (interval_frame il _ D _ _ _ Ma). Qed.
Lemma crops_frame il src l : Forall distinct_interval l -> forall d, frames (d_crops il src d) l.
Proof.
  induction 1 as [|i l Di F IH]; intros d t l' t' M; cbn [d_crops] in M; [injection M as <- <-; apply framed_refl|].
  apply bind_inv in M as ((i', t1) & Mi & M). apply bind_inv in M as ((r', t2) & Ml & M). injection M as <- <-. eapply framed_trans; [exact (crop_frame il src d i Di _ _ _ Mi)|exact (IH _ _ _ _ Ml)].
Qed.
