(** Proofs for C55: what renaming a buffer keeps. *)
From Coq Require Import ZArith List Bool Lia.
From Verif Require Import Arith_Model Arith_Proofs Buf_Model Alloc_Model Expr_Model Expr_Spec Expr_Proofs Stmt_Model Stmt_Spec Stmt_Proofs Simplify_Model Simplify_Proofs Deps_Model Deps_Spec
  Deps_Proofs Deps_Props Subst_Model Subst_Spec SubstMean_Proofs SubstEval_Proofs Subst_Props StmtSubst_Model StmtSubst_Spec VSem_Spec VMono_Proofs VExec_Proofs VRef_Proofs StmtSubst_Proofs StmtSubst2_Proofs StmtSubst3_Proofs
  OptSym_Model OptSym_Spec.
Import ListNotations.
Open Scope Z_scope.

(** ** Lists *)
Lemma lets_out_let B l b : lets_out B (ELet l b) <-> Forall (fun p => ~ B (fst p) /\ lets_out B (snd p)) l /\ lets_out B b.
Proof.
  cbn [lets_out]. induction l as [|(s, v) l IH]; [split; [intros; split; [constructor|assumption]|tauto]|]. rewrite IH. split.
  - intros (A & A2 & C & D). split; [constructor; auto|exact D].
  - intros (A & D). inversion A as [|? ? (A1 & A2) A3]; subst. auto.
Qed.
Lemma lets_out_call B f t l : lets_out B (ECall f t l) <-> Forall (lets_out B) l.
Proof. cbn [lets_out]. induction l as [|a l IH]; [split; constructor|]. rewrite IH. split; [intros (A & C); constructor; auto|intros A; inversion A; auto]. Qed.
Lemma neat_let l b : neat (ELet l b) <-> Forall neat (map snd l) /\ neat b.
Proof.
  cbn [neat]. induction l as [|(s, v) l IH]; [split; [intros; split; [constructor|assumption]|tauto]|]. rewrite IH. cbn [map snd]. split.
  - intros (A & C & D). split; [constructor; auto|exact D].
  - intros (A & D). inversion A; subst. auto.
Qed.
Lemma neat_call f t l : neat (ECall f t l) <-> (match f, l with i_buffer_at, _ :: at_ => neat_args 0 at_ | _, _ => True end) /\ Forall neat l.
Proof.
  cbn [neat]. assert (G : (fix go (l : list expr) := match l with [] => True | a :: l' => neat a /\ go l' end) l <-> Forall neat l).
  { induction l as [|a l IH]; [split; constructor|]. rewrite IH. split; [intros (A & C); constructor; auto|intros A; inversion A; auto]. }
  rewrite G. tauto.
Qed.
Lemma heads_let l b : plain_heads (ELet l b) <-> Forall plain_heads (map snd l) /\ plain_heads b.
Proof.
  cbn [plain_heads]. induction l as [|(s, v) l IH]; [split; [intros; split; [constructor|assumption]|tauto]|]. rewrite IH. cbn [map snd]. split.
  - intros (A & C & D). split; [constructor; auto|exact D].
  - intros (A & D). inversion A; subst. auto.
Qed.
Lemma heads_call f t l : plain_heads (ECall f t l) <-> (f = i_buffer_at -> match l with EVar _ f_none _ :: _ => True | _ => False end) /\ Forall plain_heads l.
Proof.
  cbn [plain_heads]. assert (G : (fix go (l : list expr) := match l with [] => True | a :: l' => plain_heads a /\ go l' end) l <-> Forall plain_heads l).
  { induction l as [|a l IH]; [split; constructor|]. rewrite IH. split; [intros (A & C); constructor; auto|intros A; inversion A; auto]. }
  rewrite G. tauto.
Qed.
Lemma Forall_pop (P : expr -> Prop) l : Forall P l -> Forall P (pop_undefined l).
Proof. intros F. rewrite Forall_forall in *. intros a I. apply F, in_pop, I. Qed.
Lemma neat_args_app a : forall d b, neat_args d (a ++ b) -> neat_args d a.
Proof. induction a as [|x a IH]; intros d b; cbn [app neat_args]; [auto|]. intros (A & C). split; [exact A|exact (IH _ _ C)]. Qed.
Lemma neat_args_pop l d : neat_args d l -> neat_args d (pop_undefined l).
Proof. intros N. destruct (pop_app l) as (k & Q). rewrite Q in N. exact (neat_args_app _ _ _ N). Qed.
Lemma clear_mins_neat s l : forall d, neat_args d l -> clear_mins s d l = l.
Proof.
  induction l as [|a l IH]; intros d; cbn [clear_mins neat_args]; [reflexivity|]. intros (A & N). rewrite (IH _ N).
  assert (Q : is_min_of a s d = false); [|rewrite Q; reflexivity]. destruct a as [|y f k| | | | | |]; try reflexivity. destruct f; try reflexivity. cbn [is_min_of min_in] in *. destruct (Z.eqb_spec k d); [contradiction|apply andb_false_r].
Qed.

Section Rename.
  Variable x z : nat.
  Notation rep := (EVar z f_none 0).
  Notation mut := (var_mutate x rep).
  Notation sub_stmt := (sub_stmt x rep).
  Hypothesis Nxz : z <> x.
  Lemma free_rep y : free y rep <-> y = z.
  Proof. split; [intros (ro & O); cbn in O; symmetry; tauto|intros ->; exists (RField f_none); cbn; auto]. Qed.
  Lemma enters s : s <> x -> s <> z -> enter_var x rep s = true.
  Proof. intros A B. destruct (enter_var x rep s) eqn:E; [reflexivity|]. apply enter_false in E as [E|E]; [contradiction|]. apply free_rep in E. contradiction. Qed.
  (** every let of [l] is entered *)
  Lemma lets_all (en : nat -> bool) (mu : expr -> res expr) l : Forall (fun p => en (fst p) = true) l -> forall l' al, mutate_lets en mu l = Val (l', al) ->
    al = true /\ Forall2 (fun p p' => fst p' = fst p /\ mu (snd p) = Val (snd p')) l l'.
  Proof.
    induction 1 as [|(s, v) l E _ IH]; intros l' al M; cbn [mutate_lets] in M; [injection M as <- <-; split; constructor|]. apply bind_inv in M as (v' & Mv & M). cbn [fst] in E. rewrite E in M.
    apply bind_inv in M as ((l1, al1) & M1 & M). injection M as <- <-. destruct (IH _ _ M1) as (A & F). split; [exact A|]. constructor; [split; [reflexivity|exact Mv]|exact F].
  Qed.
  Lemma args_all (mu : expr -> res expr) l : forall l', mutate_args mu l = Val l' -> Forall2 (fun a a' => mu a = Val a') l l'.
  Proof.
    induction l as [|a l IH]; intros l' M; cbn [mutate_args] in M; [injection M as <-; constructor|]. apply bind_inv in M as (a' & Ma & M). apply bind_inv in M as (r & Mr & M). injection M as <-. constructor; auto.
  Qed.
  Lemma mut_bare e e' : mut e = Val e' -> bare e' = bare e /\ defined e' = defined e.
  Proof.
    intros M. unfold var_mutate in M. destruct e as [|s f d|l b|o a b|a|q t f|fn t args|c0]; cbn [mutate] in M.
    - injection M as <-. auto.
    - unfold visit_var in M. destruct (s =? x)%nat; [|injection M as <-; auto]. destruct f; try (injection M as <-; auto); cbn [replacement_symbol bind] in M; injection M as <-; auto.
    - apply bind_inv in M as ((l', al) & Ml & M). apply bind_inv in M as (b' & Mb & M). injection M as <-. auto.
    - apply bind_inv in M as (a' & Ma & M). apply bind_inv in M as (b' & Mb & M). injection M as <-. unfold make_bin. destruct (_ && _); auto.
    - apply bind_inv in M as (a' & Ma & M). injection M as <-. auto.
    - apply bind_inv in M as (q' & Mq & M). apply bind_inv in M as (t' & Mt & M). apply bind_inv in M as (f' & Mf & M). injection M as <-. auto.
    - apply bind_inv in M as (args' & Ma & M). apply bind_inv in M as (args2 & Mf & M). injection M as <-. auto.
    - injection M as <-. auto.
  Qed.
  Variable B : nat -> Prop.
  Hypothesis Bx : B x.
  Hypothesis Bz : B z.
  Definition fine (e : expr) : Prop := lets_out B e /\ neat e /\ plain_heads e.
  Lemma min_mut d e e' : mut e = Val e' -> min_in d e' -> min_in d e.
  Proof.
    intros M. unfold var_mutate in M. destruct e as [|s f k|l b|o a b|a|q t f|fn t args|c0]; cbn [mutate] in M.
    - injection M as <-. auto.
    - unfold visit_var in M. destruct (s =? x)%nat; [|injection M as <-; auto]. destruct f; try (injection M as <-; auto); cbn [replacement_symbol bind] in M; injection M as <-; auto.
    - apply bind_inv in M as ((l', al) & Ml & M). apply bind_inv in M as (b' & Mb & M). injection M as <-. auto.
    - apply bind_inv in M as (a' & Ma & M). apply bind_inv in M as (b' & Mb & M). injection M as <-. unfold make_bin. destruct (_ && _); auto.
    - apply bind_inv in M as (a' & Ma & M). injection M as <-. auto.
    - apply bind_inv in M as (q' & Mq & M). apply bind_inv in M as (t' & Mt & M). apply bind_inv in M as (f' & Mf & M). injection M as <-. auto.
    - apply bind_inv in M as (args' & Ma & M). apply bind_inv in M as (args2 & Mf & M). injection M as <-. auto.
    - injection M as <-. auto.
  Qed.
  Lemma neat_args_mut l l' : Forall2 (fun a a' => mut a = Val a') l l' -> forall d, neat_args d l -> neat_args d l'.
  Proof. induction 1 as [|a a' l l' M _ IH]; intros d N; cbn [neat_args] in *; [exact N|]. destruct N as (N1 & N2). split; [intros K; apply N1, (min_mut _ _ _ M K)|exact (IH _ N2)]. Qed.
  (** the arguments of a buffer_at: trailing undefined ones are dropped *)
  Lemma at_args fn args args' args2 : plain_heads (ECall fn None args) -> neat (ECall fn None args) -> Forall2 (fun a a' => mut a = Val a') args args' ->
    match fn with i_buffer_at => finish_at (fun _ _ => EUndef) (fun _ => O) args' | _ => Val args' end = Val args2 ->
    args2 = args' \/ exists h h' at_ s d s' d', args = h :: at_ /\ h = EVar s f_none d /\ h' = EVar s' f_none d' /\ fn = i_buffer_at /\ mut h = Val h' /\ args' = h' :: tl args' /\ args2 = h' :: pop_undefined (tl args').
  Proof.
    intros P N F Mf. apply heads_call in P as (P & _). apply neat_call in N as (N & _).
    assert (G : fn = i_buffer_at \/ args2 = args') by (destruct fn; try (right; injection Mf as <-; reflexivity); left; reflexivity). destruct G as [->|G]; [right|left; exact G].
    specialize (P eq_refl). destruct args as [|[|s f d| | | | | |] at_]; try contradiction. destruct f; try contradiction. inversion F as [|? h' ? at' Mh Fa]; subst. clear F.
    assert (Q : exists s' d', h' = EVar s' f_none d').
    { unfold var_mutate in Mh. cbn [mutate] in Mh. unfold visit_var in Mh. destruct (s =? x)%nat; injection Mh as <-; eauto. }
    destruct Q as (s' & d' & ->). cbn [finish_at] in Mf. unfold pad in Mf. cbn [Nat.sub repeat] in Mf. rewrite app_nil_r in Mf. rewrite (fill_mins_clear (fun _ _ => EUndef) s' at' (fun _ => eq_refl) 0) in Mf. cbn [bind Z.of_nat] in Mf.
    rewrite clear_mins_neat in Mf by exact (neat_args_mut _ _ Fa 0 N). injection Mf as <-. exists (EVar s f_none d), (EVar s' f_none d'), at_, s, d, s', d'. cbn [tl]. auto 10.
  Qed.
  Lemma fine_mut e : fine e -> forall e', mut e = Val e' -> fine e'.
  Proof.
    unfold fine. induction e as [|s f d|l b IHl IHb|o a b IHa IHb|a IHa|q t f IHq IHt IHf|fn t args IHargs|c0] using expr_ind'; intros (O & N & P) e' M; unfold var_mutate in M; cbn [mutate] in M; fold (var_mutate x rep) in M.
    - injection M as <-. cbn. auto.
    - unfold visit_var in M. destruct (s =? x)%nat; [|injection M as <-; cbn; auto]. destruct f; try (injection M as <-; cbn; auto); cbn [replacement_symbol bind] in M; injection M as <-; cbn; auto.
    - apply bind_inv in M as ((l', al) & Ml & M). apply bind_inv in M as (b' & Mb & M). injection M as <-. rewrite lets_out_let in *. rewrite neat_let in *. rewrite heads_let in *.
      destruct O as (O1 & O2), N as (N1 & N2), P as (P1 & P2).
      assert (En : Forall (fun p => enter_var x rep (fst p) = true) l) by (eapply Forall_impl; [|exact O1]; intros p (Nb & _); apply enters; intros Q; rewrite Q in Nb; contradiction).
      destruct (lets_all _ _ _ En _ _ Ml) as (-> & F). destruct (IHb (conj O2 (conj N2 P2)) b' Mb) as (Q1 & Q2 & Q3).
      assert (G : Forall (fun p => ~ B (fst p) /\ lets_out B (snd p)) l' /\ Forall neat (map snd l') /\ Forall plain_heads (map snd l')); [|tauto].
      clear -F O1 N1 P1 IHl. induction F as [|(s, v) (s', v') l l' (Q & Mv) F IH]; [repeat split; constructor|]. cbn [fst snd map] in *. subst s'. inversion O1 as [|? ? (O2 & O3) O4]; inversion N1; inversion P1; inversion IHl as [|? ? Iv Il]; subst. cbn [fst snd] in *.
      destruct (Iv ltac:(auto) v' Mv) as (K1 & K2 & K3). destruct IH as (J1 & J2 & J3); try assumption. repeat split; constructor; auto.
    - apply bind_inv in M as (a' & Ma & M). apply bind_inv in M as (b' & Mb & M). injection M as <-. destruct O as (O1 & O2), N as (N1 & N2), P as (P1 & P2). destruct (IHa (conj O1 (conj N1 P1)) _ Ma) as (A1 & A2 & A3).
      destruct (IHb (conj O2 (conj N2 P2)) _ Mb) as (B1 & B2 & B3). unfold make_bin. destruct (_ && _); cbn; auto.
    - apply bind_inv in M as (a' & Ma & M). injection M as <-. exact (IHa (conj O (conj N P)) _ Ma).
    - apply bind_inv in M as (q' & Mq & M). apply bind_inv in M as (t' & Mt & M). apply bind_inv in M as (f' & Mf & M). injection M as <-. destruct O as (O1 & O2 & O3), N as (N1 & N2 & N3), P as (P1 & P2 & P3).
      destruct (IHq (conj O1 (conj N1 P1)) _ Mq) as (A1 & A2 & A3), (IHt (conj O2 (conj N2 P2)) _ Mt) as (B1 & B2 & B3), (IHf (conj O3 (conj N3 P3)) _ Mf) as (C1 & C2 & C3). cbn. auto 10.
    - apply bind_inv in M as (args' & Ma & M). apply bind_inv in M as (args2 & Mf & M). injection M as <-. pose proof (args_all _ _ _ Ma) as F. pose proof (at_args fn args args' args2 P N F Mf) as Ag.
      rewrite lets_out_call in *. rewrite neat_call in *. rewrite heads_call in *. destruct N as (N1 & N2), P as (P1 & P2).
      assert (G : Forall (lets_out B) args' /\ Forall neat args' /\ Forall plain_heads args').
      { clear -F O N2 P2 IHargs. induction F as [|a a' l l' Mv F IH]; [repeat split; constructor|]. inversion O; inversion N2; inversion P2; inversion IHargs as [|? ? Iv Il]; subst.
        destruct (Iv ltac:(auto) a' Mv) as (K1 & K2 & K3). destruct IH as (J1 & J2 & J3); try assumption. repeat split; constructor; auto. }
      destruct G as (G1 & G2 & G3). destruct Ag as [->|(h & h' & at_ & s & d & s' & d' & -> & -> & -> & -> & Mh & Qa & ->)].
      + split; [exact G1|]. split; (split; [|assumption]).
        * destruct fn; auto. destruct F as [|a a' l l' Mh F]; [exact I|]. exact (neat_args_mut _ _ F 0 N1).
        * intros ->. specialize (P1 eq_refl). destruct F as [|a a' l l' Mh F]; [exact P1|]. destruct a as [|s f d| | | | | |]; try contradiction. destruct f; try contradiction.
          unfold var_mutate in Mh. cbn [mutate] in Mh. unfold visit_var in Mh. destruct (s =? x)%nat; injection Mh as <-; exact I.
      + apply Forall_inv_tail in O as _. destruct args' as [|h2 at2]; [discriminate Qa|]. injection Qa as ->. cbn [tl]. inversion F as [|? ? ? ? _ F']; subst.
        apply Forall_inv_tail in G1, G2, G3. split; [constructor; [exact I|apply Forall_pop; exact G1]|]. split; (split; [|constructor; [exact I|apply Forall_pop; assumption]]).
        * apply neat_args_pop. exact (neat_args_mut _ _ F' 0 N1).
        * intros _. exact I.
    - injection M as <-. cbn. auto.
  Qed.
  Lemma out_no_capture e : lets_out B e -> no_capture x (fun y => free y rep) e.
  Proof.
    induction e as [|s f d|l b IHl IHb|o a b IHa IHb|a IHa|q t f IHq IHt IHf|fn t args IHargs|c0] using expr_ind'; cbn [no_capture]; try (cbn [lets_out]; tauto).
    - intros O. apply lets_out_let in O as (O1 & O2). specialize (IHb O2). induction IHl as [|(s, v) l Iv _ IH]; cbn [no_capture_lets]; [exact IHb|]. inversion O1 as [|? ? (N & Ov) O3]; subst. cbn [fst snd] in *.
      split; [exact (Iv Ov)|]. right. split; [|exact (IH O3)]. intros _ K. apply free_rep in K. subst s. contradiction.
    - intros O. apply lets_out_call in O. induction IHargs as [|a l Ia _ IH]; cbn [no_capture_all]; [exact I|]. inversion O; subst. auto.
  Qed.
  Lemma neat_tidy e : neat e -> tidy x rep e.
  Proof.
    induction e as [|s f d|l b IHl IHb|o a b IHa IHb|a IHa|q t f IHq IHt IHf|fn t args IHargs|c0] using expr_ind'; try (cbn [neat tidy]; tauto).
    - intros N. apply neat_let in N as (N1 & N2). specialize (IHb N2). cbn [tidy]. induction IHl as [|(s, v) l Iv _ IH]; [exact IHb|]. inversion N1 as [|? ? N3 N4]; subst. cbn [snd] in *. split; [exact (Iv N3)|exact (IH N4)].
    - intros N. apply neat_call in N as (N1 & N2). cbn [tidy]. split.
      + destruct fn; auto. destruct args as [|h at_]; auto. clear -N1. revert N1. generalize 0. induction at_ as [|a l IH]; intros d N; cbn [tidy_args neat_args] in *; [exact I|]. destruct N as (N1 & N2).
        split; [exact N1|]. split; [|exact (IH _ N2)]. destruct a as [|y f k| | | | | |]; auto. destruct f; auto.
      + clear N1. induction IHargs as [|a l Ia _ IH]; [exact I|]. inversion N2 as [|? ? N3 N4]; subst. split; [exact (Ia N3)|exact (IH N4)].
  Qed.
  (** all other symbols stay *)
  Lemma any_of_in (P : expr -> Prop) l : any_of P l <-> exists a, In a l /\ P a.
  Proof. induction l as [|a l IH]; cbn [any_of]; [split; [intros []|intros (? & [] & _)]|]. rewrite IH. split; [intros [A|(b & I & A)]; [exists a|exists b]; cbn; auto|intros (b & [->|I] & A); [left|right; exists b]; auto]. Qed.
  Lemma any_pop y ro l : any_of (occurs y ro) l -> any_of (occurs y ro) (pop_undefined l).
  Proof.
    destruct (pop_app l) as (k & Q). rewrite Q at 1. rewrite !any_of_in. intros (a & Ia & O). apply in_app_or in Ia as [Ia|Ia]; [eauto|]. apply repeat_spec in Ia. subst a. destruct O.
  Qed.
  Lemma any_of_mut y ro l l' : Forall (fun e => forall e', fine e -> mut e = Val e' -> occurs y ro e -> occurs y ro e') l -> Forall fine l -> Forall2 (fun a a' => mut a = Val a') l l' ->
    any_of (occurs y ro) l -> any_of (occurs y ro) l'.
  Proof. intros G N F. induction F as [|a a' l l' M F IH]; cbn [any_of]; [auto|]. inversion G; inversion N; subst. intros [O|O]; [left; eauto|right; auto]. Qed.
  Lemma stays y ro e : y <> x -> forall e', fine e -> mut e = Val e' -> occurs y ro e -> occurs y ro e'.
  Proof.
    intros Ny. induction e as [|s f d|l b IHl IHb|o a b IHa IHb|a IHa|q t f IHq IHt IHf|fn t args IHargs|c0] using expr_ind'; intros e' Fe M Oc; unfold var_mutate in M; cbn [mutate] in M; fold (var_mutate x rep) in M.
    - injection M as <-. exact Oc.
    - unfold visit_var in M. destruct (Nat.eqb_spec s x) as [Q|]; [|injection M as <-; exact Oc]. cbn [occurs] in Oc. destruct Oc as (Oc & _). congruence.
    - apply bind_inv in M as ((l', al) & Ml & M). apply bind_inv in M as (b' & Mb & M). injection M as <-. destruct Fe as (O & N & P). rewrite lets_out_let in O. rewrite neat_let in N. rewrite heads_let in P.
      destruct O as (O1 & O2), N as (N1 & N2), P as (P1 & P2).
      assert (En : Forall (fun p => enter_var x rep (fst p) = true) l) by (eapply Forall_impl; [|exact O1]; intros p (Nb & _); apply enters; intros Q; rewrite Q in Nb; contradiction).
      destruct (lets_all _ _ _ En _ _ Ml) as (-> & F). cbn [occurs] in *. specialize (IHb b' (conj O2 (conj N2 P2)) Mb).
      clear -F O1 N1 P1 IHl IHb Oc. induction F as [|(s, v) (s', v') l l' (Q & Mv) F IH]; cbn [in_lets fst snd map] in *; [auto|]. subst s'.
      inversion O1 as [|? ? (O2 & O3) O4]; inversion N1 as [|? ? N3 N4]; inversion P1 as [|? ? P3 P4]; inversion IHl as [|? ? Iv Il]; subst. cbn [fst snd] in *. destruct Oc as [Oc|(Ns & Oc)]; [left; exact (Iv v' (conj O3 (conj N3 P3)) Mv Oc)|right; split; [exact Ns|apply IH; assumption]].
    - apply bind_inv in M as (a' & Ma & M). apply bind_inv in M as (b' & Mb & M). injection M as <-. destruct Fe as ((O1 & O2) & (N1 & N2) & (P1 & P2)).
      assert (G : occurs y ro a' \/ occurs y ro b') by (destruct Oc as [Oc|Oc]; [left; apply IHa|right; apply IHb]; auto; unfold fine; auto). unfold make_bin. destruct (_ && _); cbn [occurs]; tauto.
    - apply bind_inv in M as (a' & Ma & M). injection M as <-. exact (IHa a' Fe Ma Oc).
    - apply bind_inv in M as (q' & Mq & M). apply bind_inv in M as (t' & Mt & M). apply bind_inv in M as (f' & Mf & M). injection M as <-. destruct Fe as ((O1 & O2 & O3) & (N1 & N2 & N3) & (P1 & P2 & P3)). cbn [occurs] in *.
      destruct Oc as [Oc|[Oc|Oc]]; [left; apply IHq|right; left; apply IHt|right; right; apply IHf]; auto; unfold fine; auto.
    - apply bind_inv in M as (args' & Ma & M). apply bind_inv in M as (args2 & Mf & M). injection M as <-. pose proof (args_all _ _ _ Ma) as F. destruct Fe as (O & N & P). pose proof (at_args fn args args' args2 P N F Mf) as Ag.
      rewrite lets_out_call in O. pose proof (proj2 (proj1 (neat_call _ _ _) N)) as N2. pose proof (proj1 (heads_call _ _ _) P) as (P1 & P2).
      assert (Fi : Forall fine args) by (apply Forall_forall; intros a Ia; rewrite Forall_forall in O, N2, P2; unfold fine; auto).
      assert (Tail : forall l l', Forall2 (fun a a' => mut a = Val a') l l' -> (forall a, In a l -> In a args) -> any_of (occurs y ro) l -> any_of (occurs y ro) l').
      { intros l l' Fl Sub. apply any_of_mut; [| |exact Fl]; apply Forall_forall; intros a Ia; apply Sub in Ia; [rewrite Forall_forall in IHargs; exact (IHargs a Ia)|rewrite Forall_forall in Fi; exact (Fi a Ia)]. }
      assert (K : fn = i_buffer_at \/ fn <> i_buffer_at) by (destruct fn; auto; right; discriminate). destruct K as [->|K].
      + specialize (P1 eq_refl). destruct args as [|[|s f d| | | | | |] at_]; try contradiction. destruct f; try contradiction. inversion F as [|? h' ? at' Mh Fa]; subst. clear F.
        assert (Q : exists s' d', h' = EVar s' f_none d' /\ (s = y -> s' = y)).
        { unfold var_mutate in Mh. cbn [mutate] in Mh. unfold visit_var in Mh. destruct (Nat.eqb_spec s x); injection Mh as <-; eexists; eexists; (split; [reflexivity|]); congruence. }
        destruct Q as (s' & d' & -> & Qs). specialize (Tail at_ at' Fa (fun a I => or_intror I)). cbn [occurs] in Oc.
        destruct Ag as [->|(h & h' & at2 & s1 & d1 & s2 & d2 & _ & _ & Qh & _ & _ & Qa & ->)]; cbn [occurs].
        * destruct Oc as [(Q & R)|Oc]; [left; auto|right; auto].
        * injection Qa as <-. cbn [tl occurs]. destruct Oc as [(Q & R)|Oc]; [left; auto|right; apply any_pop; auto].
      + assert (Q : args2 = args') by (destruct fn; try (injection Mf as <-; reflexivity); contradiction). subst args2.
        specialize (Tail args args' F (fun a I => I)). destruct fn; try contradiction; cbn [occurs] in *; auto.
    - injection M as <-. exact Oc.
  Qed.
  Lemma free_stays y e e' : y <> x -> fine e -> mut e = Val e' -> free y e -> free y e'.
  Proof. intros Ny F M (ro & O). exists ro. exact (stays y ro e Ny e' F M O). Qed.
  Lemma any_pop_inv y ro l : any_of (occurs y ro) (pop_undefined l) -> any_of (occurs y ro) l.
  Proof. rewrite !any_of_in. intros (a & Ia & O). exists a. split; [apply in_pop; exact Ia|exact O]. Qed.
  Lemma came y ro e : forall e', fine e -> mut e = Val e' -> occurs y ro e' -> occurs y ro e \/ (y = z /\ occurs x ro e).
  Proof.
    induction e as [|s f d|l b IHl IHb|o a b IHa IHb|a IHa|q t f IHq IHt IHf|fn t args IHargs|c0] using expr_ind'; intros e' Fe M Oc; unfold var_mutate in M; cbn [mutate] in M; fold (var_mutate x rep) in M.
    - injection M as <-. left. exact Oc.
    - unfold visit_var in M. destruct (Nat.eqb_spec s x) as [Q|]; [|injection M as <-; left; exact Oc]. right.
      destruct f; cbn [replacement_symbol bind] in M; injection M as <-; cbn [occurs] in *; intuition congruence.
    - apply bind_inv in M as ((l', al) & Ml & M). apply bind_inv in M as (b' & Mb & M). injection M as <-. destruct Fe as (O & N & P). rewrite lets_out_let in O. rewrite neat_let in N. rewrite heads_let in P.
      destruct O as (O1 & O2), N as (N1 & N2), P as (P1 & P2).
      assert (En : Forall (fun p => enter_var x rep (fst p) = true) l) by (eapply Forall_impl; [|exact O1]; intros p (Nb & _); apply enters; intros Q; rewrite Q in Nb; contradiction).
      destruct (lets_all _ _ _ En _ _ Ml) as (-> & F). cbn [occurs] in *. specialize (IHb b' (conj O2 (conj N2 P2)) Mb).
      clear -F O1 N1 P1 IHl IHb Oc Bx. induction F as [|(s, v) (s', v') l l' (Q & Mv) F IH]; cbn [in_lets fst snd map] in *; [auto|]. subst s'.
      inversion O1 as [|? ? (O2 & O3) O4]; inversion N1 as [|? ? N3 N4]; inversion P1 as [|? ? P3 P4]; inversion IHl as [|? ? Iv Il]; subst. cbn [fst snd] in *.
      destruct Oc as [Oc|(Ns & Oc)].
      + destruct (Iv v' (conj O3 (conj N3 P3)) Mv Oc) as [K|(K1 & K2)]; auto.
      + destruct IH as [K|(K1 & K2)]; auto. right. split; [exact K1|]. right. split; [intros ->; contradiction|exact K2].
    - apply bind_inv in M as (a' & Ma & M). apply bind_inv in M as (b' & Mb & M). injection M as <-. destruct Fe as ((O1 & O2) & (N1 & N2) & (P1 & P2)).
      assert (G : occurs y ro a' \/ occurs y ro b') by (unfold make_bin in Oc; destruct (_ && _); cbn [occurs] in Oc; tauto). cbn [occurs].
      destruct G as [G|G]; [destruct (IHa a' (conj O1 (conj N1 P1)) Ma G)|destruct (IHb b' (conj O2 (conj N2 P2)) Mb G)]; tauto.
    - apply bind_inv in M as (a' & Ma & M). injection M as <-. exact (IHa a' Fe Ma Oc).
    - apply bind_inv in M as (q' & Mq & M). apply bind_inv in M as (t' & Mt & M). apply bind_inv in M as (f' & Mf & M). injection M as <-. destruct Fe as ((O1 & O2 & O3) & (N1 & N2 & N3) & (P1 & P2 & P3)). cbn [occurs] in *.
      destruct Oc as [Oc|[Oc|Oc]]; [destruct (IHq q' (conj O1 (conj N1 P1)) Mq Oc)|destruct (IHt t' (conj O2 (conj N2 P2)) Mt Oc)|destruct (IHf f' (conj O3 (conj N3 P3)) Mf Oc)]; tauto.
    - apply bind_inv in M as (args' & Ma & M). apply bind_inv in M as (args2 & Mf & M). injection M as <-. pose proof (args_all _ _ _ Ma) as F. destruct Fe as (O & N & P). pose proof (at_args fn args args' args2 P N F Mf) as Ag.
      rewrite lets_out_call in O. pose proof (proj2 (proj1 (neat_call _ _ _) N)) as N2. pose proof (proj1 (heads_call _ _ _) P) as (P1 & P2).
      assert (Fi : Forall fine args) by (apply Forall_forall; intros a Ia; rewrite Forall_forall in O, N2, P2; unfold fine; auto).
      assert (Tail : forall l l', Forall2 (fun a a' => mut a = Val a') l l' -> (forall a, In a l -> In a args) -> any_of (occurs y ro) l' -> any_of (occurs y ro) l \/ (y = z /\ any_of (occurs x ro) l)).
      { intros l l' Fl Sub. induction Fl as [|a a' l l' M _ IH]; cbn [any_of]; [auto|]. rewrite Forall_forall in IHargs, Fi. intros [K|K].
        - destruct (IHargs a (Sub a (or_introl eq_refl)) a' (Fi a (Sub a (or_introl eq_refl))) M K) as [J|(J1 & J2)]; auto.
        - destruct (IH (fun b I => Sub b (or_intror I)) K) as [J|(J1 & J2)]; auto. }
      assert (K : fn = i_buffer_at \/ fn <> i_buffer_at) by (destruct fn; auto; right; discriminate). destruct K as [->|K].
      + specialize (P1 eq_refl). destruct args as [|[|s f d| | | | | |] at_]; try contradiction. destruct f; try contradiction. inversion F as [|? h' ? at' Mh Fa]; subst. clear F.
        assert (Q : exists s' d', h' = EVar s' f_none d' /\ (s' = y -> s = y \/ (y = z /\ s = x))).
        { unfold var_mutate in Mh. cbn [mutate] in Mh. unfold visit_var in Mh. destruct (Nat.eqb_spec s x); injection Mh as <-; eexists; eexists; (split; [reflexivity|]); intuition congruence. }
        destruct Q as (s' & d' & -> & Qs). specialize (Tail at_ at' Fa (fun a I => or_intror I)).
        assert (Oc' : s' = y /\ ro = RAddress \/ any_of (occurs y ro) at').
        { destruct Ag as [->|(h & h' & at2 & s1 & d1 & s2 & d2 & _ & _ & Qh & _ & _ & Qa & ->)]; [exact Oc|]. injection Qa as <-. cbn [tl occurs] in Oc. destruct Oc as [Oc|Oc]; [left; exact Oc|right; apply any_pop_inv; exact Oc]. }
        cbn [occurs]. destruct Oc' as [(Q & R)|Oc']; [destruct (Qs Q) as [J|(J1 & J2)]; auto|destruct (Tail Oc') as [J|(J1 & J2)]; auto].
      + assert (Q : args2 = args') by (destruct fn; try (injection Mf as <-; reflexivity); contradiction). subst args2.
        specialize (Tail args args' F (fun a I => I)). destruct fn; try contradiction; cbn [occurs] in *; auto.
    - injection M as <-. left. exact Oc.
  Qed.
  Lemma came_free y e e' : fine e -> mut e = Val e' -> free y e' -> free y e \/ (y = z /\ free x e).
  Proof. intros F M (ro & O). destruct (came y ro e e' F M O) as [K|(K1 & K2)]; [left; exists ro; exact K|right; split; [exact K1|exists ro; exact K2]]. Qed.

  (** ** Statements *)
  Lemma map_res_all {A C} (f : A -> res C) l : forall l', map_res f l = Val l' -> Forall2 (fun a a' => f a = Val a') l l'.
  Proof.
    induction l as [|a l IH]; intros l' M; cbn [map_res] in M; [injection M as <-; constructor|]. apply bind_inv in M as (a' & Ma & M). apply bind_inv in M as (r & Mr & M). injection M as <-. constructor; auto.
  Qed.
  Lemma Forall2_keep {A C} (f : A -> C -> Prop) (P : A -> Prop) (Q : C -> Prop) l l' : (forall a a', P a -> f a a' -> Q a') -> Forall2 f l l' -> Forall P l -> Forall Q l'.
  Proof. intros G. induction 1; intros F; inversion F; subst; constructor; eauto. Qed.
  Lemma fine_interval i i' : every_interval fine i -> mut_interval x rep i = Val i' -> every_interval fine i' /\ forall y, y <> x -> free_interval y i -> free_interval y i'.
  Proof.
    intros (A & C) M. unfold mut_interval in M. apply bind_inv in M as (a & Ma & M). apply bind_inv in M as (b & Mb & M). injection M as <-. split.
    - split; [exact (fine_mut _ A _ Ma)|exact (fine_mut _ C _ Mb)].
    - intros y Ny [Fy|Fy]; [left; exact (free_stays _ _ _ Ny A Ma Fy)|right; exact (free_stays _ _ _ Ny C Mb Fy)].
  Qed.
  Lemma fine_dim d d' : every_dim fine d -> mut_dim x rep d = Val d' -> every_dim fine d' /\ forall y, y <> x -> free_dim y d -> free_dim y d'.
  Proof.
    intros (A & C & D) M. unfold mut_dim in M. apply bind_inv in M as (i & Mi & M). apply bind_inv in M as (s & Ms & M). apply bind_inv in M as (f & Mf & M). injection M as <-. destruct (fine_interval _ _ A Mi) as (I1 & I2). split.
    - split; [exact I1|]. split; [exact (fine_mut _ C _ Ms)|exact (fine_mut _ D _ Mf)].
    - intros y Ny [Fy|[Fy|Fy]]; [left; exact (I2 y Ny Fy)|right; left; exact (free_stays _ _ _ Ny C Ms Fy)|right; right; exact (free_stays _ _ _ Ny D Mf Fy)].
  Qed.
  Lemma min_of_free e s d y : is_min_of e s d = true -> free y e -> y = s.
  Proof. destruct e as [|u f k| | | | | |]; try discriminate. destruct f; try discriminate. cbn [is_min_of]. rewrite andb_true_iff. intros (Q & _) (ro & O). apply Nat.eqb_eq in Q. cbn in O. destruct O. congruence. Qed.
  Lemma max_of_free e s d y : is_max_of e s d = true -> free y e -> y = s.
  Proof. destruct e as [|u f k| | | | | |]; try discriminate. destruct f; try discriminate. cbn [is_max_of]. rewrite andb_true_iff. intros (Q & _) (ro & O). apply Nat.eqb_eq in Q. cbn in O. destruct O. congruence. Qed.
  Lemma fine_undef : fine EUndef. Proof. unfold fine. cbn. auto. Qed.
  Lemma fine_crop src d i i' : every_interval fine i -> crop_bounds x rep src d i = Val i' -> every_interval fine i' /\ forall y, y <> x -> free_interval y i -> free_interval y i' \/ src = y.
  Proof.
    intros A M. unfold crop_bounds in M. apply bind_inv in M as (r & Mr & M). injection M as <-. destruct (fine_interval _ _ A Mr) as ((I1 & I2) & I3). split.
    - split; cbn [fst snd]; [destruct (is_min_of _ _ _)|destruct (is_max_of _ _ _)]; auto using fine_undef.
    - intros y Ny Fy. specialize (I3 y Ny Fy). unfold free_interval in *. cbn [fst snd]. destruct I3 as [Fz|Fz].
      + destruct (is_min_of _ _ _) eqn:Q; [right; symmetry; exact (min_of_free _ _ _ _ Q Fz)|auto].
      + destruct (is_max_of _ _ _) eqn:Q; [right; symmetry; exact (max_of_free _ _ _ _ Q Fz)|auto].
  Qed.
  Lemma fine_crops src l : Forall (every_interval fine) l -> forall d l', crop_all x rep src d l = Val l' ->
    Forall (every_interval fine) l' /\ forall y, y <> x -> Exists (free_interval y) l -> Exists (free_interval y) l' \/ src = y.
  Proof.
    induction 1 as [|i l Hi _ IH]; intros d l' M; cbn [crop_all] in M; [injection M as <-; split; [constructor|intros y _ E; inversion E]|].
    apply bind_inv in M as (i' & Mi & M). apply bind_inv in M as (r & Mr & M). injection M as <-. destruct (fine_crop _ _ _ _ Hi Mi) as (A1 & A2). destruct (IH _ _ Mr) as (C1 & C2). split; [constructor; auto|].
    intros y Ny E. inversion E as [? ? E1|? ? E1]; subst; [destruct (A2 y Ny E1)|destruct (C2 y Ny E1)]; auto.
  Qed.
  Lemma visit_sym y y' : visit_symbol x rep y = Val y' -> (y = x -> y' = z) /\ (y <> x -> y' = y).
  Proof. unfold visit_symbol. destruct (Nat.eqb_spec y x); cbn [replacement_symbol]; intros [= <-]; split; congruence. Qed.
  Lemma syms_stay l l' : map_res (visit_symbol x rep) l = Val l' -> forall y, y <> x -> In y l -> In y l'.
  Proof.
    intros M y Ny I. apply map_res_all in M. induction M as [|a a' l l' Ma _ IH]; [exact I|]. destruct I as [->|I]; [left; apply (visit_sym _ _ Ma); exact Ny|right; auto].
  Qed.
  Lemma fines l l' : Forall fine l -> map_res mut l = Val l' -> Forall fine l' /\ forall y, y <> x -> any_of (free y) l -> any_of (free y) l'.
  Proof.
    intros F M. apply map_res_all in M. induction M as [|a a' l l' Ma _ IH]; [split; [constructor|auto]|]. inversion F; subst. destruct (IH ltac:(assumption)) as (I1 & I2). split; [constructor; [eapply fine_mut; eauto|exact I1]|].
    intros y Ny [O|O]; [left; eapply free_stays; eauto|right; auto].
  Qed.
  Lemma fine_dims l l' : Forall (every_dim fine) l -> map_res (mut_dim x rep) l = Val l' -> Forall (every_dim fine) l' /\ forall y, y <> x -> Exists (free_dim y) l -> Exists (free_dim y) l'.
  Proof.
    intros F M. apply map_res_all in M. induction M as [|a a' l l' Ma _ IH]; [split; [constructor|auto]|]. inversion F as [|? ? F1 F2]; subst. destruct (IH F2) as (I1 & I2). destruct (fine_dim _ _ F1 Ma) as (J1 & J2). split; [constructor; auto|].
    intros y Ny E. inversion E; subst; [left; auto|right; auto].
  Qed.
  Lemma fresh_go P l : (fix go (l : list stmt) := match l with [] => True | y :: l' => fresh_decls B P y /\ go l' end) l <-> Forall (fresh_decls B P) l.
  Proof. induction l as [|a l IH]; [split; constructor|]. rewrite IH. split; [intros (A & C); constructor; auto|intros K; inversion K; auto]. Qed.
  Lemma every_go_iff (P : expr -> Prop) l : (fix go (l : list stmt) := match l with [] => True | y :: l' => every_expr P y /\ go l' end) l <-> Forall (every_expr P) l.
  Proof. induction l as [|a l IH]; [split; constructor|]. rewrite IH. split; [intros (A & C); constructor; auto|intros K; inversion K; auto]. Qed.
  Lemma free_go y l : (fix go (l : list stmt) := match l with [] => False | a :: l' => free_stmt y a \/ go l' end) l <-> Exists (free_stmt y) l.
  Proof. induction l as [|a l IH]; [split; [intros []|intros E; inversion E]|]. rewrite IH. split; [intros [A|A]; [left|right]; exact A|intros E; inversion E; auto]. Qed.

  (** and no others come *)
  Lemma from_expr y e e' : mut e = Val e' -> free y e' -> free y e \/ y = z.
  Proof. intros M K. destruct (gone_all x rep e e' y M K) as [J|(J & _)]; [right; apply free_rep; exact J|left; exact J]. Qed.
  Lemma from_interval y i i' : mut_interval x rep i = Val i' -> free_interval y i' -> free_interval y i \/ y = z.
  Proof.
    intros M. unfold mut_interval in M. apply bind_inv in M as (a & Ma & M). apply bind_inv in M as (b & Mb & M). injection M as <-. unfold free_interval. cbn [fst snd].
    intros [K|K]; [destruct (from_expr y _ _ Ma K)|destruct (from_expr y _ _ Mb K)]; auto.
  Qed.
  Lemma from_crop y src d i i' : crop_bounds x rep src d i = Val i' -> free_interval y i' -> free_interval y i \/ y = z.
  Proof.
    intros M. unfold crop_bounds in M. apply bind_inv in M as (r & Mr & M). injection M as <-. intros K. apply (from_interval y i r Mr). unfold free_interval in *. cbn [fst snd] in K.
    destruct K as [K|K]; [left; destruct (is_min_of _ _ _)|right; destruct (is_max_of _ _ _)]; auto; destruct K as (ro & []).
  Qed.
  Lemma from_crops y src l : forall d l', crop_all x rep src d l = Val l' -> Exists (free_interval y) l' -> Exists (free_interval y) l \/ y = z.
  Proof.
    induction l as [|i l IH]; intros d l' M K; cbn [crop_all] in M; [injection M as <-; inversion K|]. apply bind_inv in M as (i' & Mi & M). apply bind_inv in M as (r & Mr & M). injection M as <-.
    inversion K as [? ? K1|? ? K1]; subst; [destruct (from_crop _ _ _ _ _ Mi K1)|destruct (IH _ _ Mr K1)]; auto.
  Qed.
  Lemma from_dim y d d' : mut_dim x rep d = Val d' -> free_dim y d' -> free_dim y d \/ y = z.
  Proof.
    intros M. unfold mut_dim in M. apply bind_inv in M as (i & Mi & M). apply bind_inv in M as (s & Ms & M). apply bind_inv in M as (f & Mf & M). injection M as <-. unfold free_dim. cbn [de_bounds de_stride de_fold].
    intros [K|[K|K]]; [destruct (from_interval _ _ _ Mi K)|destruct (from_expr _ _ _ Ms K)|destruct (from_expr _ _ _ Mf K)]; auto.
  Qed.
  Lemma from_dims y l l' : map_res (mut_dim x rep) l = Val l' -> Exists (free_dim y) l' -> Exists (free_dim y) l \/ y = z.
  Proof. intros M K. apply map_res_all in M. induction M as [|a a' l l' Ma _ IH]; [inversion K|]. inversion K as [? ? K1|? ? K1]; subst; [destruct (from_dim _ _ _ Ma K1)|destruct (IH K1)]; auto. Qed.
  Lemma from_exprs y l l' : map_res mut l = Val l' -> any_of (free y) l' -> any_of (free y) l \/ y = z.
  Proof. intros M K. apply map_res_all in M. induction M as [|a a' l l' Ma _ IH]; [inversion K|]. destruct K as [K1|K1]; [destruct (from_expr _ _ _ Ma K1)|destruct (IH K1)]; cbn [any_of]; auto. Qed.
  Lemma from_sym y v v' : visit_symbol x rep v = Val v' -> v' = y -> v = y \/ y = z.
  Proof. intros M. apply visit_sym in M as (V1 & V2). destruct (Nat.eq_dec v x) as [Q|Q]; [rewrite (V1 Q); auto|rewrite (V2 Q); auto]. Qed.
  Lemma from_syms y l l' : map_res (visit_symbol x rep) l = Val l' -> In y l' -> In y l \/ y = z.
  Proof. intros M K. apply map_res_all in M. induction M as [|a a' l l' Ma _ IH]; [inversion K|]. destruct K as [K1|K1]; [destruct (from_sym _ _ _ Ma K1)|destruct (IH K1)]; cbn [In]; auto. Qed.
  Lemma from_stmt y s : plain_stmt s -> forall s', sub_stmt s = Val s' -> free_stmt y s' -> free_stmt y s \/ y = z.
  Proof.
    induction s as [|t ins outs sc|src sx dst dx pad|l s c IHs|l IHl|s w i st b IHs|s w e ds b IHs|s p e ds b IHs|s v b IHs|s v b IHs
      |s v l b IHs|s v d i b IHs|s v l b IHs|s v d i b IHs|s v p b IHs|s s1 s2 IHs1 IHs2|c] using stmt_ind'; cbn [plain_stmt]; intros Pl s' M K; try contradiction.
    all: try rewrite sub_block in M; cbn [StmtSubst_Model.sub_stmt free_stmt] in *.
    all: try (assert (IH : forall b', (if enter_var x rep s then sub_stmt b else Val b) = Val b' -> free_stmt y b' -> free_stmt y b \/ y = z)
       by (intros b' Mb; destruct (enter_var x rep s); [exact (IHs Pl b' Mb)|injection Mb as <-; auto]); clear IHs).
    - injection M as <-. destruct K.
    - apply bind_inv in M as (i' & M1 & M). apply bind_inv in M as (o' & M2 & M). apply bind_inv in M as (sc' & M3 & M). injection M as <-. cbn [free_stmt] in K.
      destruct K as [K|[K|K]]; [destruct (from_syms _ _ _ M1 K)|destruct (from_syms _ _ _ M2 K)|destruct (from_exprs _ _ _ M3 K)]; auto.
    - destruct Pl as (-> & Pl). apply bind_inv in M as ((l', al) & M1 & M). apply bind_inv in M as (b' & M2 & M). injection M as <-. cbn [free_stmt] in K.
      revert l' al M1 M2 K. induction l as [|(t, v) l IH]; intros l' al M1 M2 K; cbn [mutate_lets in_lets] in *.
      + injection M1 as <- <-. exact (IHs Pl b' M2 K).
      + apply bind_inv in M1 as (v' & Mv & M1). destruct (enter_var x rep t).
        * apply bind_inv in M1 as ((l1, al1) & M3 & M1). injection M1 as <- <-. cbn [in_lets] in K. destruct K as [K|(Nt & K)]; [destruct (from_expr _ _ _ Mv K); auto|]. destruct (IH l1 al1 M3 M2 K); auto.
        * injection M1 as <- <-. injection M2 as <-. cbn [in_lets] in K. destruct K as [K|(Nt & K)]; [destruct (from_expr _ _ _ Mv K); auto|auto].
    - destruct Pl as (L & Bl & Pl). apply plain_go in Pl. apply bind_inv in M as (l' & Ml & M). injection M as <-.
      assert (G : (Exists (free_stmt y) l' -> Exists (free_stmt y) l \/ y = z) /\ length l' = length l /\ forallb in_block l' = forallb in_block l).
      { clear L Bl K. revert l' Ml. induction IHl as [|a l Ha _ IH]; intros l' Ml; cbn [sub_list] in Ml; [injection Ml as <-; repeat split; auto|].
        apply bind_inv in Ml as (a' & Ma & Ml). apply bind_inv in Ml as (r & Mr & Ml). injection Ml as <-. inversion Pl as [|? ? Pl1 Pl2]; subst.
        destruct (sub_plain x rep a Pl1 a' Ma) as (_ & A2). destruct (IH Pl2 r Mr) as (J1 & J2 & J3). split; [|split; [cbn [length]; congruence|cbn [forallb]; congruence]].
        intros E. inversion E as [? ? E1|? ? E1]; subst; [destruct (Ha Pl1 a' Ma E1)|destruct (J1 E1)]; auto. }
      destruct G as (G & G3 & G3'). rewrite block_make_flat in K by congruence. apply free_go in K. destruct (G K) as [J|J]; [left; apply free_go; exact J|auto].
    - apply bind_inv in M as (i' & M1 & M). apply bind_inv in M as (st' & M2 & M). apply bind_inv in M as (b' & M3 & M). injection M as <-. cbn [free_stmt] in K.
      destruct K as [K|[K|[K|(K & K')]]]; [destruct (from_interval _ _ _ M1 K)|destruct (from_expr _ _ _ M2 K)| |destruct (IH b' M3 K')]; auto 12.
    - apply bind_inv in M as (e' & M1 & M). apply bind_inv in M as (ds' & M2 & M). apply bind_inv in M as (b' & M3 & M). injection M as <-. cbn [free_stmt] in K.
      destruct K as [K|[K|(K & K')]]; [destruct (from_expr _ _ _ M1 K)|destruct (from_dims _ _ _ M2 K)|destruct (IH b' M3 K')]; auto 12.
    - apply bind_inv in M as (p' & M0 & M). apply bind_inv in M as (e' & M1 & M). apply bind_inv in M as (ds' & M2 & M). apply bind_inv in M as (b' & M3 & M). injection M as <-. cbn [free_stmt] in K.
      destruct K as [K|[K|[K|(K & K')]]]; [destruct (from_expr _ _ _ M0 K)|destruct (from_expr _ _ _ M1 K)|destruct (from_dims _ _ _ M2 K)|destruct (IH b' M3 K')]; auto 12.
    - apply bind_inv in M as (b' & M3 & M). injection M as <-. cbn [free_stmt] in K. destruct K as (K & K'). destruct (IH b' M3 K'); auto.
    - apply bind_inv in M as (v' & M1 & M). apply bind_inv in M as (b' & M3 & M). injection M as <-. cbn [free_stmt] in K. destruct K as [K|(K & K')]; [destruct (from_sym _ _ _ M1 K)|destruct (IH b' M3 K')]; auto 12.
    - apply bind_inv in M as (v' & M1 & M). apply bind_inv in M as (l' & M2 & M). apply bind_inv in M as (b' & M3 & M). injection M as <-. cbn [free_stmt] in K.
      destruct K as [K|[K|(K & K')]]; [destruct (from_crops _ _ _ _ _ M2 K)|destruct (from_sym _ _ _ M1 K)|destruct (IH b' M3 K')]; auto 12.
    - apply bind_inv in M as (v' & M1 & M). apply bind_inv in M as (l' & M2 & M). apply bind_inv in M as (b' & M3 & M). injection M as <-. cbn [free_stmt] in K.
      destruct K as [K|[K|(K & K')]]; [destruct (from_crop _ _ _ _ _ M2 K)|destruct (from_sym _ _ _ M1 K)|destruct (IH b' M3 K')]; auto 12.
    - apply bind_inv in M as (v' & M1 & M). apply bind_inv in M as (l' & M2 & M). apply bind_inv in M as (b' & M3 & M). injection M as <-. cbn [free_stmt] in K.
      destruct K as [K|[K|(K & K')]]; [destruct (from_exprs _ _ _ M2 K)|destruct (from_sym _ _ _ M1 K)|destruct (IH b' M3 K')]; auto 12.
    - apply bind_inv in M as (v' & M1 & M). apply bind_inv in M as (l' & M2 & M). apply bind_inv in M as (b' & M3 & M). injection M as <-. cbn [free_stmt] in K.
      destruct K as [K|[K|(K & K')]]; [destruct (from_expr _ _ _ M2 K)|destruct (from_sym _ _ _ M1 K)|destruct (IH b' M3 K')]; auto 12.
    - apply bind_inv in M as (v' & M1 & M). apply bind_inv in M as (b' & M3 & M). injection M as <-. cbn [free_stmt] in K. destruct K as [K|(K & K')]; [destruct (from_sym _ _ _ M1 K)|destruct (IH b' M3 K')]; auto 12.
    - apply bind_inv in M as (c' & Mc & M). injection M as <-. exact (from_expr _ _ _ Mc K).
  Qed.
  (** the conditions of C54 *)
  Lemma capture_stmt s : plain_stmt s -> forall P : nat -> Prop, P x -> P z -> fresh_decls B P s -> no_capture_stmt x rep s.
  Proof.
    induction s as [|t ins outs sc|src sx dst dx pad|l s c IHs|l IHl|s w i st b IHs|s w e ds b IHs|s p e ds b IHs|s v b IHs|s v b IHs
      |s v l b IHs|s v d i b IHs|s v l b IHs|s v d i b IHs|s v p b IHs|s s1 s2 IHs1 IHs2|c] using stmt_ind'; cbn [plain_stmt]; intros Pl P Px Pz Fr; try contradiction.
    all: cbn [no_capture_stmt fresh_decls] in *; auto.
    all: try (assert (Ns : ~ free s rep) by (intros K; apply free_rep in K; subst s; tauto); assert (Nx : s <> x) by (intros ->; tauto);
       assert (IH : no_capture_stmt x rep b) by (apply (IHs Pl (also P s)); [right; exact Px|right; exact Pz|tauto]); clear IHs; tauto).
    - destruct Pl as (-> & Pl). revert P Px Pz Fr. induction l as [|(t, v) l IH]; intros P Px Pz Fr; cbn [fresh_lets no_capture_stmt_lets] in *; [exact (IHs Pl P Px Pz Fr)|].
      destruct Fr as (Nt & Fv & Fr). split; [|right; split; [intros _ K; apply free_rep in K; subst t; contradiction|exact (IH (also P t) (or_intror Px) (or_intror Pz) Fr)]].
      destruct v as [|y f d| | | | | |]; auto. destruct f; auto. intros ->. tauto.
    - destruct Pl as (_ & _ & Pl). apply plain_go in Pl. apply fresh_go in Fr. induction IHl as [|a l Ha _ IH]; [exact I|]. inversion Pl as [|? ? Pl1 Pl2]; inversion Fr as [|? ? Fr1 Fr2]; subst. split; [exact (Ha Pl1 P Px Pz Fr1)|exact (IH Pl2 Fr2)].
    - assert (Ns : ~ free s rep) by (intros K; apply free_rep in K; subst s; tauto). assert (IH : no_capture_stmt x rep b) by (apply (IHs Pl (also P s)); [right; exact Px|right; exact Pz|tauto]).
      split; [apply (proj1 (proj2 Fr)); exact Bx|]. right. auto.
  Qed.
  Lemma every_substitutable s (P : nat -> Prop) : plain_stmt s -> P x -> P z -> fresh_decls B P s -> every_expr fine s ->
    every_expr (no_capture x (fun y => free y rep)) s /\ no_capture_stmt x rep s /\ every_expr (tidy x rep) s.
  Proof.
    intros Pl Px Pz Fr Ev. split; [|split; [exact (capture_stmt s Pl P Px Pz Fr)|]]; (eapply every_impl; [|exact Ev]); intros e (E1 & E2 & E3); [apply out_no_capture; exact E1|apply neat_tidy; exact E2].
  Qed.
  Definition kept (P : nat -> Prop) (s s' : stmt) : Prop :=
    fresh_decls B P s' /\ every_expr fine s' /\ stmt_size s' = stmt_size s /\ forall y, y <> x -> free_stmt y s -> free_stmt y s'.
  Lemma kept_stmt s : plain_stmt s -> forall P : nat -> Prop, P x -> P z -> fresh_decls B P s -> every_expr fine s -> ~ free_stmt z s -> forall s', sub_stmt s = Val s' -> kept P s s'.
  Proof.
    induction s as [|t ins outs sc|src sx dst dx pad|l s c IHs|l IHl|s w y st b IHs|s w e ds b IHs|s p e ds b IHs|s v b IHs|s v b IHs
      |s v l b IHs|s v d y b IHs|s v l b IHs|s v d y b IHs|s v p b IHs|s s1 s2 IHs1 IHs2|c] using stmt_ind'; cbn [plain_stmt]; intros Pl P Px Pz Fr Ev Nz s' M; try contradiction.
    all: try rewrite sub_block in M; cbn [StmtSubst_Model.sub_stmt fresh_decls every_expr free_stmt] in *.
    all: unfold kept.
    all: try (assert (En : enter_var x rep s = true) by (apply enters; intros ->; tauto); rewrite En in M;
       assert (Nzs : s <> z) by (intros ->; tauto); assert (Nzb : ~ free_stmt z b) by tauto;
       assert (IH : forall b', sub_stmt b = Val b' -> kept (also P s) b b') by (apply IHs; [exact Pl|right; exact Px|right; exact Pz|tauto|tauto|exact Nzb]); clear IHs).
    - injection M as <-. cbn. auto.
    - apply bind_inv in M as (i' & M1 & M). apply bind_inv in M as (o' & M2 & M). apply bind_inv in M as (sc' & M3 & M). injection M as <-. destruct (fines _ _ Ev M3) as (F1 & F2). cbn [fresh_decls every_expr free_stmt stmt_size]. split; [exact I|]. split; [exact F1|]. split; [reflexivity|].
      intros y Ny [K|[K|K]]; [left; eapply syms_stay; eauto|right; left; eapply syms_stay; eauto|right; right; auto].
    - destruct Pl as (-> & Pl), Ev as (Ev1 & Ev2). apply bind_inv in M as ((l', al) & M1 & M). apply bind_inv in M as (b' & M2 & M). injection M as <-. cbn [fresh_decls every_expr free_stmt stmt_size].
      assert (G : al = true /\ fresh_lets B P l' (fun P' => fresh_decls B P' b') /\ (Forall fine (map snd l') /\ every_expr fine b') /\ S (stmt_size b') = S (stmt_size s) /\
        forall y, y <> x -> in_lets (free y) y l (free_stmt y s) -> in_lets (free y) y l' (free_stmt y b')); [|tauto].
      revert P Px Pz Fr l' al Nz M1 M2. induction l as [|(t, v) l IH]; intros P Px Pz Fr l' al Nz M1 M2; cbn [fresh_lets mutate_lets in_lets map snd] in *.
      + injection M1 as <- <-. destruct (IHs Pl P Px Pz Fr Ev2 Nz b' M2) as (K1 & K2 & K3 & K4). cbn [fresh_lets in_lets map]. repeat split; auto.
      + destruct Fr as (Nt & Fv & Fr). apply bind_inv in M1 as (v' & Mv & M1). assert (En : enter_var x rep t = true) by (apply enters; intros ->; contradiction). rewrite En in M1.
        apply bind_inv in M1 as ((l1, al1) & M3 & M1). injection M1 as <- <-. inversion Ev1 as [|? ? E1 E2]; subst. assert (Ntz : t <> z) by (intros ->; contradiction).
        destruct (IH E2 (also P t) (or_intror Px) (or_intror Pz) Fr l1 al1 ltac:(tauto) M3 M2) as (K0 & K1 & (K2 & K2') & K3 & K4). split; [exact K0|]. cbn [fresh_lets in_lets map snd].
        split; [|split; [|split]].
        * split; [exact Nt|]. split; [|exact K1]. destruct (mut_bare _ _ Mv) as (Qb & _). destruct v' as [|y' f' d'| | | | | |]; auto. destruct f'; auto. destruct v as [|y0 f0 d0| | | | | |]; try discriminate Qb. destruct f0; try discriminate Qb.
          unfold var_mutate in Mv. cbn [mutate] in Mv. unfold visit_var in Mv. destruct (Nat.eqb_spec y0 x) as [->|]; [tauto|]. injection Mv as <- <-. exact Fv.
        * split; [constructor; [exact (fine_mut _ E1 _ Mv)|exact K2]|exact K2'].
        * exact K3.
        * intros y Ny [K|(K & K')]; [left; exact (free_stays _ _ _ Ny E1 Mv K)|right; auto].
    - destruct Pl as (L & Bl & Pl). apply plain_go in Pl. apply fresh_go in Fr. apply every_go_iff in Ev. apply bind_inv in M as (l' & Ml & M). injection M as <-.
      assert (Nz' : ~ Exists (free_stmt z) l) by (rewrite <- free_go; exact Nz). clear Nz.
      assert (G : Forall (fresh_decls B P) l' /\ Forall (every_expr fine) l' /\ (length l' = length l /\ forallb in_block l' = forallb in_block l) /\
        stmt_size (SBlock l') = stmt_size (SBlock l) /\ forall y, y <> x -> Exists (free_stmt y) l -> Exists (free_stmt y) l').
      { clear L Bl. revert l' Ml. induction IHl as [|a l Ha _ IH]; intros l' Ml; cbn [sub_list] in Ml; [injection Ml as <-; repeat split; auto; constructor|].
        apply bind_inv in Ml as (a' & Ma & Ml). apply bind_inv in Ml as (r & Mr & Ml). injection Ml as <-. inversion Pl as [|? ? Pl1 Pl2]; inversion Fr as [|? ? Fr1 Fr2]; inversion Ev as [|? ? Ev1 Ev2]; subst.
        destruct (sub_plain x rep a Pl1 a' Ma) as (_ & A2). destruct (Ha Pl1 P Px Pz Fr1 Ev1 ltac:(auto) a' Ma) as (K1 & K2 & K3 & K4).
        destruct (IH Pl2 Fr2 Ev2 ltac:(auto) r Mr) as (J1 & J2 & (J3 & J3') & J4 & J5).
        split; [constructor; auto|]. split; [constructor; auto|]. split; [split; [cbn [length]; congruence|cbn [forallb]; congruence]|]. split; [cbn [stmt_size] in *; lia|].
        intros y Ny E. inversion E; subst; [left; auto|right; auto]. }
      destruct G as (G1 & G2 & (G3 & G3') & G4 & G5). rewrite block_make_flat by congruence. split; [apply fresh_go; exact G1|]. split; [apply every_go_iff; exact G2|]. split; [exact G4|].
      intros y Ny Fy. apply free_go in Fy. apply free_go. auto.
    - destruct Ev as (E1 & E2 & E3 & E4), Fr as (Fr1 & Fr2 & Fr3). apply bind_inv in M as (i' & M1 & M). apply bind_inv in M as (st' & M2 & M). apply bind_inv in M as (b' & M3 & M). injection M as <-. destruct (IH b' M3) as (K1 & K2 & K3 & K4).
      destruct (fine_interval _ _ E2 M1) as (I1 & I2). pose proof (fine_mut _ E3 _ M2) as I3. cbn [fresh_decls every_expr free_stmt stmt_size]. split; [auto|]. split; [auto|]. split; [congruence|].
      intros u Nu [K|[K|[K|(K & K')]]]; [left; auto|right; left; exact (free_stays _ _ _ Nu E3 M2 K)|right; right; left; exact K|right; right; right; auto].
    - destruct Ev as (E1 & E2 & E3), Fr as (Fr1 & Fr2 & Fr3). apply bind_inv in M as (e' & M1 & M). apply bind_inv in M as (ds' & M2 & M). apply bind_inv in M as (b' & M3 & M). injection M as <-. destruct (IH b' M3) as (K1 & K2 & K3 & K4).
      destruct (fine_dims _ _ E2 M2) as (I1 & I2). pose proof (fine_mut _ E1 _ M1) as I3. cbn [fresh_decls every_expr free_stmt stmt_size]. split; [auto|]. split; [auto|]. split; [congruence|].
      intros u Nu [K|[K|(K & K')]]; [left; exact (free_stays _ _ _ Nu E1 M1 K)|right; left; auto|right; right; auto].
    - destruct Ev as (E0 & E1 & E2 & E3), Fr as (Fr1 & Fr2 & Fr3). apply bind_inv in M as (p' & M0 & M). apply bind_inv in M as (e' & M1 & M). apply bind_inv in M as (ds' & M2 & M). apply bind_inv in M as (b' & M3 & M). injection M as <-. destruct (IH b' M3) as (K1 & K2 & K3 & K4).
      destruct (fine_dims _ _ E2 M2) as (I1 & I2). pose proof (fine_mut _ E1 _ M1) as I3. pose proof (fine_mut _ E0 _ M0) as I4. cbn [fresh_decls every_expr free_stmt stmt_size]. split; [auto|]. split; [auto|]. split; [congruence|].
      intros u Nu [K|[K|[K|(K & K')]]]; [left; exact (free_stays _ _ _ Nu E0 M0 K)|right; left; exact (free_stays _ _ _ Nu E1 M1 K)|right; right; left; auto|right; right; right; auto].
    - destruct Fr as (Fr1 & Fr2 & Fr3). apply bind_inv in M as (b' & M3 & M). injection M as <-. destruct (IH b' M3) as (K1 & K2 & K3 & K4). cbn [fresh_decls every_expr free_stmt stmt_size]. split; [auto|]. split; [auto|]. split; [congruence|].
      intros u Nu (K & K'). auto.
    - destruct Fr as (Fr1 & Fr2 & Fr3). apply bind_inv in M as (v' & M1 & M). apply bind_inv in M as (b' & M3 & M). injection M as <-. destruct (IH b' M3) as (K1 & K2 & K3 & K4). apply visit_sym in M1 as (V1 & V2).
      assert (Q : v' = v) by (apply V2; intros ->; contradiction). rewrite Q in *. cbn [fresh_decls every_expr free_stmt stmt_size]. split; [auto|]. split; [auto|]. split; [congruence|].
      intros u Nu [K|(K & K')]; auto.
    - destruct Ev as (E1 & E2), Fr as (Fr1 & Fr2 & Fr3 & Fr4). apply bind_inv in M as (v' & M1 & M). apply bind_inv in M as (l' & M2 & M). apply bind_inv in M as (b' & M3 & M). injection M as <-. destruct (IH b' M3) as (K1 & K2 & K3 & K4). apply visit_sym in M1 as (V1 & V2).
      destruct (fine_crops _ _ E1 _ _ M2) as (I1 & I2). cbn [fresh_decls every_expr free_stmt stmt_size]. split; [|split; [auto|split; [congruence|]]].
      + split; [exact Fr1|]. split; [exact Fr2|]. split; [|exact K1]. intros Bv. apply crop_all_tl in M2. destruct (Nat.eq_dec v x) as [Qv|Nv].
        * rewrite (V1 Qv) in *. subst v. specialize (Fr3 Bx).
          assert (Nl : Forall (fun i => ~ free z (fst i) /\ ~ free z (snd i)) (tl l)).
          { apply Forall_forall. intros i Ii. assert (Il : In i l) by (destruct l; [destruct Ii|right; exact Ii]). split; intros K; apply Nz; left; apply Exists_exists; exists i; (split; [exact Il|]); [left|right]; exact K. }
          (* the symbol is new: it comes from [x], which the bounds do not use *)
          assert (El : Forall (every_interval fine) (tl l)) by (destruct l; [constructor|inversion E1; assumption]).
          clear -M2 Nl Fr3 Nxz Bx Bz El. revert M2. generalize (tl l) (tl l') 1%nat Nl Fr3 El. clear l l' Nl Fr3 El. intros l l' d Nl Fr3 El. revert d l' Nl Fr3 El.
          induction l as [|i l IHl0]; intros d l' Nl Fr3 El M2; cbn [crop_all] in M2; [injection M2 as <-; constructor|]. apply bind_inv in M2 as (i' & Mi & M2). apply bind_inv in M2 as (r & Mr & M2). injection M2 as <-.
          inversion Nl as [|? ? (N1 & N2) N3]; inversion Fr3 as [|? ? (F1 & F2) F3]; inversion El as [|? ? El1 El2]; subst. constructor; [|exact (IHl0 _ _ N3 F3 El2 Mr)].
          unfold crop_bounds in Mi. apply bind_inv in Mi as (j & Mj & Mi). injection Mi as <-. unfold mut_interval in Mj. apply bind_inv in Mj as (a & Ma & Mj). apply bind_inv in Mj as (b & Mb & Mj). injection Mj as <-. cbn [fst snd].
          assert (G : forall e e', mut e = Val e' -> fine e -> ~ free x e -> ~ free z e -> ~ free z e').
          { intros e e' Me Fe Nx Nz Fz. destruct (came_free z e e' Fe Me Fz) as [K|(_ & K)]; contradiction. }
          split; [destruct (is_min_of _ _ _); [intros (ro & [])|exact (G _ _ Ma (proj1 El1) F1 N1)]|destruct (is_max_of _ _ _); [intros (ro & [])|exact (G _ _ Mb (proj2 El1) F2 N2)]].
        * rewrite (V2 Nv) in *. assert (Nvz : v <> z) by (intros ->; tauto). apply (crops_free x rep v v (tl l)) with (d := 1%nat); auto. intros K. apply free_rep in K. contradiction.
      + intros u Nu [K|[K|(K & K')]]; [destruct (I2 u Nu K); auto|right; left; rewrite <- K; symmetry; rewrite V2; congruence|right; right; auto].
    - destruct Ev as (E1 & E2), Fr as (Fr1 & Fr2 & Fr3). apply bind_inv in M as (v' & M1 & M). apply bind_inv in M as (l' & M2 & M). apply bind_inv in M as (b' & M3 & M). injection M as <-. destruct (IH b' M3) as (K1 & K2 & K3 & K4). apply visit_sym in M1 as (V1 & V2).
      destruct (fine_crop _ _ _ _ E1 M2) as (I1 & I2). cbn [fresh_decls every_expr free_stmt stmt_size]. split; [auto|]. split; [auto|]. split; [congruence|].
      intros u Nu [K|[K|(K & K')]]; [destruct (I2 u Nu K); auto|right; left; rewrite <- K; symmetry; rewrite V2; congruence|right; right; auto].
    - destruct Ev as (E1 & E2), Fr as (Fr1 & Fr2 & Fr3). apply bind_inv in M as (v' & M1 & M). apply bind_inv in M as (l' & M2 & M). apply bind_inv in M as (b' & M3 & M). injection M as <-. destruct (IH b' M3) as (K1 & K2 & K3 & K4). apply visit_sym in M1 as (V1 & V2).
      destruct (fines _ _ E1 M2) as (I1 & I2). cbn [fresh_decls every_expr free_stmt stmt_size]. split; [auto|]. split; [auto|]. split; [congruence|].
      intros u Nu [K|[K|(K & K')]]; [left; auto|right; left; rewrite <- K; rewrite V2; congruence|right; right; auto].
    - destruct Ev as (E1 & E2), Fr as (Fr1 & Fr2 & Fr3). apply bind_inv in M as (v' & M1 & M). apply bind_inv in M as (l' & M2 & M). apply bind_inv in M as (b' & M3 & M). injection M as <-. destruct (IH b' M3) as (K1 & K2 & K3 & K4). apply visit_sym in M1 as (V1 & V2).
      pose proof (fine_mut _ E1 _ M2) as I1. cbn [fresh_decls every_expr free_stmt stmt_size]. split; [auto|]. split; [auto|]. split; [congruence|].
      intros u Nu [K|[K|(K & K')]]; [left; exact (free_stays _ _ _ Nu E1 M2 K)|right; left; rewrite <- K; rewrite V2; congruence|right; right; auto].
    - destruct Fr as (Fr1 & Fr2 & Fr3 & Fr4). apply bind_inv in M as (v' & M1 & M). apply bind_inv in M as (b' & M3 & M). injection M as <-. destruct (IH b' M3) as (K1 & K2 & K3 & K4). apply visit_sym in M1 as (V1 & V2).
      cbn [fresh_decls every_expr free_stmt stmt_size]. split; [|split; [auto|split; [congruence|]]].
      + split; [exact Fr1|]. split; [exact Fr2|]. split; [|exact K1]. intros T. specialize (Fr3 T). rewrite V2; [exact Fr3|]. intros ->. contradiction.
      + intros u Nu [K|(K & K')]; [left; rewrite <- K; rewrite V2; congruence|right; auto].
    - apply bind_inv in M as (c' & Mc & M). injection M as <-. cbn [fresh_decls every_expr free_stmt stmt_size]. split; [exact I|]. split; [exact (fine_mut _ Ev _ Mc)|]. split; [reflexivity|]. intros u Nu K. exact (free_stays _ _ _ Nu Ev Mc K).
  Qed.
End Rename.
