(** Proofs for C56: what the result is made of. *)
From Coq Require Import ZArith List Bool Lia.
From Verif Require Import Arith_Model Arith_Proofs Buf_Model Expr_Model Expr_Proofs Stmt_Model Stmt_Spec Stmt_Proofs Simplify_Model Simplify_Proofs Deps_Model Deps_Spec
  Subst_Model Subst_Spec Subst_Props StmtSubst_Model StmtSubst_Spec OptSym_Spec OptSym_Proofs VSem_Spec StmtSubst_Proofs StmtSubst2_Proofs StmtSubst3_Proofs
  Deshadow_Model Deshadow_Spec Deshadow_Proofs Deshadow2_Proofs Deshadow3_Proofs.
Import ListNotations.
Open Scope Z_scope.

Lemma fill_sub s l : forall d l', fill_mins (fun _ _ => EUndef) s d l = Val l' -> forall a, In a l' -> In a l \/ a = EUndef.
Proof.
  induction l as [|b l IH]; intros d l' M a I; cbn [fill_mins] in M; [injection M as <-; destruct I|]. apply bind_inv in M as (b' & Mb & M). apply bind_inv in M as (r & Mr & M). injection M as <-.
  destruct I as [<-|I]; [|destruct (IH _ _ Mr a I); [left; right; assumption|auto]].
  destruct (defined b); [|cbn in Mb; injection Mb as <-; auto]. destruct (is_min_of b s (Z.of_nat d)); injection Mb as <-; [auto|left; left; reflexivity].
Qed.
Lemma at_result args r : finish_at (fun _ _ => EUndef) (fun _ => O) args = Val r ->
  (r = args /\ (args = [] \/ exists l, args = EUndef :: l)) \/ exists s d l l', args = EVar s f_none d :: l /\ r = EVar s f_none d :: l' /\ forall a, In a l' -> In a l \/ a = EUndef.
Proof.
  intro M. destruct args as [|h l]; [injection M as <-; auto|]. destruct h as [|s f d| | | | | |]; cbn [finish_at] in M; try discriminate; [injection M as <-; left; split; [reflexivity|right; eauto]|].
  destruct f; try discriminate. right. apply bind_inv in M as (q & Mq & M). injection M as <-. exists s, d, l, (pop_undefined q). split; [reflexivity|]. split; [reflexivity|]. intros a I.
  apply in_pop in I. apply (fill_sub _ _ _ _ Mq) in I. unfold pad in I. cbn [Nat.sub repeat] in I. rewrite app_nil_r in I. exact I.
Qed.
Lemma d_head il h t s f d t' : d_expr il h t = Val (EVar s f d, t') -> exists x, h = EVar x f d /\ s = renamed (fst t) x /\ t' = t.
Proof.
  intro M. destruct h; cbn [d_expr] in M; repeat (apply bind_inv in M as (? & _ & M); repeat match type of M with (let '(_, _) := ?p in _) = _ => destruct p end); try discriminate.
  - injection M as <- <- <- <-. eauto.
  - injection M as M _. unfold make_bin in M. destruct (_ && _); discriminate.
Qed.
Lemma d_undef il h t t' : d_expr il h t = Val (EUndef, t') -> h = EUndef.
Proof.
  intro M. destruct h; cbn [d_expr] in M; repeat (apply bind_inv in M as (? & _ & M); repeat match type of M with (let '(_, _) := ?p in _) = _ => destruct p end); try discriminate; [reflexivity|].
  injection M as M _. unfold make_bin in M. destruct (_ && _); discriminate.
Qed.
Lemma any_iff (P : expr -> Prop) l : any_of P l <-> exists a, In a l /\ P a.
Proof.
  induction l as [|b l IH]; cbn [any_of]; [split; [tauto|intros (a & [] & _)]|]. rewrite IH. split.
  - intros [p|(a & I & p)]; [exists b; split; [left; reflexivity|exact p]|exists a; split; [right; exact I|exact p]].
  - intros (a & [<-|I] & p); [left; exact p|right; eauto].
Qed.
Lemma lets_distinct_args fn t l : Forall lets_distinct l -> lets_distinct (ECall fn t l).
Proof. cbn [lets_distinct]. induction 1 as [|a l A F IH]; [exact I|]. split; assumption. Qed.
Lemma lets_distinct_let l b : NoDup (map fst l) -> Forall lets_distinct (map snd l) -> lets_distinct b -> lets_distinct (ELet l b).
Proof. intros N F B. cbn [lets_distinct]. split; [exact N|]. split; [|exact B]. clear N. induction l as [|(s, v) l IH]; [exact I|]. cbn [map snd] in F. inversion F as [|? ? F1 F2]; subst. split; [exact F1|exact (IH F2)]. Qed.
Lemma each_forall2 {A B} (f : A -> dstate -> res (B * dstate)) (K : dstate -> Prop) (R : dstate -> A -> B -> Prop) l :
  (forall t t', framed t t' -> K t -> K t') -> (forall t t' a b, framed t t' -> R t' a b -> R t a b) ->
  Forall (fun a => frames f a /\ forall t b t', K t -> f a t = Val (b, t') -> R t a b) l -> forall t l' t', K t -> each f l t = Val (l', t') -> Forall2 (R t) l l'.
Proof.
  intros HK HR. induction 1 as [|a l (Fa & Ra) _ IH]; intros t l' t' Kt M; cbn [each] in M; [injection M as <- <-; constructor|].
  apply bind_inv in M as ((a', t1) & Ma & M). apply bind_inv in M as ((l1, t2) & Ml & M). injection M as <- <-. pose proof (Fa _ _ _ Ma) as F1. constructor; [exact (Ra _ _ _ Kt Ma)|].
  specialize (IH t1 l1 t2 (HK _ _ F1 Kt) Ml). clear -IH F1 HR. induction IH as [|u v l l' Suv F IH]; constructor; eauto.
Qed.

Section Below.
  Variable n0 : nat.
  Notation okst := (okst n0).
  (** what occurs in the result occurs in what it was made from *)
  Definition from (t : dstate) (P P' : nat -> Prop) : Prop := forall y, P' y -> exists x, (x < n0)%nat /\ P x /\ renamed (fst t) x = y.
  Lemma from_framed t t' P P' : framed t t' -> from t' P P' -> from t P P'.
  Proof. intros (F & _) G y Py. destruct (G y Py) as (x & L & p & Q). exists x. split; [exact L|]. split; [exact p|]. rewrite <- Q. symmetry. apply renamed_eq, F. Qed.
  Lemma from_or t P P' Q Q' : from t P P' -> from t Q Q' -> from t (fun x => P x \/ Q x) (fun x => P' x \/ Q' x).
  Proof. intros A B y [p|q]; [destruct (A y p) as (x & ? & ? & ?)|destruct (B y q) as (x & ? & ? & ?)]; exists x; auto. Qed.
  Lemma from_none t P P' : (forall y, ~ P' y) -> from t P P'. Proof. intros N y Py. destruct (N y Py). Qed.
  Lemma from_sub t (P P' Q Q' : nat -> Prop) : (forall x, P x -> Q x) -> (forall x, Q' x -> P' x) -> from t P P' -> from t Q Q'.
  Proof. intros A B G y q. destruct (G y (B y q)) as (x & ? & ? & ?). exists x. auto. Qed.
  Lemma from_sym t x : (x < n0)%nat -> from t (fun y => x = y) (fun y => renamed (fst t) x = y). Proof. intros L y <-. exists x. auto. Qed.
  Lemma from_decl x t x' t' P P' : decl_step x t x' t' -> from t' P P' -> from t (fun y => x <> y /\ P y) (fun y => x' <> y /\ P' y).
  Proof.
    intros Sp G y (n & p). destruct (G y p) as (z & L & q & Q). destruct (step_renamed _ _ _ _ Sp) as (R1 & R2). assert (nz : z <> x) by (intros ->; congruence).
    exists z. split; [exact L|]. split; [split; [congruence|exact q]|]. rewrite <- Q. symmetry. apply R2. exact nz.
  Qed.
  Definition xfrom (t : dstate) (e e' : expr) : Prop := lets_distinct e' /\ forall ro, from t (fun x => occurs x ro e) (fun x => occurs x ro e').
  Lemma xfrom_framed t t' e e' : framed t t' -> xfrom t' e e' -> xfrom t e e'.
  Proof. intros F (D & G). split; [exact D|]. intro ro. eapply from_framed; eauto. Qed.
  Lemma xfrom_free t e e' : xfrom t e e' -> from t (fun x => free x e) (fun x => free x e').
  Proof. intros (_ & G) y (ro & p). destruct (G ro y p) as (x & L & q & Q). exists x. split; [exact L|]. split; [exists ro; exact q|exact Q]. Qed.
  Lemma xfrom_any t ro l l' : Forall2 (xfrom t) l l' -> from t (fun x => any_of (occurs x ro) l) (fun x => any_of (occurs x ro) l').
  Proof. induction 1 as [|a a' l l' (_ & G) F IH]; [apply from_none; intros y []|]. cbn [any_of]. apply from_or; [apply G|exact IH]. Qed.
  Lemma free_any t l l' : Forall2 (xfrom t) l l' -> from t (fun x => any_of (free x) l) (fun x => any_of (free x) l').
  Proof. induction 1 as [|a a' l l' G F IH]; [apply from_none; intros y []|]. cbn [any_of]. apply from_or; [apply xfrom_free; exact G|exact IH]. Qed.
  Definition from_x (il : option nat) (e : expr) : Prop := forall t e' t', okst t -> d_expr il e t = Val (e', t') -> xfrom t e e'.
  Lemma from_args il l : Forall (fun e => lets_distinct e /\ from_x il e) l -> forall t l' t', okst t -> each (d_expr il) l t = Val (l', t') -> Forall2 (xfrom t) l l'.
  Proof.
    intros F. apply (each_forall2 (d_expr il) okst xfrom); [intros; eapply okst_framed; eauto|intros; eapply xfrom_framed; eauto|]. rewrite Forall_forall in *. intros e Ie. destruct (F e Ie) as (D & G). split; [apply expr_frame; exact D|exact G].
  Qed.
  Lemma from_lets il l : Forall (fun e => lets_distinct e /\ from_x il e) (map snd l) -> Forall (fun x => (x < n0)%nat) (map fst l) -> NoDup (map fst l) -> forall t l' e t', okst t -> d_lets il (d_expr il) l t = Val (l', e, t') ->
    okst t' /\ (forall x, ~ In x (map fst l) -> renamed (fst t') x = renamed (fst t) x) /\ map fst l' = map (renamed (fst t')) (map fst l) /\ Forall lets_distinct (map snd l') /\
    (forall P P' ro, from t' P P' -> from t (fun x => in_lets (occurs x ro) x l (P x)) (fun x => in_lets (occurs x ro) x l' (P' x))) /\
    (forall P P', from t' P P' -> from t (fun x => in_lets (free x) x l (P x)) (fun x => in_lets (free x) x l' (P' x))).
  Proof.
    induction l as [|(s, v) l IH]; intros G B N t l' e t' O M; cbn [d_lets map fst snd] in *; [injection M as <- <- <-; split; [exact O|]; split; [reflexivity|]; split; [reflexivity|]; split; [constructor|split; auto]|].
    inversion G as [|? ? (Dv & Gv) Gl]; subst. inversion B as [|? ? Bs Bl]; subst. inversion N as [|? ? Ns Nl]; subst. apply bind_inv in M as ((v', t1) & Mv & M). pose proof (expr_frame il v Dv _ _ _ Mv) as F1.
    pose proof (Gv t v' t1 O Mv) as Xv. destruct (enter_step il s t1) as (s' & t2 & Qe & Sp & _). rewrite Qe in M. apply bind_inv in M as (((l1, e1), t3) & Ml & M). injection M as <- <- <-.
    pose proof (okst_framed _ _ _ F1 O) as O1. pose proof (okst_step _ _ _ _ _ Sp O1 Bs) as O2. destruct (IH Gl Bl Nl t2 l1 e1 t3 O2 Ml) as (O3 & Rl & Ql & Dl & Sl & Sf). destruct (step_renamed _ _ _ _ Sp) as (R1 & R2).
    assert (R0 : forall x, renamed (fst t1) x = renamed (fst t) x) by (intro x; apply renamed_eq, F1).
    split; [exact O3|]. split; [|split; [|split; [|split]]].
    - intros x Nx. cbn [In] in Nx. rewrite Rl by tauto. rewrite R2 by (intros ->; tauto). apply R0.
    - cbn [map fst]. f_equal; [|exact Ql]. rewrite (Rl s Ns). symmetry. exact R1.
    - cbn [map snd]. constructor; [apply Xv|exact Dl].
    - intros P P' ro Fr. cbn [in_lets]. apply from_or; [apply Xv|]. apply (from_framed _ _ _ _ F1). apply (from_decl s t1 s' t2 _ _ Sp). apply Sl. exact Fr.
    - intros P P' Fr. cbn [in_lets]. apply from_or; [apply xfrom_free; exact Xv|]. apply (from_framed _ _ _ _ F1). apply (from_decl s t1 s' t2 _ _ Sp). apply Sf. exact Fr.
  Qed.
  Lemma renamed_nodup t l : okst t -> Forall (fun x => (x < n0)%nat) l -> NoDup l -> NoDup (map (renamed (fst t)) l).
  Proof.
    intros (_ & _ & I). induction 1 as [|x l Lx F IH]; intro N; [constructor|]. inversion N as [|? ? Nx Nl]; subst. cbn [map]. constructor; [|apply IH; exact Nl].
    intro J. apply in_map_iff in J as (y & Q & Iy). rewrite Forall_forall in F. apply I in Q; auto. congruence.
  Qed.

  Lemma expr_from il e : fine n0 e -> from_x il e.
  Proof.
    induction e as [|s f d|l b IHl IHb|o a b IHa IHb|a IHa|q t f IHq IHt IHf|fn t args IHargs|c0] using expr_ind'; intros Fi t0 e' t' O M; cbn [d_expr] in M.
    - injection M as <- <-. split; [exact I|]. intros ro y [].
    - injection M as <- <-. split; [exact I|]. intros ro y (<- & Q). exists s. split; [exact (proj1 Fi)|]. split; [split; [reflexivity|exact Q]|reflexivity].
    - apply fine_let in Fi as (B & N & Fl & Fb). apply (Forall_snd (fun v => fine n0 v -> from_x il v)) in IHl. apply bind_inv in M as (((l', e), t1) & Ml & M). apply bind_inv in M as ((b', t2) & Mb & M). injection M as <- <-.
      destruct (from_lets il l) with (t := t0) (l' := l') (e := e) (t' := t1) as (O1 & _ & Q & D & S & _); auto.
      { rewrite Forall_forall in *. intros v Iv. specialize (Fl v Iv). split; [apply Fl|auto]. }
      destruct (IHb Fb t1 b' t2 O1 Mb) as (Db & Sb). split; [|intro ro; cbn [occurs]; exact (S _ _ ro (Sb ro))]. apply lets_distinct_let; auto. rewrite Q. exact (renamed_nodup t1 _ O1 B N).
    - destruct Fi as ((B1 & B2) & (D1 & D2) & (N1 & N2)). apply bind_inv in M as ((a', t1) & Ma & M). apply bind_inv in M as ((b', t2) & Mb & M). injection M as <- <-.
      pose proof (expr_frame il a D1 _ _ _ Ma) as F1. destruct (IHa ltac:(repeat split; assumption) t0 a' t1 O Ma) as (Da & Sa). pose proof (IHb ltac:(repeat split; assumption) t1 b' t2 (okst_framed _ _ _ F1 O) Mb) as (Db & Sb).
      unfold make_bin. destruct (_ && _); (split; [split; assumption|]); intro ro; cbn [occurs].
      + eapply from_sub; [| |exact (from_or _ _ _ _ _ (from_framed _ _ _ _ F1 (Sb ro)) (Sa ro))]; cbn; tauto.
      + exact (from_or _ _ _ _ _ (Sa ro) (from_framed _ _ _ _ F1 (Sb ro))).
    - apply bind_inv in M as ((a', t1) & Ma & M). injection M as <- <-. exact (IHa Fi t0 a' t1 O Ma).
    - destruct Fi as ((B1 & B2 & B3) & (D1 & D2 & D3) & (N1 & N2 & N3)). apply bind_inv in M as ((q', t1) & Mq & M). apply bind_inv in M as ((x', t2) & Mt & M). apply bind_inv in M as ((f', t3) & Mf & M). injection M as <- <-.
      pose proof (expr_frame il q D1 _ _ _ Mq) as F1. pose proof (okst_framed _ _ _ F1 O) as O1. pose proof (expr_frame il t D2 _ _ _ Mt) as F2.
      destruct (IHq ltac:(repeat split; assumption) t0 q' t1 O Mq) as (Dq & Sq). destruct (IHt ltac:(repeat split; assumption) t1 x' t2 O1 Mt) as (Dt & St). destruct (IHf ltac:(repeat split; assumption) t2 f' t3 (okst_framed _ _ _ F2 O1) Mf) as (Df & Sf).
      split; [repeat split; assumption|]. intro ro. cbn [occurs]. apply from_or; [exact (Sq ro)|]. apply (from_framed _ _ _ _ F1). apply from_or; [exact (St ro)|]. exact (from_framed _ _ _ _ F2 (Sf ro)).
    - apply fine_call in Fi as (_ & Fa). apply bind_inv in M as ((args', t1) & Ma & M). apply bind_inv in M as (args'' & Mf & M). injection M as <- <-.
      assert (Ga : Forall (fun e => lets_distinct e /\ from_x il e) args) by (rewrite Forall_forall in *; intros v Iv; split; [apply (Fa v Iv)|auto]).
      pose proof (from_args il args Ga t0 args' t1 O Ma) as Sa.
      assert (Dl : Forall lets_distinct args') by (clear -Sa; induction Sa as [|? ? ? ? (D & _) F IH]; constructor; auto).
      destruct (match fn with i_buffer_at => true | _ => false end) eqn:Qf.
      + destruct fn; try discriminate. clear Qf. destruct (at_result _ _ Mf) as [(-> & [->|(l & ->)])|(s & d & l & l' & -> & -> & Sub)].
        * split; [exact I|]. intros ro y [].
        * inversion Sa as [|h ? at_ ? Sh Sat]; subst. assert (h = EUndef) as -> by (cbn [each] in Ma; apply bind_inv in Ma as ((h', t2) & Mh & Ma); apply bind_inv in Ma as ((? & ?) & _ & Ma); injection Ma as -> -> _; exact (d_undef _ _ _ _ Mh)).
          split; [apply lets_distinct_args; exact Dl|]. intro ro. cbn [occurs]. apply xfrom_any. exact Sat.
        * inversion Sa as [|h ? at_ ? Sh Sat]; subst. cbn [each] in Ma. apply bind_inv in Ma as ((h', t2) & Mh & Ma). apply bind_inv in Ma as ((? & ?) & _ & Ma). injection Ma as -> -> _. destruct (d_head _ _ _ _ _ _ _ Mh) as (x & -> & -> & ->).
          split.
          { apply lets_distinct_args. inversion Dl as [|? ? Dh Dt]; subst. constructor; [exact I|]. rewrite Forall_forall in *. intros a Ia. destruct (Sub a Ia) as [Ib|Ib]; [auto|subst; exact I]. }
          intro ro. cbn [occurs]. apply from_or.
          -- intros y (<- & Q). exists x. split; [inversion Fa as [|? ? Fh _]; subst; apply Fh|]. split; [split; [reflexivity|exact Q]|reflexivity].
          -- eapply from_sub; [| |exact (xfrom_any t0 ro _ _ Sat)]; [auto|]. intros y Hy. apply any_iff in Hy as (a & Ia & Hy). apply any_iff. exists a. split; [|exact Hy]. destruct (Sub a Ia) as [Ib|Ib]; [exact Ib|subst; destruct Hy].
      + assert (args'' = args') by (destruct fn; try discriminate; injection Mf as <-; reflexivity). subst args''. split; [apply lets_distinct_args; exact Dl|]. intro ro.
        eapply from_sub; [| |exact (xfrom_any t0 ro _ _ Sa)]; intros x Hx; destruct fn; try discriminate; exact Hx.
    - injection M as <- <-. split; [exact I|]. intros ro y [].
  Qed.
  Definition ifrom (t : dstate) (i i' : interval) : Prop := distinct_interval i' /\ from t (fun x => free_interval x i) (fun x => free_interval x i').
  Lemma interval_from il i t i' t' : every_interval (fine n0) i -> okst t -> d_interval il i t = Val (i', t') -> ifrom t i i'.
  Proof.
    intros (F1 & F2) O M. unfold d_interval in M. apply bind_inv in M as ((a, t1) & M1 & M). apply bind_inv in M as ((b, t2) & M2 & M). injection M as <- <-.
    pose proof (expr_from il _ F1 t a t1 O M1) as S1. pose proof (expr_frame il _ (proj1 (proj2 F1)) _ _ _ M1) as G1. pose proof (expr_from il _ F2 t1 b t2 (okst_framed _ _ _ G1 O) M2) as S2.
    split; [split; [apply S1|apply S2]|]. unfold free_interval. cbn [fst snd]. apply from_or; [apply xfrom_free; exact S1|]. apply (from_framed _ _ _ _ G1). apply xfrom_free. exact S2.
  Qed.
  Definition dfrom (t : dstate) (i i' : dim_expr) : Prop := distinct_dim i' /\ from t (fun x => free_dim x i) (fun x => free_dim x i').
  Lemma dim_from il d t d' t' : every_dim (fine n0) d -> okst t -> d_dim il d t = Val (d', t') -> dfrom t d d'.
  Proof.
    intros (F1 & F2 & F3) O M. unfold d_dim in M. apply bind_inv in M as ((a, t1) & M1 & M). apply bind_inv in M as ((b, t2) & M2 & M). apply bind_inv in M as ((c, t3) & M3 & M). injection M as <- <-.
    pose proof (interval_from il _ t a t1 F1 O M1) as S1. pose proof (interval_frame il _ (fine_distinct _ _ F1) _ _ _ M1) as G1. pose proof (okst_framed _ _ _ G1 O) as O1.
    pose proof (expr_from il _ F2 t1 b t2 O1 M2) as S2. pose proof (expr_frame il _ (proj1 (proj2 F2)) _ _ _ M2) as G2. pose proof (expr_from il _ F3 t2 c t3 (okst_framed _ _ _ G2 O1) M3) as S3.
    split; [repeat split; try apply S1; [apply S2|apply S3]|]. unfold free_dim. cbn [de_bounds de_stride de_fold]. apply from_or; [apply S1|]. apply (from_framed _ _ _ _ G1).
    apply from_or; [apply xfrom_free; exact S2|]. apply (from_framed _ _ _ _ G2). apply xfrom_free. exact S3.
  Qed.
  Lemma exists_from {A} t (F : nat -> A -> Prop) l l' : Forall2 (fun a b => from t (fun x => F x a) (fun x => F x b)) l l' -> from t (fun x => Exists (F x) l) (fun x => Exists (F x) l').
  Proof.
    induction 1 as [|a a' l l' G S IH]; [intros y Hy; inversion Hy|]. intros y Hy. inversion Hy as [? ? P|? ? P]; subst; [destruct (G y P) as (x & ? & ? & ?)|destruct (IH y P) as (x & ? & ? & ?)]; exists x; auto.
  Qed.
  Lemma dims_from il l t l' t' : Forall (every_dim (fine n0)) l -> okst t -> each (d_dim il) l t = Val (l', t') -> Forall distinct_dim l' /\ from t (fun x => Exists (free_dim x) l) (fun x => Exists (free_dim x) l').
  Proof.
    intros F O M. assert (S : Forall2 (dfrom t) l l').
    { revert O M. apply (each_forall2 (d_dim il) okst dfrom); [intros; eapply okst_framed; eauto|intros ? ? ? ? G (D & S); split; [exact D|eapply from_framed; eauto]|]. rewrite Forall_forall in *. intros d Id. specialize (F d Id).
      split; [|intros; eapply dim_from; eauto]. apply dim_frame. destruct F as (((_ & A & _) & (_ & B & _)) & (_ & C & _) & (_ & D & _)). repeat split; assumption. }
    split; [|apply exists_from]; clear -S; induction S as [|? ? ? ? (D & G) S IH]; constructor; auto.
  Qed.
  Lemma crop_from il src d i t i' t' : every_interval (fine n0) i -> okst t -> d_crop il src d i t = Val (i', t') -> ifrom t i i'.
  Proof.
    intros F O M. unfold d_crop in M. apply bind_inv in M as ((i1, t1) & M1 & M). injection M as <- <-. destruct (interval_from il i t i1 t1 F O M1) as ((D1 & D2) & S). split.
    - split; cbn [fst snd]; destruct (_ : bool); try exact I; assumption.
    - eapply from_sub; [intros x Hx; exact Hx| |exact S]. intros y [Hy|Hy]; cbn [fst snd] in Hy; (destruct (_ : bool) in Hy; [destruct Hy as (ro & [])|]); [left|right]; exact Hy.
  Qed.
  Lemma crops_from il src l : Forall (every_interval (fine n0)) l -> forall d t l' t', okst t -> d_crops il src d l t = Val (l', t') -> Forall2 (ifrom t) l l'.
  Proof.
    induction 1 as [|i l Fi _ IH]; intros d t l' t' O M; cbn [d_crops] in M; [injection M as <- <-; constructor|]. apply bind_inv in M as ((i', t1) & Mi & M). apply bind_inv in M as ((r', t2) & Ml & M). injection M as <- <-.
    pose proof (crop_frame il src d i (fine_distinct _ i Fi) _ _ _ Mi) as F1. constructor; [exact (crop_from _ _ _ _ _ _ _ Fi O Mi)|]. specialize (IH _ _ _ _ (okst_framed _ _ _ F1 O) Ml).
    clear -IH F1. induction IH as [|? ? ? ? (D & G) S IH]; constructor; [split; [exact D|eapply from_framed; eauto]|exact IH].
  Qed.

  Lemma dims_framed il l t l' t' : Forall (every_dim (fine n0)) l -> each (d_dim il) l t = Val (l', t') -> framed t t'.
  Proof.
    intros F. apply each_frame. rewrite Forall_forall in *. intros d Id. apply dim_frame. destruct (F d Id) as (((_ & A & _) & (_ & B & _)) & (_ & C & _) & (_ & D & _)). repeat split; assumption.
  Qed.
  (** ** Statements *)
  Definition sfrom (t : dstate) (s s' : stmt) : Prop := distinct s' /\ (by_value s -> by_value s') /\ from t (fun x => free_stmt x s) (fun x => free_stmt x s').
  Definition from_s (s : stmt) : Prop := forall il t s' t', okst t -> d_stmt il s t = Val (s', t') -> framed t t' /\ in_block s' = in_block s /\ sfrom t s s'.
  Lemma declared_from il b sym t q (k : nat -> stmt -> stmt) s' t' : from_s b -> okst t -> (sym < n0)%nat ->
    decl_step sym t (fst q) (snd q) -> (let '(sym', t1) := q in r <- d_stmt il b t1 ;; let '(b', t2) := r in Val (k sym' b', exit_decls [(sym, fst t sym)] t2)) = Val (s', t') ->
    exists b', s' = k (fst q) b' /\ framed t t' /\ distinct b' /\ (by_value b -> by_value b') /\ from t (fun x => sym <> x /\ free_stmt x b) (fun x => fst q <> x /\ free_stmt x b').
  Proof.
    intros G O L Sp M. destruct q as (sym', t1). cbn [fst snd] in *. apply bind_inv in M as ((b', t2) & Mb & M). injection M as <- <-. exists b'. split; [reflexivity|].
    destruct (G il t1 b' t2 (okst_step _ _ _ _ _ Sp O L) Mb) as (F & _ & D & B & Fr). split; [exact (step_exit _ _ _ _ _ Sp F)|]. split; [exact D|]. split; [exact B|]. exact (from_decl _ _ _ _ _ _ Sp Fr).
  Qed.
  Lemma from_in t l : Forall (fun x => (x < n0)%nat) l -> from t (fun x => In x l) (fun x => In x (map (renamed (fst t)) l)).
  Proof. intros F y Hy. apply in_map_iff in Hy as (x & Q & Ix). rewrite Forall_forall in F. exists x. auto. Qed.
  Lemma shift_src t t1 x : framed t t1 -> renamed (fst t) x = renamed (fst t1) x. Proof. intros (F & _). symmetry. apply renamed_eq, F. Qed.
  Lemma all_from il l : Forall (fun x => (x < n0)%nat) l -> NoDup l -> forall t l' e t', okst t -> enter_all il l t = (l', e, t') -> okst t' /\ (forall x, ~ In x l -> renamed (fst t') x = renamed (fst t) x) /\ l' = map (renamed (fst t')) l.
  Proof.
    induction l as [|x l IH]; intros B N t l' e t' O M; cbn [enter_all] in M; [injection M as <- <- <-; auto|].
    inversion B as [|? ? Bx Bl]; subst. inversion N as [|? ? Nx Nl]; subst. destruct (enter_step il x t) as (x' & t1 & Qe & Sp & _). rewrite Qe in M. destruct (enter_all il l t1) as ((l1, e1), t2) eqn:Q. injection M as <- <- <-.
    pose proof (okst_step _ _ _ _ _ Sp O Bx) as O1. destruct (step_renamed _ _ _ _ Sp) as (R1 & R2). destruct (IH Bl Nl t1 l1 e1 t2 O1 Q) as (O2 & Rl & ->). split; [exact O2|]. split.
    - intros u Nu. cbn [In] in Nu. rewrite Rl by tauto. apply R2. intros ->. tauto.
    - cbn [map]. f_equal. rewrite (Rl x Nx). symmetry. exact R1.
  Qed.

  Lemma stmt_from s : ready n0 s -> every_expr (fine n0) s -> from_s s.
  Proof.
    induction s as [|tg ins outs sc|src sx dst dx pad|l s c IHs|l IHl|s w x st b IHs|s w e ds b IHs|s p e ds b IHs|s v b IHs|s v b IHs
      |s v l b IHs|s v d x b IHs|s v l b IHs|s v d x b IHs|s v p b IHs|s s1 s2 IHs1 IHs2|c] using stmt_ind'; intros Rd Fi il t s' t' O M; try rewrite d_block in M; cbn [d_stmt ready every_expr] in *.
    - injection M as <- <-. split; [apply framed_refl|]. split; [reflexivity|]. split; [exact I|]. split; [auto|]. apply from_none. intros y [].
    - destruct Rd as (Ri & Ro). apply bind_inv in M as ((sc', t1) & M1 & M). injection M as <- <-. split; [exact (each_framed n0 il _ _ _ _ Fi M1)|].
      assert (S : Forall2 (xfrom t) sc sc'). { eapply from_args; [|exact O|exact M1]. rewrite Forall_forall in *. intros v Iv. split; [apply (Fi v Iv)|apply expr_from; auto]. }
      split; [reflexivity|]. split; [exact I|]. split.
      + intros _. cbn [by_value]. clear -S. induction S as [|? ? ? ? (D & _) S IH]; constructor; auto.
      + cbn [free_stmt]. apply from_or; [apply from_in; exact Ri|]. apply from_or; [apply from_in; exact Ro|]. apply free_any. exact S.
    - destruct Rd as (Ls & Ld & Lp & Lx & Nx). destruct (enter_all il dx t) as ((dx', e), t1) eqn:Q. apply bind_inv in M as ((sx', t2) & M1 & M). injection M as <- <-.
      destruct (all_from il dx Lx Nx t dx' e t1 O Q) as (O1 & Rl & ->). split; [exact (list_exit _ _ _ _ _ (all_step il dx Nx t _ e t1 Q) (each_framed n0 il _ _ _ _ Fi M1))|].
      assert (S : Forall2 (xfrom t1) sx sx'). { eapply from_args; [|exact O1|exact M1]. rewrite Forall_forall in *. intros v Iv. split; [apply (Fi v Iv)|apply expr_from; auto]. }
      split; [reflexivity|]. split; [exact I|]. split; [intros []|]. cbn [free_stmt]. apply from_or; [apply from_sym; exact Ls|]. apply from_or; [apply from_sym; exact Ld|]. apply from_or.
      + intros y Hy. destruct pad as [p|]; [|discriminate]. cbn [option_map] in Hy. injection Hy as <-. exists p. auto.
      + intros y (Ny & Hy). destruct (free_any t1 _ _ S y Hy) as (x & L & P & Qx). assert (nx : ~ In x dx) by (intro Ix; apply Ny; apply in_map_iff; eauto).
        exists x. split; [exact L|]. split; [auto|]. rewrite <- (Rl x nx). exact Qx.
    - destruct Rd as (-> & Ll & Nl & Rb). destruct Fi as (Fl & Fb). apply bind_inv in M as (((l', e), t1) & M1 & M). apply bind_inv in M as ((b', t2) & M2 & M). injection M as <- <-.
      destruct (from_lets il l) with (t := t) (l' := l') (e := e) (t' := t1) as (O1 & _ & Q & D & _ & S); auto.
      { rewrite Forall_forall in *. intros v Iv. specialize (Fl v Iv). split; [apply Fl|apply expr_from; exact Fl]. }
      destruct (IHs Rb Fb il t1 b' t2 O1 M2) as (F & _ & Db & Bb & Sb). split.
      + refine (list_exit _ _ _ _ _ _ F). eapply lets_step; [|exact Nl|exact M1]. rewrite Forall_forall in *. intros u Iu. apply expr_frame. apply (Fl u Iu).
      + split; [reflexivity|]. split; [cbn [distinct]; split; [rewrite Q; exact (renamed_nodup t1 _ O1 Ll Nl)|split; assumption]|]. split; [|cbn [free_stmt]; apply S; exact Sb]. cbn [by_value]. intros (_ & B). split; [discriminate|auto].
    - destruct Rd as (Ln & Lb & Rl). apply ready_go in Rl. apply every_go_iff in Fi. apply bind_inv in M as ((l', t1) & M1 & M). injection M as <- <-.
      assert (G : framed t t1 /\ Forall2 (fun s s' => sfrom t s s' /\ in_block s' = in_block s) l l').
      { assert (K : Forall from_s l) by (rewrite Forall_forall in *; auto). clear -K O M1. revert t l' t1 O M1. induction K as [|a l G _ IH]; intros t l' t1 O M; cbn [d_list] in M; [injection M as <- <-; split; [apply framed_refl|constructor]|].
        apply bind_inv in M as ((a', t2) & Ma & M). apply bind_inv in M as ((l1, t3) & Ml & M). injection M as <- <-. destruct (G il t a' t2 O Ma) as (F1 & Ba & Sa).
        destruct (IH t2 l1 t3 (okst_framed _ _ _ F1 O) Ml) as (F2 & Sl). split; [eapply framed_trans; eassumption|]. constructor; [split; assumption|].
        clear -F1 Sl. induction Sl as [|u v l l' ((D & B & S) & K) F IH]; constructor; [split; [|exact K]; split; [exact D|split; [exact B|eapply from_framed; eauto]]|exact IH]. }
      destruct G as (F & S). split; [exact F|].
      assert (B : forallb in_block l' = true /\ length l' = length l).
      { clear -S Lb. induction S as [|x x' l l' (_ & B) S IH]; [repeat split; constructor|]. cbn [forallb length] in *. apply andb_true_iff in Lb as (B1 & B2). destruct (IH B2) as (I1 & I2). rewrite B, B1, I1, I2. auto. }
      destruct B as (B1 & B2). rewrite block_make_flat by (congruence || lia). split; [reflexivity|]. clear -S. split; [|split].
      + cbn [distinct]. apply distinct_go. induction S as [|? ? ? ? ((D & _) & _) S IH]; constructor; auto.
      + cbn [by_value]. rewrite !by_value_go. induction S as [|? ? ? ? ((_ & B & _) & _) S IH]; intro K; inversion K; subst; constructor; auto.
      + cbn [free_stmt]. induction S as [|? ? ? ? ((_ & _ & B) & _) S IH]; [intros y []|]. apply from_or; [exact B|exact IH].
    - destruct Rd as (Ls & Rb). destruct Fi as (Fw & Fx & Fs & Fb). apply bind_inv in M as ((x', t1) & M1 & M). apply bind_inv in M as ((st', t2) & M2 & M). apply bind_inv in M as ((w', t3) & M3 & M).
      pose proof (interval_frame il _ (fine_distinct _ _ Fx) _ _ _ M1) as F1. pose proof (interval_from il x t x' t1 Fx O M1) as (S0 & S1). pose proof (okst_framed _ _ _ F1 O) as O1.
      pose proof (expr_frame il _ (proj1 (proj2 Fs)) _ _ _ M2) as F2. pose proof (expr_from il st Fs t1 st' t2 O1 M2) as S2. pose proof (okst_framed _ _ _ F2 O1) as O2.
      pose proof (expr_frame il _ (proj1 (proj2 Fw)) _ _ _ M3) as F3. pose proof (expr_from il w Fw t2 w' t3 O2 M3) as S3. pose proof (okst_framed _ _ _ F3 O2) as O3. pose proof (framed_trans _ _ _ F1 F2) as F12. pose proof (framed_trans _ _ _ F12 F3) as F13.
      apply (declared_from _ b s t3 _ (fun sym' => SLoop sym' w' x' st') s' t' (IHs Rb Fb) O3 Ls (entered_step il s t3)) in M as (b' & -> & F4 & D & B & Fr). split; [exact (framed_trans _ _ _ F13 F4)|]. split; [reflexivity|].
      split; [cbn [distinct]; repeat split; [apply S3|apply S0|apply S0|apply S2|exact D]|]. split; [exact B|]. cbn [free_stmt]. apply from_or; [exact S1|]. apply (from_framed _ _ _ _ F1). apply from_or; [apply xfrom_free; exact S2|].
      apply (from_framed _ _ _ _ F2). apply from_or; [apply xfrom_free; exact S3|]. exact (from_framed _ _ _ _ F3 Fr).
    - destruct Rd as (Ls & Rb). destruct Fi as (Fe & Fd & Fb). apply bind_inv in M as ((e', t1) & M1 & M). apply bind_inv in M as ((ds', t2) & M2 & M).
      pose proof (expr_frame il _ (proj1 (proj2 Fe)) _ _ _ M1) as F1. pose proof (expr_from il e Fe t e' t1 O M1) as S1. pose proof (okst_framed _ _ _ F1 O) as O1.
      pose proof (dims_framed _ _ _ _ _ Fd M2) as F2. destruct (dims_from il ds t1 ds' t2 Fd O1 M2) as (S2 & S3). pose proof (okst_framed _ _ _ F2 O1) as O2.
      apply (declared_from _ b s t2 (s, declare s s t2) (fun sym' => SAllocate sym' w e' ds') s' t' (IHs Rb Fb) O2 Ls (keep_step s t2)) in M as (b' & -> & F4 & D & B & Fr). split; [exact (framed_trans _ _ _ (framed_trans _ _ _ F1 F2) F4)|]. split; [reflexivity|].
      split; [cbn [distinct]; split; [apply S1|split; [exact S2|exact D]]|]. split; [exact B|]. cbn [free_stmt]. apply from_or; [apply xfrom_free; exact S1|]. apply (from_framed _ _ _ _ F1). apply from_or; [exact S3|]. exact (from_framed _ _ _ _ F2 Fr).
    - destruct Rd as (Ls & Rb). destruct Fi as (Fp & Fe & Fd & Fb). apply bind_inv in M as ((p', t1) & M1 & M). apply bind_inv in M as ((e', t2) & M2 & M). apply bind_inv in M as ((ds', t3) & M3 & M).
      pose proof (expr_frame il _ (proj1 (proj2 Fp)) _ _ _ M1) as F1. pose proof (expr_from il p Fp t p' t1 O M1) as S1. pose proof (okst_framed _ _ _ F1 O) as O1.
      pose proof (expr_frame il _ (proj1 (proj2 Fe)) _ _ _ M2) as F2. pose proof (expr_from il e Fe t1 e' t2 O1 M2) as S2. pose proof (okst_framed _ _ _ F2 O1) as O2.
      pose proof (dims_framed _ _ _ _ _ Fd M3) as F3. destruct (dims_from il ds t2 ds' t3 Fd O2 M3) as (S3 & S4). pose proof (okst_framed _ _ _ F3 O2) as O3.
      destruct (rename_step il s t3) as (y & c & Qr & Sp & _). rewrite Qr in M.
      apply (declared_from _ b s t3 (y, declare s y (fst t3, c)) (fun sym' => SMake sym' p' e' ds') s' t' (IHs Rb Fb) O3 Ls Sp) in M as (b' & -> & F4 & D & B & Fr). split; [exact (framed_trans _ _ _ (framed_trans _ _ _ (framed_trans _ _ _ F1 F2) F3) F4)|]. split; [reflexivity|].
      split; [cbn [distinct]; split; [apply S1|split; [apply S2|split; [exact S3|exact D]]]|]. split; [exact B|]. cbn [free_stmt]. apply from_or; [apply xfrom_free; exact S1|]. apply (from_framed _ _ _ _ F1). apply from_or; [apply xfrom_free; exact S2|].
      apply (from_framed _ _ _ _ F2). apply from_or; [exact S4|]. exact (from_framed _ _ _ _ F3 Fr).
    - destruct Rd as (Ls & Rb). apply (declared_from _ b s t _ (fun sym' => SConst sym' v) s' t' (IHs Rb Fi) O Ls (entered_step il s t)) in M as (b' & -> & F4 & D & B & Fr). repeat (split; [assumption || reflexivity|]). exact Fr.
    - destruct Rd as (Ls & Lv & Rb). apply (declared_from _ b s t _ (fun sym' => SClone sym' (renamed (fst t) v)) s' t' (IHs Rb Fi) O Ls (entered_step il s t)) in M as (b' & -> & F4 & D & B & Fr). repeat (split; [assumption || reflexivity|]).
      cbn [free_stmt]. apply from_or; [apply from_sym; exact Lv|exact Fr].
    - destruct Rd as (Ls & Lv & Rb). destruct Fi as (Fl & Fb). apply bind_inv in M as ((l', t1) & M1 & M).
      assert (F1 : framed t t1). { eapply crops_frame; [|exact M1]. rewrite Forall_forall in *. intros i Ii. apply (fine_distinct n0). auto. } pose proof (okst_framed _ _ _ F1 O) as O1. pose proof (crops_from il _ l Fl _ t l' t1 O M1) as S.
      pose proof (entered_step il s t1) as Sp. apply (declared_from _ b s t1 _ (fun sym' => SCropBuffer sym' (renamed (fst t) v) l') s' t' (IHs Rb Fb) O1 Ls Sp) in M as (b' & -> & F4 & D & B & Fr). split; [exact (framed_trans _ _ _ F1 F4)|]. split; [reflexivity|].
      split; [cbn [distinct]; split; [clear -S; induction S as [|? ? ? ? (K & _) S IH]; constructor; auto|exact D]|]. split.
      + cbn [by_value]. intros (T & K). split; [|exact (B K)]. intro Q. rewrite (shift_src t t1 v F1) in Q. destruct (not_in_place n0 _ _ _ _ _ Sp O1 Ls Lv Q) as (-> & Qv). specialize (T eq_refl).
        assert (S' : Forall2 (ifrom t) (tl l) (tl l')) by (destruct S; [constructor|assumption]). rewrite Q, Qv. rewrite <- (shift_src t t1 v F1) in Qv. revert S' T. generalize (tl l) (tl l'). clear -Qv O Lv. intros k k' S' T.
        induction S' as [|i i' l l' (_ & G) S IH]; [constructor|]. inversion T as [|? ? (T1 & T2) T3]; subst. constructor; [|exact (IH T3)].
        assert (K : ~ free_interval v i'). { intro Fv. destruct (G v Fv) as (x & L & P & Qx). assert (x = v) as -> by (apply (proj2 (proj2 O)); congruence || auto). destruct P; contradiction. }
        split; intro Fv; apply K; [left|right]; exact Fv.
      + cbn [free_stmt]. apply from_or; [apply exists_from; clear -S; induction S as [|? ? ? ? (_ & K) S IH]; constructor; auto|]. apply from_or; [apply from_sym; exact Lv|]. exact (from_framed _ _ _ _ F1 Fr).
    - destruct Rd as (Ls & Lv & Rb). destruct Fi as (Fl & Fb). apply bind_inv in M as ((l', t1) & M1 & M).
      pose proof (crop_frame il _ d x (fine_distinct _ x Fl) _ _ _ M1) as F1. pose proof (okst_framed _ _ _ F1 O) as O1. destruct (crop_from il _ d x t l' t1 Fl O M1) as (S1 & S2).
      apply (declared_from _ b s t1 _ (fun sym' => SCropDim sym' (renamed (fst t) v) d l') s' t' (IHs Rb Fb) O1 Ls (entered_step il s t1)) in M as (b' & -> & F4 & D & B & Fr). split; [exact (framed_trans _ _ _ F1 F4)|]. split; [reflexivity|].
      split; [split; assumption|]. split; [exact B|]. cbn [free_stmt]. apply from_or; [exact S2|]. apply from_or; [apply from_sym; exact Lv|]. exact (from_framed _ _ _ _ F1 Fr).
    - destruct Rd as (Ls & Lv & Rb). destruct Fi as (Fl & Fb). apply bind_inv in M as ((l', t1) & M1 & M). pose proof (each_framed n0 il _ _ _ _ Fl M1) as F1. pose proof (okst_framed _ _ _ F1 O) as O1.
      assert (S : Forall2 (xfrom t) l l'). { eapply from_args; [|exact O|exact M1]. rewrite Forall_forall in *. intros u Iu. split; [apply (Fl u Iu)|apply expr_from; auto]. }
      apply (declared_from _ b s t1 _ (fun sym' => SSliceBuffer sym' (renamed (fst t) v) l') s' t' (IHs Rb Fb) O1 Ls (entered_step il s t1)) in M as (b' & -> & F4 & D & B & Fr). split; [exact (framed_trans _ _ _ F1 F4)|]. split; [reflexivity|].
      split; [split; [clear -S; induction S as [|? ? ? ? (K & _) S IH]; constructor; auto|exact D]|]. split; [exact B|]. cbn [free_stmt]. apply from_or; [apply free_any; exact S|]. apply from_or; [apply from_sym; exact Lv|]. exact (from_framed _ _ _ _ F1 Fr).
    - destruct Rd as (Ls & Lv & Rb). destruct Fi as (Fl & Fb). apply bind_inv in M as ((l', t1) & M1 & M). pose proof (expr_frame il _ (proj1 (proj2 Fl)) _ _ _ M1) as F1. pose proof (okst_framed _ _ _ F1 O) as O1. pose proof (expr_from il x Fl t l' t1 O M1) as S.
      apply (declared_from _ b s t1 _ (fun sym' => SSliceDim sym' (renamed (fst t) v) d l') s' t' (IHs Rb Fb) O1 Ls (entered_step il s t1)) in M as (b' & -> & F4 & D & B & Fr). split; [exact (framed_trans _ _ _ F1 F4)|]. split; [reflexivity|].
      split; [split; [apply S|exact D]|]. split; [exact B|]. cbn [free_stmt]. apply from_or; [apply xfrom_free; exact S|]. apply from_or; [apply from_sym; exact Lv|]. exact (from_framed _ _ _ _ F1 Fr).
    - destruct Rd as (Ls & Lv & _ & Rb). apply (declared_from _ b s t _ (fun sym' => STranspose sym' (renamed (fst t) v) p) s' t' (IHs Rb Fi) O Ls (entered_step il s t)) in M as (b' & -> & F4 & D & B & Fr). repeat (split; [assumption || reflexivity|]).
      cbn [free_stmt]. apply from_or; [apply from_sym; exact Lv|exact Fr].
    - destruct Rd.
    - apply bind_inv in M as ((c', t1) & M1 & M). injection M as <- <-. split; [exact (expr_frame il _ (proj1 (proj2 Fi)) _ _ _ M1)|]. pose proof (expr_from il c Fi t c' t1 O M1) as S. split; [reflexivity|]. split; [apply S|]. split; [auto|].
      cbn [free_stmt]. apply xfrom_free. exact S.
  Qed.
End Below.
