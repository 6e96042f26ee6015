(** Liveness of the thread pool: no lost wake-up and no deadlock for programs that
    use the pool through parallel_for. *)
From Coq Require Import ZArith List Bool Lia Permutation.
From Verif Require Import Pool_Model Pool_Proofs.
Import ListNotations.
Local Open Scope Z_scope.

Definition waitsb (t : nat) (f : frame) : bool :=
  match f with
  | FSpin t' => Nat.eqb t t'
  | FLoop (CDone t') _ _ => Nat.eqb t t'
  | FWork t' _ _ _ _ false => Nat.eqb t t'
  | _ => false
  end.
Definition wc (t : nat) (fs : list frame) : nat := length (filter (waitsb t) fs).
Definition isowed (t : nat) (o : option nat) : bool :=
  match o with Some t' => Nat.eqb t t' | None => false end.
Definition oc (t : nat) (owed : list (option nat)) : nat := length (filter (isowed t) owed).

Definition waitframe (t : nat) (f : frame) : Prop :=
  f = FSpin t \/ exists cv b, f = FLoop (CDone t) cv b.

Definition all_exhausted (k : task) : Prop :=
  forall j sh, nth_error (t_shards k) j = Some sh -> exhausted sh.

Record LInv (ts : list task) (fs : list frame) (owed : list (option nat)) : Prop := {
  l_single : forall t, (wc t fs + oc t owed <= 1)%nat;
  l_owed : forall t, In (Some t) owed -> (t < length ts)%nat;
  l_wake : forall t k cv, In (FLoop (CDone t) cv true) fs -> nth_error ts t = Some k ->
            t_todo k = 0 -> In FNotify fs;
  l_cover : forall t k, nth_error ts t = Some k -> 1 <= t_limit k /\
            (t_maxw k < t_limit k -> (exists f, In f fs /\ works_on t f = true) \/ all_exhausted k);
  l_alloc : forall t f, In f fs -> waitframe t f ->
            exists k, nth_error ts t = Some k /\ t_maxw k < t_limit k
}.

Lemma filter_perm {A} (p : A -> bool) l l' : Permutation l l' -> Permutation (filter p l) (filter p l').
Proof.
  induction 1; cbn; auto.
  - destruct (p x); auto.
  - destruct (p x), (p y); auto. constructor.
  - etransitivity; eauto.
Qed.

Lemma wc_perm t fs fs' : Permutation fs fs' -> wc t fs = wc t fs'.
Proof. intros P. unfold wc. apply Permutation_length. now apply filter_perm. Qed.

Lemma wc_cons t f fs : wc t (f :: fs) = ((if waitsb t f then 1 else 0) + wc t fs)%nat.
Proof. unfold wc. cbn. destruct (waitsb t f); reflexivity. Qed.

Lemma wc_zero t fs : wc t fs = 0%nat -> forall f, In f fs -> waitsb t f = false.
Proof.
  unfold wc. induction fs as [|g fs IH]; cbn; [easy|].
  destruct (waitsb t g) eqn:E; cbn; [discriminate|]. intros H f [<-|Hf]; auto.
Qed.

Lemma LInv_perm ts fs fs' o : Permutation fs fs' -> LInv ts fs o -> LInv ts fs' o.
Proof.
  intros P [H1 H2 H3 H4 H5].
  assert (forall f, In f fs <-> In f fs') as E.
  { intros f. split; apply Permutation_in; [exact P|now symmetry]. }
  constructor; auto.
  - intros t. rewrite <- (wc_perm t _ _ P). auto.
  - intros t k cv Hi Hk Z0. apply E. apply E in Hi. eauto.
  - intros t k Hk. destruct (H4 _ _ Hk) as [L C]. split; [exact L|]. intros M.
    destruct (C M) as [(f & Hf & W)|X]; auto. left. exists f. split; auto. now apply E.
  - intros t f Hf. apply E in Hf. eauto.
Qed.

Lemma alloc_mono ts t k k' fs fs' :
  nth_error ts t = Some k -> t_limit k' = t_limit k -> t_maxw k' <= t_maxw k ->
  (forall t0 f, In f fs' -> waitframe t0 f -> In f fs \/ (t0 = t /\ t_maxw k' < t_limit k')
      \/ exists f0, In f0 fs /\ waitframe t0 f0) ->
  (forall t f, In f fs -> waitframe t f -> exists k, nth_error ts t = Some k /\ t_maxw k < t_limit k) ->
  (forall t0 f, In f fs' -> waitframe t0 f ->
      exists k0, nth_error (upd ts t k') t0 = Some k0 /\ t_maxw k0 < t_limit k0).
Proof.
  intros Hk EL EM EF A t0 f Hf W.
  assert (forall f0, In f0 fs -> waitframe t0 f0 ->
     exists k0, nth_error (upd ts t k') t0 = Some k0 /\ t_maxw k0 < t_limit k0) as R.
  { intros f0 Hi W0. destruct (A _ _ Hi W0) as (k0 & Hk0 & L). rewrite nth_error_upd.
    destruct (Nat.eqb_spec t t0) as [<-|N].
    - rewrite Hk. exists k'. split; auto. assert (k0 = k) as -> by congruence. lia.
    - exists k0. auto. }
  destruct (EF _ _ Hf W) as [Hi|[[-> L]|(f0 & Hi & W0)]].
  - eauto.
  - exists k'. split; [|exact L]. eapply nth_error_upd_same; eauto.
  - eauto.
Qed.

(** A uniform lemma: one task is replaced and the acting thread's frames change. *)
Lemma LInv_change ts t k k' fs fs' owed owed' :
  nth_error ts t = Some k ->
  t_limit k' = t_limit k -> t_maxw k' <= t_maxw k ->
  (all_exhausted k -> all_exhausted k') ->
  (t_maxw k' < t_limit k' -> t_maxw k < t_limit k \/ exists f, In f fs' /\ works_on t f = true) ->
  (forall t0 f, In f fs -> works_on t0 f = true ->
       (exists f', In f' fs' /\ works_on t0 f' = true) \/ (t0 = t /\ all_exhausted k')) ->
  (forall t0 f, In f fs' -> waitframe t0 f -> In f fs \/ (t0 = t /\ t_maxw k' < t_limit k')
      \/ exists f0, In f0 fs /\ waitframe t0 f0) ->
  (forall t0, wc t0 fs' + oc t0 owed' <= wc t0 fs + oc t0 owed)%nat ->
  (forall t0, In (Some t0) owed' -> In (Some t0) owed) ->
  (forall t0 k0 cv, In (FLoop (CDone t0) cv true) fs' -> nth_error (upd ts t k') t0 = Some k0 ->
            t_todo k0 = 0 -> In FNotify fs') ->
  LInv ts fs owed -> LInv (upd ts t k') fs' owed'.
Proof.
  intros Hk EL EM EX EW EF EA EC EO EN [H1 H2 H3 H4 H5]. constructor.
  - intros t0. specialize (H1 t0). specialize (EC t0). lia.
  - intros t0 Hi. rewrite upd_length. auto.
  - exact EN.
  - intros t0 k0 Hk0. rewrite nth_error_upd in Hk0.
    destruct (Nat.eqb_spec t t0) as [<-|N].
    + rewrite Hk in Hk0. injection Hk0 as <-. destruct (H4 _ _ Hk) as [L D]. rewrite EL. split; [exact L|].
      intros M. rewrite <- EL in M. destruct (EW M) as [M'|EW']; [|left; exact EW'].
      destruct (D M') as [(f & Hf & W)|X]; auto.
      destruct (EF _ _ Hf W) as [F|[_ X]]; auto.
    + destruct (H4 _ _ Hk0) as [L D]. split; [exact L|]. intros M.
      destruct (D M) as [(f & Hf & W)|X]; auto.
      destruct (EF _ _ Hf W) as [F|[X _]]; auto. congruence.
  - eapply alloc_mono; eauto.
Qed.

Lemma upd_same {A} (l : list A) i x : nth_error l i = Some x -> upd l i x = l.
Proof.
  revert i; induction l as [|y l IH]; intros [|i] H; cbn in *; try discriminate; auto.
  - congruence.
  - f_equal. auto.
Qed.

(** only frames change *)
Lemma LInv_frames ts fs fs' owed owed' :
  (forall t0 f, In f fs -> works_on t0 f = true -> exists f', In f' fs' /\ works_on t0 f' = true) ->
  (forall t0 f, In f fs' -> waitframe t0 f -> exists f0, In f0 fs /\ waitframe t0 f0) ->
  (forall t0, wc t0 fs' + oc t0 owed' <= wc t0 fs + oc t0 owed)%nat ->
  (forall t0, In (Some t0) owed' -> In (Some t0) owed) ->
  (forall t0 k0 cv, In (FLoop (CDone t0) cv true) fs' -> nth_error ts t0 = Some k0 ->
            t_todo k0 = 0 -> In FNotify fs') ->
  LInv ts fs owed -> LInv ts fs' owed'.
Proof.
  intros EF EA EC EO EN [H1 H2 H3 H4 H5]. constructor.
  - intros t0. specialize (H1 t0). specialize (EC t0). lia.
  - auto.
  - exact EN.
  - intros t0 k0 Hk0. destruct (H4 _ _ Hk0) as [L D]. split; [exact L|]. intros M.
    destruct (D M) as [(f & Hf & W)|X]; auto. left. eauto.
  - intros t0 f Hf W. destruct (EA _ _ Hf W) as (f0 & Hf0 & W0). eauto.
Qed.

Lemma LInv_woken ts fs fs' owed :
  woken fs fs' -> LInv ts fs owed -> LInv ts fs' owed.
Proof.
  intros W I.
  assert (forall f', In f' fs' -> exists f, In f fs /\ (f' = f \/ exists h w, f' = wake_frame h w f)) as B.
  { clear I. induction W as [|f f' fs fs' E W IH]; intros g Hg; [easy|].
    destruct Hg as [<-|Hg]; [exists f; split; [now left|exact E]|].
    destruct (IH _ Hg) as (f0 & Hf0 & E0). exists f0. split; [now right|exact E0]. }
  assert (forall f, In f fs -> exists f', In f' fs' /\ (f' = f \/ exists h w, f' = wake_frame h w f)) as Fw.
  { clear I B. induction W as [|f f' fs fs' E W IH]; intros g Hg; [easy|].
    destruct Hg as [<-|Hg]; [exists f'; split; [now left|exact E]|].
    destruct (IH _ Hg) as (f0 & Hf0 & E0). exists f0. split; [now right|exact E0]. }
  assert (forall t0, wc t0 fs' = wc t0 fs) as EC.
  { intros t0. clear I B Fw. induction W as [|f f' fs fs' E W IH]; [reflexivity|].
    rewrite !wc_cons, IH. f_equal. destruct E as [->|(h & w & ->)]; [reflexivity|].
    destruct f as [t' w0 rem cur d hh|t'|c cv b| |]; cbn; auto.
    destruct cv, b, h, w; cbn; auto. }
  eapply LInv_frames; [| | | | |exact I].
  - intros t0 f Hf Wk. destruct (Fw _ Hf) as (f' & Hf' & [->|(h & w & ->)]); eauto.
    eexists; split; [exact Hf'|]. destruct f; cbn in *; auto; try discriminate.
  - intros t0 f' Hf' Wf. destruct (B _ Hf') as (f & Hf & [->|(h & w & ->)]); eauto.
    exists f. split; auto. destruct f as [t' w0 rem cur d hh|t'|c cv b| |]; cbn in Wf; auto.
    destruct Wf as [Wf|(cv' & b' & Wf)]; destruct cv, b, h, w; try discriminate; cbn in Wf;
      try discriminate; right; injection Wf as ->; eauto.
  - intros t0. rewrite EC. lia.
  - auto.
  - intros t0 k0 cv Hi Hk Z0. destruct (B _ Hi) as (f & Hf & E).
    assert (f = FLoop (CDone t0) cv true) as ->.
    { destruct E as [->|(h & w & E)]; [reflexivity|].
      destruct f as [t' w0 rem cur d hh|t'|c cv' b| |]; cbn in E; try discriminate.
      destruct cv', b, h, w; congruence. }
    pose proof (l_wake _ _ _ I _ _ _ Hf Hk Z0) as N. destruct (Fw _ N) as (f' & Hf' & [->|(h & w & ->)]); auto.
Qed.

Lemma oc_upd t owed tid o o' : nth_error owed tid = Some o ->
  (oc t (upd owed tid o') + (if isowed t o then 1 else 0) = oc t owed + (if isowed t o' then 1 else 0))%nat.
Proof.
  intros H. destruct (upd_split _ _ _ H) as (l1 & l2 & -> & _ & Hu). rewrite Hu.
  unfold oc. rewrite !filter_app, !app_length. cbn.
  destruct (isowed t o), (isowed t o'); cbn; lia.
Qed.

Lemma in_upd {A} (l : list A) i x y z : nth_error l i = Some y -> In z (upd l i x) -> z = x \/ In z l.
Proof.
  intros H. destruct (upd_split _ _ _ H) as (l1 & l2 & -> & _ & Hu). rewrite Hu.
  rewrite !in_app_iff. cbn. intuition.
Qed.

Lemma alloc_exhausted k : all_exhausted k -> all_exhausted (alloc_worker k).
Proof. intros H j sh Hs. apply (H j sh). exact Hs. Qed.

(** a task is replaced by one with the same todo, the frames stay *)
Lemma wake_same ts t k k' fs :
  nth_error ts t = Some k -> t_todo k' = t_todo k ->
  (forall t k cv, In (FLoop (CDone t) cv true) fs -> nth_error ts t = Some k -> t_todo k = 0 -> In FNotify fs) ->
  (forall t0 k0 cv, In (FLoop (CDone t0) cv true) fs -> nth_error (upd ts t k') t0 = Some k0 ->
            t_todo k0 = 0 -> In FNotify fs).
Proof.
  intros Hk ET H t0 k0 cv Hi Hk0 Z0. rewrite nth_error_upd in Hk0.
  destruct (Nat.eqb_spec t t0) as [<-|N]; [|eauto].
  rewrite Hk in Hk0. injection Hk0 as <-. eapply H; eauto. lia.
Qed.

Lemma LInv_alloc_fail ts t k fs owed :
  nth_error ts t = Some k -> t_maxw (alloc_worker k) < 0 ->
  LInv ts fs owed -> LInv (upd ts t (alloc_worker k)) fs owed.
Proof.
  intros Hk L I. apply (LInv_change ts t k (alloc_worker k) fs fs owed owed Hk); auto.
  - cbn. lia.
  - intros _. left. destruct (l_cover _ _ _ I _ _ Hk) as [L1 _]. cbn in L. lia.
  - intros t0 f Hf Wk. left. eauto.
  - eapply wake_same; eauto. apply (l_wake _ _ _ I).
Qed.

Lemma LInv_alloc_push ts t k w rem fs owed :
  nth_error ts t = Some k ->
  LInv ts fs owed -> LInv (upd ts t (alloc_worker k)) (FWork t w rem None 0 true :: fs) owed.
Proof.
  intros Hk I. apply (LInv_change ts t k (alloc_worker k) fs _ owed owed Hk); auto.
  - cbn. lia.
  - intros _. right. eexists. split; [now left|]. cbn. apply Nat.eqb_refl.
  - intros t0 f Hf Wk. left. exists f. split; [now right|exact Wk].
  - intros t0 f [<-|Hf] Wf; auto. destruct Wf as [Wf|(cv & b & Wf)]; discriminate.
  - intros t0 k0 cv [Hi|Hi] Hk0 Z0; [discriminate|]. right.
    exact (wake_same _ _ _ (alloc_worker k) _ Hk eq_refl (l_wake _ _ _ I) _ _ _ Hi Hk0 Z0).
Qed.

Lemma LInv_dequeue stk : forall q ts fs owed q' ts' r,
  LInv ts fs owed -> dequeue stk ts q = (q', ts', r) ->
  match r with
  | None => LInv ts' fs owed
  | Some (t, w) => forall rem, LInv ts' (FWork t w rem None 0 true :: fs) owed
  end.
Proof.
  induction q as [|t q IH]; intros ts fs owed q' ts' r I D; cbn [dequeue] in D.
  - injection D as <- <- <-. exact I.
  - destruct (nth_error ts t) as [k|] eqn:Hk; [|injection D as <- <- <-; exact I].
    destruct (all_work_started k).
    { eapply IH; eauto. }
    destruct (mem t stk).
    { destruct (dequeue stk ts q) as [[q1 ts1] r1] eqn:D1. injection D as <- <- <-. eapply IH; eauto. }
    destruct (Z.ltb_spec (t_maxw (alloc_worker k)) 0) as [L|L].
    { eapply IH; [|exact D]. apply LInv_alloc_fail; assumption. }
    destruct (t_maxw (alloc_worker k) =? 0); injection D as <- <- <-;
      intros rem; now apply LInv_alloc_push.
Qed.

(** ** Stacks *)
Fixpoint stack_ok (stk : list frame) : Prop :=
  match stk with
  | [] => True
  | f :: below =>
      match f with
      | FSpin t | FLoop (CDone t) _ _ | FWork t _ _ _ _ false =>
          Forall (fun t2 => (t2 < t)%nat) (task_stack below)
      | FLoop (CPred _) _ _ | FIdle => below = []
      | _ => True
      end /\ ~ In FNotify below /\ stack_ok below
  end.

Lemma task_stack_wake h w stk : task_stack (map (wake_frame h w) stk) = task_stack stk.
Proof.
  unfold task_stack. induction stk as [|f stk IH]; cbn; [reflexivity|]. rewrite IH. f_equal.
  destruct f as [t' w0 rem cur d hh|t'|c cv b| |]; cbn; auto. destruct cv, b, h, w; reflexivity.
Qed.

Lemma notify_wake h w stk : In FNotify (map (wake_frame h w) stk) -> In FNotify stk.
Proof.
  rewrite in_map_iff. intros (f & E & Hf).
  destruct f as [t' w0 rem cur d hh|t'|c cv b| |]; cbn in E; try discriminate; auto.
  destruct cv, b, h, w; discriminate.
Qed.

Lemma stack_ok_wake h w stk : stack_ok stk -> stack_ok (map (wake_frame h w) stk).
Proof.
  induction stk as [|f stk IH]; cbn [map stack_ok]; [auto|]. intros (A & B & C).
  split; [|split; [intros X; apply B; eapply notify_wake; eauto|auto]].
  destruct f as [t' w0 rem cur d [|]|t'|[t'|p] cv b| |]; cbn [wake_frame] in *; rewrite ?task_stack_wake; auto.
  - destruct cv, b, h, w; cbn; rewrite ?task_stack_wake; auto.
  - subst stk. destruct cv, b, h, w; cbn; auto.
  - subst. reflexivity.
Qed.

Definition owed_ok (owed : list (option nat)) (ths : list (list frame)) : Prop :=
  forall tid t stk, nth_error owed tid = Some (Some t) -> nth_error ths tid = Some stk ->
    Forall (fun t2 => (t2 < t)%nat) (task_stack stk).

Record FInv (s : state) (owed : list (option nat)) : Prop := {
  f_s : SInv s;
  f_l : LInv (tasks s) (frames s) owed;
  f_stk : Forall stack_ok (threads s);
  f_owed : owed_ok owed (threads s);
  f_user : forall tid t stk, nth_error owed tid = Some (Some t) -> nth_error (threads s) tid = Some stk ->
            user_code stk = true
}.

Lemma Forall_upd {A} (P : A -> Prop) l i x : Forall P l -> P x -> Forall P (upd l i x).
Proof. intros F Px. revert i; induction F as [|y l Hy F IH]; intros [|i]; cbn; auto. Qed.

Lemma wake_all_nth h w ths tid : nth_error (wake_all h w ths) tid =
  match nth_error ths tid with Some stk => Some (map (wake_frame h w) stk) | None => None end.
Proof.
  unfold wake_all. revert tid; induction ths as [|x l IH]; intros [|tid]; cbn; auto.
Qed.

Lemma user_code_wake h w stk : user_code (map (wake_frame h w) stk) = user_code stk.
Proof.
  destruct stk as [|f stk]; cbn; [reflexivity|].
  destruct f as [t' w0 rem cur d hh|t'|c cv b| |]; cbn; auto. destruct cv, b, h, w; reflexivity.
Qed.

(** the part of [FInv] that speaks of threads survives any wake-up *)
Definition TInv (ths : list (list frame)) (owed : list (option nat)) : Prop :=
  Forall stack_ok ths /\ owed_ok owed ths /\
  (forall tid t stk, nth_error owed tid = Some (Some t) -> nth_error ths tid = Some stk -> user_code stk = true).

Lemma TInv_wake_all h w ths owed : TInv ths owed -> TInv (wake_all h w ths) owed.
Proof.
  intros (A & B & C). repeat split.
  - unfold wake_all. apply Forall_map. eapply Forall_impl; [|exact A]. intros; now apply stack_ok_wake.
  - intros tid t stk Ho Hs. rewrite wake_all_nth in Hs. destruct (nth_error ths tid) as [stk0|] eqn:E; [|discriminate].
    injection Hs as <-. rewrite task_stack_wake. eauto.
  - intros tid t stk Ho Hs. rewrite wake_all_nth in Hs. destruct (nth_error ths tid) as [stk0|] eqn:E; [|discriminate].
    injection Hs as <-. rewrite user_code_wake. eauto.
Qed.

Lemma TInv_wake_one h w i ths owed : TInv ths owed -> TInv (wake_one h w i ths) owed.
Proof.
  intros (A & B & C). unfold wake_one. destruct (nth_error ths i) as [stk|] eqn:E; [|repeat split; auto].
  repeat split.
  - apply Forall_upd; auto. apply stack_ok_wake. rewrite Forall_forall in A. apply A. eapply nth_error_In; eauto.
  - intros tid t stk' Ho Hs. rewrite nth_error_upd in Hs. destruct (Nat.eqb_spec i tid) as [<-|N]; [|eauto].
    rewrite E in Hs. injection Hs as <-. rewrite task_stack_wake. eauto.
  - intros tid t stk' Ho Hs. rewrite nth_error_upd in Hs. destruct (Nat.eqb_spec i tid) as [<-|N]; [|eauto].
    rewrite E in Hs. injection Hs as <-. rewrite user_code_wake. eauto.
Qed.

(** the acting thread's stack is replaced; it owes nothing afterwards *)
Lemma TInv_upd ths owed tid stk' :
  TInv ths owed -> stack_ok stk' -> TInv (upd ths tid stk') (upd owed tid None).
Proof.
  intros (A & B & C) S. repeat split.
  - now apply Forall_upd.
  - intros tid' t stk Ho Hs. rewrite nth_error_upd in Ho. rewrite nth_error_upd in Hs. destruct (Nat.eqb_spec tid tid') as [<-|N]; [|eauto].
    destruct (nth_error owed tid); discriminate.
  - intros tid' t stk Ho Hs. rewrite nth_error_upd in Ho. rewrite nth_error_upd in Hs. destruct (Nat.eqb_spec tid tid') as [<-|N]; [|eauto].
    destruct (nth_error owed tid); discriminate.
Qed.

Lemma stack_ok_inv f stk : stack_ok (f :: stk) -> stack_ok stk /\ ~ In FNotify stk.
Proof. cbn. intuition. Qed.

Lemma in_app_cons_mid {A} (x : A) l1 l2 : In x (l1 ++ x :: l2).
Proof. apply in_or_app. right. now left. Qed.

Ltac frs s tid Ht :=
  match goal with |- context [upd (threads s) tid ?x] =>
    destruct (frames_upd s tid _ x Ht) as (rest & P1 & P2) end.

Lemma LInv_step_frame s tid stk stk' ts' owed owed' :
  nth_error (threads s) tid = Some stk ->
  (forall rest, SInv s -> Inv (tasks s) (stk ++ rest) (started s) (finished s) (completed s) (returned s) ->
     LInv (tasks s) (stk ++ rest) owed -> LInv ts' (stk' ++ rest) owed') ->
  SInv s -> LInv (tasks s) (frames s) owed ->
  LInv ts' (concat (upd (threads s) tid stk')) owed'.
Proof.
  intros Ht H I L. destruct (frames_upd s tid _ stk' Ht) as (rest & P1 & P2).
  eapply LInv_perm; [symmetry; exact P2|]. apply H; [exact I| |].
  - eapply Inv_perm; [exact P1|exact I].
  - eapply LInv_perm; [exact P1|exact L].
Qed.

(** pushing or replacing a top frame that neither works nor waits *)
Definition plain (f : frame) : Prop := (forall t, works_on t f = false) /\ (forall t, waitsb t f = false).
Lemma plain_not_wait t f : plain f -> waitframe t f -> False.
Proof.
  intros [_ H] [->|(cv & b & ->)]; specialize (H t); cbn in H; rewrite Nat.eqb_refl in H; discriminate.
Qed.

Lemma LInv_push_plain ts f fs owed : plain f -> LInv ts fs owed -> LInv ts (f :: fs) owed.
Proof.
  intros P I. eapply LInv_frames; [| | | | |exact I].
  - intros t0 g Hg Wk. exists g. split; [now right|exact Wk].
  - intros t0 g [<-|Hg] Wf; [exfalso; eapply plain_not_wait; eauto|]. eauto.
  - intros t0. rewrite wc_cons. destruct P as [_ P]. rewrite P. lia.
  - auto.
  - intros t0 k0 cv [Hi|Hi] Hk Z0.
    + exfalso. subst f. destruct P as [_ P]. specialize (P t0). cbn in P. rewrite Nat.eqb_refl in P. discriminate.
    + right. exact (l_wake _ _ _ I _ _ _ Hi Hk Z0).
Qed.

Lemma LInv_pop ts f fs owed :
  (forall t, works_on t f = false) -> f <> FNotify -> LInv ts (f :: fs) owed -> LInv ts fs owed.
Proof.
  intros Nw Nn I. eapply LInv_frames; [| | | | |exact I].
  - intros t0 g [<-|Hg] Wk; [rewrite Nw in Wk; discriminate|]. eauto.
  - intros t0 g Hg Wf. exists g. split; [now right|exact Wf].
  - intros t0. rewrite wc_cons. destruct (waitsb t0 f); lia.
  - auto.
  - intros t0 k0 cv Hi Hk Z0. destruct (l_wake _ _ _ I _ _ _ (or_intror Hi) Hk Z0) as [E|E]; [congruence|exact E].
Qed.

(** replace a frame by another of the same kind for the same task *)
Lemma LInv_swap ts f f' fs owed :
  (forall t, works_on t f' = works_on t f) -> (forall t, waitsb t f' = waitsb t f) ->
  (forall t, waitframe t f' -> waitframe t f) ->
  (forall t cv, f' <> FLoop (CDone t) cv true) -> f <> FNotify ->
  LInv ts (f :: fs) owed -> LInv ts (f' :: fs) owed.
Proof.
  intros E1 E2 E3 E4 E5 I. eapply LInv_frames; [| | | | |exact I].
  - intros t0 g [<-|Hg] Wk.
    + exists f'. split; [now left|]. now rewrite E1.
    + exists g. split; [now right|exact Wk].
  - intros t0 g [<-|Hg] Wf.
    + exists f. split; [now left|auto].
    + exists g. split; [now right|exact Wf].
  - intros t0. rewrite !wc_cons, E2. lia.
  - auto.
  - intros t0 k0 cv [Hi|Hi] Hk Z0; [exfalso; eapply E4; eauto|].
    right. destruct (l_wake _ _ _ I _ _ _ (or_intror Hi) Hk Z0) as [E|E]; [congruence|exact E].
Qed.

Lemma report_fields k d : 0 <= d ->
  t_shards (reported k d) = t_shards k /\ t_maxw (reported k d) = t_maxw k /\
  t_limit (reported k d) = t_limit k /\ t_todo (reported k d) = t_todo k - d.
Proof. intros H. unfold reported. destruct (Z.ltb_spec 0 d); cbn; repeat split; auto. lia. Qed.

Lemma frame_done_exhausted ts t k w d h : nth_error ts t = Some k ->
  frame_ok ts (FWork t w [] None d h) -> all_exhausted k /\ 0 <= d.
Proof.
  intros Hk (k1 & Hk1 & Hd & Hs & _). assert (k1 = k) as -> by congruence. split; [|exact Hd].
  intros j sh Hj. destruct (Hs _ _ Hj) as [[]|E]. exact E.
Qed.

(** AReport from the helper loop *)
Lemma LInv_report_helper ts t k w d fs owed :
  nth_error ts t = Some k -> Forall (frame_ok ts) (FWork t w [] None d true :: fs) ->
  LInv ts (FWork t w [] None d true :: fs) owed ->
  let compl := (0 <? d) && (t_todo (reported k d) =? 0) in
  LInv (upd ts t (reported k d)) (if compl then FNotify :: fs else fs) owed.
Proof.
  intros Hk F I compl. inversion F as [|? ? F1 F2]; subst.
  destruct (frame_done_exhausted _ _ _ _ _ _ Hk F1) as [EX Hd].
  destruct (report_fields k d Hd) as (ES & EM & EL & ET).
  assert (forall x, In x fs -> In x (if compl then FNotify :: fs else fs)) as Sub by (intros; destruct compl; cbn; auto).
  assert (all_exhausted (reported k d)) as EX' by (unfold all_exhausted; rewrite ES; exact EX).
  eapply (LInv_change ts t k (reported k d) _ _ owed owed); [exact Hk|exact EL|lia|auto| | | | |auto| |exact I].
  - rewrite EM, EL. auto.
  - intros t0 f [<-|Hf] Wk.
    + cbn in Wk. apply Nat.eqb_eq in Wk as ->. auto.
    + left. eauto.
  - intros t0 f Hf Wf. right. right. exists f. split; [|exact Wf]. right.
    destruct compl; [destruct Hf as [<-|Hf]|]; auto. destruct Wf as [Wf|(? & ? & Wf)]; discriminate.
  - intros t0. assert (wc t0 (if compl then FNotify :: fs else fs) = wc t0 fs) as -> by (destruct compl; [rewrite wc_cons|]; reflexivity).
    rewrite wc_cons. lia.
  - intros t0 k0 cv Hi Hk0 Z0. unfold compl in *.
    destruct (Z.ltb_spec 0 d) as [Hd0|Hd0]; cbn [andb] in *.
    + destruct (Z.eqb_spec (t_todo (reported k d)) 0) as [Z1|Z1]; [now left|].
      rewrite nth_error_upd in Hk0. destruct (Nat.eqb_spec t t0) as [<-|N].
      { rewrite Hk in Hk0. congruence. }
      destruct (l_wake _ _ _ I _ _ _ (or_intror Hi) Hk0 Z0) as [E|E]; [discriminate|exact E].
    + assert (d = 0) as -> by lia.
      rewrite nth_error_upd in Hk0. destruct (Nat.eqb_spec t t0) as [<-|N].
      * rewrite Hk in Hk0. injection Hk0 as <-.
        destruct (l_wake _ _ _ I _ _ _ (or_intror Hi) Hk) as [E|E]; [lia|discriminate|exact E].
      * destruct (l_wake _ _ _ I _ _ _ (or_intror Hi) Hk0 Z0) as [E|E]; [discriminate|exact E].
Qed.

(** AReport from wait_for(task ptr): the task completed or a spin frame follows *)
Lemma LInv_report_self ts t k w d (spin : bool) fs owed :
  nth_error ts t = Some k -> Forall (frame_ok ts) (FWork t w [] None d false :: fs) ->
  t_maxw k < t_limit k ->
  LInv ts (FWork t w [] None d false :: fs) owed ->
  LInv (upd ts t (reported k d)) (if spin then FSpin t :: fs else fs) owed.
Proof.
  intros Hk F LM I. inversion F as [|? ? F1 F2]; subst.
  destruct (frame_done_exhausted _ _ _ _ _ _ Hk F1) as [EX Hd].
  destruct (report_fields k d Hd) as (ES & EM & EL & ET).
  assert (all_exhausted (reported k d)) as EX' by (unfold all_exhausted; rewrite ES; exact EX).
  eapply (LInv_change ts t k (reported k d) _ _ owed owed); [exact Hk|exact EL|lia|auto| | | | |auto| |exact I].
  - rewrite EM, EL. auto.
  - intros t0 f [<-|Hf] Wk.
    + cbn in Wk. apply Nat.eqb_eq in Wk as ->. auto.
    + left. exists f. split; [|exact Wk]. destruct spin; cbn; auto.
  - intros t0 f Hf Wf. destruct spin; [destruct Hf as [<-|Hf]|].
    + right. left. destruct Wf as [Wf|(? & ? & Wf)]; [|discriminate]. injection Wf as <-. split; [reflexivity|lia].
    + left. now right.
    + left. now right.
  - intros t0. rewrite wc_cons. cbn [waitsb].
    destruct spin; [rewrite wc_cons; cbn [waitsb]|]; destruct (Nat.eqb t0 t); lia.
  - intros t0 k0 cv Hi Hk0 Z0.
    assert (In (FLoop (CDone t0) cv true) fs) as Hi' by (destruct spin; [destruct Hi as [Hi|Hi]; [discriminate|exact Hi]|exact Hi]).
    rewrite nth_error_upd in Hk0. destruct (Nat.eqb_spec t t0) as [<-|N].
    + exfalso. pose proof (l_single _ _ _ I t) as S1. rewrite wc_cons in S1. cbn [waitsb] in S1.
      rewrite Nat.eqb_refl in S1. assert (wc t fs = 0%nat) as W0 by lia.
      pose proof (wc_zero _ _ W0 _ Hi') as X. cbn in X. rewrite Nat.eqb_refl in X. discriminate.
    + assert (In FNotify fs) as N'.
      { destruct (l_wake _ _ _ I _ _ _ (or_intror Hi') Hk0 Z0) as [E|E]; [discriminate|exact E]. }
      destruct spin; cbn; auto.
Qed.

(** AFetch *)
Lemma LInv_fetch ts t k j sh w rem rem' cur d h fs owed :
  nth_error ts t = Some k -> nth_error (t_shards k) j = Some sh ->
  LInv ts (FWork t w rem None d h :: fs) owed ->
  LInv (upd ts t (Task (t_n k) (t_limit k) (t_maxw k) (t_todo k) (upd (t_shards k) j (bump sh))))
       (FWork t w rem' cur d h :: fs) owed.
Proof.
  intros Hk Hs I. set (k' := Task _ _ _ _ _).
  assert (all_exhausted k -> all_exhausted k') as EX.
  { intros E j' sh' Hj. unfold k' in Hj. cbn in Hj. rewrite nth_error_upd in Hj.
    destruct (Nat.eqb_spec j j') as [<-|N]; [|eauto]. rewrite Hs in Hj. injection Hj as <-.
    specialize (E _ _ Hs). unfold exhausted, bump in *. cbn. lia. }
  eapply (LInv_change ts t k k' _ _ owed owed); [exact Hk|reflexivity|cbn; lia|exact EX| | | | |auto| |exact I].
  - cbn. auto.
  - intros t0 f [<-|Hf] Wk; left.
    + eexists. split; [now left|]. exact Wk.
    + exists f. split; [now right|exact Wk].
  - intros t0 f [<-|Hf] Wf; [destruct Wf as [Wf|(? & ? & Wf)]; discriminate|]. left. now right.
  - intros t0. rewrite !wc_cons. cbn [waitsb]. lia.
  - intros t0 k0 cv [Hi|Hi] Hk0 Z0; [discriminate|]. right.
    assert (exists k1, nth_error ts t0 = Some k1 /\ t_todo k1 = 0) as (k1 & Hk1 & Z1).
    { rewrite nth_error_upd in Hk0. destruct (Nat.eqb_spec t t0) as [<-|N]; [|eauto].
      rewrite Hk in Hk0. injection Hk0 as <-. exists k. auto. }
    destruct (l_wake _ _ _ I _ _ _ (or_intror Hi) Hk1 Z1) as [E|E]; [discriminate|exact E].
Qed.

(** AWaitTask: the owed wait starts *)
Lemma LInv_wait ts t k tid w rem fs owed (ok : bool) :
  nth_error ts t = Some k -> nth_error owed tid = Some (Some t) ->
  (ok = false -> t_maxw (alloc_worker k) < 0) ->
  t_maxw k <= t_limit k ->
  LInv ts fs owed ->
  LInv (upd ts t (alloc_worker k))
       ((if ok then FWork t w rem None 0 false else FSpin t) :: fs) (upd owed tid None).
Proof.
  intros Hk Ho L ML I.
  pose proof (l_cover _ _ _ I _ _ Hk) as [L1 _].
  eapply (LInv_change ts t k (alloc_worker k) fs); [exact Hk|reflexivity|cbn; lia|auto| | | | | | |exact I].
  - intros _. destruct ok.
    + right. eexists. split; [now left|]. cbn. apply Nat.eqb_refl.
    + left. specialize (L eq_refl). cbn in L. lia.
  - intros t0 f Hf Wk. left. exists f. split; [now right|exact Wk].
  - intros t0 f [<-|Hf] Wf; [|auto]. destruct ok; destruct Wf as [Wf|(? & ? & Wf)]; try discriminate.
    injection Wf as <-. right. left. split; [reflexivity|]. cbn. lia.
  - intros t0. pose proof (oc_upd t0 owed tid (Some t) None Ho) as E. cbn [isowed] in E.
    rewrite wc_cons. assert (waitsb t0 (if ok then FWork t w rem None 0 false else FSpin t) = Nat.eqb t0 t) as -> by (destruct ok; reflexivity).
    destruct (Nat.eqb t0 t); lia.
  - intros t0 Hi. apply (in_upd _ _ _ _ _ Ho) in Hi as [Hi|Hi]; [discriminate|exact Hi].
  - intros t0 k0 cv [Hi|Hi] Hk0 Z0; [destruct ok; discriminate|]. right.
    exact (wake_same _ _ _ (alloc_worker k) _ Hk eq_refl (l_wake _ _ _ I) _ _ _ Hi Hk0 Z0).
Qed.

Lemma wc_fresh ts fs t : Forall (frame_ok ts) fs -> (length ts <= t)%nat -> wc t fs = 0%nat.
Proof.
  intros F L. induction F as [|f fs F _ IH]; [reflexivity|]. rewrite wc_cons, IH.
  destruct (waitsb t f) eqn:W; [|reflexivity]. exfalso.
  destruct f as [t' w rem cur d [|]|t'|[t'|p] cv b| |]; cbn in *; try discriminate;
    apply Nat.eqb_eq in W; subst.
  - destruct F as (k & Hk & _). apply nth_error_lt in Hk. lia.
  - lia.
  - lia.
Qed.

Lemma oc_zero t owed : (forall t0, In (Some t0) owed -> (t0 < t)%nat) -> oc t owed = 0%nat.
Proof.
  unfold oc. induction owed as [|o owed IH]; intros H; cbn; [reflexivity|].
  destruct o as [t0|]; cbn.
  - destruct (Nat.eqb_spec t t0) as [->|N]; [specialize (H t0 (or_introl eq_refl)); lia|].
    apply IH. intros; apply H. now right.
  - apply IH. intros; apply H. now right.
Qed.

(** AEnqueue: a new task, owed by the caller *)
Lemma LInv_enqueue ts k tid fs owed :
  Forall (frame_ok ts) fs -> nth_error owed tid = Some None ->
  1 <= t_limit k -> t_maxw k = t_limit k ->
  LInv ts fs owed -> LInv (ts ++ [k]) fs (upd owed tid (Some (length ts))).
Proof.
  intros F Ho L1 EM I. constructor.
  - intros t. pose proof (oc_upd t owed tid None (Some (length ts)) Ho) as E. cbn [isowed] in E.
    pose proof (l_single _ _ _ I t) as S1. destruct (Nat.eqb_spec t (length ts)) as [Et|N]; [|lia].
    rewrite (wc_fresh _ _ t F) in * by lia.
    rewrite (oc_zero t owed) in E by (rewrite Et; apply (l_owed _ _ _ I)). lia.
  - intros t Hi. rewrite app_length. cbn. apply (in_upd _ _ _ _ _ Ho) in Hi as [Hi|Hi].
    + injection Hi as ->. lia.
    + pose proof (l_owed _ _ _ I _ Hi). lia.
  - intros t k0 cv Hi Hk Z0. apply nth_error_snoc in Hk as [Hk|[-> ->]].
    + exact (l_wake _ _ _ I _ _ _ Hi Hk Z0).
    + exfalso. rewrite Forall_forall in F. specialize (F _ Hi). cbn in F. lia.
  - intros t k0 Hk. apply nth_error_snoc in Hk as [Hk|[-> ->]].
    + exact (l_cover _ _ _ I _ _ Hk).
    + split; [exact L1|lia].
  - intros t f Hf Wf. destruct (l_alloc _ _ _ I _ _ Hf Wf) as (k0 & Hk0 & M). exists k0. split; [|exact M].
    rewrite nth_error_app1; auto. eapply nth_error_lt; eauto.
Qed.

(** ACheck falls asleep: the condition is false *)
Lemma LInv_sleep ts c cv sl fs owed :
  (forall t k, c = CDone t -> nth_error ts t = Some k -> t_todo k <> 0) ->
  LInv ts (FLoop c cv false :: fs) owed -> LInv ts (FLoop c cv sl :: fs) owed.
Proof.
  intros NC I. eapply LInv_frames; [| | | | |exact I].
  - intros t0 g [<-|Hg] Wk; [discriminate|]. exists g. split; [now right|exact Wk].
  - intros t0 g [<-|Hg] Wf.
    + exists (FLoop c cv false). split; [now left|]. destruct Wf as [Wf|(cv' & b & Wf)]; [discriminate|].
      injection Wf as -> _ _. right. eauto.
    + exists g. split; [now right|exact Wf].
  - intros t0. rewrite !wc_cons. cbn. lia.
  - auto.
  - intros t0 k0 cv0 [Hi|Hi] Hk Z0.
    + injection Hi as -> _ _. exfalso. eapply NC; eauto.
    + right. destruct (l_wake _ _ _ I _ _ _ (or_intror Hi) Hk Z0) as [E|E]; [discriminate|exact E].
Qed.

Lemma user_code_no_notify stk : user_code stk = true -> stack_ok stk -> ~ In FNotify stk.
Proof.
  destruct stk as [|f stk]; [intros _ _ []|]. cbn. intros U (_ & N & _) [E|E]; [subst; discriminate|auto].
Qed.

Lemma upd_owed_same (owed : list (option nat)) tid : nth_error owed tid = Some None -> upd owed tid None = owed.
Proof. apply upd_same. Qed.

Lemma step_other_live s owed tid stk a s' :
  nth_error (threads s) tid = Some stk -> nth_error owed tid = Some None ->
  step s tid a = Some s' ->
  match a with
  | AEnqueue _ _ _ _ | AWaitTask _ => False
  | AWaitPred _ _ | AEnterIdle => stk = []
  | _ => True
  end ->
  SInv s -> LInv (tasks s) (frames s) owed -> TInv (threads s) owed ->
  LInv (tasks s') (frames s') owed /\ TInv (threads s') owed.
Proof.
  intros Ht Ho H OK I L T.
  assert (stack_ok stk) as S0.
  { destruct T as (A & _). rewrite Forall_forall in A. apply A. eapply nth_error_In; eauto. }
  assert (forall stk', stack_ok stk' -> TInv (upd (threads s) tid stk') owed) as TU.
  { intros stk' S'. rewrite <- (upd_owed_same owed tid Ho). now apply TInv_upd. }
  unfold step in H. rewrite Ht in H.
  destruct a as [n maxw hw ww|t|p cv|p b| | | | | |sl| | | |]; try easy.
  - (* AWaitPred *)
    subst stk. cbn [user_code] in H. injection H as <-. unfold frames. cbn [set_thread tasks threads].
    split; [|apply TU; cbn; auto].
    eapply LInv_step_frame; eauto. intros rest _ _ Lr. cbn [app].
    apply LInv_push_plain; [|exact Lr]. split; intros; reflexivity.
  - (* AAtomicSet *)
    destruct (user_code stk); [|discriminate]. injection H as <-. unfold frames. cbn [tasks threads].
    split; [|now apply TInv_wake_all]. eapply LInv_woken; [apply woken_all|exact L].
  - (* AFetch *)
    destruct stk as [|[t w [|j rem] [i|] dn h|t|c cv b| |] below]; try discriminate.
    destruct (nth_error (tasks s) t) as [k|] eqn:Hk; [|discriminate].
    destruct (nth_error (t_shards k) j) as [sh|] eqn:Hs; [|discriminate].
    assert (forall rem' cur, stack_ok (FWork t w rem' cur dn h :: below)) as S1 by (intros; exact S0).
    destruct (Z.leb_spec (s_end sh) (s_i sh)) as [Lx|Lx]; injection H as <-; unfold frames; cbn [tasks threads];
      (split; [|apply TU; apply S1]);
      (eapply LInv_step_frame; eauto; intros rest _ _ Lr; cbn [app] in *;
       exact (LInv_fetch _ _ _ _ _ _ _ _ _ _ _ _ _ Hk Hs Lr)).
  - (* AFinish *)
    destruct stk as [|[t w rem [i|] dn h|t|c cv b| |] below]; try discriminate.
    injection H as <-. unfold frames. cbn [tasks threads].
    split; [|apply TU; exact S0].
    eapply LInv_step_frame; eauto. intros rest _ _ Lr. cbn [app] in *.
    eapply LInv_swap; [| | | | |exact Lr]; try (intros; reflexivity); try discriminate.
    intros t0 [Wf|(? & ? & Wf)]; discriminate.
  - (* AReport *)
    destruct stk as [|[t w [|j rem] [i|] dn h|t|c cv b| |] below]; try discriminate.
    destruct (nth_error (tasks s) t) as [k|] eqn:Hk; [|discriminate].
    change (if 0 <? dn then Task (t_n k) (t_limit k) (t_maxw k) (t_todo k - dn) (t_shards k) else k)
      with (reported k dn) in H.
    cbv zeta in H. destruct (stack_ok_inv _ _ S0) as [S1 S2].
    assert (h = false -> t_maxw k < t_limit k) as LM.
    { intros ->. destruct I as [I1 _ _ _ _]. destruct (I1 _ _ Hk) as [_ _ _ _ _ _ B7 _ _].
      rewrite Forall_forall in B7. enough (In w (wids t (frames s))) as Hi by (specialize (B7 _ Hi); lia).
      unfold wids. apply in_flat_map. exists (FWork t w [] None dn false). split.
      - unfold frames. apply in_concat. eexists. split; [eapply nth_error_In; exact Ht|]. now left.
      - cbn. rewrite Nat.eqb_refl. now left. }
    destruct h.
    + injection H as <-. unfold frames. cbn [tasks threads]. split.
      * eapply LInv_step_frame; eauto. intros rest _ Ir Lr. cbn [app] in *.
        pose proof (LInv_report_helper _ _ _ _ _ _ _ Hk (i_frames _ _ _ _ _ _ Ir) Lr) as J. cbv zeta in J.
        destruct ((0 <? dn) && (t_todo (reported k dn) =? 0)); exact J.
      * apply TU. destruct ((0 <? dn) && (t_todo (reported k dn) =? 0)); cbn; auto.
    + destruct ((0 <? dn) && (t_todo (reported k dn) =? 0) && done (reported k dn)) eqn:C.
      * injection H as <-. unfold frames. cbn [tasks threads]. split; [|now apply TU].
        eapply LInv_step_frame; eauto. intros rest _ Ir Lr. cbn [app] in *.
        exact (LInv_report_self _ _ _ _ _ false _ _ Hk (i_frames _ _ _ _ _ _ Ir) (LM eq_refl) Lr).
      * injection H as <-. unfold frames. cbn [tasks threads]. split.
        -- eapply LInv_step_frame; eauto. intros rest _ Ir Lr. cbn [app] in *.
           exact (LInv_report_self _ _ _ _ _ true _ _ Hk (i_frames _ _ _ _ _ _ Ir) (LM eq_refl) Lr).
        -- apply TU. cbn in S0 |- *. intuition.
  - (* ASpinDone *)
    destruct stk as [|[t w rem cur dn h|t|c cv b| |] below]; try discriminate.
    destruct (nth_error (tasks s) t) as [k|] eqn:Hk; [|discriminate].
    destruct (done k) eqn:D; [|discriminate]. destruct (stack_ok_inv _ _ S0) as [S1 S2].
    injection H as <-. unfold frames. cbn [tasks threads]. split; [|now apply TU].
    eapply LInv_step_frame; eauto. intros rest _ _ Lr. cbn [app] in *.
    eapply LInv_pop; [| |exact Lr]; [reflexivity|discriminate].
  - (* ASpinGiveUp *)
    destruct stk as [|[t w rem cur dn h|t|c cv b| |] below]; try discriminate.
    injection H as <-. unfold frames. cbn [set_thread tasks threads]. split; [|apply TU; cbn in *; auto].
    eapply LInv_step_frame; eauto. intros rest _ _ Lr. cbn [app] in *.
    eapply LInv_swap; [| | | | |exact Lr]; try (intros; reflexivity); try discriminate.
    intros t0 [Wf|(? & ? & Wf)]; [discriminate|]. injection Wf as <- _ _. now left.
  - (* ACheck *)
    destruct stk as [|[t w rem cur dn h|t|c cv [|]| |] below]; try discriminate.
    destruct (stack_ok_inv _ _ S0) as [S1 S2].
    destruct (cond_holds s c) eqn:C.
    + injection H as <-. unfold frames. cbn [tasks threads]. split; [|now apply TU].
      eapply LInv_step_frame; eauto. intros rest _ _ Lr. cbn [app] in *.
      eapply LInv_pop; [| |exact Lr]; [reflexivity|discriminate].
    + destruct (dequeue (task_stack (FLoop c cv false :: below)) (tasks s) (queue s)) as [[q' ts'] r] eqn:D.
      injection H as <-. unfold frames. cbn [tasks threads]. split.
      * eapply LInv_step_frame; eauto. intros rest _ Ir Lr.
        pose proof (LInv_dequeue _ _ _ _ _ _ _ _ Lr D) as J.
        pose proof (Inv_dequeue _ _ _ _ _ _ _ _ _ _ _ Ir D) as J'.
        destruct r as [[t w]|].
        -- destruct J' as (k' & Hk' & _). rewrite Hk'. apply J.
        -- cbn [app] in *. apply LInv_sleep; [|exact J].
           intros t k -> Hk. cbn [cond_holds] in C.
           destruct (nth_error (tasks s) t) as [k0|] eqn:Hk0.
           ++ assert (forall q ts q' ts' r stk, dequeue stk ts q = (q', ts', r) ->
                 forall t k, nth_error ts t = Some k -> exists k', nth_error ts' t = Some k' /\ t_todo k' = t_todo k) as DT.
              { clear. induction q as [|t q IH]; intros ts q' ts' r stk D t0 k0 Hk0; cbn [dequeue] in D.
                - injection D as <- <- <-. eauto.
                - destruct (nth_error ts t) as [k|] eqn:Hk; [|injection D as <- <- <-; eauto].
                  destruct (all_work_started k); [eauto|]. destruct (mem t stk).
                  + destruct (dequeue stk ts q) as [[q1 ts1] r1] eqn:D1. injection D as <- <- <-. eauto.
                  + assert (exists k', nth_error (upd ts t (alloc_worker k)) t0 = Some k' /\ t_todo k' = t_todo k0) as (k' & Hk' & E).
                    { rewrite nth_error_upd. destruct (Nat.eqb_spec t t0) as [<-|N]; [|eauto].
                      rewrite Hk. exists (alloc_worker k). split; auto. cbn. congruence. }
                    destruct (t_maxw (alloc_worker k) <? 0).
                    * destruct (IH _ _ _ _ _ D _ _ Hk') as (k2 & Hk2 & E2). exists k2. split; auto. congruence.
                    * destruct (t_maxw (alloc_worker k) =? 0); injection D as <- <- <-; eauto. }
              destruct (DT _ _ _ _ _ _ D _ _ Hk0) as (k2 & Hk2 & E2).
              unfold done in C. apply Z.eqb_neq in C. congruence.
           ++ exfalso. pose proof (i_frames _ _ _ _ _ _ Ir) as F. inversion F as [|? ? F1 F2]; subst.
              cbn in F1. destruct F1 as [F1 _]. apply nth_error_None in Hk0. lia.
      * apply TU. destruct r as [[t w]|].
        -- destruct (nth_error ts' t) as [k'|]; [|exact S0].
           cbn [stack_ok]. split; [exact Logic.I|]. split; [|exact S0].
           intros [X|X]; [discriminate|auto].
        -- exact S0.
  - (* ASpurious *)
    destruct stk as [|[t w rem cur dn h|t|c cv [|]| |] below]; try discriminate.
    injection H as <-. unfold frames. cbn [set_thread tasks threads]. split; [|apply TU; exact S0].
    eapply LInv_step_frame; eauto. intros rest _ _ Lr. cbn [app] in *.
    eapply LInv_swap; [| | | | |exact Lr]; try (intros; reflexivity); try discriminate.
    intros t0 [Wf|(? & ? & Wf)]; [discriminate|]. injection Wf as -> _ _. right. eauto.
  - (* ANotify *)
    destruct stk as [|[t w rem cur dn h|t|c cv b| |] below]; try discriminate.
    destruct (stack_ok_inv _ _ S0) as [S1 S2].
    injection H as <-. unfold frames. cbn [tasks threads]. split.
    + assert (forall f, In f (concat (wake_all true false (upd (threads s) tid below))) ->
         forall t, f <> FLoop (CDone t) CvHelper true) as NA.
      { intros f Hf t. apply in_concat in Hf as (x & Hx & Hf). unfold wake_all in Hx.
        apply in_map_iff in Hx as (y & <- & Hy). apply in_map_iff in Hf as (g & <- & Hg).
        destruct g as [t' w0 rem cur d hh|t'|c cv b| |]; cbn; try discriminate.
        destruct cv, b; cbn; discriminate. }
      assert (woken (concat (upd (threads s) tid below)) (concat (wake_all true false (upd (threads s) tid below)))) as W
        by apply woken_all.
      assert (forall f', In f' (concat (wake_all true false (upd (threads s) tid below))) ->
                exists f, In f (concat (upd (threads s) tid below)) /\ f' = wake_frame true false f) as B.
      { intros f Hf. apply in_concat in Hf as (x & Hx & Hf). unfold wake_all in Hx.
        apply in_map_iff in Hx as (y & <- & Hy). apply in_map_iff in Hf as (g & <- & Hg).
        exists g. split; [|reflexivity]. apply in_concat. eauto. }
      assert (forall f, In f (concat (upd (threads s) tid below)) ->
                In (wake_frame true false f) (concat (wake_all true false (upd (threads s) tid below)))) as Fw.
      { intros f Hf. apply in_concat in Hf as (x & Hx & Hf). apply in_concat.
        exists (map (wake_frame true false) x). split; [unfold wake_all; now apply in_map|now apply in_map]. }
      destruct (frames_upd s tid _ below Ht) as (rest & P1 & P2).
      assert (forall f, In f (concat (upd (threads s) tid below)) -> In f (frames s)) as Sub.
      { intros f Hf. eapply Permutation_in in Hf; [|exact P2]. eapply Permutation_in; [symmetry; exact P1|].
        cbn. right. exact Hf. }
      assert (forall f, In f (frames s) -> f <> FNotify -> In f (concat (upd (threads s) tid below))) as Sup.
      { intros f Hf N. eapply Permutation_in in Hf; [|exact P1]. eapply Permutation_in; [symmetry; exact P2|].
        cbn in Hf. destruct Hf as [<-|Hf]; [congruence|exact Hf]. }
      eapply LInv_frames; [| | | | |exact L].
      * intros t0 f Hf Wk. exists (wake_frame true false f). split.
        -- apply Fw, Sup; auto. intros ->. discriminate.
        -- destruct f; cbn in *; try discriminate; auto.
      * intros t0 f Hf Wf. destruct (B _ Hf) as (g & Hg & ->). exists g. split; [auto|].
        destruct g as [t' w0 rem cur d hh|t'|c cv b| |]; cbn in Wf; auto.
        destruct Wf as [Wf|(cv' & b' & Wf)]; destruct cv, b; try discriminate; cbn in Wf;
          try discriminate; right; injection Wf as ->; eauto.
      * intros t0. assert (forall l l', woken l l' -> wc t0 l' = wc t0 l) as WW.
        { clear. induction 1 as [|f f' fs fs' E W IH]; [reflexivity|].
          rewrite !wc_cons, IH. f_equal. destruct E as [->|(h & w & ->)]; [reflexivity|].
          destruct f as [t' w0 rem cur d hh|t'|c cv b| |]; cbn; auto.
          destruct cv, b, h, w; cbn; auto. }
        rewrite (WW _ _ W), (wc_perm _ _ _ P2), (wc_perm _ _ _ P1). cbn [app]. rewrite wc_cons. cbn. lia.
      * auto.
      * intros t0 k0 cv Hi Hk Z0. exfalso. destruct (B _ Hi) as (g & Hg & E).
        assert (cv = CvHelper) as ->.
        { destruct g as [t' w0 rem cur d hh|t'|c cv' b| |]; cbn in E; try discriminate.
          destruct cv', b; try discriminate; cbn in E; try discriminate. inversion E; subst.
          apply Sub in Hg. destruct I as [_ F _ _ _]. rewrite Forall_forall in F. specialize (F _ Hg). cbn in F. easy. }
        eapply NA; eauto.
    + apply TInv_wake_all. now apply TU.
  - (* AEnterIdle *)
    subst stk. cbn [user_code] in H. injection H as <-. unfold frames. cbn [set_thread tasks threads].
    split; [|apply TU; cbn; auto].
    eapply LInv_step_frame; eauto. intros rest _ _ Lr. cbn [app].
    apply LInv_push_plain; [|exact Lr]. split; intros; reflexivity.
  - (* AIdle *)
    destruct stk as [|[t w rem cur dn h|t|c cv b| |] below]; try discriminate.
    destruct (stack_ok_inv _ _ S0) as [S1 S2].
    destruct (dequeue (task_stack (FIdle :: below)) (tasks s) (queue s)) as [[q' ts'] r] eqn:D.
    injection H as <-. unfold frames. cbn [tasks threads]. split.
    + eapply LInv_step_frame; eauto. intros rest _ Ir Lr.
      pose proof (LInv_dequeue _ _ _ _ _ _ _ _ Lr D) as J.
      pose proof (Inv_dequeue _ _ _ _ _ _ _ _ _ _ _ Ir D) as J'.
      destruct r as [[t w]|].
      * destruct J' as (k' & Hk' & _). rewrite Hk'. apply J.
      * cbn [app] in *. eapply LInv_pop; [| |exact J]; [reflexivity|discriminate].
    + apply TU. destruct r as [[t w]|]; [|exact S1].
      destruct (nth_error ts' t) as [k'|]; [|exact S0].
      cbn [stack_ok]. split; [exact Logic.I|]. split; [|exact S0].
      intros [X|X]; [discriminate|auto].
Qed.

Definition FInv' (s : state) (owed : list (option nat)) : Prop :=
  SInv s /\ LInv (tasks s) (frames s) owed /\ TInv (threads s) owed.

Lemma eff_workers_pos n maxw : 0 < n -> 1 <= maxw <= int_max -> 1 <= eff_workers n maxw.
Proof.
  intros Hn Hm. unfold eff_workers. rewrite (Z.mod_small maxw) by (unfold size_max, int_max in *; lia).
  rewrite to_int_small; lia.
Qed.

Lemma fj_step_inv s owed tid a s' owed' :
  action_ok a -> fj_step s owed tid a = Some (s', owed') -> FInv' s owed -> FInv' s' owed'.
Proof.
  intros OK H (I & L & T). unfold fj_step in H.
  destruct (nth_error owed tid) as [o|] eqn:Ho; [|discriminate].
  destruct (nth_error (threads s) tid) as [stk|] eqn:Ht; [|discriminate].
  assert (stack_ok stk) as S0.
  { destruct T as (A & _). rewrite Forall_forall in A. apply A. eapply nth_error_In; eauto. }
  cbv zeta in H.
  assert (forall o', match step s tid a with Some s' => Some (s', upd owed tid o') | None => None end = Some (s', owed') ->
            step s tid a = Some s' /\ owed' = upd owed tid o') as GO.
  { intros o'. destruct (step s tid a) as [s1|]; [|discriminate]. intros E. injection E as <- <-. auto. }
  assert (o = None -> step s tid a = Some s' -> owed' = upd owed tid None ->
          match a with
          | AEnqueue _ _ _ _ | AWaitTask _ => False
          | AWaitPred _ _ | AEnterIdle => stk = []
          | _ => True
          end -> FInv' s' owed') as Other.
  { intros -> E -> M. rewrite (upd_owed_same _ _ Ho). split; [eapply step_inv; eauto|].
    eapply step_other_live; eauto. }
  destruct a as [n maxw hw ww|t|p cv|p b| | | | | |sl| | | |]; destruct o as [t'|];
    try discriminate;
    try (apply GO in H as [E ->]; apply Other; auto; fail);
    try (destruct stk; [|discriminate]; apply GO in H as [E ->]; apply Other; auto; fail).
  - (* AEnqueue *)
    destruct (Z.leb_spec 1 maxw) as [M|M]; [|discriminate]. apply GO in H as [E ->].
    split; [eapply step_inv; eauto|].
    unfold step in E. rewrite Ht in E.
    destruct (user_code stk && (0 <? n) && (n <? size_max)) eqn:G; [|discriminate].
    apply andb_prop in G as [G _]. apply andb_prop in G as [U G]. apply Z.ltb_lt in G.
    injection E as <-. unfold frames. cbn [tasks threads].
    destruct OK as [OK1 OK2].
    assert (1 <= eff_workers n maxw) as EW by (apply eff_workers_pos; lia).
    assert (LInv (tasks s ++ [make_task n maxw]) (frames s) (upd owed tid (Some (length (tasks s))))) as L'.
    { apply LInv_enqueue; auto. apply I. }
    assert (TInv (threads s) (upd owed tid (Some (length (tasks s))))) as T'.
    { destruct T as (A & B & C). repeat split; auto.
      - intros tid' t stk' Ho' Hs. rewrite nth_error_upd in Ho'. destruct (Nat.eqb_spec tid tid') as [<-|N]; [|eauto].
        rewrite Ho in Ho'. injection Ho' as <-. assert (stk' = stk) as -> by congruence.
        rewrite Forall_forall. intros t2 Ht2. unfold task_stack in Ht2. apply in_flat_map in Ht2 as (f & Hf & Ht2).
        destruct f as [t' w rem cur d h| | | |]; try easy. destruct Ht2 as [<-|[]].
        destruct I as [_ F _ _ _]. rewrite Forall_forall in F.
        assert (In (FWork t' w rem cur d h) (frames s)) as Hin.
        { unfold frames. apply in_concat. eexists. split; [eapply nth_error_In; exact Ht|exact Hf]. }
        destruct (F _ Hin) as (k & Hk & _). eapply nth_error_lt; eauto.
      - intros tid' t stk' Ho' Hs. rewrite nth_error_upd in Ho'. destruct (Nat.eqb_spec tid tid') as [<-|N]; [|eauto].
        congruence. }
    match goal with |- context [if ?b then _ else _] => destruct b end.
    + split; [|now apply TInv_wake_one, TInv_wake_one].
      eapply LInv_woken; [apply woken_one|]. eapply LInv_woken; [apply woken_one|]. exact L'.
    + split; [|now apply TInv_wake_all]. eapply LInv_woken; [apply woken_all|]. exact L'.
  - (* AWaitTask *)
    destruct (Nat.eqb_spec t t') as [<-|N]; [|discriminate]. apply GO in H as [E ->].
    split; [eapply step_inv; eauto|].
    unfold step in E. rewrite Ht in E.
    destruct (user_code stk && negb (mem t (task_stack stk))) eqn:G; [|discriminate].
    apply andb_prop in G as [U G].
    destruct (nth_error (tasks s) t) as [k|] eqn:Hk; [|discriminate].
    cbv zeta in E. injection E as <-. unfold frames. cbn [tasks threads].
    assert (t_maxw k <= t_limit k) as ML by (destruct I as [I1 _ _ _ _]; destruct (I1 _ _ Hk); assumption).
    split.
    + eapply LInv_step_frame; eauto. intros rest _ _ Lr. cbn [app].
      pose proof (LInv_wait _ _ _ _ (t_maxw (alloc_worker k)) (shard_order k (t_maxw (alloc_worker k))) (stk ++ rest) owed
                    (negb (t_maxw (alloc_worker k) <? 0)) Hk Ho) as J.
      change (t_maxw k - 1) with (t_maxw (alloc_worker k)).
      destruct (Z.ltb_spec (t_maxw (alloc_worker k)) 0) as [Lx|Lx]; cbn [negb] in J; apply J; auto; discriminate.
    + destruct T as (A & B & C). pose proof (B _ _ _ Ho Ht) as Bt.
      apply TInv_upd; [repeat split; auto|].
      pose proof (user_code_no_notify _ U S0) as NN.
      match goal with |- context [if ?b then _ else _] => destruct b end; cbn [stack_ok]; auto.
Qed.

Lemma fj_run_inv l : forall s owed s' owed', sched_ok l -> fj_run s owed l = Some (s', owed') ->
  FInv' s owed -> FInv' s' owed'.
Proof.
  induction l as [|[tid a] l IH]; intros s owed s' owed' OK R I; cbn in R.
  - injection R as <- <-. exact I.
  - inversion OK as [|? ? O1 O2]; subst. destruct (fj_step s owed tid a) as [[s1 o1]|] eqn:E; [|discriminate].
    eapply IH; eauto. eapply fj_step_inv; eauto.
Qed.

Lemma fj_init nt : FInv' (init nt) (repeat None nt).
Proof.
  split; [apply init_inv|]. unfold frames, init. cbn.
  assert (concat (repeat (@nil frame) nt) = []) as -> by (induction nt; cbn; auto).
  split.
  - constructor; cbn.
    + intros t. unfold oc. assert (filter (isowed t) (repeat None nt) = []) as -> by (induction nt; cbn; auto). cbn. lia.
    + intros t Hi. apply repeat_spec in Hi. discriminate.
    + easy.
    + intros [|t] k H; discriminate.
    + easy.
  - repeat split.
    + apply Forall_forall. intros x Hx. apply repeat_spec in Hx. subst. exact Logic.I.
    + intros tid t stk Ho. apply nth_error_In, repeat_spec in Ho. discriminate.
    + intros tid t stk Ho. apply nth_error_In, repeat_spec in Ho. discriminate.
Qed.

(** ** Deadlock freedom *)
Definition advancing (s : state) (stk : list frame) : Prop :=
  match stk with
  | FWork _ _ _ _ _ _ :: _ => True
  | FNotify :: _ => True
  | FSpin t :: _ | FLoop (CDone t) _ false :: _ => cond_holds s (CDone t) = true
  | _ => False
  end.

Lemma not_done_worker s owed t k :
  FInv' s owed -> nth_error (tasks s) t = Some k -> t_todo k <> 0 -> t_maxw k < t_limit k ->
  exists f, In f (frames s) /\ works_on t f = true.
Proof.
  intros (I & L & _) Hk NZ M. destruct (l_cover _ _ _ L _ _ Hk) as [_ C].
  destruct (C M) as [F|X]; [exact F|].
  destruct (existsb (works_on t) (frames s)) eqn:E.
  { apply existsb_exists in E as (f & Hf & W). eauto. }
  exfalso. apply NZ.
  assert (forall f, In f (frames s) -> works_on t f = false) as NW.
  { intros f Hf. destruct (works_on t f) eqn:W; [|reflexivity].
    assert (existsb (works_on t) (frames s) = true) by (apply existsb_exists; eauto). congruence. }
  destruct I as [I1 F _ _ _]. destruct (I1 _ _ Hk) as [A1 A2 A3 A4 A5 A6 A7 A8 A9].
  assert (running t (frames s) = [] /\ pending t (frames s) = 0) as [R P].
  { clear - NW. unfold running, pending. induction (frames s) as [|f fs IH]; [split; reflexivity|].
    destruct IH as [IH1 IH2]; [intros; apply NW; now right|].
    specialize (NW f (or_introl eq_refl)).
    cbn [flat_map map sumZ fold_right]. fold (sumZ (map (pend t) fs)). rewrite IH1, IH2.
    destruct f as [t' w rem cur d h| | | |]; cbn in *; try (split; reflexivity).
    rewrite NW. destruct cur; split; reflexivity. }
  rewrite R, app_nil_r in A4. rewrite P in A5.
  rewrite (chain_handed_all _ _ _ A2) in A3.
  - apply Permutation_length in A3, A4. rewrite zrange_length in A3. lia.
  - intros sh Hs. apply In_nth_error in Hs as (j & Hj). exact (X _ _ Hj).
Qed.

Lemma frames_in s f : In f (frames s) -> exists tid stk, nth_error (threads s) tid = Some stk /\ In f stk.
Proof.
  unfold frames. intros H. apply in_concat in H as (stk & Hs & Hf).
  apply In_nth_error in Hs as (tid & Ht). eauto.
Qed.

Lemma in_task_stack t f stk : In f stk -> works_on t f = true -> In t (task_stack stk).
Proof.
  intros Hf W. unfold task_stack. apply in_flat_map. exists f. split; [exact Hf|].
  destruct f; cbn in *; try discriminate. apply Nat.eqb_eq in W. now left.
Qed.

Lemma wait_top_advances s owed : FInv' s owed -> forall m t tid stk top,
  (length (tasks s) - t <= m)%nat ->
  nth_error (threads s) tid = Some stk -> hd_error stk = Some top -> waitframe t top ->
  exists tid' stk', nth_error (threads s) tid' = Some stk' /\ advancing s stk'.
Proof.
  intros FI. pose proof FI as (I & L & T).
  induction m as [|m IH]; intros t tid stk top Hm Ht Htop W.
  all: destruct stk as [|top' below]; [discriminate|]; injection Htop as ->.
  all: assert (In top (frames s)) as Hin
    by (unfold frames; apply in_concat; eexists; split; [eapply nth_error_In; exact Ht|now left]).
  all: destruct (l_alloc _ _ _ L _ _ Hin W) as (k & Hk & M).
  { apply nth_error_lt in Hk. lia. }
  destruct (Z.eq_dec (t_todo k) 0) as [Z0|NZ].
  - assert (cond_holds s (CDone t) = true) as CH by (cbn; rewrite Hk; unfold done; now apply Z.eqb_eq).
    destruct W as [->|(cv & b & ->)].
    + exists tid, (FSpin t :: below). split; [exact Ht|exact CH].
    + destruct b.
      * pose proof (l_wake _ _ _ L _ _ _ Hin Hk Z0) as N. destruct (frames_in _ _ N) as (tid' & stk' & Ht' & Hn).
        exists tid', stk'. split; [exact Ht'|].
        destruct T as (A & _). rewrite Forall_forall in A. specialize (A _ (nth_error_In _ _ Ht')).
        destruct stk' as [|g stk']; [easy|]. cbn in A. destruct A as (_ & NB & _).
        destruct Hn as [->|Hn]; [exact Logic.I|contradiction].
      * exists tid, (FLoop (CDone t) cv false :: below). split; [exact Ht|exact CH].
  - destruct (not_done_worker _ _ _ _ FI Hk NZ M) as (f & Hf & Wf).
    destruct (frames_in _ _ Hf) as (tid' & stk' & Ht' & Hf').
    destruct stk' as [|g below']; [easy|].
    assert (stack_ok (g :: below')) as SK.
    { destruct T as (A & _). rewrite Forall_forall in A. apply A. eapply nth_error_In; eauto. }
    assert (g = f \/ In t (task_stack below')) as GF.
    { destruct Hf' as [->|Hf']; [now left|]. right. eapply in_task_stack; eauto. }
    destruct g as [t1 w rem cur d h|t1|[t1|p] cv b| |]; cbn in SK.
    + exists tid', (FWork t1 w rem cur d h :: below'). split; [exact Ht'|exact Logic.I].
    + destruct SK as (F1 & _). destruct GF as [<-|GF]; [discriminate|]. rewrite Forall_forall in F1. specialize (F1 _ GF).
      refine (IH t1 tid' (FSpin t1 :: below') (FSpin t1) _ Ht' eq_refl (or_introl eq_refl)).
      assert (t1 < length (tasks s))%nat as B.
      { assert (In (FSpin t1) (frames s)) as Hin' by (unfold frames; apply in_concat; eexists; split; [eapply nth_error_In; exact Ht'|now left]).
        destruct I as [_ F _ _ _]. rewrite Forall_forall in F. exact (F _ Hin'). }
      lia.
    + destruct SK as (F1 & _). destruct GF as [<-|GF]; [discriminate|]. rewrite Forall_forall in F1. specialize (F1 _ GF).
      refine (IH t1 tid' (FLoop (CDone t1) cv b :: below') (FLoop (CDone t1) cv b) _ Ht' eq_refl _); [|right; eauto].
      assert (t1 < length (tasks s))%nat as B.
      { assert (In (FLoop (CDone t1) cv b) (frames s)) as Hin' by (unfold frames; apply in_concat; eexists; split; [eapply nth_error_In; exact Ht'|now left]).
        destruct I as [_ F _ _ _]. rewrite Forall_forall in F. exact (proj1 (F _ Hin')). }
      lia.
    + destruct SK as (-> & _). destruct GF as [<-|[]]; discriminate.
    + destruct SK as (-> & _). destruct GF as [<-|[]]; discriminate.
    + exists tid', (FNotify :: below'). split; [exact Ht'|exact Logic.I].
Qed.

Lemma wait_advances s owed tid stk f t : FInv' s owed ->
  nth_error (threads s) tid = Some stk -> In f stk -> waitsb t f = true ->
  exists tid' stk', nth_error (threads s) tid' = Some stk' /\ advancing s stk'.
Proof.
  intros FI Ht Hf W. pose proof FI as (I & L & T).
  destruct stk as [|g below]; [easy|].
  assert (stack_ok (g :: below)) as SK.
  { destruct T as (A & _). rewrite Forall_forall in A. apply A. eapply nth_error_In; eauto. }
  destruct g as [t1 w rem cur d h|t1|[t1|p] cv b| |]; cbn in SK.
  - exists tid, (FWork t1 w rem cur d h :: below). split; [exact Ht|exact Logic.I].
  - exact (wait_top_advances s owed FI _ t1 tid _ (FSpin t1) (le_n _) Ht eq_refl (or_introl eq_refl)).
  - refine (wait_top_advances s owed FI _ t1 tid _ (FLoop (CDone t1) cv b) (le_n _) Ht eq_refl _). right; eauto.
  - destruct SK as (-> & _). destruct Hf as [<-|[]]; discriminate.
  - destruct SK as (-> & _). destruct Hf as [<-|[]]; discriminate.
  - exists tid, (FNotify :: below). split; [exact Ht|exact Logic.I].
Qed.

Lemma wake_one_length h w i ths : length (wake_one h w i ths) = length ths.
Proof. unfold wake_one. destruct (nth_error ths i); auto using upd_length. Qed.

Lemma step_threads_length s tid a s' : step s tid a = Some s' -> length (threads s') = length (threads s).
Proof.
  unfold step. intros H. destruct (nth_error (threads s) tid) as [stk|]; [|discriminate].
  destruct a as [n maxw hw ww|t|p cv|p b| | | | | |sl| | | |];
    repeat match type of H with
    | context [match ?x with _ => _ end] => destruct x; try discriminate
    end; injection H as <-; cbn [threads set_thread];
    rewrite ?wake_one_length; unfold wake_all; rewrite ?map_length, ?upd_length; reflexivity.
Qed.

Lemma fj_run_length l : forall s owed s' owed', fj_run s owed l = Some (s', owed') ->
  length owed = length (threads s) -> length owed' = length (threads s').
Proof.
  induction l as [|[tid a] l IH]; intros s owed s' owed' R E; cbn in R.
  - injection R as <- <-. exact E.
  - destruct (fj_step s owed tid a) as [[s1 o1]|] eqn:S1; [|discriminate].
    eapply IH; [exact R|]. unfold fj_step in S1.
    destruct (nth_error owed tid) as [o|]; [|discriminate].
    destruct (nth_error (threads s) tid) as [stk|]; [|discriminate]. cbv zeta in S1.
    destruct (step s tid a) as [s2|] eqn:S2; [apply step_threads_length in S2|].
    + destruct a, o; try discriminate;
      repeat match type of S1 with
      | context [match ?x with _ => _ end] => destruct x; try discriminate
      end; injection S1 as <- <-; rewrite upd_length; congruence.
    + exfalso. destruct a, o; try discriminate;
      repeat match type of S1 with
      | context [match ?x with _ => _ end] => destruct x; try discriminate
      end.
Qed.

Lemma advancing_enabled s owed tid stk : FInv' s owed -> length owed = length (threads s) ->
  nth_error (threads s) tid = Some stk -> advancing s stk ->
  exists a s' owed', action_ok a /\ a <> ASpurious /\ fj_step s owed tid a = Some (s', owed').
Proof.
  intros FI EL Ht Ad. pose proof FI as (I & L & T).
  destruct (nth_error owed tid) as [o|] eqn:Ho.
  2: { apply nth_error_None in Ho. apply nth_error_lt in Ht. lia. }
  destruct stk as [|g below]; [easy|].
  assert (frame_ok (tasks s) g) as FO.
  { destruct I as [_ F _ _ _]. rewrite Forall_forall in F. apply F. unfold frames. apply in_concat.
    eexists. split; [eapply nth_error_In; exact Ht|now left]. }
  destruct o as [t|].
  - (* the thread owes a wait: it is in user code *)
    destruct T as (_ & B & C). pose proof (C _ _ _ Ho Ht) as U. pose proof (B _ _ _ Ho Ht) as Bt.
    exists (AWaitTask t). unfold fj_step. rewrite Ho, Ht, Nat.eqb_refl. unfold step. rewrite Ht, U.
    assert (mem t (task_stack (g :: below)) = false) as ->.
    { unfold mem. destruct (existsb (Nat.eqb t) (task_stack (g :: below))) eqn:E; [|reflexivity].
      apply existsb_exists in E as (x & Hx & E). apply Nat.eqb_eq in E as <-.
      rewrite Forall_forall in Bt. specialize (Bt _ Hx). lia. }
    cbn [andb negb].
    destruct (nth_error (tasks s) t) as [k|] eqn:Hk.
    + eexists _, _. split; [exact Logic.I|]. split; [discriminate|reflexivity].
    + exfalso. apply nth_error_None in Hk. pose proof (l_owed _ _ _ L t (nth_error_In _ _ Ho)). lia.
  - assert (forall a, match a with AEnqueue _ _ _ _ | AWaitTask _ | AWaitPred _ _ | AEnterIdle => False | _ => True end ->
       forall s', step s tid a = Some s' -> fj_step s owed tid a = Some (s', upd owed tid None)) as GO.
    { intros a Ha s' E. unfold fj_step. rewrite Ho, Ht, E. destruct a; easy. }
    destruct g as [t1 w rem cur d h|t1|[t1|p] cv b| |]; cbn in Ad.
    + destruct FO as (k & Hk & Hd & Hs & Hr & Hc).
      destruct cur as [i|].
      * exists AFinish. eexists _, _. split; [exact Logic.I|]. split; [discriminate|]. apply GO; [exact Logic.I|].
        unfold step. rewrite Ht. reflexivity.
      * destruct rem as [|j rem].
        -- exists AReport.
           assert (exists s', step s tid AReport = Some s') as (s' & E).
           { unfold step. rewrite Ht, Hk. cbv zeta.
             destruct h; [eauto|].
             match goal with |- exists _, (if ?b then Some _ else _) = _ => destruct b end; eauto. }
           eexists _, _. split; [exact Logic.I|]. split; [discriminate|]. apply GO; [exact Logic.I|exact E].
        -- exists AFetch.
           assert (exists s', step s tid AFetch = Some s') as (s' & E).
           { unfold step. rewrite Ht, Hk.
             destruct (nth_error (t_shards k) j) as [sh|] eqn:Hj.
             - destruct (s_end sh <=? s_i sh); eauto.
             - exfalso. apply nth_error_None in Hj. specialize (Hr j (or_introl eq_refl)). lia. }
           eexists _, _. split; [exact Logic.I|]. split; [discriminate|]. apply GO; [exact Logic.I|exact E].
    + exists ASpinDone. eexists _, _. split; [exact Logic.I|]. split; [discriminate|]. apply GO; [exact Logic.I|].
      unfold step. rewrite Ht. cbn in Ad. destruct (nth_error (tasks s) t1) as [k|]; [|discriminate].
      rewrite Ad. reflexivity.
    + destruct b; [easy|]. exists (ACheck false). eexists _, _. split; [exact Logic.I|]. split; [discriminate|].
      apply GO; [exact Logic.I|]. unfold step. rewrite Ht. cbn [cond_holds]. rewrite Ad. reflexivity.
    + easy.
    + easy.
    + exists ANotify. eexists _, _. split; [exact Logic.I|]. split; [discriminate|]. apply GO; [exact Logic.I|].
      unfold step. rewrite Ht. reflexivity.
Qed.

(** ** What the tasks are: exactly the enqueued ones *)
Definition enqueues (l : list (nat * action)) : list (Z * Z) :=
  flat_map (fun p => match snd p with AEnqueue n m _ _ => [(n, m)] | _ => [] end) l.

Definition spec_of (k : task) : Z * Z := (t_n k, t_limit k).

Lemma map_upd_same {A B} (f : A -> B) l i x y : nth_error l i = Some y -> f x = f y -> map f (upd l i x) = map f l.
Proof.
  intros H E. destruct (upd_split _ _ _ H) as (l1 & l2 & -> & _ & Hu). rewrite Hu, !map_app. cbn. now rewrite E.
Qed.

Lemma dequeue_spec stk : forall q ts q' ts' r, dequeue stk ts q = (q', ts', r) -> map spec_of ts' = map spec_of ts.
Proof.
  induction q as [|t q IH]; intros ts q' ts' r D; cbn [dequeue] in D.
  - now injection D as <- <- <-.
  - destruct (nth_error ts t) as [k|] eqn:Hk; [|now injection D as <- <- <-].
    assert (map spec_of (upd ts t (alloc_worker k)) = map spec_of ts) as E by (eapply map_upd_same; eauto).
    destruct (all_work_started k); [eauto|]. destruct (mem t stk).
    + destruct (dequeue stk ts q) as [[q1 ts1] r1] eqn:D1. injection D as <- <- <-. eauto.
    + destruct (t_maxw (alloc_worker k) <? 0); [rewrite (IH _ _ _ _ D); exact E|].
      destruct (t_maxw (alloc_worker k) =? 0); injection D as <- <- <-; exact E.
Qed.

Lemma step_spec s tid a s' : step s tid a = Some s' ->
  map spec_of (tasks s') = map spec_of (tasks s) ++
    match a with AEnqueue n m _ _ => [(n, eff_workers n m)] | _ => [] end.
Proof.
  unfold step. intros H. destruct (nth_error (threads s) tid) as [stk|]; [|discriminate].
  destruct a as [n maxw hw ww|t|p cv|p b| | | | | |sl| | | |]; rewrite ?app_nil_r;
    try (repeat match type of H with
         | context [match ?x with _ => _ end] => destruct x eqn:?; try discriminate
         end; injection H as <-; cbn [tasks set_thread];
         first [reflexivity | now rewrite map_app
               | eapply map_upd_same; [eassumption|reflexivity]
               | eapply dequeue_spec; eassumption ]; fail).
Qed.

Lemma run_spec l : forall s s', run s l = Some s' ->
  map spec_of (tasks s') = map spec_of (tasks s) ++ map (fun p => (fst p, eff_workers (fst p) (snd p))) (enqueues l).
Proof.
  induction l as [|[tid a] l IH]; intros s s' R; cbn in R.
  - injection R as <-. cbn. now rewrite app_nil_r.
  - destruct (step s tid a) as [s1|] eqn:E; [|discriminate].
    rewrite (IH _ _ R), (step_spec _ _ _ _ E), <- app_assoc. f_equal.
    unfold enqueues. cbn [flat_map snd]. rewrite map_app. destruct a; reflexivity.
Qed.

Lemma eff_workers_le n m : 0 < n < size_max -> 0 <= m <= int_max -> eff_workers n m = Z.min n m.
Proof.
  intros Hn Hm. unfold eff_workers. rewrite (Z.mod_small m) by (unfold size_max, int_max in *; lia).
  apply to_int_small. lia.
Qed.
