(** Proofs for C56: nothing is shadowed, and the pass does not fail. *)
From Coq Require Import ZArith List Bool Lia.
From Verif Require Import Arith_Model Arith_Proofs Buf_Model Expr_Model Expr_Proofs Stmt_Model Stmt_Spec Stmt_Proofs Simplify_Model Deps_Model Deps_Spec
  Subst_Model Subst_Spec StmtSubst_Model StmtSubst_Spec OptSym_Spec OptSym_Proofs StmtSubst2_Proofs
  Deshadow_Model Deshadow_Spec Deshadow_Proofs Deshadow2_Proofs Deshadow3_Proofs Deshadow4_Proofs.
Import ListNotations.
Open Scope Z_scope.

Section Below.
  Variable n0 : nat.
  (** the symbols in scope are in the context, and those of the original statement are known to be declared *)
  Definition cov (D : nat -> Prop) (t : dstate) : Prop := (n0 <= List.length (snd t))%nat /\ forall y, D y -> (y < List.length (snd t))%nat /\ ((y < n0)%nat -> fst t y <> None).
  Lemma cov_framed D t t' : framed t t' -> cov D t -> cov D t'.
  Proof. intros (F & G) (L & C). apply grows_length in G. split; [lia|]. intros y Dy. destruct (C y Dy) as (A & B). split; [lia|]. rewrite F. exact B. Qed.
  Lemma cov_decl D x t x' t' : decl_step x t x' t' -> (x < n0)%nat -> cov D t -> cov (also D x') t'.
  Proof.
    intros Sp L (L0 & C). pose proof (step_grows _ _ _ _ Sp) as G. apply grows_length in G. split; [lia|]. destruct Sp as (Q & Sp). rewrite Q. intros y [->|Dy].
    - destruct Sp as [(-> & E)|(-> & s & E)]; rewrite E in *.
      + split; [lia|]. intros _. rewrite put_same. discriminate.
      + rewrite app_length. cbn. split; [lia|]. lia.
    - destruct (C y Dy) as (A & B). split; [lia|]. intro Ly. destruct (Nat.eq_dec y x) as [->|n]; [rewrite put_same; discriminate|]. rewrite (put_other _ _ _ _ n). auto.
  Qed.
  Lemma cov_enter il D x t : (x < n0)%nat -> cov D t -> exists x' t', enter_decl il x t = (x', t') /\ decl_step x t x' t' /\ ~ D x' /\ cov (also D x') t'.
  Proof.
    intros L C. destruct (enter_step il x t) as (x' & t' & Q & Sp & K1 & K2). exists x', t'. split; [exact Q|]. split; [exact Sp|]. split; [|exact (cov_decl _ _ _ _ _ Sp L C)].
    intro Dx. destruct (proj2 C x' Dx) as (A & B). destruct (fst t x) eqn:E.
    - rewrite K2 in A by discriminate. lia.
    - rewrite (K1 eq_refl) in *. exact (B L E).
  Qed.
  Lemma cov_rename il D x t : (x < n0)%nat -> cov D t -> exists x' c, rename il x (snd t) = (x', c) /\ decl_step x t x' (declare x x' (fst t, c)) /\ ~ D x' /\ cov (also D x') (declare x x' (fst t, c)).
  Proof.
    intros L C. destruct (rename_step il x t) as (x' & c & Q & Sp & K). exists x', c. split; [exact Q|]. split; [exact Sp|]. split; [|exact (cov_decl _ _ _ _ _ Sp L C)].
    intro Dx. destruct (proj2 C x' Dx) as (A & _). lia.
  Qed.

  Definition clear_x (il : option nat) (e : expr) : Prop := forall D t e' t', cov D t -> d_expr il e t = Val (e', t') -> unshadowed_expr D e'.
  Lemma clear_each {A B} (f : A -> dstate -> res (B * dstate)) (D : nat -> Prop) (P : B -> Prop) l : Forall (fun a => frames f a /\ forall t b t', cov D t -> f a t = Val (b, t') -> P b) l ->
    forall t l' t', cov D t -> each f l t = Val (l', t') -> Forall P l'.
  Proof.
    intros F t l' t' C M. assert (G : Forall2 (fun (_ : A) b => P b) l l').
    { apply (each_forall2 f (cov D) (fun _ _ b => P b)) with (t := t) (t' := t'); auto; intros; eapply cov_framed; eauto. }
    clear -G. induction G; constructor; auto.
  Qed.
  Lemma clear_args il l : Forall (fun e => lets_distinct e /\ clear_x il e) l -> forall D t l' t', cov D t -> each (d_expr il) l t = Val (l', t') -> Forall (unshadowed_expr D) l'.
  Proof. intros F D t l' t' C M. eapply clear_each; [|exact C|exact M]. rewrite Forall_forall in *. intros a Ia. destruct (F a Ia) as (L & K). split; [apply expr_frame; exact L|intros; eapply K; eauto]. Qed.
  Lemma clear_lets il l : Forall (fun e => lets_distinct e /\ clear_x il e) (map snd l) -> Forall (fun x => (x < n0)%nat) (map fst l) -> forall D t l' e t', cov D t -> d_lets il (d_expr il) l t = Val (l', e, t') ->
    forall k : (nat -> Prop) -> Prop, (forall D', cov D' t' -> k D') -> unshadowed_lets unshadowed_expr D l' k.
  Proof.
    induction l as [|(s, v) l IH]; intros F B D t l' e t' C M k K; cbn [d_lets map fst snd] in *; [injection M as <- <- <-; exact (K D C)|].
    inversion F as [|? ? (Dv & Gv) Gl]; subst. inversion B as [|? ? Bs Bl]; subst. apply bind_inv in M as ((v', t1) & Mv & M). pose proof (expr_frame il v Dv _ _ _ Mv) as F1.
    destruct (cov_enter il D s t1 Bs (cov_framed _ _ _ F1 C)) as (s' & t2 & Q & Sp & N & C2). rewrite Q in M. apply bind_inv in M as (((l1, e1), t3) & Ml & M). injection M as <- <- <-. cbn [unshadowed_lets].
    split; [exact (Gv D t v' t1 C Mv)|]. split; [exact N|]. exact (IH Gl Bl (also D s') t2 l1 e1 t3 C2 Ml k K).
  Qed.
  Lemma unshadowed_call D fn t l : Forall (unshadowed_expr D) l -> unshadowed_expr D (ECall fn t l).
  Proof. cbn [unshadowed_expr]. induction 1 as [|a l A F IH]; [exact I|]. split; assumption. Qed.
  Lemma expr_clear il e : fine n0 e -> clear_x il e.
  Proof.
    induction e as [|s f d|l b IHl IHb|o a b IHa IHb|a IHa|q t f IHq IHt IHf|fn t args IHargs|c0] using expr_ind'; intros Fi D t0 e' t' C M; cbn [d_expr] in M.
    - injection M as <- <-. exact I.
    - injection M as <- <-. exact I.
    - apply fine_let in Fi as (B & N & Fl & Fb). apply (Forall_snd (fun v => fine n0 v -> clear_x il v)) in IHl. apply bind_inv in M as (((l', e), t1) & Ml & M). apply bind_inv in M as ((b', t2) & Mb & M). injection M as <- <-.
      cbn [unshadowed_expr]. eapply (clear_lets il l); [|exact B|exact C|exact Ml|].
      + rewrite Forall_forall in *. intros v Iv. specialize (Fl v Iv). split; [apply Fl|auto].
      + intros D' C'. exact (IHb Fb D' t1 b' t2 C' Mb).
    - destruct Fi as ((B1 & B2) & (D1 & D2) & (N1 & N2)). apply bind_inv in M as ((a', t1) & Ma & M). apply bind_inv in M as ((b', t2) & Mb & M). injection M as <- <-.
      pose proof (IHa ltac:(repeat split; assumption) D t0 a' t1 C Ma) as Sa. pose proof (expr_frame il a D1 _ _ _ Ma) as F1. pose proof (IHb ltac:(repeat split; assumption) D t1 b' t2 (cov_framed _ _ _ F1 C) Mb) as Sb.
      unfold make_bin. destruct (_ && _); split; assumption.
    - apply bind_inv in M as ((a', t1) & Ma & M). injection M as <- <-. exact (IHa Fi D t0 a' t1 C Ma).
    - destruct Fi as ((B1 & B2 & B3) & (D1 & D2 & D3) & (N1 & N2 & N3)). apply bind_inv in M as ((q', t1) & Mq & M). apply bind_inv in M as ((x', t2) & Mt & M). apply bind_inv in M as ((f', t3) & Mf & M). injection M as <- <-.
      pose proof (expr_frame il q D1 _ _ _ Mq) as F1. pose proof (cov_framed _ _ _ F1 C) as C1. pose proof (expr_frame il t D2 _ _ _ Mt) as F2. pose proof (cov_framed _ _ _ F2 C1) as C2.
      split; [exact (IHq ltac:(repeat split; assumption) D t0 q' t1 C Mq)|]. split; [exact (IHt ltac:(repeat split; assumption) D t1 x' t2 C1 Mt)|exact (IHf ltac:(repeat split; assumption) D t2 f' t3 C2 Mf)].
    - apply fine_call in Fi as (_ & Fa). apply bind_inv in M as ((args', t1) & Ma & M). apply bind_inv in M as (args'' & Mf & M). injection M as <- <-.
      assert (Ga : Forall (fun e => lets_distinct e /\ clear_x il e) args) by (rewrite Forall_forall in *; intros v Iv; split; [apply (Fa v Iv)|auto]).
      pose proof (clear_args il args Ga D t0 args' t1 C Ma) as S. apply unshadowed_call.
      destruct (match fn with i_buffer_at => true | _ => false end) eqn:Qf.
      + destruct fn; try discriminate. destruct (at_result _ _ Mf) as [(-> & _)|(s & d & l & l' & -> & -> & Sub)]; [exact S|]. inversion S as [|? ? Sh St]; subst. constructor; [exact I|].
        rewrite Forall_forall in *. intros a Ia. destruct (Sub a Ia) as [Ib|Ib]; [auto|subst; exact I].
      + assert (args'' = args') by (destruct fn; try discriminate; injection Mf as <-; reflexivity). subst. exact S.
    - injection M as <- <-. exact I.
  Qed.
  Lemma interval_clear il i D t i' t' : every_interval (fine n0) i -> cov D t -> d_interval il i t = Val (i', t') -> unshadowed_interval D i'.
  Proof.
    intros (F1 & F2) C M. unfold d_interval in M. apply bind_inv in M as ((a, t1) & M1 & M). apply bind_inv in M as ((b, t2) & M2 & M). injection M as <- <-.
    split; [exact (expr_clear il _ F1 D t a t1 C M1)|]. apply (expr_clear il _ F2 D t1 b t2); [|exact M2]. eapply cov_framed; [|exact C]. exact (expr_frame il _ (proj1 (proj2 F1)) _ _ _ M1).
  Qed.
  Lemma dim_clear il d D t d' t' : every_dim (fine n0) d -> cov D t -> d_dim il d t = Val (d', t') -> unshadowed_dim D d'.
  Proof.
    intros (F1 & F2 & F3) C M. unfold d_dim in M. apply bind_inv in M as ((a, t1) & M1 & M). apply bind_inv in M as ((b, t2) & M2 & M). apply bind_inv in M as ((c, t3) & M3 & M). injection M as <- <-.
    pose proof (interval_frame il _ (fine_distinct _ _ F1) _ _ _ M1) as G1. pose proof (cov_framed _ _ _ G1 C) as C1. pose proof (expr_frame il _ (proj1 (proj2 F2)) _ _ _ M2) as G2.
    split; [exact (interval_clear il _ D t a t1 F1 C M1)|]. split; [exact (expr_clear il _ F2 D t1 b t2 C1 M2)|exact (expr_clear il _ F3 D t2 c t3 (cov_framed _ _ _ G2 C1) M3)].
  Qed.
  Lemma exprs_clear il l D t l' t' : Forall (fine n0) l -> cov D t -> each (d_expr il) l t = Val (l', t') -> Forall (unshadowed_expr D) l'.
  Proof. intros F. apply clear_args. rewrite Forall_forall in *. intros e Ie. split; [apply (F e Ie)|apply expr_clear; auto]. Qed.
  Lemma dims_clear il l D t l' t' : Forall (every_dim (fine n0)) l -> cov D t -> each (d_dim il) l t = Val (l', t') -> Forall (unshadowed_dim D) l'.
  Proof.
    intros F. apply clear_each. rewrite Forall_forall in *. intros d Id. specialize (F d Id). split; [|intros; eapply dim_clear; eauto].
    apply dim_frame. destruct F as (((_ & A & _) & (_ & B & _)) & (_ & C & _) & (_ & E & _)). repeat split; assumption.
  Qed.
  Lemma crop_clear il src d i D t i' t' : every_interval (fine n0) i -> cov D t -> d_crop il src d i t = Val (i', t') -> unshadowed_interval D i'.
  Proof.
    intros F C M. unfold d_crop in M. apply bind_inv in M as ((i1, t1) & M1 & M). injection M as <- <-. destruct (interval_clear il i D t i1 t1 F C M1) as (A & B).
    split; cbn [fst snd]; destruct (_ : bool); try exact I; assumption.
  Qed.
  Lemma crops_clear il src l : Forall (every_interval (fine n0)) l -> forall d D t l' t', cov D t -> d_crops il src d l t = Val (l', t') -> Forall (unshadowed_interval D) l'.
  Proof.
    induction 1 as [|i l Fi _ IH]; intros d D t l' t' C M; cbn [d_crops] in M; [injection M as <- <-; constructor|]. apply bind_inv in M as ((i', t1) & Mi & M). apply bind_inv in M as ((r', t2) & Ml & M). injection M as <- <-.
    pose proof (crop_frame il src d i (fine_distinct _ i Fi) _ _ _ Mi) as F1. constructor; [exact (crop_clear _ _ _ _ _ _ _ _ Fi C Mi)|]. exact (IH _ _ _ _ _ (cov_framed _ _ _ F1 C) Ml).
  Qed.
  Lemma all_clear il l : Forall (fun x => (x < n0)%nat) l -> forall D t l' e t', cov D t -> enter_all il l t = (l', e, t') -> forall k : (nat -> Prop) -> Prop, (forall D', cov D' t' -> k D') -> unshadowed_list D l' k.
  Proof.
    induction 1 as [|x l Lx F IH]; intros D t l' e t' C M k K; cbn [enter_all] in M; [injection M as <- <- <-; exact (K D C)|].
    destruct (cov_enter il D x t Lx C) as (x' & t1 & Q & _ & N & C1). rewrite Q in M. destruct (enter_all il l t1) as ((l1, e1), t2) eqn:Ql. injection M as <- <- <-. split; [exact N|]. exact (IH _ _ _ _ _ C1 Ql k K).
  Qed.

  (** ** Statements *)
  Definition clear_s (s : stmt) : Prop := forall il D t s' t', cov D t -> d_stmt il s t = Val (s', t') -> framed t t' /\ in_block s' = in_block s /\ unshadowed D s'.
  Lemma declared_clear il b sym D t q (k : nat -> stmt -> stmt) s' t' : clear_s b -> cov D t -> (sym < n0)%nat -> decl_step sym t (fst q) (snd q) -> cov (also D (fst q)) (snd q) ->
    (let '(sym', t1) := q in r <- d_stmt il b t1 ;; let '(b', t2) := r in Val (k sym' b', exit_decls [(sym, fst t sym)] t2)) = Val (s', t') ->
    exists b', s' = k (fst q) b' /\ framed t t' /\ unshadowed (also D (fst q)) b'.
  Proof.
    intros G C L Sp C1 M. destruct q as (sym', t1). cbn [fst snd] in *. apply bind_inv in M as ((b', t2) & Mb & M). injection M as <- <-. exists b'. split; [reflexivity|].
    destruct (G il _ t1 b' t2 C1 Mb) as (F & _ & U). split; [exact (step_exit _ _ _ _ _ Sp F)|exact U].
  Qed.
  Lemma stmt_clear s : ready n0 s -> every_expr (fine n0) s -> clear_s s.
  Proof.
    induction s as [|tg ins outs sc|src sx dst dx pad|l s c IHs|l IHl|s w x st b IHs|s w e ds b IHs|s p e ds b IHs|s v b IHs|s v b IHs
      |s v l b IHs|s v d x b IHs|s v l b IHs|s v d x b IHs|s v p b IHs|s s1 s2 IHs1 IHs2|c] using stmt_ind'; intros Rd Fi il D t s' t' C M; try rewrite d_block in M; cbn [d_stmt ready every_expr] in *.
    - injection M as <- <-. split; [apply framed_refl|]. split; [reflexivity|exact I].
    - apply bind_inv in M as ((sc', t1) & M1 & M). injection M as <- <-. split; [exact (each_framed n0 il _ _ _ _ Fi M1)|]. split; [reflexivity|]. exact (exprs_clear _ _ _ _ _ _ Fi C M1).
    - destruct Rd as (_ & _ & _ & Lx & Nx). destruct (enter_all il dx t) as ((dx', e), t1) eqn:Q. apply bind_inv in M as ((sx', t2) & M1 & M). injection M as <- <-.
      split; [exact (list_exit _ _ _ _ _ (all_step il dx Nx t _ e t1 Q) (each_framed n0 il _ _ _ _ Fi M1))|]. split; [reflexivity|]. cbn [unshadowed]. eapply (all_clear il dx Lx); [exact C|exact Q|].
      intros D' C'. exact (exprs_clear _ _ _ _ _ _ Fi C' M1).
    - destruct Rd as (-> & Ll & Nl & Rb). destruct Fi as (Fl & Fb). apply bind_inv in M as (((l', e), t1) & M1 & M). apply bind_inv in M as ((b', t2) & M2 & M). injection M as <- <-.
      assert (St : list_step (map fst l) e t t1). { eapply lets_step; [|exact Nl|exact M1]. rewrite Forall_forall in *. intros u Iu. apply expr_frame. apply (Fl u Iu). }
      assert (Ub : forall D', cov D' t1 -> framed t1 t2 /\ unshadowed D' b'). { intros D' C'. destruct (IHs Rb Fb il D' t1 b' t2 C' M2) as (F & _ & U). auto. }
      assert (C0 : cov (fun _ => False) t1). { split; [|intros y []]. destruct St as (_ & _ & _ & G). apply grows_length in G. destruct C. lia. }
      split; [exact (list_exit _ _ _ _ _ St (proj1 (Ub _ C0)))|]. split; [reflexivity|]. cbn [unshadowed]. eapply (clear_lets il l); [|exact Ll|exact C|exact M1|].
      + rewrite Forall_forall in *. intros v Iv. specialize (Fl v Iv). split; [apply Fl|apply expr_clear; exact Fl].
      + intros D' C'. apply Ub. exact C'.
    - destruct Rd as (Ln & Lb & Rl). apply ready_go in Rl. apply every_go_iff in Fi. apply bind_inv in M as ((l', t1) & M1 & M). injection M as <- <-.
      assert (G : framed t t1 /\ Forall2 (fun s s' => unshadowed D s' /\ in_block s' = in_block s) l l').
      { assert (K : Forall clear_s l) by (rewrite Forall_forall in *; auto). clear -K C M1. revert t l' t1 C M1. induction K as [|a l G _ IH]; intros t l' t1 C M; cbn [d_list] in M; [injection M as <- <-; split; [apply framed_refl|constructor]|].
        apply bind_inv in M as ((a', t2) & Ma & M). apply bind_inv in M as ((l1, t3) & Ml & M). injection M as <- <-. destruct (G il D t a' t2 C Ma) as (F1 & Ba & Sa).
        destruct (IH t2 l1 t3 (cov_framed _ _ _ F1 C) Ml) as (F2 & Sl). split; [eapply framed_trans; eassumption|]. constructor; [split; assumption|exact Sl]. }
      destruct G as (F & S). split; [exact F|].
      assert (B : forallb in_block l' = true /\ length l' = length l).
      { clear -S Lb. induction S as [|x x' l l' (_ & B) S IH]; [repeat split; constructor|]. cbn [forallb length] in *. apply andb_true_iff in Lb as (B1 & B2). destruct (IH B2) as (I1 & I2). rewrite B, B1, I1, I2. auto. }
      destruct B as (B1 & B2). rewrite block_make_flat by (congruence || lia). split; [reflexivity|]. clear -S. cbn [unshadowed]. induction S as [|? ? ? ? (U & _) S IH]; [exact I|]. split; assumption.
    - destruct Rd as (Ls & Rb). destruct Fi as (Fw & Fx & Fs & Fb). apply bind_inv in M as ((x', t1) & M1 & M). apply bind_inv in M as ((st', t2) & M2 & M). apply bind_inv in M as ((w', t3) & M3 & M).
      pose proof (interval_frame il _ (fine_distinct _ _ Fx) _ _ _ M1) as F1. pose proof (cov_framed _ _ _ F1 C) as C1. pose proof (expr_frame il _ (proj1 (proj2 Fs)) _ _ _ M2) as F2. pose proof (cov_framed _ _ _ F2 C1) as C2.
      pose proof (expr_frame il _ (proj1 (proj2 Fw)) _ _ _ M3) as F3. pose proof (cov_framed _ _ _ F3 C2) as C3. destruct (cov_enter il D s t3 Ls C3) as (y & t4 & Q & Sp & N & C4). rewrite Q in M.
      apply (declared_clear _ b s D t3 (y, t4) (fun sym' => SLoop sym' w' x' st') s' t' (IHs Rb Fb) C3 Ls Sp C4) in M as (b' & -> & F4 & U). split; [exact (framed_trans _ _ _ (framed_trans _ _ _ F1 (framed_trans _ _ _ F2 F3)) F4)|]. split; [reflexivity|].
      cbn [unshadowed]. split; [exact (expr_clear il w Fw D t2 w' t3 C2 M3)|]. split; [exact (interval_clear il x D t x' t1 Fx C M1)|]. split; [exact (expr_clear il st Fs D t1 st' t2 C1 M2)|]. split; assumption.
    - destruct Rd as (Ls & Rb). destruct Fi as (Fe & Fd & Fb). apply bind_inv in M as ((e', t1) & M1 & M). apply bind_inv in M as ((ds', t2) & M2 & M).
      pose proof (expr_frame il _ (proj1 (proj2 Fe)) _ _ _ M1) as F1. pose proof (cov_framed _ _ _ F1 C) as C1. pose proof (dims_framed _ _ _ _ _ _ Fd M2) as F2. pose proof (cov_framed _ _ _ F2 C1) as C2.
      apply (declared_clear _ b s D t2 (s, declare s s t2) (fun sym' => SAllocate sym' w e' ds') s' t' (IHs Rb Fb) C2 Ls (keep_step s t2) (cov_decl _ _ _ _ _ (keep_step s t2) Ls C2)) in M as (b' & -> & F4 & U).
      split; [exact (framed_trans _ _ _ (framed_trans _ _ _ F1 F2) F4)|]. split; [reflexivity|]. cbn [unshadowed]. split; [exact (expr_clear il e Fe D t e' t1 C M1)|]. split; [exact (dims_clear il ds D t1 ds' t2 Fd C1 M2)|exact U].
    - destruct Rd as (Ls & Rb). destruct Fi as (Fp & Fe & Fd & Fb). apply bind_inv in M as ((p', t1) & M1 & M). apply bind_inv in M as ((e', t2) & M2 & M). apply bind_inv in M as ((ds', t3) & M3 & M).
      pose proof (expr_frame il _ (proj1 (proj2 Fp)) _ _ _ M1) as F1. pose proof (cov_framed _ _ _ F1 C) as C1. pose proof (expr_frame il _ (proj1 (proj2 Fe)) _ _ _ M2) as F2. pose proof (cov_framed _ _ _ F2 C1) as C2.
      pose proof (dims_framed _ _ _ _ _ _ Fd M3) as F3. pose proof (cov_framed _ _ _ F3 C2) as C3. destruct (cov_rename il D s t3 Ls C3) as (y & c & Qr & Sp & N & C4). rewrite Qr in M.
      apply (declared_clear _ b s D t3 (y, declare s y (fst t3, c)) (fun sym' => SMake sym' p' e' ds') s' t' (IHs Rb Fb) C3 Ls Sp C4) in M as (b' & -> & F4 & U).
      split; [exact (framed_trans _ _ _ (framed_trans _ _ _ (framed_trans _ _ _ F1 F2) F3) F4)|]. split; [reflexivity|]. cbn [unshadowed]. split; [exact (expr_clear il p Fp D t p' t1 C M1)|]. split; [exact (expr_clear il e Fe D t1 e' t2 C1 M2)|].
      split; [exact (dims_clear il ds D t2 ds' t3 Fd C2 M3)|]. split; assumption.
    - destruct Rd as (Ls & Rb). destruct (cov_enter il D s t Ls C) as (y & t4 & Q & Sp & N & C4). rewrite Q in M. apply (declared_clear _ b s D t (y, t4) (fun sym' => SConst sym' v) s' t' (IHs Rb Fi) C Ls Sp C4) in M as (b' & -> & F4 & U).
      split; [exact F4|]. split; [reflexivity|]. split; assumption.
    - destruct Rd as (Ls & Lv & Rb). destruct (cov_enter il D s t Ls C) as (y & t4 & Q & Sp & N & C4). rewrite Q in M. apply (declared_clear _ b s D t (y, t4) (fun sym' => SClone sym' (renamed (fst t) v)) s' t' (IHs Rb Fi) C Ls Sp C4) in M as (b' & -> & F4 & U).
      split; [exact F4|]. split; [reflexivity|]. split; assumption.
    - destruct Rd as (Ls & Lv & Rb). destruct Fi as (Fl & Fb). apply bind_inv in M as ((l', t1) & M1 & M).
      assert (F1 : framed t t1). { eapply crops_frame; [|exact M1]. rewrite Forall_forall in *. intros i Ii. apply (fine_distinct n0). auto. } pose proof (cov_framed _ _ _ F1 C) as C1.
      destruct (cov_enter il D s t1 Ls C1) as (y & t4 & Q & Sp & N & C4). rewrite Q in M. apply (declared_clear _ b s D t1 (y, t4) (fun sym' => SCropBuffer sym' (renamed (fst t) v) l') s' t' (IHs Rb Fb) C1 Ls Sp C4) in M as (b' & -> & F4 & U).
      split; [exact (framed_trans _ _ _ F1 F4)|]. split; [reflexivity|]. split; [exact (crops_clear il _ l Fl _ D t l' t1 C M1)|]. split; assumption.
    - destruct Rd as (Ls & Lv & Rb). destruct Fi as (Fl & Fb). apply bind_inv in M as ((l', t1) & M1 & M).
      pose proof (crop_frame il _ d x (fine_distinct _ x Fl) _ _ _ M1) as F1. pose proof (cov_framed _ _ _ F1 C) as C1.
      destruct (cov_enter il D s t1 Ls C1) as (y & t4 & Q & Sp & N & C4). rewrite Q in M. apply (declared_clear _ b s D t1 (y, t4) (fun sym' => SCropDim sym' (renamed (fst t) v) d l') s' t' (IHs Rb Fb) C1 Ls Sp C4) in M as (b' & -> & F4 & U).
      split; [exact (framed_trans _ _ _ F1 F4)|]. split; [reflexivity|]. split; [exact (crop_clear il _ d x D t l' t1 Fl C M1)|]. split; assumption.
    - destruct Rd as (Ls & Lv & Rb). destruct Fi as (Fl & Fb). apply bind_inv in M as ((l', t1) & M1 & M). pose proof (each_framed n0 il _ _ _ _ Fl M1) as F1. pose proof (cov_framed _ _ _ F1 C) as C1.
      destruct (cov_enter il D s t1 Ls C1) as (y & t4 & Q & Sp & N & C4). rewrite Q in M. apply (declared_clear _ b s D t1 (y, t4) (fun sym' => SSliceBuffer sym' (renamed (fst t) v) l') s' t' (IHs Rb Fb) C1 Ls Sp C4) in M as (b' & -> & F4 & U).
      split; [exact (framed_trans _ _ _ F1 F4)|]. split; [reflexivity|]. split; [exact (exprs_clear il l D t l' t1 Fl C M1)|]. split; assumption.
    - destruct Rd as (Ls & Lv & Rb). destruct Fi as (Fl & Fb). apply bind_inv in M as ((l', t1) & M1 & M). pose proof (expr_frame il _ (proj1 (proj2 Fl)) _ _ _ M1) as F1. pose proof (cov_framed _ _ _ F1 C) as C1.
      destruct (cov_enter il D s t1 Ls C1) as (y & t4 & Q & Sp & N & C4). rewrite Q in M. apply (declared_clear _ b s D t1 (y, t4) (fun sym' => SSliceDim sym' (renamed (fst t) v) d l') s' t' (IHs Rb Fb) C1 Ls Sp C4) in M as (b' & -> & F4 & U).
      split; [exact (framed_trans _ _ _ F1 F4)|]. split; [reflexivity|]. split; [exact (expr_clear il x Fl D t l' t1 C M1)|]. split; assumption.
    - destruct Rd as (Ls & Lv & _ & Rb). destruct (cov_enter il D s t Ls C) as (y & t4 & Q & Sp & N & C4). rewrite Q in M. apply (declared_clear _ b s D t (y, t4) (fun sym' => STranspose sym' (renamed (fst t) v) p) s' t' (IHs Rb Fi) C Ls Sp C4) in M as (b' & -> & F4 & U).
      split; [exact F4|]. split; [reflexivity|]. split; assumption.
    - destruct Rd.
    - apply bind_inv in M as ((c', t1) & M1 & M). injection M as <- <-. split; [exact (expr_frame il _ (proj1 (proj2 Fi)) _ _ _ M1)|]. split; [reflexivity|]. exact (expr_clear il c Fi D t c' t1 C M1).
  Qed.
End Below.

(** ** The pass does not fail *)
Definition able {A B} (f : A -> dstate -> res (B * dstate)) (a : A) : Prop := forall t, exists b t', f a t = Val (b, t').
Lemma able_each {A B} (f : A -> dstate -> res (B * dstate)) l : Forall (able f) l -> able (each f) l.
Proof. induction 1 as [|a l A0 F IH]; intro t; [repeat eexists|]. cbn [each]. destruct (A0 t) as (b & t1 & ->). cbn [bind]. destruct (IH t1) as (bs & t2 & ->). repeat eexists. Qed.
Lemma able_lets il (f : expr -> dstate -> res (expr * dstate)) l : Forall (able f) (map snd l) -> forall t, exists l' e t', d_lets il f l t = Val (l', e, t').
Proof.
  induction l as [|(s, v) l IH]; intros F t; [repeat eexists|]. cbn [map snd] in F. inversion F as [|? ? F1 F2]; subst. cbn [d_lets]. destruct (F1 t) as (b & t1 & ->). cbn [bind]. destruct (enter_decl il s t1) as (s', t2).
  destruct (IH F2 t2) as (l' & e & t3 & ->). repeat eexists.
Qed.
Lemma fill_able s l : forall d, exists l', fill_mins (fun _ _ => EUndef) s d l = Val l'.
Proof.
  induction l as [|b l IH]; intro d; [eexists; reflexivity|]. cbn [fill_mins]. destruct (IH (S d)) as (l' & Q).
  destruct (defined b); cbn [defined andb bind]; rewrite Q; eexists; reflexivity.
Qed.
Lemma expr_able il e : plain_heads e -> able (d_expr il) e.
Proof.
  induction e as [|s f d|l b IHl IHb|o a b IHa IHb|a IHa|q t f IHq IHt IHf|fn t args IHargs|c0] using expr_ind'; intros P t0; cbn [d_expr].
  - repeat eexists.
  - repeat eexists.
  - apply heads_let in P as (Pl & Pb). apply (Forall_snd (fun v => plain_heads v -> able (d_expr il) v)) in IHl.
    destruct (able_lets il (d_expr il) l) with (t := t0) as (l' & e & t1 & ->); [rewrite Forall_forall in *; auto|]. cbn [bind]. destruct (IHb Pb t1) as (b' & t2 & ->). repeat eexists.
  - destruct P as (Pa & Pb). destruct (IHa Pa t0) as (a' & t1 & ->). cbn [bind]. destruct (IHb Pb t1) as (b' & t2 & ->). repeat eexists.
  - destruct (IHa P t0) as (a' & t1 & ->). repeat eexists.
  - destruct P as (Pq & Pt & Pf). destruct (IHq Pq t0) as (a' & t1 & ->). cbn [bind]. destruct (IHt Pt t1) as (b' & t2 & ->). cbn [bind]. destruct (IHf Pf t2) as (c' & t3 & ->). repeat eexists.
  - apply heads_call in P as (Ph & Pa). assert (A : Forall (able (d_expr il)) args) by (rewrite Forall_forall in *; auto). destruct (able_each _ _ A t0) as (args' & t1 & M). rewrite M. cbn [bind].
    assert (K : exists r, match fn with i_buffer_at => finish_at (fun _ _ => EUndef) (fun _ => O) args' | _ => Val args' end = Val r); [|destruct K as (r & ->); repeat eexists].
    destruct fn; try (eexists; reflexivity). specialize (Ph eq_refl). destruct args as [|[|s f d| | | | | |] args]; try contradiction. destruct f; try contradiction. cbn [each d_expr] in M. apply bind_inv in M as ((h & t2) & Mh & M). injection Mh as <- <-.
    apply bind_inv in M as ((l1 & t3) & _ & M). injection M as <- <-. cbn [finish_at]. destruct (fill_able (renamed (fst t0) s) (pad 0 l1) 0) as (l' & ->). eexists. reflexivity.
  - repeat eexists.
Qed.
Lemma interval_able il i : every_interval plain_heads i -> able (d_interval il) i.
Proof. intros (A & B) t. unfold d_interval. destruct (expr_able il _ A t) as (a & t1 & ->). cbn [bind]. destruct (expr_able il _ B t1) as (b & t2 & ->). repeat eexists. Qed.
Lemma dim_able il d : every_dim plain_heads d -> able (d_dim il) d.
Proof.
  intros (A & B & C) t. unfold d_dim. destruct (interval_able il _ A t) as (a & t1 & ->). cbn [bind]. destruct (expr_able il _ B t1) as (b & t2 & ->). cbn [bind]. destruct (expr_able il _ C t2) as (c & t3 & ->). repeat eexists.
Qed.
Lemma crop_able il src d i : every_interval plain_heads i -> able (d_crop il src d) i.
Proof. intros A t. unfold d_crop. destruct (interval_able il _ A t) as (a & t1 & ->). repeat eexists. Qed.
Lemma crops_able il src l : Forall (every_interval plain_heads) l -> forall d, able (d_crops il src d) l.
Proof.
  induction 1 as [|i l A F IH]; intros d t; [repeat eexists|]. cbn [d_crops]. destruct (crop_able il src d i A t) as (a & t1 & ->). cbn [bind]. destruct (IH (S d) t1) as (b & t2 & ->). repeat eexists.
Qed.
Lemma stmt_able s : every_expr plain_heads s -> named_asyncs s -> forall il, able (d_stmt il) s.
Proof.
  assert (EL : forall il l, Forall plain_heads l -> able (each (d_expr il)) l) by (intros il l F; apply able_each; rewrite Forall_forall in *; intros; apply expr_able; auto).
  assert (DL : forall il l, Forall (every_dim plain_heads) l -> able (each (d_dim il)) l) by (intros il l F; apply able_each; rewrite Forall_forall in *; intros; apply dim_able; auto).
  induction s as [|tg ins outs sc|src sx dst dx pad|l s c IHs|l IHl|s w x st b IHs|s w e ds b IHs|s p e ds b IHs|s v b IHs|s v b IHs
    |s v l b IHs|s v d x b IHs|s v l b IHs|s v d x b IHs|s v p b IHs|s s1 s2 IHs1 IHs2|c] using stmt_ind'; intros P N il t; try rewrite d_block; cbn [d_stmt every_expr named_asyncs] in *.
  - repeat eexists.
  - destruct (EL il _ P t) as (a & t1 & ->). repeat eexists.
  - destruct (enter_all il dx t) as ((dx', e), t1). destruct (EL il _ P t1) as (a & t2 & ->). repeat eexists.
  - destruct P as (Pl & Pb). destruct (able_lets il (d_expr il) l) with (t := t) as (l' & e & t1 & ->); [rewrite Forall_forall in *; intros; apply expr_able; auto|]. cbn [bind]. destruct (IHs Pb N il t1) as (b' & t2 & ->). repeat eexists.
  - apply every_go_iff in P. assert (K : exists l' t1, d_list il l t = Val (l', t1)); [|destruct K as (l' & t1 & ->); repeat eexists].
    revert t. induction IHl as [|a l A F IH]; intro t; [repeat eexists|]. destruct N as (N1 & N2). inversion P as [|? ? P1 P2]; subst. cbn [d_list]. destruct (A P1 N1 il t) as (a' & t1 & ->). cbn [bind]. destruct (IH P2 N2 t1) as (l' & t2 & ->). repeat eexists.
  - destruct P as (Pw & Px & Ps & Pb). destruct (interval_able il _ Px t) as (a & t1 & ->). cbn [bind]. destruct (expr_able il _ Ps t1) as (st' & t2 & ->). cbn [bind]. destruct (expr_able il _ Pw t2) as (w' & t3 & ->). cbn [bind].
    destruct (enter_decl il s t3) as (s', t4). cbn [fst]. destruct (IHs Pb N (Some s') t4) as (b' & t5 & ->). repeat eexists.
  - destruct P as (Pe & Pd & Pb). destruct (expr_able il _ Pe t) as (a & t1 & ->). cbn [bind]. destruct (DL il _ Pd t1) as (ds' & t2 & ->). cbn [bind]. destruct (IHs Pb N il (declare s s t2)) as (b' & t5 & ->). repeat eexists.
  - destruct P as (Pp & Pe & Pd & Pb). destruct (expr_able il _ Pp t) as (a & t1 & ->). cbn [bind]. destruct (expr_able il _ Pe t1) as (a' & t2 & ->). cbn [bind]. destruct (DL il _ Pd t2) as (ds' & t3 & ->). cbn [bind].
    destruct (rename il s (snd t3)) as (y, c). destruct (IHs Pb N il (declare s y (fst t3, c))) as (b' & t5 & ->). repeat eexists.
  - destruct (enter_decl il s t) as (s', t4). destruct (IHs P N il t4) as (b' & t5 & ->). repeat eexists.
  - destruct (enter_decl il s t) as (s', t4). destruct (IHs P N il t4) as (b' & t5 & ->). repeat eexists.
  - destruct P as (Pl & Pb). destruct (crops_able il (renamed (fst t) v) _ Pl 0 t) as (a & t1 & ->). cbn [bind]. destruct (enter_decl il s t1) as (s', t4). destruct (IHs Pb N il t4) as (b' & t5 & ->). repeat eexists.
  - destruct P as (Pl & Pb). destruct (crop_able il (renamed (fst t) v) d _ Pl t) as (a & t1 & ->). cbn [bind]. destruct (enter_decl il s t1) as (s', t4). destruct (IHs Pb N il t4) as (b' & t5 & ->). repeat eexists.
  - destruct P as (Pl & Pb). destruct (EL il _ Pl t) as (a & t1 & ->). cbn [bind]. destruct (enter_decl il s t1) as (s', t4). destruct (IHs Pb N il t4) as (b' & t5 & ->). repeat eexists.
  - destruct P as (Pl & Pb). destruct (expr_able il _ Pl t) as (a & t1 & ->). cbn [bind]. destruct (enter_decl il s t1) as (s', t4). destruct (IHs Pb N il t4) as (b' & t5 & ->). repeat eexists.
  - destruct (enter_decl il s t) as (s', t4). destruct (IHs P N il t4) as (b' & t5 & ->). repeat eexists.
  - destruct N as (N0 & N1 & N2), P as (P1 & P2). destruct s as [x|]; [|congruence]. destruct (enter_decl il x t) as (s', t4). destruct (IHs1 P1 N1 il t4) as (b' & t5 & ->). cbn [bind]. destruct (IHs2 P2 N2 il t5) as (b'' & t6 & ->). repeat eexists.
  - destruct (expr_able il _ P t) as (a & t1 & ->). repeat eexists.
Qed.
