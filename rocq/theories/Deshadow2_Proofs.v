(** Proofs for C56: what the result means. *)
From Coq Require Import ZArith List Bool Lia.
From Verif Require Import Arith_Model Arith_Proofs Buf_Model Alloc_Model Expr_Model Expr_Spec Expr_Proofs Stmt_Model Stmt_Spec Stmt_Proofs Simplify_Model Simplify_Proofs Deps_Model Deps_Spec
  Subst_Model Subst_Spec StmtSubst_Model StmtSubst_Spec OptSym_Spec VSem_Spec VMono_Proofs VExec_Proofs VRef_Proofs StmtSubst_Proofs StmtSubst2_Proofs Deshadow_Model Deshadow_Spec Deshadow_Proofs.
Import ListNotations.
Open Scope Z_scope.

(** the same value, but who else sees the buffer does not matter *)
Definition vlike (a a' : value) : Prop :=
  match a, a' with Undef, Undef => True | Num z, Num z' => z = z' | Buffer _ b, Buffer _ b' => b = b' | _, _ => False end.
(** ... and if nobody else sees it, then that stays so *)
Definition vok (a a' : value) : Prop :=
  match a, a' with Undef, Undef => True | Num z, Num z' => z = z' | Buffer k b, Buffer k' b' => b = b' /\ (alone k = true -> alone k' = true) | _, _ => False end.
Lemma vok_like a a' : vok a a' -> vlike a a'. Proof. destruct a, a'; cbn; tauto. Qed.
Lemma vok_refl a : vok a a. Proof. destruct a; cbn; auto. Qed.

Section Below.
  Variable n0 : nat.
  Definition safe (n : nat) (rho : nat -> nat) : Prop :=
    (forall x, (x < n0)%nat -> rho x = x \/ (n0 <= rho x < n)%nat) /\ (forall x y, (x < n0)%nat -> (y < n0)%nat -> rho x = rho y -> x = y).
  Definition okst (t : dstate) : Prop := (n0 <= List.length (snd t))%nat /\ safe (List.length (snd t)) (renamed (fst t)).
  Lemma renamed_eq (m m' : nat -> option nat) x : m' x = m x -> renamed m' x = renamed m x. Proof. unfold renamed. intros ->. reflexivity. Qed.
  Lemma okst_framed t t' : framed t t' -> okst t -> okst t'.
  Proof.
    intros (F & G) (L & S1 & S2). apply grows_length in G. assert (R : forall x, renamed (fst t') x = renamed (fst t) x) by (intro x; apply renamed_eq, F).
    split; [lia|]. split.
    - intros x Lx. rewrite R. destruct (S1 x Lx) as [Q|Q]; [left; exact Q|right; lia].
    - intros x y Lx Ly. rewrite !R. auto.
  Qed.
  Lemma step_renamed x t x' t' : decl_step x t x' t' -> renamed (fst t') x = x' /\ forall y, y <> x -> renamed (fst t') y = renamed (fst t) y.
  Proof.
    intros (Q & _). rewrite Q. split; [unfold renamed; rewrite put_same; reflexivity|]. intros y n. apply renamed_eq, put_other, n.
  Qed.
  Lemma step_new x t x' t' y : decl_step x t x' t' -> okst t -> (x < n0)%nat -> (y < n0)%nat -> y <> x -> renamed (fst t) y <> x'.
  Proof. intros (_ & Q) (L & S1 & _) Lx Ly n. destruct (S1 y Ly) as [Qy|Qy], Q as [(-> & _)|(-> & _)]; lia. Qed.
  Lemma okst_step x t x' t' : decl_step x t x' t' -> okst t -> (x < n0)%nat -> okst t'.
  Proof.
    intros Sp O Lx. pose proof (step_grows _ _ _ _ Sp) as G. apply grows_length in G. destruct (step_renamed _ _ _ _ Sp) as (R1 & R2). destruct O as (L & S1 & S2). split; [lia|]. split.
    - intros y Ly. destruct (Nat.eq_dec y x) as [->|n].
      + rewrite R1. destruct Sp as (_ & [(-> & _)|(-> & s & ->)]); [left; reflexivity|right]. rewrite app_length. cbn. lia.
      + rewrite (R2 y n). destruct (S1 y Ly) as [Q|Q]; [left; exact Q|right; lia].
    - assert (Nw : forall y, (y < n0)%nat -> y <> x -> renamed (fst t) y <> x') by (intros y Ly n; apply (step_new x t x' t' y Sp (conj L (conj S1 S2)) Lx Ly n)).
      intros y z Ly Lz. destruct (Nat.eq_dec y x) as [->|n], (Nat.eq_dec z x) as [->|n']; [reflexivity|rewrite R1, (R2 _ n')|rewrite R1, (R2 _ n)|rewrite (R2 _ n), (R2 _ n'); auto].
      + intro Q. symmetry in Q. exfalso. exact (Nw z Lz n' Q).
      + intro Q. exfalso. exact (Nw y Ly n Q).
  Qed.

  Section Sem.
    Variable X : Type.
    Variable H : host X.
    Notation veval := (veval X H).
    Definition like (rho : nat -> nat) (E E' : venv) : Prop := forall x, (x < n0)%nat -> vlike (E x) (E' (rho x)).
    Lemma like_framed t t' E E' : framed t t' -> like (renamed (fst t)) E E' -> like (renamed (fst t')) E E'.
    Proof. intros (F & _) L x Lx. rewrite (renamed_eq (fst t) (fst t') x (F x)). exact (L x Lx). Qed.
    Lemma like_step x t x' t' E E' a a' : decl_step x t x' t' -> okst t -> (x < n0)%nat -> like (renamed (fst t)) E E' -> vlike a a' -> like (renamed (fst t')) (vset E x a) (vset E' x' a').
    Proof.
      intros Sp O Lx L A y Ly. destruct (step_renamed _ _ _ _ Sp) as (R1 & R2). destruct (Nat.eq_dec y x) as [->|n]; [rewrite R1, !vset_same; exact A|].
      rewrite (R2 y n), (vset_other _ _ _ _ n), vset_other; [exact (L y Ly)|exact (step_new _ _ _ _ _ Sp O Lx Ly n)].
    Qed.
    Definition xsame (rho : nat -> nat) (e e' : expr) : Prop := defined e' = defined e /\ forall E E', like rho E E' -> veval E' e' = veval E e.
    Definition good_x (il : option nat) (e : expr) : Prop := forall t e' t', okst t -> d_expr il e t = Val (e', t') -> framed t t' /\ xsame (renamed (fst t)) e e'.
    Lemma xsame_framed t t' e e' : framed t t' -> xsame (renamed (fst t')) e e' -> xsame (renamed (fst t)) e e'.
    Proof. intros F (D & S). split; [exact D|]. intros E E' L. apply S. exact (like_framed _ _ _ _ F L). Qed.

    Lemma good_x_args il l : Forall (good_x il) l -> forall t l' t', okst t -> each (d_expr il) l t = Val (l', t') -> framed t t' /\ Forall2 (xsame (renamed (fst t))) l l'.
    Proof.
      induction 1 as [|a l G _ IH]; intros t l' t' O M; cbn [each] in M; [injection M as <- <-; split; [apply framed_refl|constructor]|].
      apply bind_inv in M as ((a', t1) & Ma & M). apply bind_inv in M as ((l1, t2) & Ml & M). injection M as <- <-. destruct (G t a' t1 O Ma) as (F1 & Sa).
      destruct (IH t1 l1 t2 (okst_framed _ _ F1 O) Ml) as (F2 & Sl). split; [eapply framed_trans; eassumption|]. constructor; [exact Sa|].
      clear -F1 Sl. induction Sl as [|u v l l' Suv F IH]; constructor; [exact (xsame_framed _ _ _ _ F1 Suv)|exact IH].
    Qed.
    Lemma same_args rho l l' : Forall2 (xsame rho) l l' -> forall E E', like rho E E' ->
      veval_args veval E' l' = veval_args veval E l /\ (forall n, veval_at veval E' n l' = veval_at veval E n l) /\ (forall stop, veval_short veval E' stop l' = veval_short veval E stop l).
    Proof.
      induction 1 as [|a a' l l' (D & S) F IH]; intros E E' L; [split; [reflexivity|split; [intros []; reflexivity|reflexivity]]|]. destruct (IH E E' L) as (I1 & I2 & I3). specialize (S E E' L). split; [|split].
      - cbn [veval_args]. rewrite D, S, I1. reflexivity.
      - intros [|n]; [reflexivity|]. cbn [veval_at]. rewrite D, S, I2. reflexivity.
      - intro stop. cbn [veval_short]. rewrite S. destruct (veval E a); [|reflexivity]. cbn [bind]. rewrite I3. reflexivity.
    Qed.
    Definition same_envs (t : dstate) (r r' : res venv) : Prop := match r, r' with Val E, Val E' => like (renamed (fst t)) E E' | UB, UB => True | _, _ => False end.
    Lemma good_x_lets il l : Forall (good_x il) (map snd l) -> Forall (fun x => (x < n0)%nat) (map fst l) -> forall t l' e t', okst t -> d_lets il (d_expr il) l t = Val (l', e, t') ->
      okst t' /\ forall E E', like (renamed (fst t)) E E' -> same_envs t' (veval_lets veval l E) (veval_lets veval l' E').
    Proof.
      induction l as [|(s, v) l IH]; intros G B t l' e t' O M; cbn [d_lets map fst snd] in *; [injection M as <- <- <-; split; [exact O|auto]|].
      inversion G as [|? ? Gv Gl]; subst. inversion B as [|? ? Bs Bl]; subst. apply bind_inv in M as ((v', t1) & Mv & M). destruct (Gv t v' t1 O Mv) as (F1 & Dv & Sv).
      destruct (enter_step il s t1) as (s' & t2 & Qe & Sp & _). rewrite Qe in M. apply bind_inv in M as (((l1, e1), t3) & Ml & M). injection M as <- <- <-.
      pose proof (okst_framed _ _ F1 O) as O1. pose proof (okst_step _ _ _ _ Sp O1 Bs) as O2. destruct (IH Gl Bl t2 l1 e1 t3 O2 Ml) as (O3 & Sl). split; [exact O3|].
      intros E E' L. cbn [veval_lets]. rewrite (Sv E E' L). destruct (veval E v) as [z|]; [|exact I]. cbn [bind]. apply Sl.
      apply (like_step s t1); [exact Sp|exact O1|exact Bs|exact (like_framed _ _ _ _ F1 L)|reflexivity].
    Qed.
    Lemma d_not_min il a t a' t' s d : ~ min_in d a -> d_expr il a t = Val (a', t') -> is_min_of a' s d = false.
    Proof.
      intros N M. destruct a; cbn [d_expr] in M.
      - injection M as <- _. reflexivity.
      - injection M as <- _. cbn [min_in] in N. unfold is_min_of. destruct f; try reflexivity. destruct (Z.eqb_spec dim d) as [q|]; [destruct (N q)|]. apply andb_false_r.
      - apply bind_inv in M as (((l', e), t1) & _ & M). apply bind_inv in M as ((b', t2) & _ & M). injection M as <- _. reflexivity.
      - apply bind_inv in M as ((x, t1) & _ & M). apply bind_inv in M as ((b', t2) & _ & M). injection M as <- _. unfold make_bin. destruct (_ && _); reflexivity.
      - apply bind_inv in M as ((x, t1) & _ & M). injection M as <- _. reflexivity.
      - apply bind_inv in M as ((x, t1) & _ & M). apply bind_inv in M as ((y, t2) & _ & M). apply bind_inv in M as ((b', t3) & _ & M). injection M as <- _. reflexivity.
      - apply bind_inv in M as ((x, t1) & _ & M). apply bind_inv in M as (y & _ & M). injection M as <- _. reflexivity.
      - injection M as <- _. reflexivity.
    Qed.
    Lemma fill_neat il s l : forall d t l' t', neat_args (Z.of_nat d) l -> each (d_expr il) l t = Val (l', t') -> fill_mins (fun _ _ => EUndef) s d l' = Val l'.
    Proof.
      induction l as [|a l IH]; intros d t l' t' T M; cbn [each] in M; [injection M as <- <-; reflexivity|].
      apply bind_inv in M as ((a', t1) & Ma & M). apply bind_inv in M as ((l1, t2) & Ml & M). injection M as <- <-. cbn [neat_args] in T. destruct T as (T1 & T).
      cbn [fill_mins]. replace (Z.of_nat d + 1) with (Z.of_nat (S d)) in T by lia. rewrite (IH (S d) t1 l1 t2 T Ml), (d_not_min il a t a' t1 s _ T1 Ma). destruct a'; reflexivity.
    Qed.
    Lemma at_undefs E l k : forall n, veval_at veval E n (l ++ repeat EUndef k) = UB -> veval_at veval E n l = UB.
    Proof.
      induction l as [|a l IH]; intros n Q.
      - exfalso. cbn [app] in Q. revert n Q. induction k as [|k IH]; intros n Q; cbn [repeat veval_at] in Q; [discriminate|]. destruct n as [|n]; [discriminate|]. cbn [defined] in Q.
        destruct (veval_at veval E n (repeat EUndef k)) eqn:R; [discriminate|exact (IH _ R)].
      - cbn [app veval_at] in *. destruct n as [|n]; [discriminate|]. destruct (defined a).
        + destruct (veval E a); [|reflexivity]. cbn [bind] in *. destruct (veval_at veval E n (l ++ repeat EUndef k)) eqn:R; [discriminate|]. rewrite (IH _ R). reflexivity.
        + destruct (veval_at veval E n (l ++ repeat EUndef k)) eqn:R; [discriminate|]. rewrite (IH _ R). reflexivity.
    Qed.
    Lemma at_popped E n b l : (vs <- veval_at veval E n (pop_undefined l) ;; Val (ptr_value (buffer_at b vs))) = (vs <- veval_at veval E n l ;; Val (ptr_value (buffer_at b vs))).
    Proof.
      destruct (pop_app l) as (j & Q). rewrite Q at 2. destruct (veval_at veval E n (pop_undefined l ++ repeat EUndef j)) as [vs|] eqn:R.
      - apply at_app in R as (vs' & i & R & ->). rewrite R. cbn [bind]. do 2 f_equal. unfold buffer_at. symmetry. apply at_nones.
      - rewrite (at_undefs _ _ _ _ R). reflexivity.
    Qed.
    Lemma below_let l b : below n0 (ELet l b) -> Forall (fun x => (x < n0)%nat) (map fst l) /\ Forall (below n0) (map snd l) /\ below n0 b.
    Proof. cbn [below]. induction l as [|(s, v) l IH]; [intros; repeat split; auto; constructor|]. intros (A & B & C). destruct (IH C) as (I1 & I2 & I3). split; [constructor; auto|]. split; [constructor; auto|exact I3]. Qed.
    Lemma below_args f t l : below n0 (ECall f t l) -> Forall (below n0) l.
    Proof. cbn [below]. induction l as [|a l IH]; [constructor|]. intros (A & B). constructor; auto. Qed.
    Lemma neat_let l b : neat (ELet l b) -> Forall neat (map snd l) /\ neat b.
    Proof. cbn [neat]. induction l as [|(s, v) l IH]; [intros; split; auto; constructor|]. intros (A & B). destruct (IH B) as (I1 & I2). split; [constructor; auto|exact I2]. Qed.
    Lemma neat_call f t l : neat (ECall f t l) -> (f = i_buffer_at -> neat_args 0 (tl l)) /\ Forall neat l.
    Proof.
      cbn [neat]. intros (A & B). split; [intros ->; destruct l; [exact I|exact A]|]. clear A. induction l as [|a l IH]; [constructor|]. destruct B. constructor; auto.
    Qed.
    Lemma fine_let l b : fine n0 (ELet l b) -> Forall (fun x => (x < n0)%nat) (map fst l) /\ NoDup (map fst l) /\ Forall (fine n0) (map snd l) /\ fine n0 b.
    Proof.
      intros (B & D & N). apply below_let in B as (B1 & B2 & B3). apply distinct_lets in D as (D1 & D2 & D3). apply neat_let in N as (N1 & N2). split; [exact B1|]. split; [exact D1|]. split; [|split; auto].
      rewrite Forall_forall in *. intros v Iv. split; auto.
    Qed.
    Lemma fine_call f t l : fine n0 (ECall f t l) -> (f = i_buffer_at -> neat_args 0 (tl l)) /\ Forall (fine n0) l.
    Proof.
      intros (B & D & N). apply below_args in B. apply distinct_args in D. apply neat_call in N as (N1 & N2). split; [exact N1|]. rewrite Forall_forall in *. intros v Iv. split; auto.
    Qed.
    Lemma like_var rho E E' s f d : like rho E E' -> (s < n0)%nat -> veval E' (EVar (rho s) f d) = veval E (EVar s f d).
    Proof. intros L Ls. specialize (L s Ls). cbn [VSem_Spec.veval]. destruct (E s), (E' (rho s)); cbn [vlike] in L; try contradiction; subst; destruct f; reflexivity. Qed.
    Lemma expr_good il e : fine n0 e -> good_x il e.
    Proof.
      induction e as [|s f d|l b IHl IHb|o a b IHa IHb|a IHa|q t f IHq IHt IHf|fn t args IHargs|c0] using expr_ind'; intros Fi t0 e' t' O M;
        (split; [exact (expr_frame il _ (proj1 (proj2 Fi)) _ _ _ M)|]); cbn [d_expr] in M.
      - injection M as <- <-. split; reflexivity.
      - injection M as <- <-. split; [reflexivity|]. intros E E' L. apply like_var; [exact L|exact (proj1 Fi)].
      - apply fine_let in Fi as (B & N & Fl & Fb). apply (Forall_snd (fun v => fine n0 v -> good_x il v)) in IHl. apply bind_inv in M as (((l', e), t1) & Ml & M). apply bind_inv in M as ((b', t2) & Mb & M). injection M as <- <-.
        split; [reflexivity|]. intros E E' L. cbn [VSem_Spec.veval]. destruct (good_x_lets il l) with (t := t0) (l' := l') (e := e) (t' := t1) as (O1 & S); auto.
        { rewrite Forall_forall in *. auto. }
        specialize (S E E' L). unfold same_envs in S. destruct (veval_lets veval l E) as [E1|], (veval_lets veval l' E') as [E1'|]; try contradiction; [|reflexivity]. cbn [bind].
        destruct (IHb Fb t1 b' t2 O1 Mb) as (_ & _ & Sb). exact (Sb E1 E1' S).
      - destruct Fi as ((B1 & B2) & (D1 & D2) & (N1 & N2)). apply bind_inv in M as ((a', t1) & Ma & M). apply bind_inv in M as ((b', t2) & Mb & M). injection M as <- <-.
        destruct (IHa ltac:(repeat split; assumption) t0 a' t1 O Ma) as (F1 & _ & Sa). destruct (IHb ltac:(repeat split; assumption) t1 b' t2 (okst_framed _ _ F1 O) Mb) as (_ & _ & Sb).
        split; [unfold make_bin; destruct (_ && _); reflexivity|]. intros E E' L. rewrite veval_make_bin. cbn [VSem_Spec.veval]. rewrite (Sa E E' L), (Sb E E' (like_framed _ _ _ _ F1 L)). reflexivity.
      - apply bind_inv in M as ((a', t1) & Ma & M). injection M as <- <-. destruct (IHa Fi t0 a' t1 O Ma) as (_ & _ & Sa). split; [reflexivity|]. intros E E' L. cbn [VSem_Spec.veval]. rewrite (Sa E E' L). reflexivity.
      - destruct Fi as ((B1 & B2 & B3) & (D1 & D2 & D3) & (N1 & N2 & N3)). apply bind_inv in M as ((q', t1) & Mq & M). apply bind_inv in M as ((x', t2) & Mt & M). apply bind_inv in M as ((f', t3) & Mf & M). injection M as <- <-.
        destruct (IHq ltac:(repeat split; assumption) t0 q' t1 O Mq) as (F1 & _ & Sq). pose proof (okst_framed _ _ F1 O) as O1. destruct (IHt ltac:(repeat split; assumption) t1 x' t2 O1 Mt) as (F2 & _ & St).
        destruct (IHf ltac:(repeat split; assumption) t2 f' t3 (okst_framed _ _ F2 O1) Mf) as (_ & _ & Sf).
        split; [reflexivity|]. intros E E' L. cbn [VSem_Spec.veval]. pose proof (like_framed _ _ _ _ F1 L) as L1. rewrite (Sq E E' L), (St E E' L1), (Sf E E' (like_framed _ _ _ _ F2 L1)). reflexivity.
      - apply fine_call in Fi as (Nb & Fa). apply bind_inv in M as ((args', t1) & Ma & M). apply bind_inv in M as (args'' & Mf & M). injection M as <- <-. split; [reflexivity|]. intros E E' L.
        assert (Ga : Forall (good_x il) args) by (rewrite Forall_forall in *; auto).
        destruct (match fn with i_buffer_at => true | _ => false end) eqn:Qf.
        + destruct fn; try discriminate. clear Qf. specialize (Nb eq_refl). destruct args as [|h at_]; [cbn [each] in Ma; injection Ma as <- <-; injection Mf as <-; reflexivity|].
          cbn [each] in Ma. apply bind_inv in Ma as ((h', t2) & Mh & Ma). apply bind_inv in Ma as ((at', t3) & Mat & Ma). injection Ma as <- <-. cbn [tl] in Nb.
          inversion Ga as [|? ? Gh Gat]; subst. inversion Fa as [|? ? Fh Fat]; subst.
          destruct h; cbn [d_expr] in Mh.
          * injection Mh as <- <-. injection Mf as <-. reflexivity.
          * injection Mh as <- <-. destruct f; try discriminate Mf. cbn [finish_at] in Mf. unfold pad in Mf. cbn [Nat.sub repeat] in Mf. rewrite app_nil_r in Mf.
            rewrite (fill_neat il _ at_ 0%nat t0 at' t3 Nb Mat) in Mf. cbn [bind] in Mf. injection Mf as <-. cbn [VSem_Spec.veval].
            destruct (good_x_args il at_ Gat t0 at' t3 O Mat) as (_ & Sat). destruct (same_args _ _ _ Sat E E' L) as (_ & Q & _).
            pose proof (L sym (proj1 Fh)) as Ls. destruct (E sym) as [| |k b], (E' (renamed (fst t0) sym)) as [| |k' b']; cbn [vlike] in Ls; try contradiction; try reflexivity. subst b'.
            rewrite at_popped, Q. reflexivity.
          * apply bind_inv in Mh as (((? & ?), ?) & _ & Mh). apply bind_inv in Mh as ((? & ?) & _ & Mh). injection Mh as <- <-. discriminate Mf.
          * apply bind_inv in Mh as ((? & ?) & _ & Mh). apply bind_inv in Mh as ((? & ?) & _ & Mh). injection Mh as <- <-. unfold make_bin in Mf. destruct (_ && _); discriminate Mf.
          * apply bind_inv in Mh as ((? & ?) & _ & Mh). injection Mh as <- <-. discriminate Mf.
          * apply bind_inv in Mh as ((? & ?) & _ & Mh). apply bind_inv in Mh as ((? & ?) & _ & Mh). apply bind_inv in Mh as ((? & ?) & _ & Mh). injection Mh as <- <-. discriminate Mf.
          * apply bind_inv in Mh as ((? & ?) & _ & Mh). apply bind_inv in Mh as (? & _ & Mh). injection Mh as <- <-. discriminate Mf.
          * injection Mh as <- <-. discriminate Mf.
        + assert (args'' = args') by (destruct fn; try discriminate; injection Mf as <-; reflexivity). subst args''. clear Mf.
          destruct (good_x_args il args Ga t0 args' t1 O Ma) as (_ & Sa). destruct (same_args _ _ _ Sa E E' L) as (Q1 & _ & Q3).
          cbn [VSem_Spec.veval]. destruct fn; try discriminate; rewrite ?Q1; auto.
          destruct Sa as [|a a' l l' (_ & Sx) [|? ? ? ? ? ?]]; try reflexivity. rewrite (Sx E E' L). reflexivity.
      - injection M as <- <-. split; reflexivity.
    Qed.
  End Sem.
End Below.
