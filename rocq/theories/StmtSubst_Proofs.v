(** Proofs for C54. *)
From Coq Require Import ZArith List Bool Lia.
From Verif Require Import Arith_Model Arith_Proofs Buf_Model Alloc_Model Expr_Model Expr_Spec Expr_Proofs Stmt_Model Stmt_Spec Stmt_Proofs Simplify_Model Simplify_Proofs Deps_Model Deps_Spec
  Deps_Proofs Deps_Props Subst_Model Subst_Spec SubstMean_Proofs SubstEval_Proofs Subst_Props StmtSubst_Model StmtSubst_Spec VSem_Spec VMono_Proofs VExec_Proofs VRef_Proofs.
Import ListNotations.
Open Scope Z_scope.

Definition sub_of (x : nat) (rep : expr) : sub := fun y => if (y =? x)%nat then rep else EVar y f_none 0.
Lemma sub_same x rep : sub_of x rep x = rep. Proof. unfold sub_of. rewrite Nat.eqb_refl. reflexivity. Qed.
Lemma sub_other x rep y : y <> x -> sub_of x rep y = EVar y f_none 0. Proof. intro n. unfold sub_of. apply Nat.eqb_neq in n. rewrite n. reflexivity. Qed.

Lemma in_lets_free y l (b : expr) : in_lets (free y) y l (free y b) <-> free y (ELet l b).
Proof.
  induction l as [|(s, v) l IH]; cbn [in_lets].
  - split; [intros (ro & O); exists ro; exact O|intros (ro & O); exists ro; exact O].
  - rewrite IH. split.
    + intros [(ro & O)|(n & ro & O)]; exists ro; cbn [occurs in_lets]; [left; exact O|right; split; [exact n|exact O]].
    + intros (ro & O). cbn [occurs in_lets] in O. destruct O as [O|(n & O)]; [left; exists ro; exact O|right; split; [exact n|exists ro; exact O]].
Qed.
Lemma free_let_cons y s v l b : free y (ELet ((s, v) :: l) b) <-> free y v \/ (s <> y /\ free y (ELet l b)).
Proof. rewrite <- !in_lets_free. reflexivity. Qed.

Section Exprs.
  Variable X : Type.
  Variable H : host X.
  Notation veval := (veval X H).
  Variable x : nat.
  Variable rep : expr.
  Hypothesis Dr : defined rep = true.
  Notation sg := (sub_of x rep).
  Notation mut := (var_mutate x rep).
  Notation senvs := (senvs X H).
  Notation eref := (eref X H).
  Notation F := (fun s => free s rep).

  Lemma sub_defined e e' : mut e = Val e' -> defined e' = defined e.
  Proof.
    unfold var_mutate. destruct e; cbn [mutate]; intros E; try (injection E as <-; reflexivity).
    - unfold visit_var in E. destruct (sym =? x)%nat; [|injection E as <-; reflexivity]. destruct f; [injection E as <-; rewrite Dr; reflexivity|..];
        (apply bind_inv in E as (z & _ & E); injection E as <-; reflexivity).
    - apply bind_inv in E as ((l', al) & _ & E). apply bind_inv in E as (b' & _ & E). injection E as <-. reflexivity.
    - apply bind_inv in E as (a' & _ & E). apply bind_inv in E as (b' & _ & E). injection E as <-. unfold make_bin. destruct (_ && _); reflexivity.
    - apply bind_inv in E as (a' & _ & E). injection E as <-. reflexivity.
    - apply bind_inv in E as (a' & _ & E). apply bind_inv in E as (b' & _ & E). apply bind_inv in E as (c' & _ & E). injection E as <-. reflexivity.
    - apply bind_inv in E as (a' & _ & E). apply bind_inv in E as (b' & _ & E). injection E as <-. reflexivity.
  Qed.
  (** after a symbol is bound on both sides *)
  Lemma senvs_set (D D' : nat -> Prop) E E' s z : senvs D sg E E' -> s <> x -> ~ free s rep -> (forall y, D' y -> y <> s -> D y) ->
    senvs D' sg (vset E s (Num z)) (vset E' s (Num z)).
  Proof.
    intros V n N S y Dy. destruct (Nat.eq_dec y s) as [->|ny].
    - rewrite vset_same, (sub_other _ _ _ n). cbn [stands]. rewrite vset_same. reflexivity.
    - rewrite (vset_other _ _ _ _ ny). specialize (V y (S y Dy ny)). destruct (Nat.eq_dec y x) as [->|nx].
      + rewrite sub_same in *. unfold stands in *.
        assert (G : forall w, veval E' rep = Val w -> veval (vset E' s (Num z)) rep = Val w).
        { intros w. apply veval_sim. intros u Fu. rewrite vset_other; [apply vsim_refl|]. intros ->. exact (N Fu). }
        destruct rep as [|u f d| | | | | |]; try (destruct (E x); auto; fail). destruct f; try (destruct (E x); auto; fail).
        assert (Nu : u <> s) by (intros ->; apply N; exists (RField f_none); cbn; auto). rewrite (vset_other _ _ _ _ Nu). exact V.
      + rewrite (sub_other _ _ _ nx) in *. cbn [stands] in *. rewrite (vset_other _ _ _ _ ny). exact V.
  Qed.
  (** what stays as it is means the same if the target is not in it *)
  Lemma senvs_sim (D : nat -> Prop) E E' : senvs D sg E E' -> ~ D x -> sim_on D E E'.
  Proof.
    intros V N y Dy. specialize (V y Dy). rewrite sub_other in V by (intros ->; contradiction). cbn [stands] in V. destruct (E y); [exact I|rewrite V; reflexivity|]. destruct V as (k' & ->). reflexivity.
  Qed.
  Definition good (e : expr) : Prop := forall e', no_capture x F e -> tidy x rep e -> mut e = Val e' -> eref sg e e'.

  Lemma good_lets b l : Forall good (map snd l) -> forall l' al E E' E1, no_capture_lets x F (no_capture x F) b l -> Forall (tidy x rep) (map snd l) ->
    mutate_lets (enter_var x rep) mut l = Val (l', al) -> senvs (fun y => free y (ELet l b)) sg E E' -> veval_lets veval l E = Val E1 ->
    exists E1', veval_lets veval l' E' = Val E1' /\ if al : bool then senvs (fun y => free y b) sg E1 E1' /\ no_capture x F b else sim_on (fun y => free y b) E1 E1'.
  Proof.
    induction l as [|(s, v) l IH]; intros G l' al E E' E1 C T M V Ev; cbn [mutate_lets veval_lets] in *.
    - injection M as <- <-. injection Ev as <-. exists E'. split; [reflexivity|]. split; [|exact C]. eapply senvs_weaken; [exact V|]. intros y Fy. apply in_lets_free. exact Fy.
    - apply bind_inv in Ev as (z & Vv & Ev). apply bind_inv in M as (v' & Mv & M). inversion G as [|? ? Gv Gl]; subst. inversion T as [|? ? Tv Tl]; subst. cbn [snd] in *.
      cbn [no_capture_lets] in C. destruct C as (Cv & C).
      assert (Vv' : veval E' v' = Val z).
      { apply (Gv v' Cv Tv Mv E E'); [|exact Vv]. eapply senvs_weaken; [exact V|]. intros y Fy. apply free_let_cons. left. exact Fy. }
      destruct (enter_var x rep s) eqn:En.
      + apply enter_true in En as (n & N). apply bind_inv in M as ((l1, al1) & M1 & M). injection M as <- <-. cbn [veval_lets]. rewrite Vv'. cbn [bind].
        apply (IH Gl l1 al1 (vset E s (Num z)) (vset E' s (Num z)) E1); auto.
        * destruct C as [C|(_ & C)]; [congruence|exact C].
        * eapply senvs_set; [exact V|exact n|exact N|]. intros y Fy ny. apply free_let_cons. right. split; [congruence|exact Fy].
      + injection M as <- <-. cbn [veval_lets]. rewrite Vv'. cbn [bind].
        assert (Sm : sim_on (fun y => free y (ELet l b)) (vset E s (Num z)) (vset E' s (Num z))).
        { assert (Hx : s = x \/ ~ free x (ELet l b)).
          { apply enter_false in En as [->|Fs]; [left; reflexivity|]. destruct C as [->|(C & _)]; [left; reflexivity|]. right. intros Fx. apply C; [|exact Fs]. apply in_lets_free. exact Fx. }
          intros y Fy. unfold vset. destruct (Nat.eqb_spec y s) as [->|ny]; [reflexivity|].
          refine (senvs_sim (fun y => y <> s /\ free y (ELet l b)) E E' _ _ y (conj ny Fy)).
          - eapply senvs_weaken; [exact V|]. intros u (nu & Fu). apply free_let_cons. right. split; [congruence|exact Fu].
          - intros (nx & Fx). destruct Hx as [Hx|Hx]; [congruence|contradiction]. }
        destruct (mono_lets X H l ltac:(apply Forall_forall; intros e _; apply veval_sim) (fun y => exists ro, occurs y ro b) (vset E s (Num z)) (vset E' s (Num z)) E1) as (E1' & Q & S); [|exact Ev|].
        * intros y (ro & O). apply Sm. apply in_lets_free. clear -O. revert ro O. induction l as [|(s0, v0) l IH]; intros ro O; cbn [in_lets] in *.
          -- exact O.
          -- destruct O as [O|(n & O)]; [left; exists ro; exact O|right; split; [exact n|exact (IH _ O)]].
        * exists E1'. split; [exact Q|exact S].
  Qed.
  Lemma good_args l : Forall good l -> forall l' E E', Forall (no_capture x F) l -> Forall (tidy x rep) l -> mutate_args mut l = Val l' -> senvs (fun y => any_of (free y) l) sg E E' ->
    (forall vs, veval_args veval E l = Val vs -> veval_args veval E' l' = Val vs) /\
    (forall n vs, veval_at veval E n l = Val vs -> veval_at veval E' n l' = Val vs) /\
    (forall stop z, veval_short veval E stop l = Val z -> veval_short veval E' stop l' = Val z).
  Proof.
    induction 1 as [|a l G _ IH]; intros l' E E' C T M V; cbn [mutate_args] in M.
    - injection M as <-. split; [auto|]. split; [intros n vs Q; destruct n; exact Q|auto].
    - apply bind_inv in M as (a' & Ma & M). apply bind_inv in M as (l1 & Ml & M). injection M as <-. inversion C as [|? ? Ca Cl]; inversion T as [|? ? Ta Tl]; subst.
      destruct (IH l1 E E' Cl Tl Ml) as (I1 & I2 & I3); [eapply senvs_weaken; [exact V|intros y Fy; right; exact Fy]|].
      assert (Ev : forall z, veval E a = Val z -> veval E' a' = Val z) by (intros z; apply (G a' Ca Ta Ma); eapply senvs_weaken; [exact V|intros y Fy; left; exact Fy]).
      pose proof (sub_defined a a' Ma) as De. split; [|split].
      + intros vs Q. cbn [veval_args] in *. rewrite De. destruct (defined a).
        * apply bind_inv in Q as (z & Q1 & Q). apply bind_inv in Q as (zs & Q2 & Q). rewrite (Ev _ Q1), (I1 _ Q2). exact Q.
        * apply bind_inv in Q as (zs & Q2 & Q). rewrite (I1 _ Q2). exact Q.
      + intros [|n] vs Q; cbn [veval_at] in *; [exact Q|]. rewrite De. destruct (defined a).
        * apply bind_inv in Q as (z & Q1 & Q). apply bind_inv in Q as (zs & Q2 & Q). rewrite (Ev _ Q1), (I2 _ _ Q2). exact Q.
        * apply bind_inv in Q as (zs & Q2 & Q). rewrite (I2 _ _ Q2). exact Q.
      + intros stop z Q. cbn [veval_short] in *. apply bind_inv in Q as (y & Q1 & Q). rewrite (Ev _ Q1). cbn [bind]. destruct (Bool.eqb _ _); [exact Q|exact (I3 _ _ Q)].
  Qed.

  Lemma sub_not_min a a' s d : ~ min_in d a -> match a with EVar y f_none _ => y = x -> ~ min_in d rep | _ => True end -> mut a = Val a' -> is_min_of a' s d = false.
  Proof.
    intros N1 N2 E. destruct (is_min_of a' s d) eqn:Q; [|reflexivity]. exfalso.
    assert (M : min_in d a') by (unfold is_min_of in Q; destruct a' as [|y f k| | | | | |]; try discriminate; destruct f; try discriminate; apply andb_true_iff in Q as (_ & Q); apply Z.eqb_eq in Q; exact Q).
    clear Q. unfold var_mutate in E. destruct a; cbn [mutate] in E; try (injection E as <-; contradiction).
    - unfold visit_var in E. destruct (Nat.eqb_spec sym x) as [->|n]; [|injection E as <-; contradiction].
      destruct f; [injection E as <-; exact (N2 eq_refl M)|..]; (apply bind_inv in E as (z & _ & E); injection E as <-; contradiction).
    - apply bind_inv in E as ((l', al) & _ & E). apply bind_inv in E as (b' & _ & E). injection E as <-. contradiction.
    - apply bind_inv in E as (a0' & _ & E). apply bind_inv in E as (b' & _ & E). injection E as <-. unfold make_bin in M. destruct (_ && _); contradiction.
    - apply bind_inv in E as (a0' & _ & E). injection E as <-. contradiction.
    - apply bind_inv in E as (a0' & _ & E). apply bind_inv in E as (b' & _ & E). apply bind_inv in E as (c' & _ & E). injection E as <-. contradiction.
    - apply bind_inv in E as (a0' & _ & E). apply bind_inv in E as (b' & _ & E). injection E as <-. contradiction.
  Qed.
  Lemma fill_tidy s l : forall d l', tidy_args x rep (Z.of_nat d) l -> mutate_args mut l = Val l' -> fill_mins (fun _ _ => EUndef) s d l' = Val l'.
  Proof.
    induction l as [|a l IH]; intros d l' T M; cbn [mutate_args] in M; [injection M as <-; reflexivity|].
    apply bind_inv in M as (a' & Ma & M). apply bind_inv in M as (l1 & Ml & M). injection M as <-. cbn [tidy_args] in T. destruct T as (T1 & T2 & T).
    cbn [fill_mins]. replace (Z.of_nat d + 1) with (Z.of_nat (S d)) in T by lia. rewrite (IH (S d) l1 T Ml), (sub_not_min a a' s _ T1 T2 Ma). destruct a'; reflexivity.
  Qed.
  Lemma at_app E' l k : forall n vs, veval_at veval E' n (l ++ repeat EUndef k) = Val vs -> exists vs' j, veval_at veval E' n l = Val vs' /\ vs = vs' ++ repeat None j.
  Proof.
    induction l as [|a l IH]; intros n vs Q.
    - exists [], (length vs). split; [destruct n; reflexivity|]. cbn [app] in Q. revert n vs Q. induction k as [|k IH]; intros n vs Q; cbn [repeat veval_at] in Q; [injection Q as <-; reflexivity|].
      destruct n as [|n]; [injection Q as <-; reflexivity|]. cbn [defined] in Q. apply bind_inv in Q as (zs & Q1 & Q). injection Q as <-. cbn [length repeat app]. f_equal. exact (IH _ _ Q1).
    - cbn [app veval_at] in *. destruct n as [|n]; [injection Q as <-; exists [], O; split; reflexivity|]. destruct (defined a).
      + apply bind_inv in Q as (z & Q1 & Q). apply bind_inv in Q as (zs & Q2 & Q). injection Q as <-. destruct (IH _ _ Q2) as (vs' & j & A & ->). exists (Some z :: vs'), j. rewrite Q1, A. split; reflexivity.
      + apply bind_inv in Q as (zs & Q2 & Q). injection Q as <-. destruct (IH _ _ Q2) as (vs' & j & A & ->). exists (None :: vs'), j. rewrite A. split; reflexivity.
  Qed.
  Lemma at_nones j vs : forall p ds, buffer_at_loop p ds (vs ++ repeat None j) = buffer_at_loop p ds vs.
  Proof.
    induction vs as [|[z|] vs IH]; intros p ds.
    - cbn [app]. revert p ds. induction j as [|j IH]; intros p ds; [reflexivity|]. destruct ds as [|d ds]; [reflexivity|]. cbn [repeat buffer_at_loop]. rewrite IH. destruct ds; reflexivity.
    - destruct ds as [|d ds]; [reflexivity|]. cbn [app buffer_at_loop]. apply IH.
    - destruct ds as [|d ds]; [reflexivity|]. cbn [app buffer_at_loop]. apply IH.
  Qed.
  Lemma tidy_go l : (fix go (l : list expr) := match l with [] => True | a :: l' => tidy x rep a /\ go l' end) l -> Forall (tidy x rep) l.
  Proof. induction l as [|a l IH]; [constructor|]. intros (A & B). constructor; auto. Qed.
  Lemma tidy_lets l b : (fix go (l : list (nat * expr)) := match l with [] => tidy x rep b | (_, v) :: l' => tidy x rep v /\ go l' end) l -> Forall (tidy x rep) (map snd l) /\ tidy x rep b.
  Proof. induction l as [|(s, v) l IH]; [split; [constructor|assumption]|]. intros (A & B). destruct (IH B). split; [constructor|]; auto. Qed.
  Lemma nc_all l : no_capture_all (no_capture x F) l -> Forall (no_capture x F) l.
  Proof. induction l as [|a l IH]; [constructor|]. intros (A & B). constructor; auto. Qed.
  Lemma veval_make_bin E o a b : veval E (make_bin o a b) = veval E (EBin o a b).
  Proof.
    unfold make_bin. destruct (commutative o && should_commute a b) eqn:Q; [|reflexivity]. apply andb_true_iff in Q as (Q & _). cbn [VSem_Spec.veval].
    destruct (veval E a) as [va|], (veval E b) as [vb|]; try reflexivity. cbn [bind].
    destruct o; try discriminate; cbn [eval_bin];
      [unfold cadd; f_equal; apply Z.add_comm|unfold cmul; f_equal; apply Z.mul_comm|rewrite Z.min_comm|rewrite Z.max_comm|rewrite Z.eqb_sym|rewrite Z.eqb_sym|rewrite andb_comm|rewrite orb_comm]; reflexivity.
  Qed.
  Lemma sub_good e : good e.
  Proof.
    induction e as [|s f d|l b IHl IHb|o a b IHa IHb|a IHa|q t f IHq IHt IHf|fn t args IHargs|c0] using expr_ind'; intros e' C T M E E' z V Ev; unfold var_mutate in M; cbn [mutate] in M; fold (var_mutate x rep) in M.
    - discriminate Ev.
    - assert (Vs : stands X H (E s) (sg s) E') by (apply V; exists (RField f); cbn; auto). cbn [VSem_Spec.veval] in Ev.
      unfold visit_var in M. destruct (Nat.eqb_spec s x) as [->|n].
      + rewrite sub_same in Vs. destruct f.
        * injection M as <-. destruct (E x) as [|w|k b]; try discriminate. injection Ev as ->. unfold stands in Vs. destruct rep as [|y g k| | | | | |]; try exact Vs. destruct g; try exact Vs. cbn [VSem_Spec.veval]. rewrite Vs. reflexivity.
        * all: apply bind_inv in M as (y & Y & M); injection M as <-; destruct rep as [|y' g k| | | | | |]; try discriminate; destruct g; try discriminate; injection Y as ->;
            cbn [stands] in Vs; destruct (E x) as [|w|k0 b]; try discriminate; destruct Vs as (k' & Vs); cbn [VSem_Spec.veval]; rewrite Vs; exact Ev.
        * all: apply bind_inv in M as (y & Y & M); injection M as <-; destruct rep as [|y' g k| | | | | |]; try discriminate; destruct g; try discriminate; injection Y as ->;
            cbn [stands] in Vs; destruct (E x) as [|w|k0 b]; try discriminate; destruct Vs as (k' & Vs); cbn [VSem_Spec.veval]; rewrite Vs; exact Ev.
        * all: apply bind_inv in M as (y & Y & M); injection M as <-; destruct rep as [|y' g k| | | | | |]; try discriminate; destruct g; try discriminate; injection Y as ->;
            cbn [stands] in Vs; destruct (E x) as [|w|k0 b]; try discriminate; destruct Vs as (k' & Vs); cbn [VSem_Spec.veval]; rewrite Vs; exact Ev.
        * all: apply bind_inv in M as (y & Y & M); injection M as <-; destruct rep as [|y' g k| | | | | |]; try discriminate; destruct g; try discriminate; injection Y as ->;
            cbn [stands] in Vs; destruct (E x) as [|w|k0 b]; try discriminate; destruct Vs as (k' & Vs); cbn [VSem_Spec.veval]; rewrite Vs; exact Ev.
        * all: apply bind_inv in M as (y & Y & M); injection M as <-; destruct rep as [|y' g k| | | | | |]; try discriminate; destruct g; try discriminate; injection Y as ->;
            cbn [stands] in Vs; destruct (E x) as [|w|k0 b]; try discriminate; destruct Vs as (k' & Vs); cbn [VSem_Spec.veval]; rewrite Vs; exact Ev.
        * all: apply bind_inv in M as (y & Y & M); injection M as <-; destruct rep as [|y' g k| | | | | |]; try discriminate; destruct g; try discriminate; injection Y as ->;
            cbn [stands] in Vs; destruct (E x) as [|w|k0 b]; try discriminate; destruct Vs as (k' & Vs); cbn [VSem_Spec.veval]; rewrite Vs; exact Ev.
        * all: apply bind_inv in M as (y & Y & M); injection M as <-; destruct rep as [|y' g k| | | | | |]; try discriminate; destruct g; try discriminate; injection Y as ->;
            cbn [stands] in Vs; destruct (E x) as [|w|k0 b]; try discriminate; destruct Vs as (k' & Vs); cbn [VSem_Spec.veval]; rewrite Vs; exact Ev.
      + injection M as <-. rewrite (sub_other _ _ _ n) in Vs. cbn [stands] in Vs. cbn [VSem_Spec.veval]. destruct (E s) as [|w|k b]; [destruct f; discriminate| |].
        * destruct f; try discriminate. rewrite Vs. exact Ev.
        * destruct Vs as (k' & Vs). destruct f; try discriminate; rewrite Vs; exact Ev.
    - apply bind_inv in M as ((l', al) & Ml & M). apply bind_inv in M as (b' & Mb & M). injection M as <-. cbn [VSem_Spec.veval] in *. apply bind_inv in Ev as (E1 & El & Eb).
      apply Forall_snd in IHl. cbn [no_capture] in C. cbn [tidy] in T. apply tidy_lets in T as (Tl & Tb).
      destruct (good_lets b l IHl l' al E E' E1 C Tl Ml V El) as (E1' & Q & S). rewrite Q. cbn [bind]. destruct al.
      + destruct S as (S & Cb). exact (IHb b' Cb Tb Mb E1 E1' z S Eb).
      + injection Mb as <-. exact (veval_sim X H b E1 E1' z S Eb).
    - apply bind_inv in M as (a' & Ma & M). apply bind_inv in M as (b' & Mb & M). injection M as <-. rewrite veval_make_bin. cbn [VSem_Spec.veval no_capture tidy] in *.
      apply bind_inv in Ev as (va & Va & Ev). apply bind_inv in Ev as (vb & Vb & Ev). destruct C as (C1 & C2), T as (T1 & T2).
      rewrite (IHa a' C1 T1 Ma E E' va), (IHb b' C2 T2 Mb E E' vb); auto; (eapply senvs_weaken; [exact V|intros y (ro & O); exists ro; cbn; auto]).
    - apply bind_inv in M as (a' & Ma & M). injection M as <-. cbn [VSem_Spec.veval no_capture tidy] in *. apply bind_inv in Ev as (va & Va & Ev).
      rewrite (IHa a' C T Ma E E' va); auto.
    - apply bind_inv in M as (q' & Mq & M). apply bind_inv in M as (t' & Mt & M). apply bind_inv in M as (f' & Mf & M). injection M as <-. cbn [VSem_Spec.veval no_capture tidy] in *.
      apply bind_inv in Ev as (vq & Vq & Ev). destruct C as (C1 & C2 & C3), T as (T1 & T2 & T3).
      rewrite (IHq q' C1 T1 Mq E E' vq); auto; [|eapply senvs_weaken; [exact V|intros y (ro & O); exists ro; cbn; auto]]. cbn [bind].
      destruct (truthy vq); [apply (IHt t' C2 T2 Mt E E')|apply (IHf f' C3 T3 Mf E E')]; auto; (eapply senvs_weaken; [exact V|intros y (ro & O); exists ro; cbn; auto]).
    - apply bind_inv in M as (args' & Ma & M). apply bind_inv in M as (args'' & Mf & M). injection M as <-. cbn [no_capture tidy] in C, T. destruct T as (T1 & T). apply tidy_go in T. apply nc_all in C.
      destruct (match fn with i_buffer_at => true | _ => false end) eqn:Qf.
      + destruct fn; try discriminate. cbn [VSem_Spec.veval] in *. destruct args as [|[|s [] d| | | | | |] at_]; try discriminate.
        inversion IHargs as [|? ? _ Ga]; inversion C as [|? ? _ Ca]; inversion T as [|? ? _ Ta]; subst.
        destruct (E s) as [| |k b] eqn:Es; try discriminate. apply bind_inv in Ev as (vs & Ev1 & Ev).
        cbn [mutate_args] in Ma. apply bind_inv in Ma as (h' & Mh & Ma). apply bind_inv in Ma as (at' & Mat & Ma). injection Ma as <-.
        assert (Vs : stands X H (E s) (sg s) E') by (apply V; exists RAddress; cbn; auto). rewrite Es in Vs.
        assert (Hh : exists s' d', h' = EVar s' f_none d' /\ exists k', E' s' = Buffer k' b).
        { unfold var_mutate in Mh. cbn [mutate] in Mh. unfold visit_var in Mh. unfold stands in Vs. destruct (Nat.eqb_spec s x) as [->|n]; injection Mh as <-.
          - rewrite sub_same in Vs. destruct rep as [|y g kk| | | | | |]; try contradiction. destruct g; try contradiction. eauto.
          - rewrite (sub_other _ _ _ n) in Vs. eauto. }
        destruct Hh as (s' & d' & -> & k' & Es'). cbn [finish_at] in Mf. unfold pad in Mf. cbn [Nat.sub repeat] in Mf. rewrite app_nil_r in Mf.
        rewrite (fill_tidy s' at_ O at' T1 Mat) in Mf. cbn [bind] in Mf. injection Mf as <-. rewrite Es'.
        destruct (good_args at_ Ga at' E E' Ca Ta Mat) as (_ & G2 & _).
        { eapply senvs_weaken; [exact V|]. intros y Fy. apply free_any in Fy as (ro & O). exists ro. cbn. auto. }
        specialize (G2 (rank b) vs Ev1). destruct (pop_app at') as (j & Qj). rewrite Qj in G2. apply at_app in G2 as (vs' & i & G2 & ->). rewrite G2. cbn [bind].
        rewrite <- Ev. do 2 f_equal. unfold buffer_at. symmetry. apply at_nones.
      + assert (args'' = args') by (destruct fn; try discriminate; injection Mf as <-; reflexivity). subst args''. clear Mf.
        assert (Va : senvs (fun y => any_of (free y) args) sg E E').
        { eapply senvs_weaken; [exact V|]. intros y Fy. apply free_any in Fy as (ro & O). exists ro. cbn. destruct fn; try exact O. discriminate. }
        destruct (good_args args IHargs args' E E' C T Ma Va) as (G1 & _ & G3).
        cbn [VSem_Spec.veval] in *. destruct fn; try discriminate.
        all: try (apply bind_inv in Ev as (vs & Vs & Ev); rewrite (G1 _ Vs); exact Ev).
        * destruct t as [n|]; [|discriminate]. apply bind_inv in Ev as (vs & Vs & Ev). rewrite (G1 _ Vs). exact Ev.
        * destruct args as [|a [|? ?]]; try discriminate. cbn [mutate_args] in Ma. apply bind_inv in Ma as (a' & Ma' & Ma). injection Ma as <-. apply bind_inv in Ev as (v & Vv & Ev).
          inversion IHargs as [|? ? Ga _]; inversion C as [|? ? Ca _]; inversion T as [|? ? Ta _]; subst. rewrite (Ga a' Ca Ta Ma' E E' v); auto. eapply senvs_weaken; [exact Va|intros y Fy; left; exact Fy].
        * exact (G3 _ _ Ev).
        * exact (G3 _ _ Ev).
    - injection M as <-. exact Ev.
  Qed.
  Lemma sub_oref e e' : no_capture x F e -> tidy x rep e -> mut e = Val e' -> oref X H sg e e'.
  Proof. intros C T M. split; [exact (sub_defined _ _ M)|exact (sub_good e e' C T M)]. Qed.
End Exprs.
