(** Values of expressions depend on the symbols that they use. *)
From Coq Require Import ZArith List Bool Lia.
From Verif Require Import Arith_Model Arith_Proofs Buf_Model Alloc_Model Expr_Model Expr_Proofs Stmt_Model Stmt_Spec Deps_Spec VSem_Spec.
Import ListNotations.
Open Scope Z_scope.

(** [b] can be used in every way in which [a] can *)
Definition kle (a b : kind) : Prop := (alone a = true -> alone b = true) /\ (block a = None \/ block a = block b).
Definition vle (a b : value) : Prop :=
  match a, b with Undef, _ => True | Num z, Num z' => z = z' | Buffer k x, Buffer k' x' => kle k k' /\ x = x' | _, _ => False end.
Lemma kle_refl k : kle k k. Proof. split; auto. Qed.
Lemma vle_refl a : vle a a. Proof. destruct a; cbn; auto using kle_refl. Qed.
Lemma kle_trans a b c : kle a b -> kle b c -> kle a c.
Proof. intros (A1 & A2) (B1 & B2). split; [auto|]. destruct A2 as [A2|A2]; [auto|]. rewrite A2. exact B2. Qed.
Lemma vle_trans a b c : vle a b -> vle b c -> vle a c.
Proof. destruct a, b, c; cbn; try tauto; [intros; congruence|]. intros (A & ->) (B & ->). eauto using kle_trans. Qed.
Lemma vle_share a b : vle a b -> vle (share a) (share b).
Proof. destruct a, b; cbn; try tauto. intros ((_ & K) & ->). split; [|reflexivity]. split; [discriminate|exact K]. Qed.
Lemma share_vle a : vle (share a) a.
Proof. destruct a; cbn; auto. split; [|reflexivity]. split; [discriminate|]. right. reflexivity. Qed.

(** ... as far as expressions can tell *)
Definition vsim (a b : value) : Prop :=
  match a, b with Undef, _ => True | Num z, Num z' => z = z' | Buffer _ x, Buffer _ x' => x = x' | _, _ => False end.
Lemma vle_vsim a b : vle a b -> vsim a b. Proof. destruct a, b; cbn; tauto. Qed.
Lemma vsim_refl a : vsim a a. Proof. destruct a; cbn; auto. Qed.
Lemma vsim_share a : vsim a (share a). Proof. destruct a; cbn; auto. Qed.

Section Mono.
  Variable X : Type.
  Variable H : host X.
  Notation veval := (veval X H).

  Definition sim_on (D : nat -> Prop) (E E' : venv) : Prop := forall x, D x -> vsim (E x) (E' x).
  Lemma sim_on_set D E E' s a a' : (vsim a a') -> sim_on (fun x => s <> x /\ D x) E E' -> sim_on D (vset E s a) (vset E' s a').
  Proof. intros L K x Dx. unfold vset. destruct (Nat.eqb_spec x s) as [->|n]; [exact L|]. apply K. split; [congruence|exact Dx]. Qed.
  Lemma sim_on_weaken (D D' : nat -> Prop) E E' : (forall x, D' x -> D x) -> sim_on D E E' -> sim_on D' E E'.
  Proof. intros S K x Hx. apply K, S, Hx. Qed.

  Definition mono (e : expr) : Prop := forall E E' z, sim_on (fun x => free x e) E E' -> veval E e = Val z -> veval E' e = Val z.
  Lemma free_any x l : any_of (free x) l <-> exists ro, any_of (occurs x ro) l.
  Proof.
    induction l as [|e l IH]; cbn [any_of]; [split; [intros []|intros (ro & [])]|]. rewrite IH. split.
    - intros [(ro & O)|(ro & O)]; exists ro; auto.
    - intros (ro & [O|O]); [left; exists ro; exact O|right; exists ro; exact O].
  Qed.
  Lemma mono_lets l : Forall mono (map snd l) -> forall (B : nat -> Prop) E E' E1,
    sim_on (fun x => exists ro, in_lets (occurs x ro) x l (B x)) E E' -> veval_lets veval l E = Val E1 ->
    exists E1', veval_lets veval l E' = Val E1' /\ sim_on B E1 E1'.
  Proof.
    induction l as [|(s, x) l IH]; intros F B E E' E1 L Ev; cbn [veval_lets] in *.
    - injection Ev as <-. exists E'. split; [reflexivity|]. apply (sim_on_weaken _ _ _ _ (fun x Bx => ex_intro _ RAddress Bx) L).
    - apply bind_inv in Ev as (v & V & Ev). inversion F as [|? ? M F']; subst. cbn [snd] in M.
      assert (V' : veval E' x = Val v).
      { apply (M E E' v); [|exact V]. intros y (ro & O). apply L. exists ro. cbn [in_lets]. left. exact O. }
      rewrite V'. cbn [bind]. apply (IH F' B (vset E s (Num v)) (vset E' s (Num v)) E1); [|exact Ev].
      apply sim_on_set; [reflexivity|]. intros y (N & ro & O). apply L. exists ro. cbn [in_lets]. right. auto.
  Qed.
  Lemma mono_args l : Forall mono l -> forall E E' vs, sim_on (fun x => any_of (free x) l) E E' -> veval_args veval E l = Val vs -> veval_args veval E' l = Val vs.
  Proof.
    induction 1 as [|x l M F IH]; intros E E' vs L Ev; cbn [veval_args] in *; [exact Ev|].
    assert (La : sim_on (fun y => any_of (free y) l) E E') by (intros y Hy; apply L; right; exact Hy).
    destruct (defined x).
    - apply bind_inv in Ev as (v & V & Ev). apply bind_inv in Ev as (vs' & Vs & Ev). rewrite (M E E' v), (IH E E' vs'); auto. intros y Hy. apply L. left. exact Hy.
    - apply bind_inv in Ev as (vs' & Vs & Ev). rewrite (IH E E' vs'); auto.
  Qed.
  Lemma mono_at l : Forall mono l -> forall n E E' vs, sim_on (fun x => any_of (free x) l) E E' -> veval_at veval E n l = Val vs -> veval_at veval E' n l = Val vs.
  Proof.
    induction 1 as [|x l M F IH]; intros n E E' vs L Ev; cbn [veval_at] in *; [exact Ev|]. destruct n as [|n]; [exact Ev|].
    assert (La : sim_on (fun y => any_of (free y) l) E E') by (intros y Hy; apply L; right; exact Hy).
    destruct (defined x).
    - apply bind_inv in Ev as (v & V & Ev). apply bind_inv in Ev as (vs' & Vs & Ev). rewrite (M E E' v), (IH n E E' vs'); auto. intros y Hy. apply L. left. exact Hy.
    - apply bind_inv in Ev as (vs' & Vs & Ev). rewrite (IH n E E' vs'); auto.
  Qed.
  Lemma mono_short l stop : Forall mono l -> forall E E' z, sim_on (fun x => any_of (free x) l) E E' -> veval_short veval E stop l = Val z -> veval_short veval E' stop l = Val z.
  Proof.
    induction 1 as [|x l M F IH]; intros E E' z L Ev; cbn [veval_short] in *; [exact Ev|].
    apply bind_inv in Ev as (v & V & Ev). rewrite (M E E' v); auto; [|intros y Hy; apply L; left; exact Hy]. cbn [bind].
    destruct (Bool.eqb (truthy v) stop); [exact Ev|]. apply (IH E E'); auto. intros y Hy. apply L. right. exact Hy.
  Qed.
  Lemma veval_sim e : mono e.
  Proof.
    induction e as [|s f d|l b IHl IHb|o a b IHa IHb|a IHa|q t f IHq IHt IHf|fn t args IHargs|c0] using expr_ind'; intros E E' z L Ev; cbn [VSem_Spec.veval] in *; try discriminate.
    - assert (K : vsim (E s) (E' s)) by (apply L; exists (RField f); cbn; auto).
      destruct (E s) as [|y|k b]; [destruct f; discriminate| |]; destruct (E' s); cbn [vsim] in K; try contradiction; [subst; exact Ev|].
      subst; exact Ev.
    - apply bind_inv in Ev as (E1 & El & Eb). apply Forall_snd in IHl.
      destruct (mono_lets l IHl (fun x => exists ro, occurs x ro b) E E' E1) as (E1' & El' & L1); [|exact El|].
      + intros x (ro & O). apply L. clear -O. revert ro O. induction l as [|(s, v) l IH]; intros ro O; cbn [in_lets] in O.
        * destruct O as (ro' & O). exists ro'. exact O.
        * destruct O as [O|(N & O)]; [exists ro; cbn; left; exact O|]. destruct (IH _ O) as (ro' & O'). exists ro'. cbn. right. split; [exact N|exact O'].
      + rewrite El'. cbn [bind]. apply (IHb E1 E1'); auto.
    - apply bind_inv in Ev as (va & Va & Ev). apply bind_inv in Ev as (vb & Vb & Ev).
      rewrite (IHa E E' va), (IHb E E' vb); auto; intros y (ro & O); apply L; exists ro; cbn; auto.
    - apply bind_inv in Ev as (va & Va & Ev). rewrite (IHa E E' va); auto.
    - apply bind_inv in Ev as (vq & Vq & Ev). rewrite (IHq E E' vq); auto; [|intros y (ro & O); apply L; exists ro; cbn; auto]. cbn [bind].
      destruct (truthy vq); [apply (IHt E E')|apply (IHf E E')]; auto; intros y (ro & O); apply L; exists ro; cbn; auto.
    - assert (La : fn <> i_buffer_at -> sim_on (fun y => any_of (free y) args) E E').
      { intros N y Hy. apply L. apply free_any in Hy as (ro & O). exists ro. cbn. destruct fn; try exact O. contradiction. }
      destruct fn; try discriminate.
      all: try (apply bind_inv in Ev as (vs & Vs & Ev); rewrite (mono_args args IHargs E E' vs) by (auto; apply La; discriminate); exact Ev).
      + destruct t as [n|]; [|discriminate]. apply bind_inv in Ev as (vs & Vs & Ev). rewrite (mono_args args IHargs E E' vs) by (auto; apply La; discriminate). exact Ev.
      + destruct args as [|x [|? ?]]; try discriminate. apply bind_inv in Ev as (v & V & Ev). inversion IHargs as [|? ? M _]; subst.
        rewrite (M E E' v); auto. apply (sim_on_weaken _ _ _ _ (fun y Hy => or_introl Hy) (La ltac:(discriminate))).
      + apply (mono_short args false IHargs E E'); auto. apply La. discriminate.
      + apply (mono_short args true IHargs E E'); auto. apply La. discriminate.
      + destruct args as [|[|s [] d| | | | | |] args]; try discriminate. inversion IHargs as [|? ? _ Fa]; subst.
        assert (K : vsim (E s) (E' s)) by (apply L; exists RAddress; cbn; auto).
        destruct (E s) as [|y|k b]; try discriminate. destruct (E' s); cbn [vsim] in K; try contradiction. subst b0.
        apply bind_inv in Ev as (vs & Vs & Ev). rewrite (mono_at args Fa (rank b) E E' vs); auto.
        intros y Hy. apply L. apply free_any in Hy as (ro & O). exists ro. cbn. auto.
    - exact Ev.
  Qed.
  Definition le_on (D : nat -> Prop) (E E' : venv) : Prop := forall x, D x -> vle (E x) (E' x).
  Lemma le_on_set D E E' s a a' : (vle a a') -> le_on (fun x => s <> x /\ D x) E E' -> le_on D (vset E s a) (vset E' s a').
  Proof. intros L K x Dx. unfold vset. destruct (Nat.eqb_spec x s) as [->|n]; [exact L|]. apply K. split; [congruence|exact Dx]. Qed.
  Lemma le_on_weaken (D D' : nat -> Prop) E E' : (forall x, D' x -> D x) -> le_on D E E' -> le_on D' E E'.
  Proof. intros S K x Hx. apply K, S, Hx. Qed.
  Lemma veval_mono e E E' z : le_on (fun x => free x e) E E' -> veval E e = Val z -> veval E' e = Val z.
  Proof. intros L. apply veval_sim. intros x Fx. apply vle_vsim, L, Fx. Qed.
End Mono.
