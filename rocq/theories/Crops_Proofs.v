(** The buffers that a loop's body needs. *)
From Coq Require Import ZArith List Bool Arith Lia.
From Verif Require Import Arith_Model Buf_Model Expr_Model Stmt_Model Crops_Model Crops_Spec.
Import ListNotations.
Open Scope nat_scope.

Lemma has_in l x : has l x = true <-> In x l.
Proof. unfold has. rewrite existsb_exists. split; [intros (y & I & E); apply Nat.eqb_eq in E; subst; exact I|intro I; exists x; split; [exact I|apply Nat.eqb_refl]]. Qed.
Lemma has_out l x : has l x = false <-> ~ In x l.
Proof. rewrite <- has_in. destruct (has l x); split; congruence. Qed.

Section Deps.
  Variable deps : nat -> list nat.
  Variable terminal : list nat.
  Notation term := (fun x => In x terminal).
  Notation leads := (leads deps term).
  Notation reaches := (reaches deps term).
  Variable rk : nat -> nat.
  Hypothesis Down : forall v p, In p (deps v) -> rk p < rk v.

  (** [k]: the nodes being visited have at least this rank. *)
  Record inv (k : nat) (vis res : list nat) : Prop := {
    inv_sound : forall x, In x res -> leads x /\ ~ In x terminal;
    inv_done : forall x, In x vis -> rk x < k -> leads x -> In x res;
    inv_closed : forall x p, In x vis -> rk x < k -> In p (deps x) -> ~ In p terminal -> In p vis;
    inv_vis : forall x, In x vis -> ~ In x terminal }.
  Definition visited_from (v : nat) (vis res vis' res' : list nat) : Prop :=
    (forall x, In x vis -> In x vis') /\ (forall x, In x res -> In x res') /\
    (forall x, In x vis' -> In x vis \/ reaches v x) /\ (forall x, In x res' -> In x res \/ reaches v x).

  Lemma reaches_rk v x : reaches v x -> rk x <= rk v.
  Proof. induction 1 as [v N|v p x N I R IH]; [lia|]. specialize (Down v p I). lia. Qed.

  Lemma visit_ok fuel : forall v k vis res, rk v < fuel -> rk v < k -> inv k vis res ->
    exists c vis' res', visit deps terminal fuel v vis res = Some (c, (vis', res')) /\ inv k vis' res' /\ visited_from v vis res vis' res' /\
      (c = true <-> leads v) /\ (In v terminal \/ In v vis').
  Proof.
    induction fuel as [|f IH]; intros v k vis res Lf Lk I; [lia|]. cbn [visit]. destruct (has terminal v) eqn:T.
    { apply has_in in T. exists true, vis, res. split; [reflexivity|]. split; [exact I|]. split; [repeat split; auto|]. split; [|left; exact T]. split; [intros _; apply leads_end; exact T|reflexivity]. }
    apply has_out in T. match goal with |- context [match ?g (deps v) false _ _ with _ => _ end] => set (go := g) end.
    assert (G : forall l can vis0 res0, (forall p, In p l -> rk p < rk v) -> inv (rk v) vis0 res0 ->
      exists c vis' res', go l can vis0 res0 = Some (c, (vis', res')) /\ inv (rk v) vis' res' /\
        (forall x, In x vis0 -> In x vis') /\ (forall x, In x res0 -> In x res') /\
        (forall x, In x vis' -> In x vis0 \/ exists p, In p l /\ reaches p x) /\ (forall x, In x res' -> In x res0 \/ exists p, In p l /\ reaches p x) /\
        (c = true <-> can = true \/ exists p, In p l /\ leads p) /\ (forall p, In p l -> In p terminal \/ In p vis')).
    { induction l as [|p l IHl]; intros can vis0 res0 Hl J; cbn [go].
      - exists can, vis0, res0. split; [reflexivity|]. split; [exact J|]. split; [auto|]. split; [auto|]. split; [auto|]. split; [auto|]. split; [|intros p []]. split; [auto|]. intros [?|(p & [] & _)]; assumption.
      - fold go. assert (Rp : rk p < rk v) by (apply Hl; left; reflexivity). assert (Hl' : forall q, In q l -> rk q < rk v) by (intros q Iq; apply Hl; right; exact Iq).
        destruct (has vis0 p) eqn:Vp.
        + apply has_in in Vp. destruct (IHl (can || has res0 p) vis0 res0 Hl' J) as (c & vis' & res' & E & J' & M1 & M2 & N1 & N2 & C & A).
          exists c, vis', res'. split; [exact E|]. split; [exact J'|]. split; [exact M1|]. split; [exact M2|].
          split; [intros x Ix; destruct (N1 x Ix) as [?|(q & Iq & Rq)]; [left; assumption|right; exists q; split; [right; exact Iq|exact Rq]]|].
          split; [intros x Ix; destruct (N2 x Ix) as [?|(q & Iq & Rq)]; [left; assumption|right; exists q; split; [right; exact Iq|exact Rq]]|].
          split.
          * rewrite C, orb_true_iff. split.
            -- intros [[Cn|Hr]|(q & Iq & Lq)]; [left; exact Cn| |right; exists q; split; [right; exact Iq|exact Lq]]. right. exists p. split; [left; reflexivity|]. apply has_in in Hr. apply (inv_sound _ _ _ J p Hr).
            -- intros [Cn|(q & [->|Iq] & Lq)]; [left; left; exact Cn| |right; exists q; auto]. left. right. apply has_in. exact (inv_done _ _ _ J q Vp Rp Lq).
          * intros q [->|Iq]; [right; apply M1; exact Vp|exact (A q Iq)].
        + destruct (IH p (rk v) vis0 res0 ltac:(lia) Rp J) as (c1 & vis1 & res1 & E1 & J1 & (M1 & M2 & N1 & N2) & C1 & A1). rewrite E1.
          destruct (IHl (can || c1) vis1 res1 Hl' J1) as (c & vis' & res' & E & J' & M1' & M2' & N1' & N2' & C & A).
          exists c, vis', res'. split; [exact E|]. split; [exact J'|]. split; [auto|]. split; [auto|].
          split. { intros x Ix. destruct (N1' x Ix) as [Iy|(q & Iq & Rq)]; [|right; exists q; split; [right; exact Iq|exact Rq]]. destruct (N1 x Iy) as [?|Rq]; [left; assumption|right; exists p; split; [left; reflexivity|exact Rq]]. }
          split. { intros x Ix. destruct (N2' x Ix) as [Iy|(q & Iq & Rq)]; [|right; exists q; split; [right; exact Iq|exact Rq]]. destruct (N2 x Iy) as [?|Rq]; [left; assumption|right; exists p; split; [left; reflexivity|exact Rq]]. }
          split.
          * rewrite C, orb_true_iff, C1. split.
            -- intros [[Cn|Hr]|(q & Iq & Lq)]; [left; exact Cn| |right; exists q; split; [right; exact Iq|exact Lq]]. right. exists p. split; [left; reflexivity|exact Hr].
            -- intros [Cn|(q & [->|Iq] & Lq)]; [left; left; exact Cn|left; right; exact Lq|right; exists q; auto].
          * intros q [->|Iq]; [|exact (A q Iq)]. destruct A1 as [?|V]; [left; assumption|right; apply M1'; exact V]. }
    assert (J : inv (rk v) (v :: vis) res).
    { constructor.
      - apply (inv_sound _ _ _ I).
      - intros x [->|Ix] Lx; [lia|]. apply (inv_done _ _ _ I x Ix). lia.
      - intros x p [->|Ix] Lx Ip Np; [lia|]. right. apply (inv_closed _ _ _ I x p Ix); auto. lia.
      - intros x [->|Ix]; [exact T|apply (inv_vis _ _ _ I x Ix)]. }
    destruct (G (deps v) false (v :: vis) res (Down v) J) as (c & vis' & res' & E & J' & M1 & M2 & N1 & N2 & C & A). rewrite E.
    assert (Cl : c = true <-> leads v).
    { rewrite C. split; [intros [?|(p & Ip & Lp)]; [discriminate|exact (leads_step _ _ v p Ip Lp)]|]. intro L. inversion L as [w Tw|w p Ip Lp]; subst; [contradiction|]. right. exists p. auto. }
    exists c, vis', (if c then v :: res' else res'). split; [reflexivity|].
    assert (Old : forall x, In x vis' -> In x (v :: vis) \/ rk x < rk v).
    { intros x Ix. destruct (N1 x Ix) as [?|(p & Ip & Rp)]; [left; assumption|]. right. pose proof (Down v p Ip). pose proof (reaches_rk p x Rp). lia. }
    assert (Sub : forall x, In x res' -> In x (if c then v :: res' else res')) by (intros x Ix; destruct c; [right|]; exact Ix).
    split.
    { constructor.
      - intros x Ix. destruct c; [|exact (inv_sound _ _ _ J' x Ix)]. destruct Ix as [->|Ix]; [|exact (inv_sound _ _ _ J' x Ix)]. split; [apply Cl; reflexivity|exact T].
      - intros x Ix Lx Lds. destruct (Nat.eq_dec x v) as [->|n]. { apply Cl in Lds. rewrite Lds. left. reflexivity. }
        apply Sub. destruct (Old x Ix) as [[->|Iv]|Lt]; [congruence| |exact (inv_done _ _ _ J' x Ix Lt Lds)]. apply M2. exact (inv_done _ _ _ I x Iv Lx Lds).
      - intros x p Ix Lx Ip Np. destruct (Nat.eq_dec x v) as [->|n]. { destruct (A p Ip); [contradiction|assumption]. }
        destruct (Old x Ix) as [[->|Iv]|Lt]; [congruence| |exact (inv_closed _ _ _ J' x p Ix Lt Ip Np)]. apply M1. right. exact (inv_closed _ _ _ I x p Iv Lx Ip Np).
      - exact (inv_vis _ _ _ J'). }
    split.
    { split; [intros x Ix; apply M1; right; exact Ix|]. split; [intros x Ix; apply Sub, M2; exact Ix|]. split.
      - intros x Ix. destruct (N1 x Ix) as [[->|?]|(p & Ip & Rp)]; [right; apply reaches_here; exact T|left; assumption|right; exact (reaches_step _ _ v p x T Ip Rp)].
      - intros x Ix. assert (K : x = v \/ In x res') by (destruct c; [destruct Ix as [->|Ix]; auto|auto]). destruct K as [->|K]; [right; apply reaches_here; exact T|].
        destruct (N2 x K) as [?|(p & Ip & Rp)]; [left; assumption|right; exact (reaches_step _ _ v p x T Ip Rp)]. }
    split; [exact Cl|]. right. apply M1. left. reflexivity.
  Qed.

  Definition settled (vis res : list nat) : Prop := forall k, inv k vis res.
  Lemma visit_all_ok fuel constants : forall buffers vis res, (forall v, In v buffers -> rk v < fuel) -> settled vis res ->
    exists vis' res', visit_all deps terminal fuel constants buffers vis res = Some res' /\ settled vis' res' /\
      (forall x, In x vis -> In x vis') /\ (forall x, In x res -> In x res') /\
      (forall x, In x res' -> In x res \/ exists v, In v buffers /\ ~ In v constants /\ reaches v x) /\
      (forall v, In v buffers -> ~ In v constants -> In v terminal \/ In v vis').
  Proof.
    induction buffers as [|v l IH]; intros vis res Lf I; cbn [visit_all].
    - exists vis, res. split; [reflexivity|]. split; [exact I|]. split; [auto|]. split; [auto|]. split; [auto|]. intros v [].
    - assert (Ll : forall w, In w l -> rk w < fuel) by (intros w Iw; apply Lf; right; exact Iw). destruct (has constants v) eqn:Cv.
      + apply has_in in Cv. destruct (IH vis res Ll I) as (vis' & res' & E & I' & M1 & M2 & N & A). exists vis', res'. split; [exact E|]. split; [exact I'|]. split; [exact M1|]. split; [exact M2|]. split.
        * intros x Ix. destruct (N x Ix) as [?|(w & Iw & Rw)]; [left; assumption|right; exists w; split; [right; exact Iw|exact Rw]].
        * intros w [->|Iw] Nw; [contradiction|exact (A w Iw Nw)].
      + apply has_out in Cv. assert (Lv : rk v < fuel) by (apply Lf; left; reflexivity).
        destruct (visit_ok fuel v (S (rk v)) vis res Lv ltac:(lia) (I _)) as (c & vis1 & res1 & E1 & _ & (M1 & M2 & N1 & N2) & _ & A1). rewrite E1.
        assert (I1 : settled vis1 res1).
        { intro k. destruct (visit_ok fuel v (Nat.max k (S (rk v))) vis res Lv ltac:(lia) (I _)) as (c' & vis2 & res2 & E2 & J & _). rewrite E1 in E2. injection E2 as <- <- <-.
          destruct J as [J1 J2 J3 J4]. constructor; [exact J1| | |exact J4]; intros; [eapply J2|eapply J3]; eauto; lia. }
        destruct (IH vis1 res1 Ll I1) as (vis' & res' & E & I' & M1' & M2' & N & A). exists vis', res'. split; [exact E|]. split; [exact I'|]. split; [auto|]. split; [auto|]. split.
        * intros x Ix. destruct (N x Ix) as [Iy|(w & Iw & Rw)]; [|right; exists w; split; [right; exact Iw|exact Rw]]. destruct (N2 x Iy) as [?|R]; [left; assumption|right; exists v; split; [left; reflexivity|split; [exact Cv|exact R]]].
        * intros w [->|Iw] Nw; [|exact (A w Iw Nw)]. destruct A1 as [?|V]; [left; assumption|right; apply M1'; exact V].
  Qed.
  Lemma settled_reaches vis res v x : settled vis res -> reaches v x -> In v vis -> In x vis.
  Proof. intros I R. induction R as [v N|v p x N Ip R IH]; intro V; [exact V|]. apply IH. apply (inv_closed _ _ _ (I (S (rk v))) v p V ltac:(lia) Ip). inversion R; assumption. Qed.
  Lemma find_ok fuel constants buffers : (forall v, In v buffers -> rk v < fuel) ->
    exists res, find_transitive_deps deps terminal fuel constants buffers = Some res /\
      forall x, In x res <-> leads x /\ exists v, In v buffers /\ ~ In v constants /\ reaches v x.
  Proof.
    intro Lf. destruct (visit_all_ok fuel constants buffers [] [] Lf) as (vis & res & E & I & _ & _ & N & A). { intro k. constructor; cbn [In]; tauto. }
    exists res. split; [exact E|]. intro x. split.
    - intro Ix. split; [apply (inv_sound _ _ _ (I 0) x Ix)|]. destruct (N x Ix) as [[]|Q]; exact Q.
    - intros (L & v & Iv & Nv & R). apply (inv_done _ _ _ (I (S (rk x))) x); [|lia|exact L]. apply (settled_reaches vis res v x I R). destruct (A v Iv Nv) as [T|V]; [|exact V]. destruct R as [w Nw|w p y Nw Ip R]; destruct (Nw T).
  Qed.
End Deps.

(** more fuel does not matter *)
Section Mono.
  Variable deps : nat -> list nat.
  Variable terminal : list nat.
  Lemma visit_mono f : forall g, f <= g -> forall v vis res r, visit deps terminal f v vis res = Some r -> visit deps terminal g v vis res = Some r.
  Proof.
    induction f as [|f IH]; intros g L v vis res r E.
    - cbn [visit] in E. destruct g; cbn [visit]; destruct (has terminal v); try discriminate; exact E.
    - destruct g as [|g]; [lia|]. cbn [visit] in *. destruct (has terminal v); [exact E|].
      match type of E with context [match ?a (deps v) false _ _ with _ => _ end] => set (go := a) in E end.
      match goal with |- context [match ?a (deps v) false _ _ with _ => _ end] => set (go' := a) end.
      assert (G : forall l can vis res r, go l can vis res = Some r -> go' l can vis res = Some r).
      { induction l as [|p l IHl]; intros can vis0 res0 r0 Q; cbn [go go'] in *; [exact Q|]. fold go in Q. fold go'. destruct (has vis0 p); [exact (IHl _ _ _ _ Q)|].
        destruct (visit deps terminal f p vis0 res0) as [(c, (v1, r1))|] eqn:Ev; [|discriminate]. rewrite (IH g ltac:(lia) _ _ _ _ Ev). exact (IHl _ _ _ _ Q). }
      destruct (go (deps v) false (v :: vis) res) as [(c, (v1, r1))|] eqn:Eg; [|discriminate]. rewrite (G _ _ _ _ _ Eg). exact E.
  Qed.
  Lemma find_mono constants buffers f g : f <= g -> forall res, find_transitive_deps deps terminal f constants buffers = Some res -> find_transitive_deps deps terminal g constants buffers = Some res.
  Proof.
    intro L. unfold find_transitive_deps. generalize (@nil nat) at 1 3 as vis. generalize (@nil nat) as rs. induction buffers as [|v l IH]; intros rs vis res E; cbn [visit_all] in *; [exact E|].
    destruct (has constants v); [exact (IH _ _ _ E)|]. destruct (visit deps terminal f v vis rs) as [(c, (v1, r1))|] eqn:Ev; [|discriminate]. rewrite (visit_mono f g L _ _ _ _ Ev). exact (IH _ _ _ E).
  Qed.
End Mono.
