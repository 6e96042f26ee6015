(** Lemmas: assignments one after the other. *)
From Coq Require Import ZArith List Bool Lia Permutation.
From Verif Require Import Buf_Model Buf_Spec ForEach_Spec ForEach_Props Copy_Model Copy_Spec Stmt_Model CopyStmt_Spec.
Import ListNotations.
Open Scope Z_scope.

(** The destinations are apart from each other and from the sources. *)
Fixpoint dests_apart (es : Z) (ops : list (ptr * ptr)) : Prop :=
  match ops with [] => True | x :: l => (forall y, In y l -> apart es (fst x) (fst y)) /\ dests_apart es l end.
Definition sources_apart (es : Z) (ops : list (ptr * ptr)) : Prop := forall x y, In x ops -> In y ops -> apart es (fst x) (snd y).

Lemma apart_sym es p q : apart es p q -> apart es q p.
Proof. destruct p, q; cbn; tauto. Qed.
Lemma dests_apart_app es a b : dests_apart es (a ++ b) <-> dests_apart es a /\ dests_apart es b /\ forall x y, In x a -> In y b -> apart es (fst x) (fst y).
Proof.
  induction a as [|u a IH]; cbn [app dests_apart].
  - split; [intros H; split; [exact I|split; [exact H|intros x y []]]|tauto].
  - rewrite IH. split.
    + intros (A & B & C & D). split; [split; [intros y Iy; apply A, in_or_app; auto|exact B]|]. split; [exact C|].
      intros x y [<-|Ix] Iy; [apply A, in_or_app; auto|auto].
    + intros ((A & B) & C & D). split; [|split; [exact B|split; [exact C|intros x y Ix Iy; apply D; [right; exact Ix|exact Iy]]]].
      intros y Iy. apply in_app_or in Iy as [Iy|Iy]; [auto|]. apply D; [left; reflexivity|exact Iy].
Qed.
Lemma dests_apart_perm es a b : Permutation a b -> dests_apart es a -> dests_apart es b.
Proof.
  induction 1 as [|x a b P IH|x y a|a b c P1 IH1 P2 IH2]; cbn [dests_apart]; auto.
  - intros (A & B). split; [|auto]. intros y Iy. apply A. eapply Permutation_in; [apply Permutation_sym; exact P|exact Iy].
  - intros (A & B & C). split; [|split; [|exact C]].
    + intros z [<-|Iz]; [apply apart_sym, A; left; reflexivity|auto].
    + intros z Iz. apply A. right. exact Iz.
Qed.
Lemma sources_apart_perm es a b : Permutation a b -> sources_apart es a -> sources_apart es b.
Proof. intros P S x y Ix Iy. apply Permutation_sym in P. apply S; eapply Permutation_in; eauto. Qed.
Lemma assigned_perm es a b m m' : Permutation a b -> assigned es a m m' -> assigned es b m m'.
Proof.
  intros P (A & B). apply Permutation_sym in P. split; [intros d s k I; apply A; eapply Permutation_in; eauto|].
  intros z N. apply B. intros d s I. apply (N d s). eapply Permutation_in; [apply Permutation_sym; exact P|exact I].
Qed.

Lemma assigned_app es a b m m1 m2 : dests_apart es (a ++ b) -> sources_apart es (a ++ b) -> assigned es a m m1 -> assigned es b m1 m2 -> assigned es (a ++ b) m m2.
Proof.
  intros D S (A1 & A2) (B1 & B2). apply dests_apart_app in D as (D1 & D2 & D3). split.
  - intros d s k I K. apply in_app_or in I as [I|I].
    + rewrite B2; [apply (A1 d s k I K)|]. intros d2 s2 I2 R. pose proof (D3 _ _ I I2) as Ap. cbn in Ap. lia.
    + rewrite (B1 d s k I K). apply A2. intros d2 s2 I2 R.
      pose proof (S (Some d2, s2) (Some d, Some s) (in_or_app _ _ _ (or_introl I2)) (in_or_app _ _ _ (or_intror I))) as Ap. cbn in Ap. lia.
  - intros z N. rewrite B2, A2; [reflexivity| |]; intros d s I; apply (N d s), in_or_app; auto.
Qed.
Lemma carried_assigned es calls m m' : carried_out es calls m m' -> dests_apart es (flat_map assigns calls) -> sources_apart es (flat_map assigns calls) ->
  assigned es (flat_map assigns calls) m m'.
Proof.
  induction 1 as [m|call l m m1 m2 A C IH]; intros D S; cbn [flat_map] in *.
  - split; [intros d s k []|reflexivity].
  - eapply assigned_app; eauto. apply IH; [apply dests_apart_app in D; tauto|]. intros x y Ix Iy. apply S; apply in_or_app; auto.
Qed.
Lemma box_dests_apart es (f : list Z -> ptr) (g : list Z -> ptr) l : NoDup l -> (forall i j, In i l -> In j l -> i <> j -> apart es (f i) (f j)) ->
  dests_apart es (map (fun i => (f i, g i)) l).
Proof.
  induction 1 as [|x l N ND IH]; intros A; cbn [map dests_apart]; [exact I|]. split.
  - intros y Iy. apply in_map_iff in Iy as (j & <- & Ij). cbn [fst]. apply A; [left; reflexivity|right; exact Ij|]. intros ->. exact (N Ij).
  - apply IH. intros i j Ii Ij. apply A; right; assumption.
Qed.
