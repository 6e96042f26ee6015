(** Building a pipeline: that the builder makes the calls and loops of Sched_Model, and what a call does to its state. *)
From Coq Require Import ZArith List Bool Arith Lia Permutation.
From Verif Require Import Arith_Model Sched_Model Sched_Spec Sched_Proofs Sched2_Proofs Sched3_Proofs Sched4_Proofs Layout_Model Layout_Spec Layout_Proofs Build_Model.
Import ListNotations.
Open Scope nat_scope.

(** ** Lists *)
Lemma set_insert_in x y l : In y (set_insert x l) <-> y = x \/ In y l.
Proof.
  induction l as [|z l IH]; cbn [set_insert]; [cbn [In]; intuition congruence|]. destruct (x <? z); [cbn [In]; intuition congruence|]. destruct (Nat.eqb_spec x z) as [->|N]; [cbn [In]; intuition congruence|].
  cbn [In]. rewrite IH. intuition congruence.
Qed.
Inductive increasing : list nat -> Prop :=
| inc_nil : increasing []
| inc_cons x l : (forall y, In y l -> x < y) -> increasing l -> increasing (x :: l).
Lemma set_insert_inc x l : increasing l -> increasing (set_insert x l).
Proof.
  induction 1 as [|y l H I IH]; cbn [set_insert]; [constructor; [intros y []|constructor]|]. destruct (Nat.ltb_spec x y) as [L|L].
  - constructor; [|constructor; assumption]. intros z [<-|J]; [exact L|]. specialize (H z J). lia.
  - destruct (Nat.eqb_spec x y) as [->|N]; [constructor; assumption|]. constructor; [|exact IH]. intros z J. apply set_insert_in in J as [->|J]; [lia|exact (H z J)].
Qed.
Lemma inc_nodup l : increasing l -> NoDup l.
Proof. induction 1 as [|x l H I IH]; constructor; [|exact IH]. intro J. specialize (H x J). lia. Qed.
Lemma inc_filter (f : nat -> bool) l : increasing l -> increasing (filter f l).
Proof. induction 1 as [|x l H I IH]; cbn [filter]; [constructor|]. destruct (f x); [|exact IH]. constructor; [|exact IH]. intros y J. apply filter_In in J. apply H, J. Qed.
Lemma loop_eqb_eq a b : loop_eqb a b = true <-> a = b.
Proof.
  destruct a as [(f, v)|], b as [(g, w)|]; cbn [loop_eqb]; try (split; congruence). rewrite andb_true_iff, !Nat.eqb_eq. split; [intros (-> & ->); reflexivity | intro E; injection E as -> ->; auto].
Qed.
Lemma loop_eqb_refl a : loop_eqb a a = true. Proof. apply loop_eqb_eq. reflexivity. Qed.
Lemma loop_eqb_neq a b : a <> b -> loop_eqb a b = false.
Proof. intro N. destruct (loop_eqb a b) eqn:E; [|reflexivity]. apply loop_eqb_eq in E. contradiction. Qed.
Fixpoint pos (x : nat) (l : list nat) : nat := match l with [] => 0 | y :: l' => if x =? y then 0 else S (pos x l') end.
Lemma pos_in x a b : In x a -> pos x (a ++ b) = pos x a /\ pos x a < length a.
Proof.
  induction a as [|y a IH]; [intros []|]. intro I. cbn [app pos length]. destruct (Nat.eqb_spec x y) as [->|N]; [lia|]. destruct I as [->|I]; [congruence|]. destruct (IH I) as (E & L). rewrite E. lia.
Qed.
Lemma pos_out x a b : ~ In x a -> pos x (a ++ b) = length a + pos x b.
Proof. induction a as [|y a IH]; intro N; [reflexivity|]. cbn [app pos length]. destruct (Nat.eqb_spec x y) as [->|D]; [exfalso; apply N; left; reflexivity|]. rewrite IH; [lia|]. intro I. apply N. right. exact I. Qed.
Lemma pos_nth x l : In x l -> nth (pos x l) l 0 = x.
Proof. induction l as [|y l IH]; [intros []|]. intro I. cbn [pos]. destruct (Nat.eqb_spec x y) as [->|N]; [reflexivity|]. destruct I as [->|I]; [congruence|]. cbn [nth]. apply IH, I. Qed.
Lemma before_nodup (x y : nat) l : NoDup l -> before x y l -> exists a b, l = a ++ x :: b /\ In y b /\ ~ In x b /\ ~ In y a /\ x <> y.
Proof.
  intros N (a & b & c & ->). exists a, (b ++ y :: c). split; [reflexivity|]. split; [apply in_or_app; right; left; reflexivity|]. split.
  - intro I. apply NoDup_remove_2 in N. apply N, in_or_app. auto.
  - split.
    + intro I. clear - N I. induction a as [|z a IH]; [destruct I|]. cbn [app] in N. apply NoDup_cons_iff in N as (N1 & N2). destruct I as [->|I]; [|exact (IH N2 I)]. apply N1, in_or_app. right. right. apply in_or_app. right. left. reflexivity.
    + intros ->. apply NoDup_remove_2 in N. apply N, in_or_app. right. apply in_or_app. right. left. reflexivity.
Qed.
Lemma nodup_disj {A} (a b : list A) x : NoDup (a ++ b) -> In x a -> ~ In x b.
Proof. induction a as [|y a IH]; intros N I J; [destruct I|]. cbn [app] in N. apply NoDup_cons_iff in N as (N1 & N2). destruct I as [->|I]; [apply N1, in_or_app; auto | exact (IH N2 I J)]. Qed.

Section Sim.
  Variable p : pipe.
  Variable ord : list nat.
  Variable loc : locations.
  Notation lay_out := (lay_out p ord).
  Notation wrap_loop := (wrap_loop p ord).
  Notation produce := (produce p ord loc).

  Section Run.
    Variable step1 : item -> state -> option (range * state).
    Fixpoint run_list (l : list item) (s : state) : option (list range * state) :=
      match l with
      | [] => Some ([], s)
      | x :: l' =>
          match step1 x s with
          | None => None
          | Some (r, s') => match run_list l' s' with Some (rs, s'') => Some (r :: rs, s'') | None => None end
          end
      end.
  End Run.
  Lemma run_list_app f a : forall b s, run_list f (a ++ b) s = match run_list f a s with None => None | Some (r1, s1) => match run_list f b s1 with None => None | Some (r2, s2) => Some (r1 ++ r2, s2) end end.
  Proof.
    induction a as [|x a IH]; intros b s; cbn [app run_list]; [destruct (run_list f b s) as [(r, s')|]; reflexivity|]. destruct (f x s) as [(r, s')|]; [|reflexivity]. rewrite IH. destruct (run_list f a s') as [(r1, s1)|]; [|reflexivity].
    destruct (run_list f b s1) as [(r2, s2)|]; reflexivity.
  Qed.
  Definition inner (l : loop_id) (f : nat) : bool := match l with Some (g, _) => g =? f | None => false end.
  (** what the builder does, as a function of the calls and loops *)
  Fixpoint proc (l : loop_id) (x : item) (s : state) : option (range * state) :=
    match x with
    | Call f => produce f s
    | Loop f v b =>
        match run_list (proc (Some (f, v))) b (enter (Some (f, v)) s) with
        | None => None
        | Some (rs, s2) =>
            match lay_out (Some (f, v)) rs s2 with
            | None => None
            | Some (r, s3) => if inner l f then Some (loop_around f v r, s3) else Some (wrap_loop l (candidates s l) (loop_around f v r) s3)
            end
        end
    end.
  Definition core (f v : nat) (b : list item) (s : state) : option (range * state) :=
    match run_list (proc (Some (f, v))) b (enter (Some (f, v)) s) with
    | None => None
    | Some (rs, s2) => match lay_out (Some (f, v)) rs s2 with None => None | Some (r, s3) => Some (loop_around f v r, s3) end
    end.
  Lemma proc_core l f v b s : proc l (Loop f v b) s = match core f v b s with None => None | Some (r, s3) => if inner l f then Some (r, s3) else Some (wrap_loop l (candidates s l) r s3) end.
  Proof. unfold core. cbn [proc]. destruct (run_list _ b _) as [(rs, s2)|]; [|reflexivity]. destruct (lay_out _ rs s2) as [(r, s3)|]; reflexivity. Qed.
  Lemma build_sim mk mk2 l items :
    (forall k, In k ord -> at_level loc k = l -> loops (gr p) k <> [] -> inner l k = false /\ forall i, mk k = Some i -> exists v b, i = [Loop k v b] /\ forall s, mk2 k s = core k v b s) ->
    Sched_Model.build (gr p) ord loc mk l = Some items -> forall s, build p ord loc mk2 l s = run_list (proc l) items s.
  Proof.
    intros H B s. unfold Sched_Model.build in B. unfold build.
    set (F := fun (r : option (list item)) f => _) in B. set (G := fun (a : option (list range * state)) f => _).
    assert (NF : forall q, fold_left F q None = None) by (induction q as [|x q IH]; [reflexivity | exact IH]).
    assert (NG : forall q, fold_left G q None = None) by (induction q as [|x q IH]; [reflexivity | exact IH]).
    assert (E : forall q its, incl q (rev ord) -> fold_left F q (Some its) = Some items -> fold_left G q (run_list (proc l) its s) = run_list (proc l) items s).
    { induction q as [|k q IH]; intros its I E; [injection E as ->; reflexivity|]. cbn [fold_left] in *. assert (Ik : In k ord) by (apply in_rev, I; left; reflexivity). assert (Iq : incl q (rev ord)) by (intros x X; apply I; right; exact X).
      destruct (run_list (proc l) its s) as [(rs, s1)|] eqn:R.
      - unfold F at 2 in E. unfold G at 2. destruct (loop_eqb (at_level loc k) l && negb match loops (gr p) k with [] => true | _ => false end) eqn:C.
        + apply andb_true_iff in C as (C1 & C2). apply loop_eqb_eq in C1. assert (NL : loops (gr p) k <> []) by (intro X; rewrite X in C2; discriminate). destruct (H k Ik C1 NL) as (In_ & Hk).
          destruct (mk k) as [i|] eqn:M; [|rewrite NF in E; discriminate]. destruct (Hk i eq_refl) as (v & b & -> & Q). rewrite Q.
          rewrite <- (IH _ Iq E). f_equal. rewrite run_list_app, R. cbn [run_list]. rewrite proc_core, In_. destruct (core k v b s1) as [(r, s3)|]; [|reflexivity]. destruct (wrap_loop l (candidates s1 l) r s3) as (r' & s4). reflexivity.
        + destruct (loop_eqb (call_level loc k) l); [|exact (eq_trans (f_equal (fold_left G q) (eq_sym R)) (IH _ Iq E))].
          rewrite <- (IH _ Iq E). f_equal. rewrite run_list_app, R. cbn [run_list proc]. destruct (produce k s1) as [(r, s3)|]; reflexivity.
      - assert (GN : G None k = None) by reflexivity. rewrite GN, NG.
        assert (X : exists its', F (Some its) k = Some (its ++ its') /\ True \/ F (Some its) k = None). { unfold F. destruct (_ && _); [destruct (mk k) as [i|]; [exists i; left; auto | exists []; right; reflexivity]|]. destruct (loop_eqb (call_level loc k) l); [exists [Call k]; left; auto | exists []; left; rewrite app_nil_r; auto]. }
        destruct X as (its' & [(X & _)|X]); [|rewrite X, NF in E; discriminate]. rewrite X in E. rewrite <- (IH _ Iq E). rewrite run_list_app, R. rewrite NG. reflexivity. }
    change (Some ([], s)) with (run_list (proc l) [] s). apply E; [apply incl_refl | exact B].
  Qed.
  Hypothesis not_own : forall k w, In k ord -> at_level loc k <> Some (k, w).
  Lemma make_sim n : forall f v vars items, In f ord -> Sched_Model.make_loop (gr p) ord loc n f (v :: vars) = Some items -> exists b, items = [Loop f v b] /\ forall s, make_loop p ord loc n f (v :: vars) s = core f v b s.
  Proof.
    induction n as [|n IH]; intros f v vars items If H; [discriminate|]. cbn [Sched_Model.make_loop] in H. destruct (Sched_Model.build _ _ _ _ _) as [results|] eqn:B; [|discriminate].
    assert (S1 : forall s, build p ord loc (fun h => make_loop p ord loc n h (rev (loops (gr p) h))) (Some (f, v)) s = run_list (proc (Some (f, v))) results s).
    { apply build_sim with (2 := B). intros k Ik Ak Lk. split.
      - cbn [inner]. destruct (Nat.eqb_spec f k) as [->|N]; [|reflexivity]. exfalso. exact (not_own k v Ik Ak).
      - intros i M. destruct (rev (loops (gr p) k)) as [|w vs] eqn:R; [exfalso; apply Lk; rewrite <- (rev_involutive (loops (gr p) k)), R; reflexivity|]. destruct (IH k w vs i Ik M) as (b & -> & Q). exists w, b. auto. }
    destruct vars as [|w vars].
    - injection H as <-. exists results. split; [reflexivity|]. intro s. cbn [make_loop]. rewrite S1. unfold core. destruct (run_list _ _ _) as [(rs, s1)|]; reflexivity.
    - destruct (Sched_Model.make_loop (gr p) ord loc n f (w :: vars)) as [i|] eqn:M; [|discriminate]. injection H as <-. destruct (IH f w vars i If M) as (b & -> & Q). exists (results ++ [Loop f w b]). split; [reflexivity|].
      intro s. cbn [make_loop]. rewrite S1. unfold core at 1. rewrite run_list_app. destruct (run_list _ results _) as [(rs, s1)|]; [|reflexivity]. rewrite Q. cbn [run_list]. rewrite proc_core. cbn [inner]. rewrite Nat.eqb_refl.
      destruct (core f w b s1) as [(r, s2)|]; reflexivity.
  Qed.
  Lemma root_sim n items : Sched_Model.make_root (gr p) ord loc n = Some items -> forall s, build p ord loc (fun h => make_loop p ord loc n h (rev (loops (gr p) h))) None s = run_list (proc None) items s.
  Proof.
    intros B. apply build_sim with (2 := B). intros k Ik Ak Lk. split; [reflexivity|]. intros i M. destruct (rev (loops (gr p) k)) as [|w vs] eqn:R; [exfalso; apply Lk; rewrite <- (rev_involutive (loops (gr p) k)), R; reflexivity|].
    destruct (make_sim n k w vs i Ik M) as (b & -> & Q). exists w, b. auto.
  Qed.
End Sim.
