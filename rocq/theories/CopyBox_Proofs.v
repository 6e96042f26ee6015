(** Lemmas about the indices of a buffer some of whose dimensions are fixed by loops. *)
From Coq Require Import ZArith List Bool Lia Permutation.
From Verif Require Import Buf_Model Buf_Spec Buf_Proofs ForEach_Spec ForEach_Proofs ForEach_Props.
Import ListNotations.
Open Scope Z_scope.

(** [l] with [v] inserted at [d] *)
Definition linsert (d : nat) (v : Z) (l : list Z) : list Z := firstn d l ++ v :: skipn d l.
(** The whole index: fixed coordinates are from [M], the others from [l]. *)
Fixpoint fill (M : list (option Z)) (l : list Z) : list Z :=
  match M with
  | [] => []
  | Some v :: M' => v :: fill M' l
  | None :: M' => match l with [] => 0 :: fill M' [] | x :: l' => x :: fill M' l' end
  end.
(** The elements of [l] where [M] has nothing. *)
Fixpoint kept {A B} (M : list (option A)) (l : list B) : list B :=
  match M, l with
  | None :: M', x :: l' => x :: kept M' l'
  | Some _ :: M', _ :: l' => kept M' l'
  | _, _ => []
  end.

Lemma fill_length M : forall l, length (fill M l) = length M.
Proof. induction M as [|[v|] M IH]; intros l; cbn; auto. destruct l; cbn; auto. Qed.
Lemma fill_fixed M : forall l k v, nth_error M k = Some (Some v) -> nth_error (fill M l) k = Some v.
Proof.
  induction M as [|[w|] M IH]; intros l [|k] v E; cbn in *; try discriminate; [congruence|auto|].
  destruct l; cbn; auto.
Qed.
Lemma kept_pattern {A A' B} (M : list (option A)) : forall (M' : list (option A')) (l : list B),
  Forall2 (fun a b => a = None <-> b = None) M M' -> kept M l = kept M' l.
Proof.
  induction M as [|a M IH]; intros M' l F; inversion F as [|? b ? M2 E F2]; subst; [destruct l; reflexivity|].
  destruct l; [destruct a, b; reflexivity|]. cbn. destruct a, b; auto; [discriminate (proj2 E eq_refl)|discriminate (proj1 E eq_refl)|].
  f_equal. auto.
Qed.
Lemma kept_fill {A} (M : list (option Z)) : forall (ds : list A) l, length M = length ds -> length l = length (kept M ds) -> kept M (fill M l) = l.
Proof.
  induction M as [|[v|] M IH]; intros [|d ds] l L1 L2; cbn in *; try discriminate; auto.
  - destruct l; [reflexivity|discriminate].
  - eapply IH; [|exact L2]. lia.
  - destruct l as [|x l]; [discriminate|]. cbn in *. f_equal. eapply IH; [|injection L2 as L2; exact L2]. lia.
Qed.
Lemma fill_bounds M : forall ds l, length M = length ds -> in_bounds (kept M ds) l ->
  (forall k v, nth_error M k = Some (Some v) -> d_min (nth k ds broadcast) <= v <= d_max (nth k ds broadcast)) -> in_bounds ds (fill M l).
Proof.
  induction M as [|[v|] M IH]; intros [|d ds] l L B F; cbn in *; try discriminate; auto.
  - split; [exact (F O v eq_refl)|]. apply IH; [lia|exact B|]. intros k w E. exact (F (S k) w E).
  - destruct l as [|x l]; [destruct B|]. destruct B as (B1 & B2). split; [exact B1|]. apply IH; [lia|exact B2|]. intros k w E. exact (F (S k) w E).
Qed.
Lemma in_bounds_length ds : forall l, in_bounds ds l -> length l = length ds.
Proof. induction ds as [|d ds IH]; intros [|x l] B; cbn in *; try tauto. f_equal. apply IH, B. Qed.
Lemma in_bounds_at ds : forall l k, in_bounds ds l -> (k < length ds)%nat -> d_min (nth k ds broadcast) <= nth k l 0 <= d_max (nth k ds broadcast).
Proof. induction ds as [|d ds IH]; intros [|x l] [|k] B L; cbn in *; try tauto; try lia. apply IH; [apply B|lia]. Qed.
Lemma in_bounds_set ds : forall l k v, in_bounds ds l -> d_min (nth k ds broadcast) <= v <= d_max (nth k ds broadcast) -> in_bounds ds (set_nth l k v).
Proof. induction ds as [|d ds IH]; intros [|x l] [|k] v B V; cbn in *; try tauto. split; [apply B|]. apply IH; [apply B|exact V]. Qed.

Definition nones (n : nat) : list (option Z) := repeat None n.
Lemma fill_insert M v : forall n l, (n <= length l)%nat -> fill (nones n ++ None :: M) (linsert n v l) = fill (nones n ++ Some v :: M) l.
Proof.
  induction n as [|n IH]; intros l L; [reflexivity|]. destruct l as [|x l]; [cbn in L; lia|].
  cbn. f_equal. apply IH. cbn in L. lia.
Qed.
Lemma kept_insert {A} M v : forall n (ds : list A), remove_nth (kept (nones n ++ None :: M) ds) n = kept (nones n ++ Some v :: M) ds.
Proof.
  induction n as [|n IH]; intros [|d ds]; [reflexivity|reflexivity|reflexivity|].
  cbn [nones repeat app kept remove_nth]. f_equal. apply IH.
Qed.
Lemma kept_nth {A} M (x : A) : forall n ds, (n < length ds)%nat -> nth n (kept (nones n ++ None :: M) ds) x = nth n ds x /\ (n < length (kept (nones n ++ None :: M) ds))%nat.
Proof.
  induction n as [|n IH]; intros [|d ds] L; cbn in *; try lia.
  - split; [reflexivity|lia].
  - destruct (IH ds) as (A1 & A2); [lia|]. unfold nones in *. split; [exact A1|lia].
Qed.
Lemma kept_nones {A} : forall n (l : list A), length l = n -> kept (nones n) l = l.
Proof. induction n as [|n IH]; intros [|x l] L; cbn in *; try discriminate; auto. f_equal. apply IH. lia. Qed.
Lemma fill_nones : forall n l, length l = n -> fill (nones n) l = l.
Proof. induction n as [|n IH]; intros [|x l] L; cbn in *; try discriminate; auto. f_equal. apply IH. lia. Qed.
Lemma nones_snoc n M : nones n ++ None :: M = nones (S n) ++ M.
Proof. unfold nones. replace (S n) with (n + 1)%nat by lia. rewrite repeat_app, <- app_assoc. reflexivity. Qed.
Lemma index_linsert d v l k : (d <= length l)%nat -> index (linsert d v l) k = insert_at d v (index l) k.
Proof.
  intros L. unfold index, linsert, insert_at. assert (Q : forall q, nth q l 0 = nth q (firstn d l ++ skipn d l) 0) by (intros; rewrite firstn_skipn; reflexivity).
  assert (Ld : length (firstn d l) = d) by (rewrite firstn_length; lia).
  destruct (Nat.ltb_spec k d).
  - rewrite Q, !app_nth1 by lia. reflexivity.
  - rewrite (app_nth2 (firstn d l) (v :: skipn d l)) by lia. rewrite Ld. destruct (Nat.eqb_spec k d); [subst; rewrite Nat.sub_diag; reflexivity|].
    rewrite Q, (app_nth2 (firstn d l) (skipn d l)) by lia. rewrite Ld. destruct (k - d)%nat as [|m] eqn:Em; [lia|]. cbn [nth]. f_equal. lia.
Qed.

(** The indices with the coordinate of a dimension chosen first. *)
Lemma flat_map_add {A B} (f : A -> B) (g : A -> list B) l : Permutation (flat_map (fun x => f x :: g x) l) (map f l ++ flat_map g l).
Proof.
  induction l as [|x l IH]; [constructor|]. cbn. apply perm_skip. rewrite IH. rewrite !app_assoc. apply Permutation_app_tail, Permutation_app_comm.
Qed.
Lemma flat_map_nil {A B} (l : list A) : flat_map (fun _ => @nil B) l = [].
Proof. induction l; auto. Qed.
Lemma flat_map_swap {A B C} (f : A -> B -> C) l : forall l',
  Permutation (flat_map (fun a => map (f a) l') l) (flat_map (fun b => map (fun a => f a b) l) l').
Proof.
  induction l' as [|b l' IH]; cbn [map flat_map].
  - rewrite flat_map_nil. constructor.
  - rewrite flat_map_add. apply Permutation_app_head, IH.
Qed.
Lemma flat_map_perm {A B} (f g : A -> list B) l : (forall x, In x l -> Permutation (f x) (g x)) -> Permutation (flat_map f l) (flat_map g l).
Proof.
  induction l as [|x l IH]; intros E; [constructor|]. cbn. apply Permutation_app; [apply E; left; reflexivity|apply IH; intros; apply E; right; auto].
Qed.
Lemma flat_map_perm_l {A B} (f : A -> list B) l l' : Permutation l l' -> Permutation (flat_map f l) (flat_map f l').
Proof. induction 1; cbn; auto; [apply Permutation_app_head; auto| |eapply perm_trans; eauto]. rewrite !app_assoc. apply Permutation_app_tail, Permutation_app_comm. Qed.
Lemma flat_map_flat_map {A B C} (f : B -> list C) (g : A -> list B) l : flat_map f (flat_map g l) = flat_map (fun x => flat_map f (g x)) l.
Proof. induction l as [|x l IH]; [reflexivity|]. cbn. rewrite flat_map_app, IH. reflexivity. Qed.
Lemma flat_map_map {A B C} (f : B -> list C) (g : A -> B) l : flat_map f (map g l) = flat_map (fun x => f (g x)) l.
Proof. induction l as [|x l IH]; [reflexivity|]. cbn. rewrite IH. reflexivity. Qed.
Lemma map_flat_map {A B C} (f : B -> C) (g : A -> list B) l : map f (flat_map g l) = flat_map (fun x => map f (g x)) l.
Proof. induction l as [|x l IH]; [reflexivity|]. cbn. rewrite map_app, IH. reflexivity. Qed.

Lemma box_insert : forall d ds, (d < length ds)%nat ->
  Permutation (box ds) (flat_map (fun v => map (linsert d v) (box (remove_nth ds d))) (range (d_min (nth d ds broadcast)) (d_max (nth d ds broadcast)))).
Proof.
  induction d as [|d IH]; intros [|x ds] L; cbn [length] in L; try lia.
  - cbn [nth remove_nth box]. apply (flat_map_swap (fun rest i => i :: rest)).
  - cbn [nth remove_nth box]. rewrite (flat_map_perm_l _ _ _ (IH ds ltac:(lia))). rewrite flat_map_flat_map.
    apply flat_map_perm. intros v _. rewrite flat_map_map, map_flat_map. apply flat_map_perm. intros l _. rewrite map_map. reflexivity.
Qed.
