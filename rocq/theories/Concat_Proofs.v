(** Lemmas about slices and crops of copies. *)
From Coq Require Import ZArith List Bool Arith Lia.
From Verif Require Import Arith_Model Buf_Model Buf_Spec Buf_Proofs BufSlice_Proofs Buf_Props ForEach_Spec ForEach_Proofs ForEach_Props Copy_Model Copy_Spec CopyBox_Proofs Expr_Model Stmt_Model Deps_Spec Const_Model VSem_Spec VExec_Proofs
  VFrame_Proofs CopyStmt_Spec Concat_Model Concat_Spec.
Import ListNotations.
Open Scope Z_scope.

(** *** slices *)
Lemma slice_dims at_ : forall p ds, snd (slice_buffer_loop p ds at_) = unsliced at_ ds.
Proof.
  assert (N : forall ds p, snd (slice_buffer_loop p ds []) = ds).
  { induction ds as [|d ds IH]; intros p; cbn [slice_buffer_loop snd]; [reflexivity|]. specialize (IH p). destruct (slice_buffer_loop p ds []) as [r l]. cbn [snd] in *. congruence. }
  induction at_ as [|[v|] at_ IH]; intros p ds.
  - cbn [unsliced]. destruct ds; apply N.
  - destruct ds as [|d ds]; [reflexivity|]. cbn [slice_buffer_loop unsliced]. apply IH.
  - destruct ds as [|d ds]; [reflexivity|]. cbn [slice_buffer_loop unsliced]. specialize (IH p ds). destruct (slice_buffer_loop p ds at_) as [r l]. cbn [snd] in *. congruence.
Qed.
Lemma slice_buffer_dims b at_ : dims (slice_buffer b at_) = unsliced at_ (dims b).
Proof. unfold slice_buffer. pose proof (slice_dims at_ (base b) (dims b)) as S. destruct (slice_buffer_loop _ _ _) as [r l]. exact S. Qed.
Lemma slice_buffer_es b at_ : elem_size (slice_buffer b at_) = elem_size b.
Proof. unfold slice_buffer. destruct (slice_buffer_loop _ _ _). reflexivity. Qed.
Lemma fill_in_agrees sl : forall idx k, agrees sl idx -> (k < length idx)%nat -> fill_in sl (index (unsliced sl idx)) k = index idx k.
Proof.
  induction sl as [|[v|] sl IH]; intros idx k A L; cbn [fill_in agrees unsliced] in *.
  - reflexivity.
  - destruct idx as [|x idx]; [cbn in L; lia|]. destruct A as (-> & A). destruct k as [|k]; [reflexivity|]. cbn in L. rewrite IH by (auto; lia). reflexivity.
  - destruct idx as [|x idx]; [cbn in L; lia|]. destruct k as [|k]; [reflexivity|]. cbn in L. transitivity (fill_in sl (index (unsliced sl idx)) k).
    + clear. generalize (unsliced sl idx). intro l. unfold index. cbn [nth]. reflexivity.
    + rewrite IH by (auto; lia). reflexivity.
Qed.
(** the index of the buffer for an index of the slice *)
Fixpoint whole (sl : list (option Z)) (n : nat) (r : list Z) : list Z :=
  match n with
  | O => []
  | S n' =>
      match sl with
      | Some v :: sl' => v :: whole sl' n' r
      | None :: sl' => match r with x :: r' => x :: whole sl' n' r' | [] => [] end
      | [] => r
      end
  end.
Lemma whole_ok sl : forall ds r, in_bounds (unsliced sl ds) r ->
  (forall k v, nth_error sl k = Some (Some v) -> (k < length ds)%nat -> d_min (nth k ds broadcast) <= v <= d_max (nth k ds broadcast)) ->
  let idx := whole sl (length ds) r in in_bounds ds idx /\ agrees sl idx /\ unsliced sl idx = r.
Proof.
  induction sl as [|[v|] sl IH]; intros ds r B F; cbn zeta.
  - cbn [unsliced] in B. destruct ds as [|d ds]; cbn [length whole]; [destruct r; [|destruct B]; repeat split|]. split; [exact B|]. split; [destruct r; exact I|]. destruct r; reflexivity.
  - destruct ds as [|d ds]; cbn [unsliced length whole] in *; [destruct r; [|destruct B]; repeat split|].
    destruct (IH ds r B) as (I1 & I2 & I3). { intros k w E L. exact (F (S k) w E ltac:(cbn; lia)). }
    cbn [in_bounds agrees unsliced]. split; [split; [exact (F O v eq_refl ltac:(cbn; lia))|exact I1]|]. auto.
  - destruct ds as [|d ds]; cbn [unsliced length whole] in *; [destruct r; [|destruct B]; repeat split|].
    destruct r as [|x r]; [destruct B|]. destruct B as (B1 & B2).
    destruct (IH ds r B2) as (I1 & I2 & I3). { intros k w E L. exact (F (S k) w E ltac:(cbn; lia)). }
    cbn [in_bounds agrees unsliced]. split; [split; [exact B1|exact I1]|]. split; [exact I2|congruence].
Qed.
Lemma unsliced_bounds sl : forall ds idx, in_bounds ds idx -> in_bounds (unsliced sl ds) (unsliced sl idx).
Proof.
  induction sl as [|[v|] sl IH]; intros ds idx B; cbn [unsliced].
  - destruct ds, idx; exact B.
  - destruct ds as [|d ds], idx as [|x idx]; try (destruct B; fail); [exact I|]. apply IH, B.
  - destruct ds as [|d ds], idx as [|x idx]; try (destruct B; fail); [exact I|]. split; [apply B|]. apply IH, B.
Qed.

(** *** crops *)
Definition or_else (o : option Z) (z : Z) : Z := match o with Some x => x | None => z end.
Fixpoint crops (b : buf) (d : nat) (ls : list limits) : buf :=
  match ls with
  | [] => b
  | l :: ls' => if (rank b <=? d)%nat then b else crops (crop b d (or_else (fst l) (d_min (dim_at b d))) (or_else (snd l) (d_max (dim_at b d)))) (S d) ls'
  end.
Definition crop1 (d : dim) (l : limits) : dim := set_bounds d (Z.max (or_else (fst l) (d_min d)) (d_min d)) (Z.min (or_else (snd l) (d_max d)) (d_max d)).
Fixpoint crop_list (ds : list dim) (ls : list limits) : list dim :=
  match ds, ls with d :: ds', l :: ls' => crop1 d l :: crop_list ds' ls' | _, _ => ds end.
Lemma set_nth_app {A} (l1 : list A) x l2 v : set_nth (l1 ++ x :: l2) (length l1) v = l1 ++ v :: l2.
Proof. induction l1 as [|y l1 IH]; cbn; [reflexivity|]. f_equal. exact IH. Qed.
Lemma nth_mid {A} (l1 : list A) x l2 e : nth (length l1) (l1 ++ x :: l2) e = x.
Proof. induction l1 as [|y l1 IH]; cbn; auto. Qed.
Lemma crop_app b l1 d ds lo hi : dims b = l1 ++ d :: ds ->
  dims (crop b (length l1) lo hi) = (l1 ++ [set_bounds d (Z.max lo (d_min d)) (Z.min hi (d_max d))]) ++ ds.
Proof.
  intro E. rewrite crop_dims by (unfold rank; rewrite E, app_length; cbn; lia). unfold dim_at. rewrite E, nth_mid, set_nth_app, <- app_assoc. reflexivity.
Qed.
Lemma crops_dims ls : forall b l1 ds, dims b = l1 ++ ds -> dims (crops b (length l1) ls) = l1 ++ crop_list ds ls.
Proof.
  induction ls as [|l ls IH]; intros b l1 ds E; cbn [crops].
  - rewrite E. destruct ds; reflexivity.
  - destruct ds as [|d ds].
    + rewrite app_nil_r in E. destruct (Nat.leb_spec (rank b) (length l1)) as [_|L]; [|unfold rank in L; rewrite E in L; lia]. cbn [crop_list]. rewrite app_nil_r. exact E.
    + destruct (Nat.leb_spec (rank b) (length l1)) as [L|_]; [unfold rank in L; rewrite E, app_length in L; cbn in L; lia|].
      unfold dim_at. rewrite E, nth_mid. cbn [crop_list]. unfold crop1.
      pose proof (crop_app b l1 d ds (or_else (fst l) (d_min d)) (or_else (snd l) (d_max d)) E) as Q.
      specialize (IH _ _ _ Q). rewrite app_length, Nat.add_1_r in IH. cbn [length] in IH. rewrite IH, <- app_assoc. reflexivity.
Qed.
Lemma crops_dims0 b ls : dims (crops b 0 ls) = crop_list (dims b) ls.
Proof. exact (crops_dims ls b [] (dims b) eq_refl). Qed.
Lemma crops_es ls : forall b d, elem_size (crops b d ls) = elem_size b.
Proof.
  induction ls as [|l ls IH]; intros b d; cbn [crops]; [reflexivity|]. destruct (rank b <=? d)%nat eqn:L; [reflexivity|]. rewrite IH. unfold crop. rewrite L. reflexivity.
Qed.
Lemma locate_crops ls : forall b l1 ds f, dims b = l1 ++ ds ->
  locate (crops b (length l1) ls) f = if reach ds ls (fun k => f (length l1 + k)%nat) then locate b f else None.
Proof.
  induction ls as [|l ls IH]; intros b l1 ds f E; cbn [crops].
  - destruct ds; reflexivity.
  - destruct ds as [|d ds].
    + rewrite app_nil_r in E. destruct (Nat.leb_spec (rank b) (length l1)) as [_|L]; [reflexivity|unfold rank in L; rewrite E in L; lia].
    + assert (K : (length l1 < rank b)%nat) by (unfold rank; rewrite E, app_length; cbn; lia).
      destruct (Nat.leb_spec (rank b) (length l1)) as [L|_]; [lia|].
      assert (D : dim_at b (length l1) = d) by (unfold dim_at; rewrite E; apply nth_mid). rewrite D. cbn [reach].
      pose proof (crop_app b l1 d ds (or_else (fst l) (d_min d)) (or_else (snd l) (d_max d)) E) as Q.
      specialize (IH _ _ _ f Q). rewrite app_length in IH. cbn [length] in IH. rewrite Nat.add_1_r in IH. rewrite IH.
      rewrite locate_crop by exact K. rewrite D. cbn zeta. rewrite Nat.add_0_r.
      assert (S : reach ds ls (fun k => f (Datatypes.S (length l1 + k))) = reach ds ls (fun k => f (length l1 + Datatypes.S k)%nat)).
      { assert (R : forall ls ds g h, (forall k, g k = h k) -> reach ds ls g = reach ds ls h).
        { clear. induction ls as [|l ls IH]; intros [|d ds] g h E; cbn [reach]; auto. rewrite (E O). f_equal. apply IH. intro k. apply E. }
        apply R. intro k. f_equal. lia. }
      change (fun k => f (Datatypes.S (length l1) + k)%nat) with (fun k => f (Datatypes.S (length l1 + k))). rewrite S. clear S IH Q. unfold reach1, or_else.
      generalize (reach ds ls (fun k => f (length l1 + Datatypes.S k)%nat)). intro r.
      set (u := (Z.max _ _ <=? _)). set (v := _ || _). clearbody u v. destruct r, u, v; reflexivity.
Qed.
Lemma locate_crops0 b ls f : locate (crops b 0 ls) f = if reach (dims b) ls f then locate b f else None.
Proof. exact (locate_crops ls b [] (dims b) f eq_refl). Qed.
Lemma crop_list_bounds ls : forall ds idx, in_bounds (crop_list ds ls) idx <-> in_bounds ds idx /\ within ls idx.
Proof.
  induction ls as [|l ls IH]; intros ds idx.
  - destruct ds; cbn [crop_list within]; tauto.
  - destruct ds as [|d ds], idx as [|x idx]; cbn [crop_list within in_bounds]; try tauto. rewrite IH. unfold crop1, set_bounds, limited, or_else. cbn [d_min d_max].
    destruct (fst l) as [lo|], (snd l) as [hi|]; intuition lia.
Qed.
Lemma crop_list_reach ls : forall ds idx, in_bounds (crop_list ds ls) idx -> reach ds ls (index idx) = true.
Proof.
  induction ls as [|l ls IH]; intros [|d ds] [|x idx] B; cbn [crop_list in_bounds reach] in *; try tauto. destruct B as (B1 & B2).
  rewrite (IH ds idx B2 : reach ds ls (fun k => index (x :: idx) (S k)) = true), andb_true_r.
  unfold crop1, set_bounds, or_else in B1. cbn [d_min d_max] in B1. unfold reach1. unfold index. cbn [nth]. apply andb_true_iff.
  split; [apply Z.leb_le; lia|]. apply orb_true_iff. right. apply andb_true_iff. split; apply Z.leb_le; lia.
Qed.
Lemma same_nil {A B} (P : A -> B -> Prop) l l' : Forall2 P l l' -> (l = [] <-> l' = []).
Proof. intros [|]; split; auto; discriminate. Qed.

(** *** evaluating them *)
Section Eval.
  Variable X : Type.
  Variable H : host X.
  Notation veval := (veval X H).
  Lemma give_def E e v z : gives X H E e v -> veval_def X H E e z = Val (or_else v z).
  Proof. destruct v as [v|]; cbn [gives or_else]; unfold veval_def; [intros (-> & ->); reflexivity|intros ->; reflexivity]. Qed.
  Lemma vcrop_crops E l ls : Forall2 (gives_limits X H E) l ls -> forall b d, vcrop X H E b d l = Val (crops b d ls).
  Proof.
    induction 1 as [|i l l' ls' (G1 & G2) F IH]; intros b d; cbn [vcrop crops]; [reflexivity|]. destruct (rank b <=? d)%nat; [reflexivity|].
    unfold vinterval_def. rewrite (give_def _ _ _ _ G1), (give_def _ _ _ _ G2). cbn [bind fst snd]. apply IH.
  Qed.
  Lemma vslice_nil E p : forall ds, vslice X H E p ds [] = Val (slice_buffer_loop p ds []).
  Proof.
    assert (N : forall ds, slice_buffer_loop p ds [] = (p, ds)).
    { induction ds as [|d ds IH]; cbn [slice_buffer_loop]; [reflexivity|]. rewrite IH. reflexivity. }
    intros [|d ds]; [reflexivity|]. rewrite N. reflexivity.
  Qed.
  Lemma vslice_slices E l vs : Forall2 (gives X H E) l vs -> forall p ds, vslice X H E p ds l = Val (slice_buffer_loop p ds vs).
  Proof.
    induction 1 as [|e v l vs G F IH]; intros p ds; [apply vslice_nil|]. destruct ds as [|d ds]; [reflexivity|]. cbn [vslice slice_buffer_loop].
    destruct v as [v|]; cbn [gives] in G.
    - destruct G as (-> & G). destruct p as [q|]; [|apply IH]. rewrite G. cbn [bind]. apply IH.
    - rewrite G, IH. cbn [bind]. destruct (slice_buffer_loop p ds vs) as [r l']. reflexivity.
  Qed.
  Lemma gives_same E E' e v : (forall x, free x e -> E x = E' x) -> gives X H E e v -> gives X H E' e v.
  Proof. intros S. destruct v as [v|]; cbn [gives]; [|auto]. intros (D & G). split; [exact D|]. rewrite <- G. symmetry. apply eval_frame. exact S. Qed.
  Lemma limits_same E E' l ls : Forall (fun i => forall x, free_interval x i -> E x = E' x) l -> Forall2 (gives_limits X H E) l ls -> Forall2 (gives_limits X H E') l ls.
  Proof.
    intros S F. induction F as [|i l' l ls' (G1 & G2) F IH]; [constructor|]. inversion S as [|? ? S1 S2]; subst. constructor; [|exact (IH S2)].
    split; [eapply gives_same; [|exact G1]|eapply gives_same; [|exact G2]]; intros x Fx; apply S1; [left|right]; exact Fx.
  Qed.
  Lemma vlist_same E E' l : Forall (fun e => forall x, free x e -> E x = E' x) l -> vlist X H E l = vlist X H E' l.
  Proof. induction 1 as [|e l S F IH]; cbn [vlist]; [reflexivity|]. rewrite (eval_frame X H e E E' S), IH. reflexivity. Qed.
  Lemma at_same (P : nat -> Prop) xs : forall idx E E', (forall x, P x -> E x = E' x) -> forall x, P x -> at_values E xs idx x = at_values E' xs idx x.
  Proof.
    induction xs as [|y xs IH]; intros idx E E' S x Px; cbn [at_values]; [auto|]. unfold vset. destruct (x =? y)%nat; [reflexivity|]. apply IH; auto.
  Qed.
End Eval.
