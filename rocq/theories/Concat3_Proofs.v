(** All inputs of a copy; the pieces of concatenations and stacks. *)
From Coq Require Import ZArith List Bool Arith Lia.
From Verif Require Import Arith_Model Arith_Proofs Buf_Model Buf_Spec Buf_Proofs BufSlice_Proofs Buf_Props ForEach_Spec ForEach_Proofs ForEach_Props Copy_Model Copy_Spec CopyBox_Proofs Expr_Model Rewrite_Model Match_Model Match_Proofs Stmt_Model Stmt_Spec Deps_Spec Const_Model
  VSem_Spec VExec_Proofs VFrame_Proofs CopyStmt_Spec Concat_Model Concat_Spec Concat_Proofs Concat2_Proofs.
Import ListNotations.
Open Scope Z_scope.

Definition copy_like (s : stmt) : Prop :=
  match s with SCopy _ _ _ _ _ | SCropBuffer _ _ _ _ | SSliceBuffer _ _ _ _ => True | _ => False end /\ async_syms s = [].
Lemma copy_like_make i dst y s : make_copy_func i dst y = Val s -> copy_like s.
Proof.
  unfold make_copy_func. destruct (forallb _ _); [|discriminate]. cbv zeta. intros M. injection M as <-. unfold copy_like.
  destruct (ci_output_slice i), (ci_output_crop i), (ci_input_crop i); split; cbn; auto.
Qed.
Lemma copies_like dst : forall ins l, make_copies ins dst = Val l -> Forall copy_like l.
Proof.
  induction ins as [|i ins IH]; intros l M; cbn [make_copies] in M; [injection M as <-; constructor|]. apply bind_inv in M as (s & Ms & M). apply bind_inv in M as (l' & Ml & M).
  injection M as <-. constructor; [exact (copy_like_make _ _ _ _ Ms)|exact (IH _ Ml)].
Qed.
Lemma block_like l : Forall copy_like l -> l <> [] -> block_make l = match l with [s] => s | _ => SBlock l end.
Proof.
  intros F N. unfold block_make. replace (erase_undefs (flatten_blocks l)) with l; [destruct l as [|s [|s' l]]; [contradiction| |]; reflexivity|].
  clear N. induction F as [|s l (Fs & _) F IH]; [reflexivity|].
  unfold flatten_blocks, erase_undefs in *. destruct s; try contradiction; cbn in *; rewrite <- IH; reflexivity.
Qed.

Section All.
  Variable H : host mem.
  Variable call_v : nat -> list buf -> list buf -> list Z -> mem -> Z * mem.
  Variable copy_v : buf -> buf -> option buf -> (list Z -> option (list Z)) -> mem -> mem.
  Variable consts : Z -> option buf.
  Hypothesis Hcopy : does_copies copy_v.
  Notation vexec := (vexec mem H call_v copy_v consts).

  Lemma run_copies E dst bd kd : E (co_sym dst) = Buffer kd bd -> alone kd = true -> separate bd -> forall ins ps,
    Forall2 (fun i p => piece_of mem H E i dst bd p /\ p_pad p = None) ins ps -> Forall (provided bd) ps -> forall l v, make_copies ins dst = Val l ->
    exists m', vexec (SBlock l) E v = Val (0, v_set_ext mem v m') /\ pieces_assigned bd ps (v_ext mem v) m'.
  Proof.
    intros Ed Ad Sep ins ps F. induction F as [|i p ins ps (Pi & Np) F IH]; intros PV l v M; cbn [make_copies] in M.
    - injection M as <-. exists (v_ext mem v). split; [destruct v; reflexivity|constructor].
    - apply bind_inv in M as (s & Ms & M). apply bind_inv in M as (l' & Ml & M). injection M as <-. inversion PV as [|? ? V1 V2]; subst.
      destruct (one_piece H call_v copy_v consts Hcopy E i dst bd kd p None s v Pi Ed Ad) as (m1 & R1 & A1); auto; [unfold pad_of; rewrite Np; exact I|].
      rewrite vexec_cons, R1. cbn [bind]. cbn [Z.eqb]. rewrite (proj2 (copy_like_make _ _ _ _ Ms)). change (vforget [] E) with E.
      destruct (IH V2 l' (v_set_ext mem v m1) Ml) as (m2 & R2 & A2). exists m2. split; [rewrite R2; destruct v; reflexivity|]. econstructor; [exact A1|]. exact A2.
  Qed.
  Lemma run_call E dst bd kd ins ps s v : E (co_sym dst) = Buffer kd bd -> alone kd = true -> separate bd -> ins <> [] ->
    Forall2 (fun i p => piece_of mem H E i dst bd p /\ p_pad p = None) ins ps -> Forall (provided bd) ps -> make_call false ins dst = Val s ->
    exists m', vexec s E v = Val (0, v_set_ext mem v m') /\ combined bd ps (v_ext mem v) m'.
  Proof.
    intros Ed Ad Sep N F PV M. unfold make_call in M. apply bind_inv in M as (l & Ml & M). injection M as <-.
    destruct (run_copies E dst bd kd Ed Ad Sep ins ps F PV l v Ml) as (m' & R & A). exists m'. split; [|apply pieces_combined; auto].
    rewrite block_like; [|exact (copies_like _ _ _ Ml)|].
    2:{ destruct ins; [contradiction|]. cbn [make_copies] in Ml. apply bind_inv in Ml as (s & Ms & Ml). apply bind_inv in Ml as (l' & Ml' & Ml). injection Ml as <-. discriminate. }
    destruct l as [|s [|s' l]]; try exact R. rewrite vexec_cons in R. destruct (vexec s E v) as [(z, v1)|]; [|discriminate]. cbn [bind] in R.
    destruct (Z.eqb_spec z 0) as [->|]; [|injection R as -> _; congruence]. exact R.
  Qed.
  Lemma run_padded E dst bd kd i pad p s v : E (co_sym dst) = Buffer kd bd -> alone kd = true -> separate bd ->
    piece_of mem H E i dst bd p -> pad_of E i dst (Some (ci_sym pad)) p -> provided bd p -> make_call true [i; pad] dst = Val s ->
    exists m', vexec s E v = Val (0, v_set_ext mem v m') /\ combined bd [p] (v_ext mem v) m'.
  Proof.
    intros Ed Ad Sep P Pd V M. destruct (one_piece H call_v copy_v consts Hcopy E i dst bd kd p _ s v P Ed Ad Pd Sep V M) as (m' & R & A). exists m'. split; [exact R|].
    apply pieces_combined; [exact Sep|constructor; [exact V|constructor]|]. econstructor; [exact A|constructor].
  Qed.
End All.

(** *** coordinates *)
Lemma same_refl e : same e e = true. Proof. apply match_eq; reflexivity. Qed.
Section Coords.
  Variable X : Type.
  Variable H : host X.
  Lemma at_nth xs : forall idx E k x, NoDup xs -> length idx = length xs -> nth_error xs k = Some x -> at_values E xs idx x = Num (nth k idx 0).
  Proof.
    induction xs as [|y xs IH]; intros idx E k x N L K; [destruct k; discriminate|]. destruct idx as [|z idx]; [discriminate|]. apply NoDup_cons_iff in N as (N1 & N2).
    cbn [at_values tl]. destruct k as [|k]; cbn in K.
    - injection K as ->. rewrite vset_same. reflexivity.
    - cbn [nth]. rewrite vset_other; [cbn in L; apply IH; auto; lia|]. intros ->. exact (N1 (nth_error_In _ _ K)).
  Qed.
  Lemma vlist_nth E l : forall vs, length l = length vs -> (forall k e, nth_error l k = Some e -> veval X H E e = Val (nth k vs 0)) -> vlist X H E l = Val vs.
  Proof.
    induction l as [|e l IH]; intros [|v vs] L F; try discriminate; [reflexivity|]. cbn [vlist]. rewrite (F O e eq_refl). cbn [bind nth].
    rewrite (IH vs); [reflexivity|cbn in L; lia|]. intros k e' K. exact (F (S k) e' K).
  Qed.
  Lemma at_out xs : forall idx E x, ~ In x xs -> at_values E xs idx x = E x.
  Proof. induction xs as [|y xs IH]; intros idx E x N; cbn [at_values]; [reflexivity|]. rewrite vset_other by (intros ->; apply N; left; reflexivity). apply IH. intro I. apply N. right. exact I. Qed.
End Coords.
Lemma length_set_nth {A} (l : list A) d v : length (set_nth l d v) = length l. Proof. apply set_nth_length. Qed.
Lemma nth_error_set_nth {A} (l : list A) : forall d v k, nth_error (set_nth l d v) k = if (k =? d)%nat && (d <? length l)%nat then Some v else nth_error l k.
Proof.
  induction l as [|x l IH]; intros [|d] v [|k]; cbn [set_nth nth_error length]; try reflexivity.
  - rewrite andb_false_r. reflexivity.
  - rewrite IH. destruct (Nat.ltb_spec d (length l)), (Nat.ltb_spec (S d) (S (length l))); try lia; reflexivity.
Qed.
Lemma nth_error_remove_nth {A} (l : list A) : forall d k, nth_error (remove_nth l d) k = nth_error l (if (k <? d)%nat then k else S k).
Proof.
  induction l as [|x l IH]; intros d k.
  - replace (remove_nth (@nil A) d) with (@nil A) by (destruct d; reflexivity). destruct (k <? d)%nat; destruct k; reflexivity.
  - destruct d as [|d]; cbn [remove_nth]; [reflexivity|]. destruct k as [|k]; [reflexivity|]. cbn [nth_error]. rewrite IH. change (S k <? S d)%nat with (k <? d)%nat. destruct (k <? d)%nat; reflexivity.
Qed.
Lemma unsliced_one {B} v : forall n (l : list B), unsliced (nones n ++ [Some v]) l = remove_nth l n.
Proof. induction n as [|n IH]; intros [|x l]; try reflexivity. change (x :: unsliced (nones n ++ [Some v]) l = x :: remove_nth l n). f_equal. apply IH. Qed.
Lemma agrees_one v : forall n idx, (n < length idx)%nat -> agrees (nones n ++ [Some v]) idx <-> nth n idx 0 = v.
Proof.
  induction n as [|n IH]; intros [|x idx] L; cbn [length] in L; try lia; [cbn; destruct idx; tauto|]. change (agrees (nones n ++ [Some v]) idx <-> nth n idx 0 = v). apply IH. lia.
Qed.
Definition no_limit : limits := (None, None).
Lemma within_one lo hi : forall n idx, (n < length idx)%nat -> within (repeat no_limit n ++ [(Some lo, Some hi)]) idx <-> lo <= nth n idx 0 <= hi.
Proof.
  induction n as [|n IH]; intros [|x idx] L; cbn [length] in L; try lia; cbn [repeat app within nth].
  - destruct idx; cbn [within]; unfold limited; cbn [fst snd]; tauto.
  - rewrite IH by lia. unfold limited. cbn. tauto.
Qed.
(** what a buffer has, a crop around it and around 0 keeps *)
Lemma reach_ok ds : forall ls f, place_all ds f <> None -> (forall d, In d ds -> d_stride d = 0 -> d_min d <= 0 <= d_max d) ->
  (forall k l, nth_error ls k = Some l -> limited l (f k) /\ limited l 0) -> reach ds ls f = true.
Proof.
  induction ds as [|d ds IH]; intros ls f P Z0 L; [destruct ls; reflexivity|]. destruct ls as [|l ls]; [reflexivity|]. cbn [reach place_all] in *.
  destruct (place d (f O)) as [z|] eqn:Pd; [|contradiction]. rewrite IH.
  - rewrite andb_true_r. destruct (L O l eq_refl) as (L1 & L2). unfold reach1. unfold place in Pd. specialize (Z0 d (or_introl eq_refl)). unfold limited in *.
    destruct (Z.eqb_spec (d_stride d) 0) as [S0|S0].
    + specialize (Z0 S0). cbn [orb]. rewrite andb_true_r. apply Z.leb_le. destruct (fst l), (snd l); lia.
    + destruct (Z.leb_spec (d_min d) (f O)), (Z.leb_spec (f O) (d_max d)); try discriminate Pd. cbn [orb]. apply andb_true_iff. split; [apply Z.leb_le; destruct (fst l), (snd l); lia|].
      apply andb_true_iff. split; apply Z.leb_le; destruct (fst l), (snd l); lia.
  - intros N. rewrite N in P. apply P. reflexivity.
  - intros e Ie. apply Z0. right. exact Ie.
  - intros k e K. exact (L (S k) e K).
Qed.
Lemma located_place b f : locate b f <> None -> place_all (dims b) f <> None.
Proof. unfold locate. intros N Q. rewrite Q in N. apply N. apply oadd_none_r. Qed.
