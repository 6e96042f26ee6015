(** C41: what the simplifier learns from a condition follows from the condition.

    [knows W r k]: the bounds, residue classes and values recorded about variables and
    buffer fields, and the recorded equalities of expressions, hold for the values of the
    variables [r] (info_holds, buffer_holds, fact_holds in Knowledge_Spec.v).

    Learning simplifies the bounds it records (simplify(add), simplify_intersection).
    These rewrites are correct under the side conditions of C12, so the theorems are about
    the code with an arbitrary check [ok] of the operands of these rewrites, that stops
    learning when it fails: if the check admits only rewrites that preserve the value,
    what is learned is true ([C41_learn]); a run that is not stopped is a run of the code
    ([C41_guard]); and [small_rewrite], which checks that the constants are below 2^30, is
    such a check ([C41_small]). *)
From Coq Require Import ZArith List Bool Lia.
From Verif Require Import Arith_Model Arith_Spec Arith_Proofs ModRem_Model ModRem_Proofs Buf_Model Expr_Model Expr_Spec Expr_Proofs Expr_Props
  Match_Model Match_Proofs Rewrite_Proofs RewriteMatch_Proofs RuleTac RulesAll_Proofs Rewrite_Props Simplify_Model Simplify_Proofs Simplify_Props
  Deps_Model Interval_Model Interval_Spec Interval_Props BoundsOf_Spec Knowledge_Model Knowledge_Spec Knowledge_Proofs.
Import ListNotations.
Open Scope Z_scope.

Definition guarded (ok : binop -> expr -> expr -> bool) (o : binop) (a b : expr) : res expr :=
  if ok o a b then simplify_bin o a b else UB.
(** the rewrites admitted by [ok] preserve the value *)
Definition admits_sound (W : world) (r : env) (ok : binop -> expr -> expr -> bool) : Prop :=
  forall o a b e, ok o a b = true -> simplify_bin o a b = Val e -> refines (xbin o (meaning W r a) (meaning W r b)) (meaning W r e).
Definition small_rewrite (o : binop) (a b : expr) : bool :=
  match o with Max | Min | Add => small_consts a && small_consts b | _ => false end.

(** *** The knowledge after learning holds whenever the knowledge before and the condition do *)
Theorem C41_learn : forall W r ok pos k c k',
  admits_sound W r ok -> (forall p b, w_buf W p = Some b -> Z.of_nat (rank b) < 2 ^ 31) -> consts_all in64 c ->
  knows W r k -> learnable W r pos c -> holds_as W r pos c ->
  learn (guarded ok) pos k c = Val k' -> knows W r k'.
Proof.
  intros W r ok pos k c k' S R C K L T H. refine (learn_ok W r (guarded ok) _ R c pos k k' K C L T H).
  intros o a b e _ E. unfold guarded in E. destruct (ok o a b) eqn:Q; [|discriminate E]. exact (S o a b e Q E).
Qed.

Lemma guarded_le ok o a b e : guarded ok o a b = Val e -> simplify_bin o a b = Val e.
Proof. unfold guarded. destruct (ok o a b); [auto|discriminate]. Qed.
Section Mono.
  Variable f g : binop -> expr -> expr -> res expr.
  Hypothesis le : forall o a b e, f o a b = Val e -> g o a b = Val e.
  Lemma mono_intersect a b c : intersect f a b = Val c -> intersect g a b = Val c.
  Proof.
    unfold intersect. intros H. apply bind_inv in H as (lo & H1 & H). apply bind_inv in H as (hi & H2 & H).
    assert ((if defined (i_min a) && defined (i_min b) then g Max (i_min a) (i_min b) else Val (if defined (i_min a) then i_min a else i_min b)) = Val lo) as ->
      by (destruct (defined (i_min a) && defined (i_min b)); [apply le|]; exact H1).
    assert ((if defined (i_max a) && defined (i_max b) then g Min (i_max a) (i_max b) else Val (if defined (i_max a) then i_max a else i_max b)) = Val hi) as ->
      by (destruct (defined (i_max a) && defined (i_max b)); [apply le|]; exact H2).
    exact H.
  Qed.
  Lemma mono_merge i b a j : merge f i b a = Val j -> merge g i b a = Val j.
  Proof. unfold merge. intros H. apply bind_inv in H as (b' & H1 & H). rewrite (mono_intersect _ _ _ H1). exact H. Qed.
  Lemma mono_field i fd d b a j : learn_field f i fd d b a = Val j -> learn_field g i fd d b a = Val j.
  Proof.
    unfold learn_field. destruct (0 <=? d), fd; auto; cbn zeta; intros H; apply bind_inv in H as (x & H1 & H); rewrite (mono_merge _ _ _ _ H1); exact H.
  Qed.
  Lemma mono_var k s fd d b a k' : add_var_info f k s fd d b a = Val k' -> add_var_info g k s fd d b a = Val k'.
  Proof.
    assert (D : fd = f_none \/ fd <> f_none) by (destruct fd; auto; right; discriminate). destruct D as [->|Nf].
    - unfold add_var_info. intros H. apply bind_inv in H as (x & H1 & H). rewrite (mono_merge _ _ _ _ H1). exact H.
    - rewrite !add_field_eq by exact Nf. destruct (learned_nothing (pure_interval b) a); [auto|]. intros H. apply bind_inv in H as (x & H1 & H).
      rewrite (mono_field _ _ _ _ _ _ H1). exact H.
  Qed.
  Lemma mono_equal k a b k' : learn_from_equal f k a b = Val k' -> learn_from_equal g k a b = Val k'.
  Proof.
    unfold learn_from_equal. intros H. apply bind_inv in H as (k1 & H1 & H).
    assert (match b with EVar s fd d => add_var_info g k1 s fd d (point a) mr_all | _ => Val k1 end = Val k') as E
      by (destruct b; try exact H; apply mono_var; exact H).
    assert (match a with
         | EVar s f d => add_var_info g k s f d (point b) mr_all
         | EBin Mod (EVar s f d) (EConst m) => match b with EConst c => add_var_info g k s f d i_undef (MR m c) | _ => Val k end
         | EBin Mod _ _ => Val k
         | _ => Val (add_fact k (e_eq a b) (EConst 1))
         end = Val k1) as ->; [|exact E].
    destruct a as [|s fd d| |o x y| | | |]; try exact H1; [apply mono_var; exact H1|]. destruct o; try exact H1. destruct x; try exact H1.
    destruct y; try exact H1. destruct b; try exact H1. apply mono_var; exact H1.
  Qed.
  Lemma mono_leaf strict k a b k' : learn_leaf f strict k a b = Val k' -> learn_leaf g strict k a b = Val k'.
  Proof.
    unfold learn_leaf. intros H. apply bind_inv in H as (k1 & H1 & H). apply bind_inv in H as (k2 & H2 & H).
    match goal with |- bind ?x _ = _ => assert (x = Val k1) as -> end.
    { destruct a; try exact H1. apply bind_inv in H1 as (x & H3 & H1). destruct strict; [rewrite (le _ _ _ _ H3) | rewrite H3]; apply mono_var; exact H1. }
    cbn [bind]. match goal with |- bind ?x _ = _ => assert (x = Val k2) as -> end.
    { destruct b; try exact H2. apply bind_inv in H2 as (x & H3 & H2). destruct strict; [rewrite (le _ _ _ _ H3) | rewrite H3]; apply mono_var; exact H2. }
    exact H.
  Qed.
  Lemma mono_left strict a : forall k b k', learn_left f strict k a b = Val k' -> learn_left g strict k a b = Val k'.
  Proof.
    induction a as [|s fd d|lets body IHlets IHbody|o x y IHx IHy|x IHx|q t fl IHq IHt IHf|fn t args IHargs|c0] using expr_ind';
      intros k b k' H; cbn [learn_left] in *; try exact (mono_leaf _ _ _ _ _ H).
    destruct o; try exact (mono_leaf _ _ _ _ _ H). apply bind_inv in H as (k1 & H1 & H). rewrite (IHx _ _ _ H1). exact (IHy _ _ _ H).
  Qed.
  Lemma mono_order strict b : forall k a k', learn_from_order f strict k a b = Val k' -> learn_from_order g strict k a b = Val k'.
  Proof.
    induction b as [|s fd d|lets body IHlets IHbody|o x y IHx IHy|x IHx|q t fl IHq IHt IHf|fn t args IHargs|c0] using expr_ind';
      intros k a k' H; cbn [learn_from_order] in *; try exact (mono_left _ _ _ _ _ H).
    destruct o; try exact (mono_left _ _ _ _ _ H). apply bind_inv in H as (k1 & H1 & H). rewrite (IHx _ _ _ H1). exact (IHy _ _ _ H).
  Qed.
  Lemma mono_learn c : forall pos k k', learn f pos k c = Val k' -> learn g pos k c = Val k'.
  Proof.
    induction c as [|s fd d|lets body IHlets IHbody|o x y IHx IHy|x IHx|q t fl IHq IHt IHf|fn t args IHargs|c0] using expr_ind';
      intros pos k k' H; try exact H.
    - destruct pos, o; cbn [learn] in *; try exact H; try exact (mono_equal _ _ _ _ H); try exact (mono_order _ _ _ _ _ H);
        apply bind_inv in H as (k1 & H1 & H); rewrite (IHx _ _ _ H1); exact (IHy _ _ _ H).
    - destruct pos; exact (IHx _ _ _ H).
  Qed.
End Mono.

(** a run that the check does not stop is a run of the code *)
Theorem C41_guard : forall ok pos k c k', learn (guarded ok) pos k c = Val k' -> learn simplify_bin pos k c = Val k'.
Proof. intros ok pos k c k' H. exact (mono_learn _ _ (guarded_le ok) c pos k k' H). Qed.
(** the intersection in the model of learning is the one of C14 *)
Theorem C41_intersection : forall a b, intersect simplify_bin a b = simplify_intersection a b.
Proof. reflexivity. Qed.

Lemma small_c30 e : small_consts e = true -> consts_all below30 e.
Proof. apply small_consts_ok. Qed.
Theorem C41_small : forall W r, admits_sound W r small_rewrite.
Proof.
  intros W r o a b e Q H. assert (P : small_consts a = true /\ small_consts b = true) by (destruct o; try discriminate Q; apply andb_true_iff; exact Q).
  destruct P as (A & B). apply small_c30 in A, B. apply (C12_binary W r o a b e); auto using c30_c64.
  intros E. destruct o; discriminate.
Qed.

(** *** Learning from nothing: every variable whose value is an integer lies in the interval
    and the residue class that are recorded for it, in the sense of C14 *)
Theorem C41_variables : forall W r ok pos c k s i z,
  admits_sound W r ok -> (forall p b, w_buf W p = Some b -> Z.of_nat (rank b) < 2 ^ 31) -> consts_all in64 c ->
  learnable W r pos c -> holds_as W r pos c ->
  learn (guarded ok) pos (knowledge_new (fun _ => None) (fun _ => None)) c = Val k ->
  k_vars k s = Some i -> r s = Fin z ->
  contains W r (x_bounds i) z /\ (exists q, z = modulus (x_align i) * q + remainder (x_align i)) /\
  (x_known i <> EUndef -> meaning W r (x_known i) = Fin z).
Proof.
  intros W r ok pos c k s i z S R C L T H E Z.
  assert (K0 : knows W r (knowledge_new (fun _ => None) (fun _ => None))).
  { split; [intros ? ? Q; discriminate Q|]. split; [intros ? ? Q; discriminate Q|]. split; [intros ? ? Q; discriminate Q|]. split; [intros ? ? Q; discriminate Q|constructor]. }
  destruct (C41_learn W r ok pos _ c k S R C K0 L T H) as (_ & Kh & _). destruct (Kh s i E z Z) as (Lo & Hi & A & V).
  split; [|split; [exact A|]].
  - split.
    + destruct (defined (i_min (x_bounds i))) eqn:D; [|rewrite (undef_bad W r _ D); exact I]. specialize (Lo eq_refl).
      destruct (meaning W r (i_min (x_bounds i))); cbn in *; tauto.
    + destruct (defined (i_max (x_bounds i))) eqn:D; [|rewrite (undef_bad W r _ D); exact I]. specialize (Hi eq_refl).
      destruct (meaning W r (i_max (x_bounds i))); cbn in *; tauto.
  - intros N. apply V. destruct (x_known i); [congruence|reflexivity..].
Qed.

(** *** At the end of the branch the knowledge is what it was *)
Theorem C41_forgotten : forall sbin pos vars bufs c k, learn sbin pos (knowledge_new vars bufs) c = Val k ->
  forall s, k_vars (exit_scope k) s = vars s /\ k_bufs (exit_scope k) s = bufs s.
Proof.
  intros sbin pos vars bufs c k H s. destruct (same_learn sbin c pos _ _ H) as (A & B). split; [exact (A s) | exact (B s)].
Qed.

(** Beside the theorems: a condition on two variables and a field of a buffer.
    x + 2 <= y, x % 4 == 3, buffer_min(y, 1) == 7, x < 100 and x != 0 *)
Definition kx : expr := EVar 0 f_none 0.
Definition ky : expr := EVar 1 f_none 0.
Definition k_cond : expr :=
  e_and (e_and (e_le (e_add kx (EConst 2)) ky) (e_eq (e_mod kx (EConst 4)) (EConst 3)))
        (e_and (e_eq (EVar 1 f_min 1) (EConst 7)) (e_and (e_lt kx (EConst 100)) (e_not (e_eq kx (EConst 0))))).
Definition k_buf : buf := Buf (Some 1000) 1 [Dim 0 9 1 unfolded; Dim 7 8 10 unfolded].
Definition k_world : world := World (fun p => if p =? 50 then Some k_buf else None) (fun _ _ => 0) (fun _ _ => 0).
Definition k_env : env := fun s => Fin (match s with O => 11 | _ => 50 end).
Definition k_none : knowledge := knowledge_new (fun _ => None) (fun _ => None).
Lemma C41_ex_hypotheses : learnable k_world k_env true k_cond /\ holds_as k_world k_env true k_cond /\ consts_all in64 k_cond /\
  (forall p b, w_buf k_world p = Some b -> Z.of_nat (rank b) < 2 ^ 31).
Proof.
  split; [cbn; repeat split; try discriminate|]. split; [exists 1; split; [vm_compute; reflexivity|discriminate]|].
  split; [apply c30_c64, small_c30; reflexivity|]. intros p b. cbn. destruct (p =? 50); [|discriminate]. intros E. injection E as <-. reflexivity.
Qed.
Lemma C41_ex : exists k i j b, learn (guarded small_rewrite) true k_none k_cond = Val k /\
  k_vars k 0%nat = Some i /\ x_bounds i = i_bounds EUndef (EConst 99) /\ x_align i = MR 4 3 /\
  k_vars k 1%nat = Some j /\ x_bounds j = i_bounds (e_add kx (EConst 2)) EUndef /\
  k_bufs k 1%nat = Some b /\ x_known (di_min (nth 1 (b_dims b) dim_empty)) = EConst 7 /\ k_facts k = [(e_eq kx (EConst 0), EConst 0)].
Proof. do 4 eexists. split; [vm_compute; reflexivity|]. repeat split; vm_compute; reflexivity. Qed.

(** Findings.  The three excluded kinds of conditions teach the simplifier falsehoods.
    From a < max(x, y) it learns a < x: *)
Definition r3 (x y z : Z) : env := fun s => Fin (match s with O => x | 1%nat => y | _ => z end).
Definition kz : expr := EVar 2 f_none 0.
Theorem C41_max_refuted : exists k i, learn simplify_bin true k_none (e_lt kz (e_max kx ky)) = Val k /\ k_vars k 2%nat = Some i /\ forall W, holds_as W (r3 0 10 5) true (e_lt kz (e_max kx ky)) /\ ~ contains W (r3 0 10 5) (x_bounds i) 5.
Proof.
  do 2 eexists. split; [vm_compute; reflexivity|]. split; [vm_compute; reflexivity|]. intros W.
  split; [exists 1; split; [reflexivity|discriminate]|]. intros (_ & U). vm_compute in U. congruence.
Qed.
(** from min(x, y) <= z, which it may also learn as the negation of z < min(x, y), it learns x <= z: *)
Theorem C41_min_refuted : exists k i, learn simplify_bin false k_none (e_lt kz (e_min kx ky)) = Val k /\ k_vars k 0%nat = Some i /\ forall W, holds_as W (r3 10 0 5) false (e_lt kz (e_min kx ky)) /\ ~ contains W (r3 10 0 5) (x_bounds i) 10.
Proof.
  do 2 eexists. split; [vm_compute; reflexivity|]. split; [vm_compute; reflexivity|]. intros W.
  split; [exists 0; split; reflexivity|]. intros (_ & U). vm_compute in U. congruence.
Qed.
(** from a condition x + y, true because it is 2, it learns that x + y is 1: *)
Theorem C41_not_boolean_refuted : exists k, learn simplify_bin true k_none (e_add kx ky) = Val k /\ k_facts k = [(e_add kx ky, EConst 1)] /\ forall W, holds_as W (r3 1 1 0) true (e_add kx ky) /\ ~ fact_holds W (r3 1 1 0) (e_add kx ky, EConst 1).
Proof.
  eexists. split; [vm_compute; reflexivity|]. split; [reflexivity|]. intros W. split; [exists 2; split; [reflexivity|discriminate]|]. intros E. vm_compute in E. discriminate E.
Qed.
(** and from x % 0 == 0, which is true of every x, that x is 0. *)
Theorem C41_mod_zero_refuted : exists k i, learn simplify_bin true k_none (e_eq (e_mod kx (EConst 0)) (EConst 0)) = Val k /\ k_vars k 0%nat = Some i /\ x_align i = MR 0 0 /\ forall W, holds_as W (r3 3 0 0) true (e_eq (e_mod kx (EConst 0)) (EConst 0)) /\ ~ mr_in (x_align i) 3.
Proof.
  do 2 eexists. split; [vm_compute; reflexivity|]. split; [vm_compute; reflexivity|]. split; [reflexivity|]. intros W.
  split; [exists 1; split; [reflexivity|discriminate]|]. intros (q & E). cbn in E. lia.
Qed.
