(** A run of the simplifier with primitives that may stop is a run with primitives that do
    not, with the same result. *)
From Coq Require Import ZArith List Bool.
From Verif Require Import Arith_Model Arith_Proofs ModRem_Model Buf_Model Expr_Model Expr_Proofs Match_Model Rewrite_Model Interval_Model BoundsOf_Model
  Subst_Model Knowledge_Model Simplifier_Model.
Import ListNotations.
Open Scope Z_scope.

(** [x] is [y], or stops *)
Definition le {A} (x y : res A) : Prop := forall v, x = Val v -> y = Val v.
Lemma le_refl {A} (x : res A) : le x x. Proof. intros v H. exact H. Qed.
Lemma le_ub {A} (y : res A) : le UB y. Proof. intros v H. discriminate. Qed.
Lemma le_bind {A B} (x y : res A) (f g : A -> res B) : le x y -> (forall v, le (f v) (g v)) -> le (bind x f) (bind y g).
Proof. intros X F v H. apply bind_inv in H as (a & Ha & H). rewrite (X a Ha). exact (F a v H). Qed.

(** the primitives [P] are those of [Q], or stop *)
Record prims_le (P Q : prims) : Prop := {
  le_same : p_same P = p_same Q;
  le_visit : forall e, p_visit P e = true -> p_visit Q e = true;
  le_bin : forall o a b, le (p_bin P o a b) (p_bin Q o a b);
  le_not : forall a, le (p_not P a) (p_not Q a);
  le_select : forall c t f, le (p_select P c t f) (p_select Q c t f);
  le_call : forall fn t l, le (p_call P fn t l) (p_call Q fn t l);
  le_add_constant : forall a c, le (p_add_constant P a c) (p_add_constant Q a c);
  le_true : forall e, le (p_true P e) (p_true Q e);
  le_false : forall e, le (p_false P e) (p_false Q e);
  le_bounds_bin : forall p f g o op a b, (forall e, le (f e) (g e)) -> le (p_bounds_bin P p f o op a b) (p_bounds_bin Q p g o op a b);
  le_bounds_not : forall p op a, le (p_bounds_not P p op a) (p_bounds_not Q p op a);
  le_bounds_select : forall p c t f, le (p_bounds_select P p c t f) (p_bounds_select Q p c t f);
  le_bounds_call : forall fn t l bs, le (p_bounds_call P fn t l bs) (p_bounds_call Q fn t l bs);
  le_align : forall o a b, le (p_align P o a b) (p_align Q o a b);
  le_aligned : forall o al a b, le (p_aligned P o al a b) (p_aligned Q o al a b);
  le_learn : forall pos v b c, le (p_learn P pos v b c) (p_learn Q pos v b c);
  le_subst : forall a b x, le (p_subst P a b x) (p_subst Q a b x);
  le_at : forall s n low, p_at P s n low = true -> p_at Q s n low = true }.

Section Mono.
  Variables P Q : prims.
  Hypothesis L : prims_le P Q.

  Lemma same_as_eq p a b : same_as P p a b = same_as Q p a b. Proof. unfold same_as. rewrite (le_same _ _ L). reflexivity. Qed.
  Lemma repoint_eq p i : repoint P p i = repoint Q p i. Proof. unfold repoint. rewrite (le_same _ _ L). reflexivity. Qed.

  Ltac prim := first [apply (le_bin _ _ L)|apply (le_not _ _ L)|apply (le_select _ _ L)|apply (le_call _ _ L)|apply (le_add_constant _ _ L)|apply (le_true _ _ L)
    |apply (le_false _ _ L)|apply (le_bounds_not _ _ L)|apply (le_bounds_select _ _ L)|apply (le_bounds_call _ _ L)|apply (le_align _ _ L)|apply (le_aligned _ _ L)
    |apply (le_learn _ _ L)|apply (le_subst _ _ L)].
  (* one step on a goal [le (f P) (f Q)], where the two sides have the same shape *)
  Ltac step := first
    [apply le_refl|apply le_ub|prim|apply (le_bounds_bin _ _ L); intros ?|apply le_bind; [|intros ?]
    |rewrite same_as_eq|rewrite repoint_eq
    |match goal with
     | |- le (match ?x with _ => _ end) (match ?x with _ => _ end) => destruct x
     | |- le (let '(_, _) := ?x in _) _ => destruct x
     end].
  Ltac steps := repeat step.

  Lemma le_strip x : le (strip_boolean P x) (strip_boolean Q x).
  Proof.
    induction x as [|s f d|lets body IHlets IHbody|o a b IHa IHb|a IHa|q t f IHq IHt IHf|fn t args IHargs|c0] using expr_ind'; try apply le_refl.
    destruct o; try apply le_refl. cbn [strip_boolean]. destruct (is_zero b); [|apply le_refl].
    destruct (p_visit P (EBin NotEqual a b)) eqn:V; [|apply le_ub]. rewrite (le_visit _ _ L _ V). exact IHa.
  Qed.
  Lemma le_attempt i : le (attempt P i) (attempt Q i). Proof. unfold attempt. steps. Qed.
  Lemma trim_eq p i : trim_bounds_using_alignment P p i = trim_bounds_using_alignment Q p i.
  Proof. unfold trim_bounds_using_alignment. destruct (if modulus (x_align i) =? 0 then _ else _); [|reflexivity]. cbn [bind]. rewrite repoint_eq. reflexivity. Qed.
  Lemma le_trim p i : le (trim_bounds_using_alignment P p i) (trim_bounds_using_alignment Q p i). Proof. rewrite trim_eq. apply le_refl. Qed.

  Section Visit.
    Variables mut mut' : path -> state -> expr -> res result.
    Hypothesis M : forall p st e, le (mut p st e) (mut' p st e).
    Ltac go := repeat first [apply le_strip|apply le_attempt|apply le_trim|apply M|step].

    Lemma le_boolean p st e : le (mutate_boolean P mut p st e) (mutate_boolean Q mut' p st e). Proof. unfold mutate_boolean. go. Qed.
    Lemma le_where p st e : le (where_true P mut p st e) (where_true Q mut' p st e). Proof. unfold where_true. apply le_bind; [apply le_boolean|intros; apply le_refl]. Qed.
    Lemma le_attempt_to_prove p st e : le (attempt_to_prove P mut p st e) (attempt_to_prove Q mut' p st e).
    Proof. unfold attempt_to_prove. apply le_bind; [apply le_where|intros; apply le_attempt]. Qed.
    Lemma le_prove_true p st e : le (prove_true P mut p st e) (prove_true Q mut' p st e). Proof. unfold prove_true. apply le_bind; [apply le_where|intros; prim]. Qed.
    Lemma le_prove_false p st e : le (prove_false P mut p st e) (prove_false Q mut' p st e). Proof. unfold prove_false. apply le_bind; [apply le_where|intros; prim]. Qed.
    Ltac go' := repeat first [apply le_boolean|apply le_prove_true|apply le_strip|apply le_attempt|apply le_trim|apply M|step].

    Lemma le_field p st s f d : le (visit_field mut p st s f d) (visit_field mut' p st s f d). Proof. unfold visit_field. go'. Qed.
    Lemma le_variable p st s d : le (visit_variable mut p st s d) (visit_variable mut' p st s d). Proof. unfold visit_variable. go'. Qed.
    Lemma le_less_equal a x b y : le (less_equal P a x b y) (less_equal Q a x b y). Proof. unfold less_equal, or_false. go'. Qed.
    Lemma le_min_max p st o a b : le (visit_min_max P mut p st o a b) (visit_min_max Q mut' p st o a b).
    Proof. unfold visit_min_max. repeat first [apply le_less_equal|apply M|step]. Qed.
    Lemma le_product p st o a b : le (aligned_product mut p st o a b) (aligned_product mut' p st o a b). Proof. unfold aligned_product. go'. Qed.
    Lemma le_binary p st o a b : le (visit_binary P mut p st o a b) (visit_binary Q mut' p st o a b).
    Proof. unfold visit_binary. repeat first [apply le_product|apply le_trim|apply M|step]. Qed.
    Lemma le_add p st a b : le (visit_add P mut p st a b) (visit_add Q mut' p st a b). Proof. unfold visit_add. repeat first [apply le_binary|apply M|step]. Qed.
    Lemma le_logical p st o a b : le (visit_logical P mut p st o a b) (visit_logical Q mut' p st o a b). Proof. unfold visit_logical. go'. Qed.
    Lemma le_visit_not p st a : le (visit_not P mut p st a) (visit_not Q mut' p st a). Proof. unfold visit_not. go'. Qed.
    Lemma le_facts l x : le (apply_facts P l x) (apply_facts Q l x).
    Proof. revert x. induction l as [|(a, b) l IH]; intros x; [apply le_refl|]. cbn [apply_facts]. apply le_bind; [prim|intros; apply IH]. Qed.
    Lemma le_branch p st pos c e : le (visit_branch P mut p st pos c e) (visit_branch Q mut' p st pos c e).
    Proof. unfold visit_branch. repeat first [apply le_facts|apply M|step]. Qed.
    Lemma le_visit_select p st c t f : le (visit_select P mut p st c t f) (visit_select Q mut' p st c t f).
    Proof. unfold visit_select. repeat first [apply le_branch|apply le_boolean|apply le_attempt|apply le_trim|apply M|step]. Qed.
    Lemma le_args p n st l : le (mutate_args mut p n st l) (mutate_args mut' p n st l).
    Proof. revert n. induction l as [|a l IH]; intros n; [apply le_refl|]. cbn [mutate_args]. repeat first [apply IH|apply M|step]. Qed.
    Lemma le_default p st s n d a : le (default_index P mut p st s n d a) (default_index Q mut' p st s n d a).
    Proof.
      unfold default_index. apply le_bind; [go'|]. intros [|]; [|go']. destruct (p_at P s n _) eqn:E; [|apply le_ub]. rewrite (le_at _ _ L _ _ _ E). apply le_refl.
    Qed.
    Lemma le_defaults p st s ds : forall n l, le (default_indices P mut p st s n ds l) (default_indices Q mut' p st s n ds l).
    Proof.
      induction ds as [|d ds IH]; intros n l; [apply le_refl|]. destruct l as [|a l]; [apply le_refl|]. cbn [default_indices].
      apply le_bind; [apply le_default|intros]. apply le_bind; [apply IH|intros; apply le_refl].
    Qed.
    Lemma le_buffer_at p st l : le (visit_buffer_at P mut p st l) (visit_buffer_at Q mut' p st l).
    Proof. unfold visit_buffer_at. repeat first [apply le_defaults|step]. Qed.
    Lemma le_finish p st fn t l l' bs : le (finish_visit_call P mut p st fn t l l' bs) (finish_visit_call Q mut' p st fn t l l' bs).
    Proof. unfold finish_visit_call. go'. Qed.
    Lemma le_visit_call p st fn t l : le (visit_call P mut p st fn t l) (visit_call Q mut' p st fn t l).
    Proof. unfold visit_call. repeat first [apply le_args|apply le_buffer_at|apply le_finish|apply M|step]. Qed.
    Lemma le_visit_expr p st e : le (visit P mut p st e) (visit Q mut' p st e).
    Proof.
      destruct e as [|s f d|lets body|o a b|a|q t f|fn t args|c]; cbn [visit]; try apply le_refl.
      - destruct f; first [apply le_variable|apply le_field].
      - destruct o; first [apply le_add|apply le_binary|apply le_min_max|apply le_logical].
      - apply le_visit_not.
      - apply le_visit_select.
      - apply le_visit_call.
    Qed.
  End Visit.

  Theorem le_mutate n : forall p st e, le (mutate P n p st e) (mutate Q n p st e).
  Proof.
    induction n as [|n IH]; intros p st e; [apply le_ub|]. cbn [mutate]. destruct (defined e); [|apply le_refl].
    destruct (p_visit P e) eqn:V; [|apply le_ub]. rewrite (le_visit _ _ L _ V). apply le_visit_expr. exact IH.
  Qed.
End Mono.
