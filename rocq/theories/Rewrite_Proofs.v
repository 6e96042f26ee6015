(** The rewrite engine is sound (C11): matching binds wildcards to subexpressions whose
    meanings make up the meaning of the expression, and substitution builds an
    expression with the meaning of the replacement.  Together: if a rule is valid as a
    statement about values ([rule_ok]), applying it preserves meaning. *)
From Coq Require Import ZArith List Bool Lia.
From Verif Require Import Arith_Model Arith_Spec Arith_Proofs Buf_Model Expr_Model Expr_Spec Expr_Proofs Match_Model
  Match_Proofs Expr_Props Rewrite_Model.
Import ListNotations.
Open Scope Z_scope.

(** ** The meaning of patterns and replacements as functions of values *)

(** what a predicate on a wildcard promises about its value *)
Definition psound (k : predk) (x : xval) : Prop :=
  match k with
  | k_constant => True
  | k_finite => match x with PInf | NInf => False | _ => True end
  | k_zero => x = Fin 0
  | k_non_negative => match x with NInf => False | Fin z => 0 <= z | _ => True end
  | k_non_positive => match x with NInf => True | Fin z => z <= 0 | _ => False end
  | k_boolean => match x with Bad => True | Fin z => z = 0 \/ z = 1 | _ => False end
  end.

Definition xshort2 (stop : bool) (a b : xval) : xval :=
  match a with
  | Fin x => if Bool.eqb (truthy x) stop then Fin (of_bool stop)
             else match b with Fin y => Fin (of_bool (truthy y)) | _ => Bad end
  | _ => Bad
  end.
Definition xcall0 (fn : intrinsic) : xval :=
  match fn with i_positive_infinity => PInf | i_negative_infinity => NInf | _ => Bad end.
Definition xcall1 (fn : intrinsic) (a : xval) : xval :=
  match fn with i_abs => xabs a | _ => Bad end.
Definition xcall2 (fn : intrinsic) (a b : xval) : xval :=
  match fn with i_and_then => xshort2 false a b | i_or_else => xshort2 true a b | _ => Bad end.
Definition xstair (x a b c : xval) : xval := xmul (xdiv (xadd x a) b) c.
Definition xboolean (a : xval) : xval :=
  match a with Fin z => Fin (of_bool (truthy z)) | PInf | NInf => Fin 1 | Bad => Bad end.

Definition zbin (o : binop) (a b : Z) : Z :=
  match o with
  | Add => a + b | Sub => a - b | Mul => a * b | Div => ediv a b | Mod => emod a b
  | Min => Z.min a b | Max => Z.max a b
  | Equal => of_bool (a =? b) | NotEqual => of_bool (negb (a =? b))
  | Less => of_bool (a <? b) | LessEqual => of_bool (a <=? b)
  | And => of_bool (truthy a && truthy b) | Or => of_bool (truthy a || truthy b)
  end.
Definition guarded (o : binop) : bool := match o with Add | Sub | Mul => true | _ => false end.
Definition ozbin (o : binop) (a b : option Z) : option Z :=
  match a, b with
  | Some x, Some y => if guarded o then if in_range 64 (zbin o x y) then Some (zbin o x y) else None
                      else Some (zbin o x y)
  | _, _ => None
  end.

Section Sem.
  Variable v : nat -> xval.
  Variable c : nat -> Z.
  Variable pr : predk -> nat -> bool.

  Fixpoint psem (p : pat) : xval :=
    match p with
    | PWild n => v n
    | PConst n => Fin (c n)
    | PLit z => Fin z
    | POpt p _ => psem p
    | PBin o a b => xbin o (psem a) (psem b)
    | PNot a => xnot (psem a)
    | PSel q t f => xselect (psem q) (psem t) (psem f)
    | PCall0 fn => xcall0 fn
    | PCall1 fn a => xcall1 fn (psem a)
    | PCall2 fn a b => xcall2 fn (psem a) (psem b)
    | PStair x a b d => xstair (psem x) (psem a) (psem b) (psem d)
    | _ => Bad
    end.

  (** index expressions: [None] when the computation overflows *)
  Fixpoint sx (p : pat) : option Z :=
    match p with
    | PConst n => Some (c n)
    | PLit z => Some z
    | POpt p _ | REval p => sx p
    | PBin o a b => ozbin o (sx a) (sx b)
    | PNot a => match sx a with Some z => Some (of_bool (z =? 0)) | None => None end
    | RPred k n => Some (of_bool (pr k n))
    | RSum is_max a1 b1 c1 a2 b2 c2 =>
        match sx a1, sx b1, sx c1, sx a2, sx b2, sx c2 with
        | Some v1, Some v2, Some v3, Some v4, Some v5, Some v6 =>
            match staircase_sum_bounds (wrap 32 v1) (wrap 32 v2) (wrap 32 v3) (wrap 32 v4) (wrap 32 v5) (wrap 32 v6) with
            | Val i => Some (if is_max then match iv_max i with Some z => z | None => imax 64 end
                             else match iv_min i with Some z => z | None => imin 64 end)
            | UB => None
            end
        | _, _, _, _, _, _ => None
        end
    | _ => None
    end.

  Definition omap2 {A B C} (f : A -> B -> C) (a : option A) (b : option B) : option C :=
    match a, b with Some x, Some y => Some (f x y) | _, _ => None end.
  Definition ofin (a : option Z) : option xval := match a with Some z => Some (Fin z) | None => None end.

  Fixpoint sxx (p : pat) : option xval :=
    match p with
    | PWild n => Some (v n)
    | POpt p _ => sxx p
    | PBin o a b => if is_index a && is_index b then ofin (sx p) else omap2 (xbin o) (sxx a) (sxx b)
    | PNot a => if is_index a then ofin (sx p) else match sxx a with Some x => Some (xnot x) | None => None end
    | PSel q t f => match sxx q, sxx t, sxx f with
                    | Some x, Some y, Some z => Some (xselect x y z)
                    | _, _, _ => None
                    end
    | PCall0 fn => Some (xcall0 fn)
    | PCall1 fn a => match sxx a with Some x => Some (xcall1 fn x) | None => None end
    | PCall2 fn a b => omap2 (xcall2 fn) (sxx a) (sxx b)
    | PStair x a b d => match sxx x, sx a, sx b, sx d with
                        | Some x, Some za, Some zb, Some zd => Some (xstair x (Fin za) (Fin zb) (Fin zd))
                        | _, _, _, _ => None
                        end
    | RBool a => match sxx a with Some x => Some (xboolean x) | None => None end
    | PConst _ | PLit _ | REval _ | RPred _ _ | RSum _ _ _ _ _ _ _ => ofin (sx p)
    end.

  Fixpoint salts (l : list (pat * pat)) : option xval :=
    match l with
    | [] => None
    | (r, p) :: l' =>
        match sx p with
        | Some z => if truthy z then match sxx r with Some x => Some x | None => salts l' end else salts l'
        | None => salts l'
        end
    end.
End Sem.

(** the direct operands of a pattern *)
Definition operands (p : pat) : list pat :=
  match p with
  | PBin _ a b | PCall2 _ a b => [a; b]
  | PNot a | PCall1 _ a => [a]
  | PSel a b c => [a; b; c]
  | _ => []
  end.
Definition in64x (x : xval) : Prop := match x with Fin z => in64 z | _ => True end.

(** Wildcards of a pattern *)
Fixpoint pvars (p : pat) : list nat :=
  match p with
  | PWild n => [n]
  | POpt p _ | PNot p | PCall1 _ p => pvars p
  | PBin _ a b | PCall2 _ a b => pvars a ++ pvars b
  | PSel a b c => pvars a ++ pvars b ++ pvars c
  | PStair x a b c => pvars x ++ pvars a ++ pvars c
  | _ => []
  end.
Definition is_fin (x : xval) : Prop := match x with Fin _ => True | _ => False end.
(** [rule_ok Q F r]: for constants satisfying [Q], and if [F], finite wildcards and
    operands that are index_t values, the chosen replacement has the value of the left hand side. *)
Definition rule_ok (Q : Z -> Prop) (F : bool) (r : rule) : Prop :=
  forall v c pr,
    (forall n, Q (c n)) ->
    (forall k n, pr k n = true -> psound k (v n)) ->
    (F = true -> forall n, In n (pvars (r_lhs r)) -> is_fin (v n)) ->
    (F = true -> Forall (fun p => in64x (psem v c p)) (operands (r_lhs r))) ->
    forall y, salts v c pr (r_alts r) = Some y -> refines (psem v c (r_lhs r)) y.

(** ** Substitution *)

(** the literals are index_t values *)
Fixpoint lits_ok (p : pat) : bool :=
  match p with
  | PLit z => in_range 64 z
  | POpt p _ | PNot p | PCall1 _ p | REval p | RBool p => lits_ok p
  | PBin _ a b | PCall2 _ a b => lits_ok a && lits_ok b
  | PSel a b c => lits_ok a && lits_ok b && lits_ok c
  | PStair x a b c => lits_ok x && lits_ok a && lits_ok b && lits_ok c
  | RSum _ a1 b1 c1 a2 b2 c2 => lits_ok a1 && lits_ok b1 && lits_ok c1 && lits_ok a2 && lits_ok b2 && lits_ok c2
  | _ => true
  end.

Lemma zbin_xbin o a b : xbin o (Fin a) (Fin b) = Fin (zbin o a b).
Proof. destruct o; cbn [xbin zbin xadd xsub xneg xmul xdiv xmod xmin xmax xcmp xbool2]; f_equal; lia. Qed.

Lemma scan_range n : forall x a1 b1 c1 a2 b2 c2 mn mx m,
  imin 32 <= mn <= imax 32 -> imin 32 <= mx <= imax 32 ->
  imin 32 <= b1 <= imax 32 -> imin 32 <= b2 <= imax 32 ->
  staircase_scan n x a1 b1 c1 a2 b2 c2 mn mx = Val m ->
  imin 32 <= fst m <= imax 32 /\ imin 32 <= snd m <= imax 32.
Proof.
  induction n; cbn [staircase_scan]; intros x a1 b1 c1 a2 b2 c2 mn mx m H1 H2 B1 B2 H.
  - injection H as <-; cbn [fst snd]; auto.
  - apply bind_inv in H as (y & Hy & H). apply staircase_y_inv in Hy as (_ & Hy); auto.
    apply IHn in H; auto; lia.
Qed.
Lemma sum_range a1 b1 c1 a2 b2 c2 i : imin 32 <= b1 <= imax 32 -> imin 32 <= b2 <= imax 32 ->
  staircase_sum_bounds a1 b1 c1 a2 b2 c2 = Val i ->
  (forall z, iv_min i = Some z -> in64 z) /\ (forall z, iv_max i = Some z -> in64 z).
Proof.
  intros B1 B2 H. unfold staircase_sum_bounds in H. unfold in64.
  assert (K : forall z, imin 32 <= z <= imax 32 -> imin 64 <= z <= imax 64)
    by (intros z; change (imin 32) with (-2147483648); change (imax 32) with 2147483647;
        change (imin 64) with (-9223372036854775808); change (imax 64) with 9223372036854775807; lia).
  assert (K0 : imin 32 <= 0 <= imax 32) by (change (imin 32) with (-2147483648); change (imax 32) with 2147483647; lia).
  destruct ((b1 =? 0) && (b2 =? 0)).
  { injection H as <-; cbn [iv_min iv_max]; split; intros z E; injection E as <-; auto. }
  apply bind_inv in H as (l & _ & H). apply bind_inv in H as (nc2 & _ & H). apply bind_inv in H as (r & _ & H).
  destruct (negb (l =? r)). { injection H as <-; cbn; split; discriminate. }
  destruct ((b1 =? 0) || (b2 =? 0)). { injection H as <-; cbn; split; discriminate. }
  apply bind_inv in H as (ab1 & _ & H).
  destruct (1024 <? ab1). { injection H as <-; cbn; split; discriminate. }
  apply bind_inv in H as (ab2 & _ & H).
  destruct (1024 <? ab2). { injection H as <-; cbn; split; discriminate. }
  apply bind_inv in H as (p & _ & H). apply bind_inv in H as (mm & Hm & H).
  apply scan_range in Hm as (R1 & R2); auto; [|unfold imin, imax; lia..].
  injection H as <-; cbn [iv_min iv_max]; split; intros z E; injection E as <-; auto.
Qed.
Lemma wrap32_range z : imin 32 <= wrap 32 z <= imax 32.
Proof.
  unfold wrap. pose proof (Z.mod_pos_bound (z - imin 32) (2 ^ 32) ltac:(lia)).
  change (imin 32) with (-2147483648) in *. change (imax 32) with 2147483647. lia.
Qed.

(** [isub] computes [sx]; the flag says that [sx] is undefined *)
Lemma isub_ok pr cs p : lits_ok p = true -> (forall n, in64 (cs n)) ->
  forall f z, isub pr cs p = Val (f, z) -> in64 z /\ sx cs pr p = if f then None else Some z.
Proof.
  intros L C. revert L.
  induction p; cbn [lits_ok isub sx]; intros L f' z' H; try discriminate; rewrite ?andb_true_iff in L.
  - injection H as <- <-; auto.
  - injection H as <- <-; split; auto. unfold in64; apply in_range_iff; auto.
  - auto.
  - destruct L as [L1 L2].
    apply bind_inv in H as ([fa va] & Ha & H). apply bind_inv in H as ([fb vb] & Hb & H).
    destruct (IHp1 L1 _ _ Ha) as [A1 A2]; destruct (IHp2 L2 _ _ Hb) as [B1 B2].
    rewrite A2, B2.
    destruct (binary_overflows o va vb) eqn:O.
    + injection H as <- <-. split; [unfold in64; change (imin 64) with (-9223372036854775808); change (imax 64) with 9223372036854775807; lia|].
      destruct fa, fb; try reflexivity. cbn [ozbin].
      destruct o; cbn [binary_overflows] in O; try discriminate;
        unfold add_overflows, sub_overflows, mul_overflows, builtin_add_overflow, builtin_sub_overflow, builtin_mul_overflow in O;
        cbn [fst] in O; apply negb_true_iff in O; cbn [guarded zbin]; rewrite O; reflexivity.
    + apply bind_inv in H as (w & Hw & H). injection H as <- <-.
      pose proof (eval_bin_in64 _ _ _ _ A1 B1 Hw) as R. split; auto.
      pose proof (eval_bin_mean _ _ _ _ A1 B1 Hw) as M. rewrite zbin_xbin in M. injection M as M.
      destruct fa, fb; try reflexivity. cbn [ozbin orb]. rewrite M.
      destruct (guarded o); auto. rewrite (proj2 (in_range_iff 64 w) R). reflexivity.
  - apply bind_inv in H as ([fa va] & Ha & H). injection H as <- <-.
    destruct (IHp L _ _ Ha) as [A1 A2]. split; [apply in64_bool|]. rewrite A2. destruct fa; reflexivity.
  - auto.
  - injection H as <- <-. split; [apply in64_bool|reflexivity].
  - destruct L as [[[[[L1 L2] L3] L4] L5] L6].
    apply bind_inv in H as ([f1 v1] & H1 & H). apply bind_inv in H as ([f2 v2] & H2 & H).
    apply bind_inv in H as ([f3 v3] & H3 & H). apply bind_inv in H as ([f4 v4] & H4 & H).
    apply bind_inv in H as ([f5 v5] & H5 & H). apply bind_inv in H as ([f6 v6] & H6 & H).
    apply bind_inv in H as (i & Hi & H). injection H as <- <-.
    destruct (IHp1 L1 _ _ H1) as [_ ->], (IHp2 L2 _ _ H2) as [_ ->], (IHp3 L3 _ _ H3) as [_ ->],
      (IHp4 L4 _ _ H4) as [_ ->], (IHp5 L5 _ _ H5) as [_ ->], (IHp6 L6 _ _ H6) as [_ ->].
    pose proof (sum_range _ _ _ _ _ _ _ (wrap32_range v2) (wrap32_range v5) Hi) as [R1 R2].
    split.
    + destruct is_max; [destruct (iv_max i) eqn:E; auto|destruct (iv_min i) eqn:E; auto];
        unfold in64; change (imin 64) with (-9223372036854775808); change (imax 64) with 9223372036854775807; lia.
    + destruct f1; [reflexivity|]; destruct f2; [reflexivity|]; destruct f3; [reflexivity|];
        destruct f4; [reflexivity|]; destruct f5; [reflexivity|]; destruct f6; [reflexivity|].
      rewrite Hi; reflexivity.
Qed.

(** *** Refinement is a congruence *)
Lemma refines_refl a : refines a a. Proof. right; reflexivity. Qed.
Lemma refines_trans a b c : refines a b -> refines b c -> refines a c.
Proof. intros [->| ->] H; auto. left; reflexivity. Qed.
Lemma refines_bad a : refines Bad a. Proof. left; reflexivity. Qed.
Lemma xbin_bad_l o b : xbin o Bad b = Bad.
Proof. destruct o, b; reflexivity. Qed.
Lemma xbin_bad_r o a : xbin o a Bad = Bad.
Proof. destruct o, a; reflexivity. Qed.
Lemma refines_xbin o a b a' b' : refines a a' -> refines b b' -> refines (xbin o a b) (xbin o a' b').
Proof.
  intros [->| ->] [->| ->]; rewrite ?xbin_bad_l, ?xbin_bad_r; try apply refines_bad; apply refines_refl.
Qed.
Lemma refines_xnot a a' : refines a a' -> refines (xnot a) (xnot a').
Proof. intros [->| ->]; [apply refines_bad|apply refines_refl]. Qed.
Lemma refines_xselect a a' b b' c c' : refines a a' -> refines b b' -> refines c c' ->
  refines (xselect a b c) (xselect a' b' c').
Proof.
  intros [->| ->] B C; [apply refines_bad|]. destruct a'; cbn [xselect]; try apply refines_refl.
  destruct (truthy z); auto.
Qed.
Lemma refines_call1 fn a a' : refines a a' -> refines (xcall1 fn a) (xcall1 fn a').
Proof. intros [->| ->]; [|apply refines_refl]. destruct fn; apply refines_bad. Qed.
Lemma refines_short2 s a a' b b' : refines a a' -> refines b b' -> refines (xshort2 s a b) (xshort2 s a' b').
Proof.
  intros [->| ->] B; [apply refines_bad|]. destruct a'; cbn [xshort2]; try apply refines_refl.
  destruct (Bool.eqb (truthy z) s); [apply refines_refl|]. destruct B as [->| ->]; [apply refines_bad|apply refines_refl].
Qed.
Lemma refines_call2 fn a a' b b' : refines a a' -> refines b b' -> refines (xcall2 fn a b) (xcall2 fn a' b').
Proof. intros A B. destruct fn; cbn [xcall2]; try apply refines_refl; apply refines_short2; auto. Qed.
Lemma refines_boolean a a' : refines a a' -> refines (xboolean a) (xboolean a').
Proof. intros [->| ->]; [apply refines_bad|apply refines_refl]. Qed.
Lemma refines_bad_eq a : refines a Bad -> a = Bad. Proof. intros [->| ->]; reflexivity. Qed.

Section SubstOk.
  Variable W : world.
  Variable r : env.
  Notation M := (meaning W r).

  Lemma make_bin_mean o a b : M (make_bin o a b) = xbin o (M a) (M b).
  Proof. apply C08_operator. Qed.

  Lemma is_zero_inv e : is_zero e = true -> e = EConst 0.
  Proof. destruct e; try discriminate. cbn [is_zero is_const]. intros E; apply Z.eqb_eq in E; subst; reflexivity. Qed.
  Lemma is_const_inv e z : is_const e z = true -> e = EConst z.
  Proof. destruct e; try discriminate. cbn [is_const]. intros E; apply Z.eqb_eq in E; subst; reflexivity. Qed.
  Lemma is_true_inv e : is_true e = true -> exists z, z <> 0 /\ e = EConst z.
  Proof. destruct e; try discriminate. cbn [is_true]. intros E. exists c. split; auto. intros ->; discriminate. Qed.
  Lemma truthy_nz z : z <> 0 -> truthy z = true.
  Proof. intros; unfold truthy; apply negb_true_iff, Z.eqb_neq; auto. Qed.

  Lemma is_boolean_psound e : is_boolean e = true -> psound k_boolean (M e).
  Proof.
    intros B. cbn [psound]. destruct (M e) eqn:E; auto.
    - eapply is_boolean_value; eauto.
    - unfold is_boolean in B. apply orb_true_iff in B as [B|B]; [apply orb_true_iff in B as [B|B]|].
      + destruct e; try discriminate; cbn [meaning is_boolean_node] in *.
        * destruct op; try discriminate; cbn [xbin] in E; destruct (M e1), (M e2); discriminate.
        * destruct (M e); discriminate.
      + apply is_const_inv in B; subst; discriminate.
      + apply is_const_inv in B; subst; discriminate.
    - unfold is_boolean in B. apply orb_true_iff in B as [B|B]; [apply orb_true_iff in B as [B|B]|].
      + destruct e; try discriminate; cbn [meaning is_boolean_node] in *.
        * destruct op; try discriminate; cbn [xbin] in E; destruct (M e1), (M e2); discriminate.
        * destruct (M e); discriminate.
      + apply is_const_inv in B; subst; discriminate.
      + apply is_const_inv in B; subst; discriminate.
  Qed.

  (** boolean(e) *)
  Lemma boolean_mean e : refines (xboolean (M e)) (M (boolean e)).
  Proof.
    unfold boolean. destruct (defined e) eqn:D; cbn [negb orb].
    2:{ destruct e; try discriminate. apply refines_bad. }
    destruct (is_boolean e) eqn:B.
    - apply is_boolean_psound in B. cbn [psound] in B. destruct (M e) as [z| | |]; try tauto; [|apply refines_bad].
      destruct B as [->| ->]; apply refines_refl.
    - destruct (as_constant e) as [z|] eqn:K.
      + destruct e; try discriminate. cbn in K; injection K as ->. apply refines_refl.
      + rewrite make_bin_mean. cbn [meaning]. destruct (M e); cbn; apply refines_refl.
  Qed.

  Lemma and_boolean_r z b : truthy z = true -> refines (xbool2 andb (Fin z) b) (xboolean b).
  Proof. intros T. destruct b; cbn [xbool2 xboolean]; rewrite ?T; cbn [andb]; (apply refines_refl || apply refines_bad). Qed.
  Lemma and_boolean_l z a : truthy z = true -> refines (xbool2 andb a (Fin z)) (xboolean a).
  Proof. intros T. destruct a; cbn [xbool2 xboolean]; rewrite ?T, ?andb_true_r; (apply refines_refl || apply refines_bad). Qed.

  Lemma sub_bin_ok o a b : refines (xbin o (M a) (M b)) (M (sub_bin o a b)).
  Proof.
    destruct o; cbn [sub_bin]; try (rewrite make_bin_mean; apply refines_refl).
    - destruct (is_zero a) eqn:E; [apply is_zero_inv in E; subst; destruct (M b); apply refines_refl|].
      destruct (is_zero b) eqn:F; [apply is_zero_inv in F; subst; cbn [meaning]; destruct (M a); cbn; rewrite ?Z.add_0_r; apply refines_refl|].
      rewrite make_bin_mean; apply refines_refl.
    - destruct (is_zero b) eqn:F; [apply is_zero_inv in F; subst; cbn [meaning]; destruct (M a); cbn; rewrite ?Z.add_0_r; apply refines_refl|].
      rewrite make_bin_mean; apply refines_refl.
    - destruct (is_zero a) eqn:E.
      { apply is_zero_inv in E; subst; cbn [orb meaning]; destruct (M b); cbn; (apply refines_refl || apply refines_bad). }
      cbn [orb]. destruct (is_one b) eqn:E1.
      { apply is_const_inv in E1; subst; cbn [meaning xbin]; destruct (M a); cbn; rewrite ?Z.mul_1_r; (apply refines_refl || apply refines_bad). }
      destruct (is_zero b) eqn:F.
      { apply is_zero_inv in F; subst; cbn [orb meaning xbin]; destruct (M a); cbn; rewrite ?Z.mul_0_r; (apply refines_refl || apply refines_bad). }
      cbn [orb]. destruct (is_one a) eqn:F1.
      { apply is_const_inv in F1; subst; cbn [meaning xbin]; destruct (M b); cbn [xmul]; rewrite ?Z.mul_1_l; (apply refines_refl || apply refines_bad). }
      rewrite make_bin_mean; apply refines_refl.
    - destruct (is_zero a) eqn:E.
      { apply is_zero_inv in E; subst; cbn [orb meaning xbin]. destruct (M b); cbn [xdiv]; try apply refines_bad.
        unfold ediv. rewrite Zdiv_0_l, Z.mul_0_r. apply refines_refl. }
      cbn [orb]. destruct (is_one b) eqn:E1.
      { apply is_const_inv in E1; subst; cbn [meaning xbin]; destruct (M a); cbn [xdiv]; try (apply refines_refl || apply refines_bad).
        rewrite ediv_pos, Z.div_1_r by lia. apply refines_refl. }
      destruct (is_zero b) eqn:F.
      { apply is_zero_inv in F; subst; cbn [orb meaning xbin]; destruct (M a); cbn [xdiv]; rewrite ?ediv_0; (apply refines_refl || apply refines_bad). }
      rewrite make_bin_mean; apply refines_refl.
    - destruct (is_zero a) eqn:E.
      { apply is_zero_inv in E; subst; cbn [meaning xbin]. destruct (M b); cbn [xmod]; try apply refines_bad.
        unfold emod. rewrite Zmod_0_l. destruct (z =? 0); apply refines_refl. }
      destruct (is_one b) eqn:E1.
      { apply is_const_inv in E1; subst; cbn [meaning xbin]; destruct (M a); cbn [xmod]; try (apply refines_refl || apply refines_bad).
        rewrite emod_pos, Z.mod_1_r by lia. apply refines_refl. }
      rewrite make_bin_mean; apply refines_refl.
    - destruct (is_true a) eqn:E.
      { apply is_true_inv in E as (z & Hz & ->). cbn [orb meaning xbin].
        eapply refines_trans; [|apply boolean_mean]. apply and_boolean_r, truthy_nz; auto. }
      destruct (is_false b) eqn:F.
      { apply is_zero_inv in F; subst; cbn [orb meaning xbin]. eapply refines_trans; [|apply boolean_mean].
        destruct (M a); cbn; rewrite ?andb_false_r; (apply refines_refl || apply refines_bad). }
      cbn [orb]. destruct (is_true b) eqn:G.
      { apply is_true_inv in G as (z & Hz & ->). cbn [orb meaning xbin].
        eapply refines_trans; [|apply boolean_mean]. apply and_boolean_l, truthy_nz; auto. }
      destruct (is_false a) eqn:I.
      { apply is_zero_inv in I; subst; cbn [orb meaning xbin]. eapply refines_trans; [|apply boolean_mean].
        destruct (M b); cbn; (apply refines_refl || apply refines_bad). }
      cbn [orb]. rewrite make_bin_mean; apply refines_refl.
    - destruct (is_true a) eqn:E.
      { apply is_true_inv in E as (z & Hz & ->). cbn [orb meaning xbin].
        eapply refines_trans; [|apply boolean_mean]. cbn [meaning]. destruct (M b); cbn [xbool2 xboolean]; try apply refines_bad.
        rewrite (truthy_nz z Hz). apply refines_refl. }
      destruct (is_false b) eqn:F.
      { apply is_zero_inv in F; subst; cbn [orb meaning xbin]. eapply refines_trans; [|apply boolean_mean].
        destruct (M a); cbn; rewrite ?orb_false_r; (apply refines_refl || apply refines_bad). }
      cbn [orb]. destruct (is_true b) eqn:G.
      { apply is_true_inv in G as (z & Hz & ->). cbn [orb meaning xbin].
        eapply refines_trans; [|apply boolean_mean]. cbn [meaning]. destruct (M a); cbn [xbool2 xboolean]; try apply refines_bad.
        rewrite (truthy_nz z Hz), orb_true_r. apply refines_refl. }
      destruct (is_false a) eqn:I.
      { apply is_zero_inv in I; subst; cbn [orb meaning xbin]. eapply refines_trans; [|apply boolean_mean].
        destruct (M b); cbn; (apply refines_refl || apply refines_bad). }
      cbn [orb]. rewrite make_bin_mean; apply refines_refl.
  Qed.

  Variable pr : predk -> nat -> bool.
  Variable cs : nat -> Z.
  Variable vs : nat -> expr.
  Hypothesis Hcs : forall n, in64 (cs n).
  Notation v := (fun n => M (vs n)).

  (** calls the replacements make *)
  Lemma call0_mean fn : refines (xcall0 fn) (M (ECall fn None [])).
  Proof. destruct fn; cbn; (apply refines_refl || apply refines_bad). Qed.
  Lemma call1_mean fn a : refines (xcall1 fn (M a)) (M (ECall fn None [a])).
  Proof. destruct fn; cbn [xcall1]; try apply refines_bad. cbn. apply refines_refl. Qed.
  Lemma call2_eq fn a b : (fn = i_and_then \/ fn = i_or_else) -> M (ECall fn None [a; b]) = xcall2 fn (M a) (M b).
  Proof.
    intros [->| ->]; cbn [meaning map xcall xcall2 snd xshort]; unfold xshort2; destruct (M a) as [x| | |]; try reflexivity;
      destruct (Bool.eqb (truthy x) _); try reflexivity; destruct (M b) as [y| | |]; try reflexivity; cbn [xshort];
      destruct (truthy y); reflexivity.
  Qed.
  Lemma call2_mean fn a b : refines (xcall2 fn (M a) (M b)) (M (ECall fn None [a; b])).
  Proof.
    destruct fn; cbn [xcall2]; try apply refines_bad; (rewrite call2_eq by auto; apply refines_refl).
  Qed.

  Ltac isub_case H L :=
    apply bind_inv in H as ([fi zi] & Hi & H); injection H as <- <-;
    destruct (isub_ok _ _ _ L Hcs _ _ Hi) as [_ Es]; rewrite Es; destruct fi; cbn [ofin]; auto;
    eexists; split; [reflexivity|apply refines_refl].

  Definition sub_ok (p : pat) (f : bool) (e : expr) : Prop :=
    if f then sxx v cs pr p = None else exists x, sxx v cs pr p = Some x /\ refines x (M e).

  Lemma esub_ok p : lits_ok p = true -> forall f e, esub pr cs vs p = Val (f, e) -> sub_ok p f e.
  Proof.
    unfold sub_ok.
    induction p; intros L f0 e H.
    - cbn [esub sxx] in *. injection H as <- <-. eexists; split; [reflexivity|apply refines_refl].
    - cbn [esub] in H. change (sxx v cs pr (PConst n)) with (ofin (sx cs pr (PConst n))). isub_case H L.
    - cbn [esub] in H. change (sxx v cs pr (PLit z)) with (ofin (sx cs pr (PLit z))). isub_case H L.
    - cbn [esub sxx lits_ok] in *. apply IHp; auto.
    - cbn [esub] in H. cbn [sxx].
      destruct (is_index p1 && is_index p2).
      { isub_case H L. }
      cbn [lits_ok] in L; apply andb_true_iff in L as [L1 L2].
      apply bind_inv in H as ([fa ea] & Ha & H). apply bind_inv in H as ([fb eb] & Hb & H). injection H as <- <-.
      apply IHp1 in Ha; auto. apply IHp2 in Hb; auto.
      destruct fa; cbn [orb]. { rewrite Ha; reflexivity. }
      destruct Ha as (x & -> & Hx). destruct fb. { rewrite Hb; reflexivity. }
      destruct Hb as (y & -> & Hy). cbn [omap2]. eexists; split; [reflexivity|].
      eapply refines_trans; [apply refines_xbin; eauto|apply sub_bin_ok].
    - cbn [esub] in H. cbn [sxx].
      destruct (is_index p).
      { isub_case H L. }
      cbn [lits_ok] in L.
      apply bind_inv in H as ([fa ea] & Ha & H). injection H as <- <-. apply IHp in Ha; auto.
      destruct fa. { rewrite Ha; reflexivity. }
      destruct Ha as (x & -> & Hx). eexists; split; [reflexivity|]. cbn [meaning]. apply refines_xnot; auto.
    - cbn [esub sxx lits_ok] in *. rewrite !andb_true_iff in L. destruct L as [[L1 L2] L3].
      apply bind_inv in H as ([fa ea] & Ha & H). apply bind_inv in H as ([fb eb] & Hb & H).
      apply bind_inv in H as ([fc ec] & Hc & H). injection H as <- <-.
      apply IHp1 in Ha; auto. apply IHp2 in Hb; auto. apply IHp3 in Hc; auto.
      destruct fa; cbn [orb]. { rewrite Ha; reflexivity. }
      destruct Ha as (x & -> & Hx). destruct fb; cbn [orb]. { rewrite Hb; reflexivity. }
      destruct Hb as (y & -> & Hy). destruct fc. { rewrite Hc; reflexivity. }
      destruct Hc as (z & -> & Hz). eexists; split; [reflexivity|]. cbn [meaning]. apply refines_xselect; auto.
    - cbn [esub sxx] in *. injection H as <- <-. eexists; split; [reflexivity|apply call0_mean].
    - cbn [esub sxx lits_ok] in *.
      apply bind_inv in H as ([fa ea] & Ha & H). injection H as <- <-. apply IHp in Ha; auto.
      destruct fa. { rewrite Ha; reflexivity. }
      destruct Ha as (x & -> & Hx). eexists; split; [reflexivity|].
      eapply refines_trans; [apply refines_call1; eauto|apply call1_mean].
    - cbn [esub sxx lits_ok] in *. apply andb_true_iff in L as [L1 L2].
      apply bind_inv in H as ([fa ea] & Ha & H). apply bind_inv in H as ([fb eb] & Hb & H). injection H as <- <-.
      apply IHp1 in Ha; auto. apply IHp2 in Hb; auto.
      destruct fa; cbn [orb]. { rewrite Ha; reflexivity. }
      destruct Ha as (x & -> & Hx). destruct fb. { rewrite Hb; reflexivity. }
      destruct Hb as (y & -> & Hy). cbn [omap2]. eexists; split; [reflexivity|].
      eapply refines_trans; [apply refines_call2; eauto|apply call2_mean].
    - cbn [esub sxx lits_ok] in *. rewrite !andb_true_iff in L. destruct L as [[[L1 L2] L3] L4].
      apply bind_inv in H as ([fx ex] & Hx & H). apply bind_inv in H as ([fa za] & Ha & H).
      apply bind_inv in H as ([fb zb] & Hb & H). apply bind_inv in H as ([fc zc] & Hc & H). injection H as <- <-.
      apply IHp1 in Hx; auto.
      destruct (isub_ok _ _ _ L2 Hcs _ _ Ha) as [_ Ea], (isub_ok _ _ _ L3 Hcs _ _ Hb) as [_ Eb],
        (isub_ok _ _ _ L4 Hcs _ _ Hc) as [_ Ec].
      destruct fx; cbn [orb]. { rewrite Hx; reflexivity. }
      destruct Hx as (x & -> & Hx). rewrite Ea, Eb, Ec.
      destruct fa; cbn [orb]. { reflexivity. } destruct fb; cbn [orb]. { reflexivity. } destruct fc; [reflexivity|].
      eexists; split; [reflexivity|].
      assert (K1 : refines (xadd x (Fin za)) (M (if za =? 0 then ex else e_add ex (EConst za)))).
      { destruct (Z.eqb_spec za 0) as [->|].
        - destruct x; cbn [xadd]; rewrite ?Z.add_0_r; auto.
        - unfold e_add; rewrite make_bin_mean. apply (refines_xbin Add); auto. apply refines_refl. }
      match type of K1 with refines _ (M ?e1) => set (e1' := e1) in * end.
      assert (K2 : refines (xdiv (xadd x (Fin za)) (Fin zb)) (M (if zb =? 1 then e1' else e_div e1' (EConst zb)))).
      { destruct (Z.eqb_spec zb 1) as [->|].
        - destruct (xadd x (Fin za)); cbn [xdiv]; auto. rewrite ediv_pos, Z.div_1_r by lia; auto.
        - unfold e_div; rewrite make_bin_mean. apply (refines_xbin Div); auto. apply refines_refl. }
      match type of K2 with refines _ (M ?e1) => set (e2' := e1) in * end.
      unfold xstair.
      destruct (Z.eqb_spec zc 1) as [->|].
      + destruct (xdiv (xadd x (Fin za)) (Fin zb)); cbn [xmul]; auto. rewrite Z.mul_1_r; auto.
      + unfold e_mul; rewrite make_bin_mean. apply (refines_xbin Mul); auto. apply refines_refl.
    - cbn [esub] in H. change (sxx v cs pr (REval p)) with (ofin (sx cs pr (REval p))). isub_case H L.
    - cbn [esub sxx lits_ok] in *.
      apply bind_inv in H as ([fa ea] & Ha & H). injection H as <- <-. apply IHp in Ha; auto.
      destruct fa. { rewrite Ha; reflexivity. }
      destruct Ha as (x & -> & Hx). eexists; split; [reflexivity|].
      eapply refines_trans; [apply refines_boolean; eauto|apply boolean_mean].
    - cbn [esub] in H. change (sxx v cs pr (RPred k n)) with (ofin (sx cs pr (RPred k n))). isub_case H L.
    - cbn [esub] in H.
      change (sxx v cs pr (RSum is_max p1 p2 p3 p4 p5 p6)) with (ofin (sx cs pr (RSum is_max p1 p2 p3 p4 p5 p6))). isub_case H L.
  Qed.

  Lemma find_ok l : forallb (fun q => lits_ok (fst q) && lits_ok (snd q)) l = true ->
    forall e, find_replacement pr cs vs l = Val (Some e) ->
    exists x, salts v cs pr l = Some x /\ refines x (M e).
  Proof.
    induction l as [|[q p] l IH]; cbn [forallb fst snd find_replacement salts]; intros L e H; [discriminate|].
    rewrite !andb_true_iff in L. destruct L as [[Lq Lp] L].
    apply bind_inv in H as ([fp vp] & Hp & H).
    destruct (isub_ok _ _ _ Lp Hcs _ _ Hp) as [_ Ep]. rewrite Ep.
    destruct fp; cbn [negb] in H.
    { rewrite andb_false_r in H; auto. }
    rewrite andb_true_r in H. destruct (truthy vp); auto.
    apply bind_inv in H as ([fr er] & Hr & H). apply esub_ok in Hr; auto. unfold sub_ok in Hr.
    destruct fr. { rewrite Hr; auto. }
    injection H as <-. destruct Hr as (x & -> & Hx). eauto.
  Qed.
End SubstOk.

Lemma test_pred_ok W r k e : test_pred k e = true -> psound k (meaning W r e).
Proof.
  destruct k; cbn [test_pred]; intros H.
  - destruct e; try discriminate; cbn; auto. cbn [is_finite] in H. destruct fn; try discriminate.
    cbn. destruct args as [|a args]; cbn; auto. destruct a; auto. destruct f; auto.
    destruct (r sym); auto. destruct (w_buf W z); auto. destruct (xargs _); auto.
  - exact I.
  - apply is_zero_inv in H; subst; reflexivity.
  - unfold is_non_negative in H. cbn [psound]. destruct e; try discriminate.
    + unfold is_positive_infinity, is_call in H. destruct fn; try discriminate; cbn; auto.
      destruct args as [|a [|]]; cbn; auto. destruct (meaning W r a); cbn; auto. lia.
    + cbn in *. lia.
  - unfold is_non_positive in H. cbn [psound]. destruct e; try discriminate.
    + unfold is_negative_infinity, is_call in H. destruct fn; try discriminate; cbn; auto.
    + cbn in *. lia.
  - apply is_boolean_psound; auto.
Qed.
