(** Property C14: the algebra of intervals and boxes. *)
From Coq Require Import ZArith List Bool Lia.
From Verif Require Import Arith_Model Arith_Spec Arith_Proofs Expr_Model Expr_Spec Expr_Proofs Expr_Props Match_Model Match_Proofs
  Rewrite_Proofs RewriteMatch_Proofs RuleTac Rules RulesAll_Proofs Rewrite_Props Simplify_Model Simplify_Proofs Simplify_Props Const_Proofs Interval_Model Interval_Spec.
Import ListNotations.
Open Scope Z_scope.

Section C14.
  Variable W : world.
  Variable r : env.
  Notation M := (meaning W r).
  Notation cont := (contains W r).

  Lemma undef_bad e : defined e = false -> M e = Bad.
  Proof. destruct e; try discriminate; reflexivity. Qed.
  Lemma make_mean o a b : M (make_bin o a b) = xbin o (M a) (M b).
  Proof. apply make_bin_mean. Qed.

  (** *** Intersection: exactly the common points *)
  Theorem C14_intersection : forall a b v, ends_have_values W r a -> ends_have_values W r b ->
    (cont (i_intersection a b) v <-> cont a v /\ cont b v).
  Proof.
    intros a b v (A1 & A2) (B1 & B2). unfold contains, i_intersection, i_bounds, has_value in *. cbn [i_min i_max].
    assert (bounds_below (M (if defined (i_min a) && defined (i_min b) then e_max (i_min a) (i_min b)
              else if defined (i_min a) then i_min a else i_min b)) v <-> bounds_below (M (i_min a)) v /\ bounds_below (M (i_min b)) v) as ->.
    { destruct (defined (i_min a)) eqn:Da, (defined (i_min b)) eqn:Db; cbn [andb];
        try (pose proof (undef_bad _ Da) as Ea; rewrite Ea; cbn [bounds_below]; tauto);
        try (pose proof (undef_bad _ Db) as Eb; rewrite Eb; cbn [bounds_below]; tauto).
      unfold e_max. rewrite make_mean. cbn [xbin]. specialize (A1 eq_refl). specialize (B1 eq_refl).
      destruct (M (i_min a)), (M (i_min b)); cbn [xmax bounds_below]; try tauto; lia. }
    assert (bounds_above (M (if defined (i_max a) && defined (i_max b) then e_min (i_max a) (i_max b)
              else if defined (i_max a) then i_max a else i_max b)) v <-> bounds_above (M (i_max a)) v /\ bounds_above (M (i_max b)) v) as ->.
    { destruct (defined (i_max a)) eqn:Da, (defined (i_max b)) eqn:Db; cbn [andb];
        try (pose proof (undef_bad _ Da) as Ea; rewrite Ea; cbn [bounds_above]; tauto);
        try (pose proof (undef_bad _ Db) as Eb; rewrite Eb; cbn [bounds_above]; tauto).
      unfold e_min. rewrite make_mean. cbn [xbin]. specialize (A2 eq_refl). specialize (B2 eq_refl).
      destruct (M (i_max a)), (M (i_max b)); cbn [xmin bounds_above]; try tauto; lia. }
    tauto.
  Qed.

  (** *** Union: contains both operands ... *)
  Theorem C14_union_contains : forall a b v, cont a v \/ cont b v -> cont (i_union a b) v.
  Proof.
    intros a b v H. unfold contains, i_union, i_bounds in *. cbn [i_min i_max].
    split.
    - destruct (defined (i_min a) && defined (i_min b)); [|exact I]. unfold e_min. rewrite make_mean. cbn [xbin].
      destruct H as [(H & _)|(H & _)]; destruct (M (i_min a)), (M (i_min b)); cbn [xmin bounds_below] in *; try tauto; lia.
    - destruct (defined (i_max a) && defined (i_max b)); [|exact I]. unfold e_max. rewrite make_mean. cbn [xbin].
      destruct H as [(_ & H)|(_ & H)]; destruct (M (i_max a)), (M (i_max b)); cbn [xmax bounds_above] in *; try tauto; lia.
  Qed.
  (** ... and is the smallest interval that does: every lower and every upper bound of the
      points of the operands is one of the points of the union. *)
  Theorem C14_union_smallest : forall a b, ends_have_values W r a -> ends_have_values W r b ->
    (exists v, cont a v) -> (exists v, cont b v) ->
    (forall lo, (forall v, cont a v \/ cont b v -> lo <= v) -> forall v, cont (i_union a b) v -> lo <= v) /\
    (forall hi, (forall v, cont a v \/ cont b v -> v <= hi) -> forall v, cont (i_union a b) v -> v <= hi).
  Proof.
    intros a b (A1 & A2) (B1 & B2) (va & Ha1 & Ha2) (vb & Hb1 & Hb2).
    (* a non-empty interval has points as small (large) as its min (max) lets *)
    assert (forall i v x, bounds_below (M (i_min i)) v -> bounds_above (M (i_max i)) v -> x <= v -> bounds_below (M (i_min i)) x -> cont i x) as Dn.
    { intros i v x H1 H2 L H3. split; [exact H3|]. destruct (M (i_max i)); cbn [bounds_above] in *; auto; lia. }
    assert (forall i v x, bounds_below (M (i_min i)) v -> bounds_above (M (i_max i)) v -> v <= x -> bounds_above (M (i_max i)) x -> cont i x) as Up.
    { intros i v x H1 H2 L H3. split; [|exact H3]. destruct (M (i_min i)); cbn [bounds_below] in *; auto; lia. }
    assert (forall i v lo, bounds_below (M (i_min i)) v -> bounds_above (M (i_max i)) v -> (forall x, cont i x -> lo <= x) ->
              exists z, M (i_min i) = Fin z /\ lo <= z) as Lo.
    { intros i v lo H1 H2 H. destruct (M (i_min i)) as [z| | |] eqn:E; cbn [bounds_below] in H1.
      - exists z. split; [reflexivity|]. apply H. apply (Dn i v z); auto; rewrite E; cbn [bounds_below]; lia.
      - contradiction.
      - exfalso. specialize (H (Z.min v lo - 1)). assert (lo <= Z.min v lo - 1); [|lia]. apply H. apply (Dn i v); auto; [rewrite E; exact I | lia | rewrite E; exact I].
      - exfalso. specialize (H (Z.min v lo - 1)). assert (lo <= Z.min v lo - 1); [|lia]. apply H. apply (Dn i v); auto; [rewrite E; exact I | lia | rewrite E; exact I]. }
    assert (forall i v hi, bounds_below (M (i_min i)) v -> bounds_above (M (i_max i)) v -> (forall x, cont i x -> x <= hi) ->
              exists z, M (i_max i) = Fin z /\ z <= hi) as Hi.
    { intros i v hi H1 H2 H. destruct (M (i_max i)) as [z| | |] eqn:E; cbn [bounds_above] in H2.
      - exists z. split; [reflexivity|]. apply H. apply (Up i v z); auto; rewrite E; cbn [bounds_above]; lia.
      - exfalso. specialize (H (Z.max v hi + 1)). assert (Z.max v hi + 1 <= hi); [|lia]. apply H. apply (Up i v); auto; [rewrite E; exact I | lia | rewrite E; exact I].
      - contradiction.
      - exfalso. specialize (H (Z.max v hi + 1)). assert (Z.max v hi + 1 <= hi); [|lia]. apply H. apply (Up i v); auto; [rewrite E; exact I | lia | rewrite E; exact I]. }
    split.
    - intros lo H v (U & _). unfold i_union, i_bounds in U. cbn [i_min] in U.
      destruct (Lo a va lo Ha1 Ha2 ltac:(intros x Hx; apply H; auto)) as (za & Ea & La).
      destruct (Lo b vb lo Hb1 Hb2 ltac:(intros x Hx; apply H; auto)) as (zb & Eb & Lb).
      assert (defined (i_min a) = true) as Da by (destruct (defined (i_min a)) eqn:D; [reflexivity | apply undef_bad in D; congruence]).
      assert (defined (i_min b) = true) as Db by (destruct (defined (i_min b)) eqn:D; [reflexivity | apply undef_bad in D; congruence]).
      rewrite Da, Db in U. cbn [andb] in U. unfold e_min in U. rewrite make_mean, Ea, Eb in U. cbn [xbin xmin bounds_below] in U. lia.
    - intros hi H v (_ & U). unfold i_union, i_bounds in U. cbn [i_max] in U.
      destruct (Hi a va hi Ha1 Ha2 ltac:(intros x Hx; apply H; auto)) as (za & Ea & La).
      destruct (Hi b vb hi Hb1 Hb2 ltac:(intros x Hx; apply H; auto)) as (zb & Eb & Lb).
      assert (defined (i_max a) = true) as Da by (destruct (defined (i_max a)) eqn:D; [reflexivity | apply undef_bad in D; congruence]).
      assert (defined (i_max b) = true) as Db by (destruct (defined (i_max b)) eqn:D; [reflexivity | apply undef_bad in D; congruence]).
      rewrite Da, Db in U. cbn [andb] in U. unfold e_max in U. rewrite make_mean, Ea, Eb in U. cbn [xbin xmax bounds_above] in U. lia.
  Qed.

  (** *** The identities *)
  Theorem C14_all_none : forall v, cont i_all v /\ ~ cont i_none v.
  Proof. intros v. split; [split; exact I|]. intros (H & _). exact H. Qed.
  Theorem C14_union_identity : forall a v, ends_have_values W r a ->
    (cont (i_union union_identity a) v <-> cont a v) /\ (cont (i_union a union_identity) v <-> cont a v).
  Proof.
    intros a v (A1 & A2). unfold contains, i_union, union_identity, i_none, i_bounds, has_value in *.
    cbn [i_min i_max]. change (defined positive_infinity) with true. change (defined negative_infinity) with true. rewrite !andb_true_r, !andb_true_l.
    destruct (defined (i_min a)) eqn:D1, (defined (i_max a)) eqn:D2; unfold e_min, e_max; rewrite ?make_mean;
      change (M positive_infinity) with PInf; change (M negative_infinity) with NInf; cbn [xbin];
      try (rewrite (undef_bad _ D1)); try (rewrite (undef_bad _ D2)); try specialize (A1 eq_refl); try specialize (A2 eq_refl);
      split; try (destruct (M (i_min a)); cbn [xmin bounds_below]; try tauto); try (destruct (M (i_max a)); cbn [xmax bounds_above]; tauto); tauto.
  Qed.
  Theorem C14_intersection_identity : forall a v, ends_have_values W r a ->
    (cont (i_intersection intersection_identity a) v <-> cont a v) /\ (cont (i_intersection a intersection_identity) v <-> cont a v).
  Proof.
    intros a v A. assert (ends_have_values W r intersection_identity) as B by (split; intros _; discriminate).
    pose proof (C14_all_none v) as (K & _).
    split; rewrite C14_intersection by assumption; unfold intersection_identity; tauto.
  Qed.

  (** *** Shifting moves the points *)
  Theorem C14_shift : forall i x c v, interval_ok i -> M x = Fin c ->
    (cont (i_add i x) (v + c) <-> cont i v) /\ (cont (i_sub i x) (v - c) <-> cont i v).
  Proof.
    intros i x c v Ok Ex. unfold i_add, i_sub, i_shift, contains.
    destruct (i_point i) eqn:P.
    { destruct (Ok P) as (E & D). unfold point. cbn [i_min i_max]. rewrite !make_mean, Ex, E.
      cbn [xbin]. destruct (M (i_min i)); cbn [xadd xsub xneg bounds_below bounds_above]; lia. }
    unfold i_bounds. cbn [i_min i_max]. unfold on_end.
    destruct (defined (i_min i)) eqn:D1, (defined (i_max i)) eqn:D2; rewrite ?make_mean, ?(undef_bad _ D1), ?(undef_bad _ D2), ?Ex; cbn [xbin];
      try destruct (M (i_min i)); try destruct (M (i_max i)); cbn [xadd xsub xneg bounds_below bounds_above]; lia.
  Qed.
  Theorem C14_negate : forall i v, cont (i_neg i) (- v) <-> cont i v.
  Proof.
    intros i v. unfold contains, i_neg, i_bounds. cbn [i_min i_max]. unfold e_neg, e_sub.
    destruct (defined (i_min i)) eqn:D1, (defined (i_max i)) eqn:D2; rewrite ?make_mean, ?(undef_bad _ D1), ?(undef_bad _ D2); cbn [meaning xbin];
      try destruct (M (i_min i)); try destruct (M (i_max i)); cbn [xadd xsub xneg bounds_below bounds_above]; lia.
  Qed.
  Theorem C14_reflect : forall e i c v, M e = Fin c -> (cont (e_minus_i e i) (c - v) <-> cont i v).
  Proof.
    intros e i c v E. unfold e_minus_i. rewrite <- (C14_negate i v). replace (c - v) with (- v + c) by lia.
    apply (C14_shift (i_neg i) e c (- v)); [|exact E]. intros H. discriminate H.
  Qed.

  (** *** Scaling: the image of every point is in the result ... *)
  Lemma is_nn_ok s c : is_non_negative s = true -> M s = Fin c -> 0 <= c.
  Proof.
    intros H E. unfold is_non_negative in H. destruct (is_positive_infinity s) eqn:P.
    { destruct s; try discriminate P. destruct fn; try discriminate P. discriminate E. }
    destruct (is_call i_abs s) eqn:A.
    { destruct s; try discriminate A. destruct fn; try discriminate A. cbn [meaning xcall] in E.
      destruct args as [|a [|]]; cbn [map] in E; try discriminate E. destruct (M a); cbn [xabs] in E; try discriminate E. injection E as <-. lia. }
    destruct (as_constant s) eqn:C; [|discriminate]. destruct s; try discriminate C. cbn in *. apply Z.leb_le in H. congruence.
  Qed.
  Lemma is_neg_ok s c : is_negative s = true -> M s = Fin c -> c < 0.
  Proof.
    intros H E. unfold is_negative in H. destruct (is_negative_infinity s) eqn:P.
    { destruct s; try discriminate P. destruct fn; try discriminate P. discriminate E. }
    destruct (as_constant s) eqn:C; [|discriminate]. destruct s; try discriminate C. cbn in *. apply Z.ltb_lt in H. congruence.
  Qed.
  Definition zscale (o : binop) (v c : Z) : Z := match o with Div => ediv v c | _ => v * c end.
  Lemma zscale_mono o x y c : 0 <= c -> x <= y -> zscale o x c <= zscale o y c.
  Proof. intros C L. destruct (Z.eq_dec c 0) as [->|]; destruct o; cbn [zscale]; rewrite ?ediv_0; try nia; apply ediv_mono; lia. Qed.
  Lemma zscale_anti o x y c : c < 0 -> x <= y -> zscale o y c <= zscale o x c.
  Proof. intros C L. destruct o; cbn [zscale]; try nia. apply ediv_anti; lia. Qed.
  Definition is_scale (o : binop) := o = Mul \/ o = Div.
  Lemma scale_lo o x y c v : is_scale o -> 0 <= c -> bounds_below x v -> y = xbin o x (Fin c) -> bounds_below y (zscale o v c).
  Proof.
    intros S C B ->. destruct x as [z| | |]; cbn [bounds_below] in B; try contradiction.
    - pose proof (zscale_mono o z v c C B). destruct S as [->| ->]; exact H.
    - assert (xbin o NInf (Fin c) = xinf (- c)) as -> by (destruct S as [->| ->]; reflexivity). unfold xinf.
      destruct (Z.eqb_spec (- c) 0); [exact I|]. destruct (Z.ltb_spec 0 (- c)); [lia | exact I].
    - destruct S as [->| ->]; exact I.
  Qed.
  Lemma scale_hi o x y c v : is_scale o -> 0 <= c -> bounds_above x v -> y = xbin o x (Fin c) -> bounds_above y (zscale o v c).
  Proof.
    intros S C B ->. destruct x as [z| | |]; cbn [bounds_above] in B; try contradiction.
    - pose proof (zscale_mono o v z c C B). destruct S as [->| ->]; exact H.
    - assert (xbin o PInf (Fin c) = xinf c) as -> by (destruct S as [->| ->]; reflexivity). unfold xinf.
      destruct (Z.eqb_spec c 0); [exact I|]. destruct (Z.ltb_spec 0 c); [exact I | lia].
    - destruct S as [->| ->]; exact I.
  Qed.
  Lemma scale_nlo o x y c v : is_scale o -> c < 0 -> bounds_above x v -> y = xbin o x (Fin c) -> bounds_below y (zscale o v c).
  Proof.
    intros S C B ->. destruct x as [z| | |]; cbn [bounds_above] in B; try contradiction.
    - pose proof (zscale_anti o v z c C B). destruct S as [->| ->]; exact H.
    - assert (xbin o PInf (Fin c) = xinf c) as -> by (destruct S as [->| ->]; reflexivity). unfold xinf.
      destruct (Z.eqb_spec c 0); [exact I|]. destruct (Z.ltb_spec 0 c); [lia | exact I].
    - destruct S as [->| ->]; exact I.
  Qed.
  Lemma scale_nhi o x y c v : is_scale o -> c < 0 -> bounds_below x v -> y = xbin o x (Fin c) -> bounds_above y (zscale o v c).
  Proof.
    intros S C B ->. destruct x as [z| | |]; cbn [bounds_below] in B; try contradiction.
    - pose proof (zscale_anti o z v c C B). destruct S as [->| ->]; exact H.
    - assert (xbin o NInf (Fin c) = xinf (- c)) as -> by (destruct S as [->| ->]; reflexivity). unfold xinf.
      destruct (Z.eqb_spec (- c) 0); [lia|]. destruct (Z.ltb_spec 0 (- c)); [exact I | lia].
    - destruct S as [->| ->]; exact I.
  Qed.
  Lemma end_mean o e s : is_scale o -> M (on_end o e s) = xbin o (M e) (M s).
  Proof.
    intros S. unfold on_end. destruct (defined e) eqn:D; [apply make_mean|]. rewrite (undef_bad _ D). destruct S as [->| ->]; reflexivity.
  Qed.
  Lemma on_end_defined o e s : defined (on_end o e s) = defined e.
  Proof. unfold on_end. destruct (defined e) eqn:D; [|exact D]. unfold make_bin. destruct (commutative o && should_commute e s); reflexivity. Qed.

  Lemma scale_ok o i s c v : is_scale o -> interval_ok i -> M s = Fin c -> cont i v -> cont (i_scale o i s) (zscale o v c).
  Proof.
    intros S Ok Es (H1 & H2). unfold i_scale.
    destruct (i_point i) eqn:P.
    { destruct (Ok P) as (E & D). unfold point, contains. cbn [i_min i_max]. rewrite make_mean, Es. rewrite E in H2.
      destruct (Z.le_gt_cases 0 c) as [C|C].
      - split; [eapply scale_lo; eauto | eapply scale_hi; eauto].
      - split; [eapply scale_nlo; eauto; lia | eapply scale_nhi; eauto; lia]. }
    destruct (is_non_negative s) eqn:N.
    { pose proof (is_nn_ok s c N Es). unfold i_bounds, contains. cbn [i_min i_max]. rewrite !end_mean, Es by exact S.
      split; [eapply scale_lo; eauto | eapply scale_hi; eauto]. }
    destruct (is_negative s) eqn:G.
    { pose proof (is_neg_ok s c G Es). unfold i_bounds, contains. cbn [i_min i_max]. rewrite !end_mean, Es by exact S.
      split; [eapply scale_nlo; eauto | eapply scale_nhi; eauto]. }
    cbv zeta. apply C14_union_contains. unfold i_bounds, contains. cbn [i_min i_max]. rewrite !end_mean, Es by exact S.
    destruct (Z.le_gt_cases 0 c) as [C|C]; [left | right].
    - split; [eapply scale_lo; eauto | eapply scale_hi; eauto].
    - split; [eapply scale_nlo; eauto; lia | eapply scale_nhi; eauto; lia].
  Qed.
  Theorem C14_scale : forall i s c v, interval_ok i -> M s = Fin c -> cont i v ->
    cont (i_mul i s) (v * c) /\ cont (i_div i s) (ediv v c).
  Proof.
    intros i s c v Ok Es H. split; [apply (scale_ok Mul) | apply (scale_ok Div)]; auto; [left; reflexivity | right; reflexivity].
  Qed.
  (** ... and the ends of the result are the images of the ends *)
  Lemma scale_exact o i s c lo hi : is_scale o -> interval_ok i -> M s = Fin c -> finite_ends W r i lo hi -> lo <= hi ->
    finite_ends W r (i_scale o i s) (Z.min (zscale o lo c) (zscale o hi c)) (Z.max (zscale o lo c) (zscale o hi c)).
  Proof.
    intros S Ok Es (E1 & E2) L. unfold i_scale.
    assert (forall z, xbin o (Fin z) (Fin c) = Fin (zscale o z c)) as B by (intros; destruct S as [->| ->]; reflexivity).
    destruct (i_point i) eqn:P.
    { destruct (Ok P) as (E & D). rewrite E in E2. assert (hi = lo) by congruence. subst hi. unfold point, finite_ends. cbn [i_min i_max].
      rewrite make_mean, Es, E1, B, Z.min_id, Z.max_id. auto. }
    destruct (is_non_negative s) eqn:N.
    { pose proof (is_nn_ok s c N Es) as C. pose proof (zscale_mono o lo hi c C L). unfold i_bounds, finite_ends. cbn [i_min i_max]. rewrite !end_mean, Es, E1, E2, !B by exact S.
      rewrite Z.min_l, Z.max_r by lia. auto. }
    destruct (is_negative s) eqn:G.
    { pose proof (is_neg_ok s c G Es) as C. pose proof (zscale_anti o lo hi c C L). unfold i_bounds, finite_ends. cbn [i_min i_max]. rewrite !end_mean, Es, E1, E2, !B by exact S.
      rewrite Z.min_r, Z.max_l by lia. auto. }
    cbv zeta. unfold i_union, i_bounds, finite_ends. cbn [i_min i_max]. rewrite !on_end_defined.
    assert (defined (i_min i) = true) as -> by (destruct (defined (i_min i)) eqn:D; [reflexivity | apply undef_bad in D; congruence]).
    assert (defined (i_max i) = true) as -> by (destruct (defined (i_max i)) eqn:D; [reflexivity | apply undef_bad in D; congruence]).
    cbn [andb]. unfold e_min, e_max. rewrite !make_mean, !end_mean, Es, E1, E2, !B by exact S. cbn [xbin xmin xmax]. rewrite (Z.max_comm (zscale o lo c)). auto.
  Qed.
  Theorem C14_scale_exact : forall i s c lo hi, interval_ok i -> M s = Fin c -> finite_ends W r i lo hi -> lo <= hi ->
    finite_ends W r (i_mul i s) (Z.min (lo * c) (hi * c)) (Z.max (lo * c) (hi * c)) /\
    finite_ends W r (i_div i s) (Z.min (ediv lo c) (ediv hi c)) (Z.max (ediv lo c) (ediv hi c)).
  Proof.
    intros i s c lo hi Ok Es F L. split; [apply (scale_exact Mul) | apply (scale_exact Div)]; auto; [left; reflexivity | right; reflexivity].
  Qed.

  (** *** Queries *)
  Theorem C14_contains : forall i x v, ends_have_values W r i -> M x = Fin v ->
    exists t, M (i_contains i x) = Fin t /\ (t = 1 /\ cont i v \/ t = 0 /\ ~ cont i v).
  Proof.
    intros i x v (A1 & A2) Ex. unfold i_contains, contains, has_value in *.
    destruct (defined (i_min i)) eqn:D1, (defined (i_max i)) eqn:D2; cbn [andb]; unfold e_and, e_le; rewrite ?make_mean, ?Ex, ?(undef_bad _ D1), ?(undef_bad _ D2);
      try specialize (A1 eq_refl); try specialize (A2 eq_refl); cbn [xbin].
    - destruct (M (i_min i)) as [a| | |]; try congruence; destruct (M (i_max i)) as [b| | |]; try congruence; cbn [xcmp xbool2 bounds_below bounds_above];
        try destruct (Z.leb_spec a v); try destruct (Z.leb_spec v b); cbn; eexists; (split; [reflexivity|]); lia.
    - destruct (M (i_min i)) as [a| | |]; try congruence; cbn [xcmp bounds_below bounds_above];
        try destruct (Z.leb_spec a v); cbn; eexists; (split; [reflexivity|]); lia.
    - destruct (M (i_max i)) as [b| | |]; try congruence; cbn [xcmp bounds_below bounds_above];
        try destruct (Z.leb_spec v b); cbn; eexists; (split; [reflexivity|]); lia.
    - exists 1. split; [reflexivity|]. cbn [bounds_below bounds_above]. lia.
  Qed.
  Theorem C14_extent_empty : forall i lo hi, finite_ends W r i lo hi ->
    M (i_extent i) = Fin (hi - lo + 1) /\ M (i_begin i) = Fin lo /\ M (i_end i) = Fin (hi + 1) /\
    exists t, M (i_empty i) = Fin t /\ (t = 1 /\ (forall v, ~ cont i v) \/ t = 0 /\ exists v, cont i v).
  Proof.
    intros i lo hi (E1 & E2). unfold i_extent, i_begin, i_end, i_empty, e_add, e_sub, e_gt, contains. rewrite !make_mean, E1, E2.
    cbn [meaning xbin xsub xneg xadd xcmp bounds_below bounds_above].
    split; [f_equal; lia|]. split; [reflexivity|]. split; [reflexivity|]. eexists. split; [reflexivity|].
    destruct (Z.ltb_spec hi lo); cbn; [left|right]; (split; [reflexivity|]); [intros v; lia | exists lo; lia].
  Qed.

  (** *** Construction *)
  Theorem C14_construct : forall a b x y v, M a = Fin x -> M b = Fin y ->
    (cont (i_bounds a b) v <-> x <= v <= y) /\ (cont (i_range a b) v <-> x <= v < y) /\
    (cont (i_min_extent a b) v <-> x <= v < x + y) /\ (cont (point a) v <-> v = x).
  Proof.
    intros a b x y v Ea Eb. unfold contains, i_bounds, i_range, i_min_extent, point, i_bounds, e_sub, e_add. cbn [i_min i_max].
    rewrite !make_mean, Ea, Eb. cbn [meaning xbin xsub xneg xadd bounds_below bounds_above]. lia.
  Qed.

  (** *** Clamping: into the interval if it has points, and points of the interval stay *)
  Theorem C14_clamp : forall i x v, ends_have_values W r i -> M x = Fin v -> (exists p, cont i p) ->
    exists c, M (i_clamp x i) = Fin c /\ cont i c /\ (cont i v -> c = v) /\
      (forall p, cont i p -> Z.abs (c - v) <= Z.abs (p - v)).
  Proof.
    intros i x v (A1 & A2) Ex (p & P1 & P2). unfold i_clamp, e_clamp, contains, has_value in *.
    destruct (defined (i_max i)) eqn:D2; destruct (defined (i_min i)) eqn:D1; cbv zeta; rewrite ?make_mean, ?Ex; cbn [xbin];
      try specialize (A1 eq_refl); try specialize (A2 eq_refl); rewrite ?(undef_bad _ D1), ?(undef_bad _ D2) in *;
      try (destruct (M (i_min i)) as [a| | |]; cbn [bounds_below] in *; try congruence; try contradiction);
      try (destruct (M (i_max i)) as [b| | |]; cbn [bounds_above] in *; try congruence; try contradiction);
      cbn [xmin xmax bounds_below bounds_above]; eexists; (split; [reflexivity|]); (split; [lia|]); (split; [lia|]); intros q (Q1 & Q2); lia.
  Qed.

  Theorem C14_select : forall c t f q v, M c = Fin q -> interval_ok t -> interval_ok f ->
    (cont (i_select c t f) v <-> if truthy q then cont t v else cont f v).
  Proof.
    intros c t f q v E T F. unfold i_select, contains. destruct (i_point t && i_point f) eqn:P.
    - apply andb_true_iff in P. destruct P as (P1 & P2). destruct (T P1) as (T1 & _). destruct (F P2) as (F1 & _).
      unfold point. cbn [i_min i_max meaning]. rewrite E, T1, F1. cbn [xselect]. destruct (truthy q); tauto.
    - unfold i_bounds. cbn [i_min i_max meaning]. rewrite E. cbn [xselect]. destruct (truthy q); tauto.
  Qed.

  (** *** Boxes *)
  Lemma zip_nth f a b d : (length b <= length a)%nat ->
    nth d (zip_box f a b) i_undef = if (d <? length b)%nat then f (nth d a i_undef) (nth d b i_undef) else nth d a i_undef.
  Proof.
    revert b d. induction a as [|x a IH]; intros b d L.
    - destruct b; cbn [length] in L; [|lia]. cbn [zip_box]. destruct d; reflexivity.
    - destruct b as [|y b]; cbn [zip_box length] in *.
      + destruct (Nat.ltb_spec d 0); [lia | reflexivity].
      + destruct d as [|d]; cbn [nth]; [reflexivity|]. rewrite IH by lia. change (S d <? S (length b))%nat with (d <? length b)%nat. reflexivity.
  Qed.
  Lemma resize_nth a n d : nth d (resize a n) i_undef = nth d a i_undef.
  Proof.
    unfold resize. destruct (Nat.lt_ge_cases d (length a)) as [L|L]; [apply app_nth1; exact L|].
    rewrite app_nth2, (nth_overflow a) by lia.
    assert (forall m k, nth k (repeat i_undef m) i_undef = i_undef) as -> by (induction m; destruct k; cbn; auto). reflexivity.
  Qed.
  Lemma resize_length a n : (length a <= n)%nat -> length (resize a n) = n.
  Proof. intros. unfold resize. rewrite app_length, repeat_length. lia. Qed.

  (** each dimension of the union is the union of the dimensions, for the dimensions that
      both boxes have ... *)
  Theorem C14_box_union : forall a b d, (d < length a)%nat -> (d < length b)%nat ->
    dim_of (box_union a b) d = i_union (dim_of a d) (dim_of b d).
  Proof.
    intros a b d La Lb. unfold dim_of, box_union. rewrite zip_nth by (rewrite resize_length; lia). rewrite resize_nth.
    destruct (Nat.ltb_spec d (length b)); [reflexivity | lia].
  Qed.
  Lemma union_undef b v : cont (i_union i_undef b) v.
  Proof. unfold contains, i_union, i_undef, i_bounds. cbn [i_min i_max defined andb]. split; exact I. Qed.
  (** ... and the union contains the points of both boxes when the second box has at least
      as many dimensions as the first. *)
  Theorem C14_box_union_contains : forall a b p, (length a <= length b)%nat ->
    box_contains W r a p \/ box_contains W r b p -> box_contains W r (box_union a b) p.
  Proof.
    intros a b p L H d. destruct (Nat.lt_ge_cases d (length a)) as [La|La].
    - rewrite C14_box_union by lia. apply C14_union_contains. destruct H as [H|H]; [left | right]; apply H.
    - unfold dim_of, box_union. rewrite zip_nth by (rewrite resize_length; lia). rewrite resize_nth, (nth_overflow a) by lia.
      destruct (d <? length b)%nat; [apply union_undef | split; exact I].
  Qed.
  (** the intersection contains exactly the common points *)
  Theorem C14_box_intersection : forall a b c p, Forall (ends_have_values W r) a -> Forall (ends_have_values W r) b ->
    box_intersection a b = Val c -> (box_contains W r c p <-> box_contains W r a p /\ box_contains W r b p).
  Proof.
    intros a b c p A B H. unfold box_intersection in H.
    assert (ends_have_values W r i_undef) as U by (split; intros X; discriminate X).
    assert (forall l d, Forall (ends_have_values W r) l -> ends_have_values W r (dim_of l d)) as F.
    { intros l d Fl. unfold dim_of. destruct (nth_in_or_default d l i_undef) as [I| ->]; [|exact U]. rewrite Forall_forall in Fl. auto. }
    rewrite resize_length in H by lia. destruct (Nat.ltb_spec (length b) (Nat.max (length a) (length b))); [discriminate H|]. injection H as <-.
    assert (forall d, dim_of (zip_box i_intersection (resize a (Nat.max (length a) (length b))) b) d
              = if (d <? length b)%nat then i_intersection (dim_of a d) (dim_of b d) else dim_of a d) as E.
    { intros d. unfold dim_of. rewrite zip_nth by (rewrite resize_length; lia). rewrite !resize_nth. reflexivity. }
    split.
    - intros C. assert (forall d, cont (dim_of a d) (p d) /\ cont (dim_of b d) (p d)) as K.
      { intros d. specialize (C d). rewrite E in C. destruct (Nat.ltb_spec d (length b)).
        - apply C14_intersection in C; auto.
        - split; [exact C|]. unfold dim_of. rewrite nth_overflow by lia. split; exact I. }
      split; intros d; apply K.
    - intros (Ca & Cb) d. rewrite E. destruct (Nat.ltb_spec d (length b)); [apply C14_intersection; auto|]. apply Ca.
  Qed.
  Theorem C14_box_intersection_defined : forall a b, (length a <= length b)%nat -> exists c, box_intersection a b = Val c /\ length c = length b.
  Proof.
    intros a b L. unfold box_intersection. rewrite resize_length by lia. destruct (Nat.ltb_spec (length b) (Nat.max (length a) (length b))); [lia|].
    eexists. split; [reflexivity|].
    assert (forall x y, length x = length y -> length (zip_box i_intersection x y) = length y) as G.
    { induction x; destruct y; cbn; intros X; try discriminate; auto. }
    apply G. rewrite resize_length by lia. lia.
  Qed.

  (** *** The simplified intersection has the same points *)
  Theorem C14_simplify_intersection : forall a b c v, ends_have_values W r a -> ends_have_values W r b ->
    Forall (consts_all below30) [i_min a; i_max a; i_min b; i_max b] ->
    simplify_intersection a b = Val c ->
    interval_ok c /\ (cont c v <-> cont a v /\ cont b v).
  Proof.
    intros a b c v A B C H. rewrite <- C14_intersection by assumption.
    apply Forall_cons_iff in C as (Ca1 & C). apply Forall_cons_iff in C as (Ca2 & C). apply Forall_cons_iff in C as (Cb1 & C). apply Forall_cons_iff in C as (Cb2 & _).
    unfold simplify_intersection in H. apply bind_inv in H as (lo & H1 & H). apply bind_inv in H as (hi & H2 & H). injection H as <-.
    assert (c30 : forall e, consts_all below30 e -> consts_all in64 e) by (intros e K; apply Simplify_Proofs.c30_c64; exact K).
    assert (M lo = M (i_min (i_intersection a b))) as E1.
    { unfold i_intersection, i_bounds. cbn [i_min]. destruct A as (A1 & _), B as (B1 & _). unfold has_value in *.
      destruct (defined (i_min a)) eqn:Da, (defined (i_min b)) eqn:Db; cbn [andb] in *; try (injection H1 as <-; reflexivity).
      unfold e_max. rewrite make_mean.
      assert (refines (xbin Max (M (i_min a)) (M (i_min b))) (M lo)) as R.
      { apply (C12_binary W r Max (i_min a) (i_min b) lo); auto; [discriminate]. }
      destruct R as [R|R]; [|congruence]. exfalso. specialize (A1 eq_refl). specialize (B1 eq_refl). cbn [xbin] in R.
      destruct (M (i_min a)), (M (i_min b)); cbn in R; congruence. }
    assert (M hi = M (i_max (i_intersection a b))) as E2.
    { unfold i_intersection, i_bounds. cbn [i_max]. destruct A as (_ & A1), B as (_ & B1). unfold has_value in *.
      destruct (defined (i_max a)) eqn:Da, (defined (i_max b)) eqn:Db; cbn [andb] in *; try (injection H2 as <-; reflexivity).
      unfold e_min. rewrite make_mean.
      assert (refines (xbin Min (M (i_max a)) (M (i_max b))) (M hi)) as R.
      { apply (C12_binary W r Min (i_max a) (i_max b) hi); auto; [discriminate]. }
      destruct R as [R|R]; [|congruence]. exfalso. specialize (A1 eq_refl). specialize (B1 eq_refl). cbn [xbin] in R.
      destruct (M (i_max a)), (M (i_max b)); cbn in R; congruence. }
    destruct (match_expr lo hi) eqn:Q.
    - apply match_eq in Q. rewrite <- Q in E2. split.
      + intros D. cbn [i_point point] in D. cbn [point i_min i_max]. auto.
      + unfold contains. rewrite <- E1, <- E2. unfold point. cbn [i_min i_max]. tauto.
    - split; [intros D; discriminate D|]. unfold contains. rewrite <- E1, <- E2. unfold i_bounds. cbn [i_min i_max]. tauto.
  Qed.
End C14.

(** Beside the theorems: a symbolic interval, scaled, shifted, united and intersected. *)
Definition ex_r : env := fun s => Fin (match s with O => 10 | 1%nat => -3 | _ => 4 end).
Definition ex_x : expr := EVar 0 f_none 0.
Definition ex_s : expr := EVar 1 f_none 0.
Definition ex_i : interval := i_min_extent ex_x (EConst 5).              (* [10, 14] *)
Lemma C14_ex_ok : interval_ok ex_i /\ ends_have_values ex_world ex_r ex_i /\ finite_ends ex_world ex_r ex_i 10 14.
Proof. split; [intros H; discriminate H|]. split; [split; intros _; vm_compute; discriminate | split; reflexivity]. Qed.
Lemma C14_ex : finite_ends ex_world ex_r (i_mul ex_i ex_s) (-42) (-30) /\
  finite_ends ex_world ex_r (i_div ex_i (EConst (-3))) (-4) (-3) /\
  finite_ends ex_world ex_r (i_union ex_i (point ex_s)) (-3) 14 /\
  finite_ends ex_world ex_r (i_intersection ex_i (i_bounds (EConst 12) EUndef)) 12 14 /\
  finite_ends ex_world ex_r (e_minus_i ex_s ex_i) (-17) (-13).
Proof. repeat split; vm_compute; reflexivity. Qed.
(** deciding that the constants of an expression are small *)
Fixpoint small_consts (e : expr) : bool :=
  match e with
  | EConst c => (- 2 ^ 30 <? c) && (c <? 2 ^ 30)
  | EBin _ a b => small_consts a && small_consts b
  | ENot a => small_consts a
  | ESelect c t f => small_consts c && small_consts t && small_consts f
  | ECall _ _ args => forallb small_consts args
  | _ => true
  end.
Lemma small_consts_sub x e : subexpr x e -> small_consts e = true -> small_consts x = true.
Proof.
  induction 1; cbn [small_consts]; rewrite ?andb_true_iff; try tauto.
  rewrite forallb_forall. auto.
Qed.
Lemma small_consts_ok e : small_consts e = true -> consts_all below30 e.
Proof.
  intros H z S. apply (small_consts_sub _ _ S) in H. cbn [small_consts] in H. apply andb_true_iff in H as (A & B).
  apply Z.ltb_lt in A, B. split; assumption.
Qed.
Lemma C14_ex_simplify : exists c, simplify_intersection ex_i (i_bounds (EConst 12) positive_infinity) = Val c /\
  Forall (consts_all below30) [i_min ex_i; i_max ex_i; EConst 12; positive_infinity].
Proof.
  eexists. split; [vm_compute; reflexivity|].
  repeat first [apply Forall_cons | apply Forall_nil]; apply small_consts_ok; reflexivity.
Qed.

(** Findings.  The intersection of a box with one that has fewer dimensions reads past the
    end of the second; the union does not contain the second box, which says nothing about
    the dimensions it does not have. *)
Theorem C14_box_intersection_refuted : box_intersection [ex_i; ex_i] [ex_i] = UB.
Proof. reflexivity. Qed.
Theorem C14_box_union_refuted : exists a b p, box_contains ex_world ex_r b p /\ ~ box_contains ex_world ex_r (box_union a b) p /\
  box_contains ex_world ex_r (box_union b a) p.
Proof.
  exists [ex_i; ex_i], [ex_i], (fun d => match d with O => 10 | _ => 0 end). split; [|split].
  - intros [|[|d]]; [split; vm_compute; discriminate | split; exact I | split; destruct d; exact I].
  - intros H. specialize (H 1%nat). destruct H as (H & _). vm_compute in H. congruence.
  - intros [|[|d]]; [split; vm_compute; discriminate | split; exact I | split; destruct d; exact I].
Qed.
(** An empty interval is not ignored by the union. *)
Theorem C14_union_of_empty_refuted : exists a b, (forall v, ~ contains ex_world ex_r a v) /\
  contains ex_world ex_r (i_union a b) 50 /\ ~ contains ex_world ex_r b 50 /\ ends_have_values ex_world ex_r a.
Proof.
  exists (i_bounds (EConst 50) (EConst 40)), (point (EConst 60)). split; [|split; [|split]].
  - intros v (H1 & H2). cbn in *. lia.
  - split; vm_compute; discriminate.
  - intros (H & _). vm_compute in H. congruence.
  - split; intros _; discriminate.
Qed.
