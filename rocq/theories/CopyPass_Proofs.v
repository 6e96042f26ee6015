(** Lemmas about implement_copy: what its expressions refer to, and the loop over the dimensions. *)
From Coq Require Import ZArith List Bool Lia.
From Verif Require Import Arith_Model Arith_Spec Arith_Proofs Buf_Model Buf_Spec Buf_Proofs ForEach_Spec Expr_Model Expr_Spec Expr_Proofs Expr_Props Stmt_Model
  Rewrite_Proofs Simplify_Model Simplify_Proofs Match_Model Const_Model Deps_Model Deps_Spec Deps_Proofs Deps_Props Subst_Model Subst_Spec SubstMean_Proofs SubstEval_Proofs
  Subst_Props CopyStmt_Model CopyStmt_Spec CopyStmt_Proofs CopyBox_Proofs.
Import ListNotations.
Open Scope Z_scope.

(** *** The symbols and the form of the expressions *)
Definition neat (P : nat -> Prop) (e : expr) : Prop := (forall y, free y e -> P y) /\ lets_distinct e /\ consts_ok e.
Lemma neat_bin P o a b : neat P a -> neat P b -> neat P (make_bin o a b).
Proof.
  intros (A1 & A2 & A3) (B1 & B2 & B3). split; [intros y; rewrite free_make_bin; intros [F|F]; auto|].
  unfold make_bin. destruct (_ && _); cbn [lets_distinct consts_ok]; auto.
Qed.
Lemma neat_var (P : nat -> Prop) s f d : P s -> neat P (EVar s f d).
Proof. intros H. split; [intros y; rewrite free_metadata_var; intros ->; exact H|split; exact I]. Qed.
Lemma neat_const P k : in64 k -> neat P (EConst k).
Proof. intros H. split; [intros y (ro & [])|split; [exact I|exact H]]. Qed.
Lemma neat_undef P : neat P EUndef.
Proof. split; [intros y (ro & [])|split; exact I]. Qed.
Lemma free_select y c t f : free y (ESelect c t f) <-> free y c \/ free y t \/ free y f.
Proof.
  split.
  - intros (ro & [O|[O|O]]); [left|right; left|right; right]; exists ro; exact O.
  - intros [(ro & O)|[(ro & O)|(ro & O)]]; exists ro; cbn [occurs]; auto.
Qed.
Lemma neat_select P c t f : neat P c -> neat P t -> neat P f -> neat P (ESelect c t f).
Proof.
  intros (A1 & A2 & A3) (B1 & B2 & B3) (C1 & C2 & C3). split; [intros y; rewrite free_select; intros [F|[F|F]]; auto|]. cbn [lets_distinct consts_ok]. auto.
Qed.
Lemma neat_or_undef P c t f : neat P c -> neat P t -> neat P f -> neat P (select_or_undef c t f).
Proof. intros A B C. unfold select_or_undef. destruct (defined t), (defined f); cbn [andb]; auto. apply neat_select; auto. Qed.
Lemma neat_weaken (P Q : nat -> Prop) e : (forall y, P y -> Q y) -> neat P e -> neat Q e.
Proof. intros H (A & B). split; [auto|exact B]. Qed.
Definition neat_dim (P : nat -> Prop) (nd : dim_expr) : Prop :=
  neat P (fst (de_bounds nd)) /\ neat P (snd (de_bounds nd)) /\ neat P (de_stride nd) /\ neat P (de_fold nd).
Lemma in64_small z : -1000 <= z <= 1000 -> in64 z.
Proof. unfold in64. change (imin 64) with (-9223372036854775808). change (imax 64) with 9223372036854775807. lia. Qed.

Definition formed (e : expr) : Prop := lets_distinct e /\ consts_ok e.

Section Symbols.
  Variable W : world.
  Variable simplify : expr -> res expr.
  Hypothesis Sf : simplifies W simplify.
  Variables (src dst : nat).
  Variable dst_x : list nat.
  Hypothesis Nd : NoDup dst_x.
  Hypothesis Ns : ~ In src dst_x.
  Hypothesis Nt : ~ In dst dst_x.
  Variables (src_d dst_d x : nat).
  Hypothesis Ex : nth_error dst_x dst_d = Some x.

  Lemma is_copy_neat (P : nat -> Prop) : P src -> P dst -> forall e at_ nd, is_copy simplify src e src_d dst dst_x dst_d = Val (Some (at_, nd)) ->
    index_only dst_x x e -> plain_selects dst_x e -> ~ takes_address e -> formed e ->
    (forall y, free y e -> ~ In y dst_x -> P y) -> neat P at_ /\ neat_dim P nd.
  Proof.
    intros Psrc Pdst. assert (Hx : In x dst_x) by (eapply nth_error_In; exact Ex).
    assert (Dst : forall f, neat P (EVar dst f (Z.of_nat dst_d))) by (intros; apply neat_var, Pdst).
    assert (Src : forall f, neat P (EVar src f (Z.of_nat src_d))) by (intros; apply neat_var, Psrc).
    assert (One : neat P (EConst 1)) by (apply neat_const, in64_small; lia).
    assert (Leaf : forall e at_ nd,
      (if negb (d_var (depends_on_any e dst_x)) then Val (Some (e, DimE (buffer_bounds dst dst_d) (EConst 0) EUndef))
       else
          e <- only_dim e dst dst_x 0 dst_d ;;
          e <- simplify e ;;
          match is_linear e (nth dst_d dst_x O) with
          | None => Val None
          | Some (a, b) =>
              scale <- simplify a ;;
              offset <- simplify b ;;
              bound <- evaluate_constant_lower_bound scale ;;
              match bound with
              | None => Val None
              | Some k =>
                  if k <? 0 then Val None
                  else
                    let stride := e_mul (buffer_stride src src_d) scale in
                    let fold := buffer_fold_factor src src_d in
                    if negb (any_flag (depends_on offset dst)) then
                      let at_ := e_add (e_align_up (e_sub (EVar src f_min (Z.of_nat src_d)) offset) scale) offset in
                      Val (Some (at_, DimE (e_div (e_sub at_ offset) scale, e_div (e_sub (EVar src f_max (Z.of_nat src_d)) offset) scale) stride fold))
                    else
                      Val (Some (e_add (e_mul (EVar dst f_min (Z.of_nat dst_d)) scale) offset, DimE (buffer_bounds dst dst_d) stride fold))
              end
          end) = Val (Some (at_, nd)) ->
      index_only dst_x x e -> ~ takes_address e -> formed e -> (forall y, free y e -> ~ In y dst_x -> P y) -> neat P at_ /\ neat_dim P nd).
    { intros e at_ nd E Ix Ta Fm Fr. destruct (negb _) eqn:N in E.
      - injection E as <- <-. apply negb_true_iff in N.
        assert (Nf : forall y, In y dst_x -> ~ free y e).
        { intros y Iy F. rewrite (proj2 (d_var_any e dst_x (fun y ro I O => proj2 (Ix y ro I O)))) in N; [discriminate|eauto]. }
        split; [split; [intros y F; apply Fr; [exact F|intros Iy; exact (Nf y Iy F)]|exact Fm]|].
        unfold neat_dim. cbn [de_bounds de_stride de_fold buffer_bounds fst snd].
        split; [apply Dst|]. split; [apply Dst|]. split; [apply neat_const, in64_small; lia|apply neat_undef].
      - apply bind_inv in E as (e1 & E1 & E). apply bind_inv in E as (e2 & E2 & E).
        destruct (only_dim_absent W dst dst_d dst_x e 0 e1) as (O1 & _ & M1); auto.
        { intros k y Ek Nk (ro & O). apply nth_error_In in Ek as Iy. destruct (Ix y ro Iy O) as (-> & _). apply Nk. cbn [Nat.add].
          apply (NoDup_nth_error dst_x); [exact Nd|apply nth_error_Some; congruence|congruence]. }
        rewrite (nth_error_nth dst_x dst_d O Ex) in E.
        destruct (is_linear e2 x) as [(a, b)|] eqn:L; [|discriminate].
        assert (Sub : forall t ro, occurs t ro e2 -> occurs t ro e) by (intros t ro O; apply O1; eapply (sf_symbols _ _ Sf); eauto).
        destruct (linear_ok W x e2 a b) as (Wa & Wb & Ln); [intros ro O; apply (Ix x ro Hx), Sub, O|exact L|].
        apply bind_inv in E as (scale & Es & E). apply bind_inv in E as (offset & Eo & E). apply bind_inv in E as (bound & Ek & E).
        destruct bound as [k|]; [|discriminate]. destruct (Z.ltb_spec k 0); [discriminate|].
        assert (Part : forall a a', simplify a = Val a' -> within x a e2 -> neat P a').
        { intros a0 a' Ea Wi. split; [|exact (sf_form _ _ Sf _ _ Ea)]. intros y (ro & O). apply (sf_symbols _ _ Sf _ _ y ro Ea) in O.
          destruct (Wi y ro O) as (O2 & Ny). apply Sub in O2. apply Fr; [exists ro; exact O2|]. intros Iy. destruct (Ix y ro Iy O2) as (-> & _). congruence. }
        assert (Ns' : neat P scale) by (eapply Part; eauto). assert (No : neat P offset) by (eapply Part; eauto).
        cbn beta zeta in E. unfold neat_dim, buffer_stride, buffer_fold_factor, e_mul in *.
        destruct (negb _) in E; injection E as <- <-; cbn [de_bounds de_stride de_fold buffer_bounds fst snd];
          unfold e_align_up, e_add, e_sub, e_div, e_mul; repeat match goal with |- _ /\ _ => split end;
          repeat first [assumption|apply Dst|apply Src|apply One|apply neat_bin]. }
    induction e as [|s fd d|l b IHl IHb|o p q IHp IHq|p IHp|c t fl IHc IHt IHf|fn tg l IHl|k] using expr_ind'; intros at_ nd E Ix Ps Ta Fm Fr.
    6: { cbn [is_copy] in E. apply bind_inv in E as ([(at_t, dim_t)|] & Et & E); [|discriminate]. apply bind_inv in E as ([(at_f, dim_f)|] & Ef & E); [|discriminate].
         injection E as <- <-. cbn [plain_selects] in Ps. destruct Ps as (Pc & Pt & Pf). cbn [takes_address] in Ta.
         destruct Fm as (D & K). cbn [lets_distinct consts_ok] in D, K. destruct D as (D1 & D2 & D3), K as (K1 & K2 & K3).
         assert (Nc : neat P c).
         { split; [|split; assumption]. intros y F. apply Fr; [apply free_select; auto|]. intros Iy. exact (Pc y Iy F). }
         destruct (IHt at_t dim_t) as (T0 & T1 & T2 & T3 & T4); auto; [intros y ro I O; apply (Ix y ro I); cbn [occurs]; auto|split; auto|intros y F; apply Fr, free_select; auto|].
         destruct (IHf at_f dim_f) as (F0 & F1 & F2 & F3 & F4); auto; [intros y ro I O; apply (Ix y ro I); cbn [occurs]; auto|split; auto|intros y F; apply Fr, free_select; auto|].
         split; [apply neat_select; auto|]. unfold neat_dim. cbn [select_dim select_interval de_bounds de_stride de_fold fst snd].
         auto using neat_select, neat_or_undef. }
    all: apply (Leaf _ at_ nd E Ix Ta Fm Fr).
  Qed.
End Symbols.

(** *** The values of the symbols at an index *)
Lemma at_index_out xs : forall vs r y, ~ In y xs -> at_index xs vs r y = r y.
Proof.
  induction xs as [|x xs IH]; intros [|v vs] r y N; cbn in *; auto. unfold env_set. destruct (Nat.eqb_spec y x); [subst; tauto|]. apply IH. tauto.
Qed.
Lemma at_index_nth xs : forall vs r k x v, NoDup xs -> nth_error xs k = Some x -> nth_error vs k = Some v -> at_index xs vs r x = Fin v.
Proof.
  induction xs as [|x0 xs IH]; intros [|v0 vs] r [|k] x v N Ex Ev; cbn in *; try discriminate.
  - injection Ex as ->. injection Ev as ->. unfold env_set. rewrite Nat.eqb_refl. reflexivity.
  - apply NoDup_cons_iff in N as (N1 & N2). unfold env_set. destruct (Nat.eqb_spec x x0) as [E|E]; [subst; apply nth_error_In in Ex; tauto|]. eapply IH; eauto.
Qed.
Lemma nth_error_set {A} (l : list A) k v : (k < length l)%nat -> nth_error (set_nth l k v) k = Some v.
Proof. revert k. induction l as [|a l IH]; intros [|k] L; cbn in *; try lia; auto. apply IH. lia. Qed.
Lemma nth_error_set_other {A} (l : list A) k v j : j <> k -> nth_error (set_nth l k v) j = nth_error l j.
Proof. revert k j. induction l as [|a l IH]; intros [|k] [|j] N; cbn; auto; try congruence. Qed.
Lemma at_index_set xs vs r k x v : NoDup xs -> length vs = length xs -> nth_error xs k = Some x ->
  forall y, at_index xs (set_nth vs k v) r y = env_set (at_index xs vs r) x (Fin v) y.
Proof.
  intros N L Ex y. assert (Lk : (k < length vs)%nat) by (rewrite L; apply nth_error_Some; congruence).
  destruct (in_dec Nat.eq_dec y xs) as [I|I].
  - apply In_nth_error in I as (j & Ej). destruct (Nat.eq_dec j k) as [->|Nj].
    + assert (y = x) by congruence. subst y. unfold env_set. rewrite Nat.eqb_refl. eapply at_index_nth; eauto. apply nth_error_set, Lk.
    + assert (Ny : y <> x).
      { intros ->. apply Nj. apply (NoDup_nth_error xs); auto; [apply nth_error_Some; congruence|congruence]. }
      unfold env_set. destruct (Nat.eqb_spec y x); [congruence|].
      assert (Hj : (j < length vs)%nat) by (rewrite L; apply nth_error_Some; congruence).
      destruct (nth_error vs j) as [w|] eqn:Ew; [|apply nth_error_None in Ew; lia].
      rewrite (at_index_nth xs vs r j y w N Ej Ew). eapply at_index_nth; eauto. rewrite nth_error_set_other by congruence. exact Ew.
  - rewrite at_index_out by exact I. unfold env_set. destruct (Nat.eqb_spec y x) as [->|]; [apply nth_error_In in Ex; tauto|].
    rewrite at_index_out by exact I. reflexivity.
Qed.

(** *** Which dimensions of the source use a symbol *)
Lemma uses_from_in x : forall l i j, In j (uses_from l x i) <-> exists k e, j = (i + k)%nat /\ nth_error l k = Some e /\ free x e.
Proof.
  induction l as [|e l IH]; intros i j; cbn [uses_from].
  - split; [intros []|intros ([|k] & ? & _ & E & _); discriminate].
  - rewrite in_app_iff, IH. split.
    + intros [I|(k & e' & -> & E & F)].
      * destruct (any_flag (depends_on e x)) eqn:A; [|destruct I]. destruct I as [<-|[]]. apply C17_depends_on_exact in A. exists O, e. split; [lia|]. auto.
      * exists (S k), e'. split; [lia|]. auto.
    + intros ([|k] & e' & -> & E & F).
      * left. injection E as <-. apply C17_depends_on_exact in F. rewrite F. left. lia.
      * right. exists k, e'. split; [lia|]. auto.
Qed.
Lemma dst_dim_one src_x x i : is_copy_dst_dim src_x x = Some (Some i) ->
  (exists e, nth_error src_x i = Some e /\ free x e) /\ forall j e, nth_error src_x j = Some e -> free x e -> j = i.
Proof.
  unfold is_copy_dst_dim. pose proof (uses_from_in x src_x 0) as U. destruct (uses_from src_x x 0) as [|a [|b l]]; intros E; try discriminate. injection E as <-. split.
  - destruct (proj1 (U a) (or_introl eq_refl)) as (k & e & -> & F). eauto.
  - intros j e Ej F. assert (I : In j [a]) by (apply U; exists j, e; auto). destruct I as [->|[]]. reflexivity.
Qed.
Lemma dst_dim_none src_x x : is_copy_dst_dim src_x x = Some None -> forall j e, nth_error src_x j = Some e -> ~ free x e.
Proof.
  unfold is_copy_dst_dim. pose proof (uses_from_in x src_x 0) as U. destruct (uses_from src_x x 0) as [|a [|b l]]; intros E; try discriminate.
  intros j e Ej F. apply (U j). exists j, e. auto.
Qed.

(** *** The loop over the dimensions *)
(** The dimension that is made has the meaning of its expressions. *)
Definition matches (W : world) (r : env) (nd : dim_expr) (d : dim) : Prop :=
  meaning W r (fst (de_bounds nd)) = Fin (d_min d) /\ meaning W r (snd (de_bounds nd)) = Fin (d_max d) /\ meaning W r (de_stride nd) = Fin (d_stride d) /\
  (defined (de_fold nd) = true -> meaning W r (de_fold nd) = Bad \/ meaning W r (de_fold nd) = Fin (d_fold d)).
Definition has_meaning (W : world) (r : env) (nd : dim_expr) : Prop :=
  exists lo hi st, meaning W r (fst (de_bounds nd)) = Fin lo /\ meaning W r (snd (de_bounds nd)) = Fin hi /\ meaning W r (de_stride nd) = Fin st.

Lemma skipn_cons {A} : forall (l : list A) d x t, skipn d l = x :: t -> nth_error l d = Some x /\ skipn (S d) l = t.
Proof.
  induction l as [|y l IH]; intros [|d] x t E; try discriminate; [injection E as -> ->; auto|]. cbn in E. destruct (IH d x t E) as (A1 & A2). split; [exact A1|].
  destruct l; exact A2.
Qed.
Lemma undef_free xs : d_var (depends_on_any EUndef xs) = false.
Proof. destruct (d_var (depends_on_any EUndef xs)) eqn:D; [|reflexivity]. apply d_var_any in D; [|intros y ro _ []]. destruct D as (y & _ & (ro & [])). Qed.
Lemma is_copy_defined simplify src e i dst dst_x d at_ nd : is_copy simplify src e i dst dst_x d = Val (Some (at_, nd)) -> defined e = true -> defined at_ = true.
Proof.
  destruct e; intros E D; try discriminate D; cbn [is_copy] in E.
  5: { apply bind_inv in E as ([(at_t, dim_t)|] & Et & E); [|discriminate]. apply bind_inv in E as ([(at_f, dim_f)|] & Ef & E); [|discriminate]. injection E as <- <-. reflexivity. }
  all: destruct (negb _) in E; [injection E as <- <-; reflexivity|];
    apply bind_inv in E as (u1 & _ & E); apply bind_inv in E as (u2 & _ & E); destruct (is_linear _ _) as [(u3, u4)|]; [|discriminate];
    apply bind_inv in E as (scale & _ & E); apply bind_inv in E as (offset & _ & E); apply bind_inv in E as ([k'|] & _ & E); [|discriminate];
    destruct (_ <? _); [discriminate|]; cbn beta zeta in E; destruct (negb _) in E; injection E as <- <-; apply make_bin_defined.
Qed.

Section PassNeat.
  Variable W : world.
  Variable simplify : expr -> res expr.
  Hypothesis Sf : simplifies W simplify.
  Variable r0 : env.
  Variables (src dst : nat) (src_x : list expr) (dst_x : list nat) (bs bd : buf) (coord : list Z -> list Z).
  Hypothesis Ok : copyable W r0 src src_x dst dst_x bs bd coord.
  Variable P : nat -> Prop.
  Hypothesis Psrc : P src.
  Hypothesis Pdst : P dst.
  Hypothesis Pfree : forall i e y, nth_error src_x i = Some e -> free y e -> ~ In y dst_x -> P y.

  Lemma pass_neat : forall todo d acc a o s K,
    skipn d dst_x = todo -> pass_dims simplify src src_x dst dst_x d todo acc = Val (a, o, s) ->
    length acc = length src_x ->
    (forall i e, nth_error acc i = Some e -> neat P e \/ (nth_error src_x i = Some e /\ forall y, In y dst_x -> free y e -> In y todo \/ K y)) ->
    Forall2 (fun x k => k = None \/ k = Some x) todo o /\ length a = length src_x /\ Forall (neat_dim P) s /\
    (forall i e, nth_error a i = Some e -> neat P e \/ (nth_error src_x i = Some e /\ forall y, In y dst_x -> free y e -> In (Some y) o \/ K y)).
  Proof.
    destruct (cp_distinct _ _ _ _ _ _ _ _ _ Ok) as (Nd & Ns & Nt).
    induction todo as [|x todo IH]; intros d acc a o s K Sk E La Na; cbn [pass_dims] in E.
    - injection E as <- <- <-. split; [constructor|]. split; [exact La|]. split; [constructor|].
      intros i e Ee; destruct (Na i e Ee) as [N|(N1 & N2)]; [auto|right; split; [exact N1|intros y Iy Fy; destruct (N2 y Iy Fy) as [[]|Ky]; auto]].
    - destruct (skipn_cons _ _ _ _ Sk) as (Ex & Sk').
      assert (Ix : In x dst_x) by (eapply nth_error_In; exact Ex).
      assert (Keep : forall R, (r <- pass_dims simplify src src_x dst dst_x (S d) todo acc ;; let '(a, o, s) := r in Val (a, Some x :: o, s)) = Val R -> R = (a, o, s) ->
        Forall2 (fun x k => k = None \/ k = Some x) (x :: todo) o /\ length a = length src_x /\ Forall (neat_dim P) s /\
        (forall i e, nth_error a i = Some e -> neat P e \/ (nth_error src_x i = Some e /\ forall y, In y dst_x -> free y e -> In (Some y) o \/ K y))).
      { intros R Ek ->. apply bind_inv in Ek as (((a1, o1), s1) & E1 & Ek). injection Ek as -> <- ->.
        destruct (IH (S d) acc a o1 s (fun y => y = x \/ K y) Sk' E1 La) as (H1 & H2 & H3 & H4).
        - intros i e Ee. destruct (Na i e Ee) as [N|(N1 & N2)]; [auto|right; split; [exact N1|]]. intros y Iy Fy. destruct (N2 y Iy Fy) as [[->|I]|Ky]; auto.
        - split; [constructor; auto|]. split; [exact H2|]. split; [exact H3|].
          intros i e Ee. destruct (H4 i e Ee) as [N|(N1 & N2)]; [auto|right; split; [exact N1|]]. intros y Iy Fy. destruct (N2 y Iy Fy) as [I|[->|Ky]]; [left; right; exact I|left; left; reflexivity|auto]. }
      destruct (is_copy_dst_dim src_x x) as [k|] eqn:Dd; [|exact (Keep _ E eq_refl)].
      apply bind_inv in E as ([(at_, nd)|] & Ec & E); [|exact (Keep _ E eq_refl)].
      apply bind_inv in E as (((a1, o1), s1) & E1 & E). injection E as -> <- <-. clear Keep.
      destruct k as [i|].
      + destruct (dst_dim_one _ _ _ Dd) as ((e & Ee & Fe) & Only). rewrite (nth_error_nth src_x i EUndef Ee) in Ec.
        destruct (cp_form _ _ _ _ _ _ _ _ _ Ok i e Ee) as (F1 & F2 & F3). destruct (cp_index _ _ _ _ _ _ _ _ _ Ok i e Ee) as (Ps & y & Iy0).
        assert (Iy : index_only dst_x x e).
        { intros z ro Iz Oz. destruct (Iy0 z ro Iz Oz) as (Ez & Er). split; [|exact Er]. destruct Fe as (ro' & Ox). destruct (Iy0 x ro' Ix Ox) as (Exy & _). congruence. }
        assert (Li : (i < length acc)%nat) by (rewrite La; apply nth_error_Some; congruence).
        destruct (is_copy_neat W simplify Sf src dst dst_x Nd Nt i d x Ex P Psrc Pdst e at_ nd Ec Iy Ps F3 (conj F1 F2)) as (Nat_ & Nnd).
        { intros z Fz Nz. exact (Pfree i e z Ee Fz Nz). }
        rewrite (is_copy_defined _ _ _ _ _ _ _ _ _ Ec) in E1 by (destruct e; [destruct Fe as (ro & [])|reflexivity..]).
        destruct (IH (S d) (set_nth acc i at_) a o1 s1 K Sk' E1) as (H1 & H2 & H3 & H4).
        * rewrite set_nth_length. exact La.
        * intros j e' Ej. destruct (Nat.eq_dec j i) as [->|Nj].
          -- rewrite nth_error_set in Ej by exact Li. injection Ej as <-. left. exact Nat_.
          -- rewrite nth_error_set_other in Ej by exact Nj. destruct (Na j e' Ej) as [N|(N1 & N2)]; [auto|right; split; [exact N1|]].
             intros z Iz Fz. destruct (N2 z Iz Fz) as [[->|I]|Kz]; auto. destruct Nj. exact (Only j e' N1 Fz).
        * split; [constructor; auto|]. split; [exact H2|]. split; [constructor; auto|].
          intros j e' Ej. destruct (H4 j e' Ej) as [N|(N1 & N2)]; [auto|right; split; [exact N1|]]. intros z Iz Fz. destruct (N2 z Iz Fz) as [I|Kz]; [left; right; exact I|auto].
      + cbn [is_copy] in Ec. rewrite undef_free in Ec. cbn [negb] in Ec. injection Ec as <- <-.
        destruct (IH (S d) acc a o1 s1 K Sk' E1 La) as (H1 & H2 & H3 & H4).
        * intros i e Ee. destruct (Na i e Ee) as [N|(N1 & N2)]; [auto|right; split; [exact N1|]]. intros y Iy Fy. destruct (N2 y Iy Fy) as [[->|I]|Ky]; auto.
          destruct (dst_dim_none _ _ Dd i e N1 Fy).
        * split; [constructor; auto|]. split; [exact H2|].
          split; [constructor; [|exact H3]; unfold neat_dim, buffer_bounds; cbn [de_bounds de_stride de_fold fst snd];
            split; [apply neat_var, Pdst|]; split; [apply neat_var, Pdst|]; split; [apply neat_const, in64_small; lia|apply neat_undef]|].
          intros j e' Ej. destruct (H4 j e' Ej) as [N|(N1 & N2)]; [auto|right; split; [exact N1|]]. intros z Iz Fz. destruct (N2 z Iz Fz) as [I|Kz]; [left; right; exact I|auto].
  Qed.
End PassNeat.

Section Pass.
  Variable W : world.
  Variable simplify : expr -> res expr.
  Hypothesis Sf : simplifies W simplify.
  Variable r0 : env.
  Variables (src dst : nat) (src_x : list expr) (dst_x : list nat) (bs bd : buf) (coord : list Z -> list Z).
  Hypothesis Ok : copyable W r0 src src_x dst dst_x bs bd coord.
  Variable full : list Z.
  Hypothesis Box : in_bounds (dims bd) full.
  Let r := at_index dst_x full r0.

  Lemma pass_ok : forall todo d acc a o s va,
    skipn d dst_x = todo -> pass_dims simplify src src_x dst dst_x d todo acc = Val (a, o, s) ->
    length acc = length src_x ->
    (forall i e, nth_error acc i = Some e -> meaning W r e = Fin (va i)) ->
    (forall i e x, nth_error src_x i = Some e -> In x todo -> free x e -> va i = nth i (coord full) 0) ->
    Forall (has_meaning W r) s /\
    exists va', (forall i e, nth_error a i = Some e -> meaning W r e = Fin (va' i)) /\
      forall dl, Forall2 (matches W r) s dl ->
        oadd (place_all (dims bs) va') (place_all dl (index (kept o (skipn d full)))) = place_all (dims bs) va.
  Proof.
    destruct (cp_src _ _ _ _ _ _ _ _ _ Ok) as (ps & Rs0 & Bs). destruct (cp_dst _ _ _ _ _ _ _ _ _ Ok) as (pd & Rd0 & Bd).
    destruct (cp_distinct _ _ _ _ _ _ _ _ _ Ok) as (Nd & Ns & Nt). destruct (cp_rank _ _ _ _ _ _ _ _ _ Ok) as (Rk & Rb).
    assert (Lf : length full = length dst_x) by (rewrite (in_bounds_length _ _ Box); exact Rk).
    assert (Rs : r src = Fin ps) by (unfold r; rewrite at_index_out; auto). assert (Rd : r dst = Fin pd) by (unfold r; rewrite at_index_out; auto).
    induction todo as [|x todo IH]; intros d acc a o s va Sk E La Mv Mc; cbn [pass_dims] in E.
    - injection E as <- <- <-. split; [constructor|].
      exists va. split; [exact Mv|]. intros dl F. inversion F; subst. cbn [place_all]. apply oadd_0_r.
    - destruct (skipn_cons _ _ _ _ Sk) as (Ex & Sk').
      assert (Ld : (d < length dst_x)%nat) by (apply nth_error_Some; congruence).
      assert (Ix : In x dst_x) by (eapply nth_error_In; exact Ex).
      assert (Nx : ~ In x todo).
      { rewrite <- (firstn_skipn d dst_x), Sk in Nd. apply NoDup_remove_2 in Nd. intros I. apply Nd, in_or_app. auto. }
      destruct (nth_error full d) as [v|] eqn:Ev; [|apply nth_error_None in Ev; lia].
      assert (Skf : skipn d full = v :: skipn (S d) full).
      { clear -Ev. revert d Ev. induction full as [|w l IH]; intros [|d] E; cbn in *; try discriminate; [congruence|auto]. }
      assert (Bv : d_min (dim_at bd d) <= v <= d_max (dim_at bd d)).
      { pose proof (in_bounds_at (dims bd) full d Box ltac:(unfold rank in Rk; lia)) as B. rewrite (nth_error_nth full d 0 Ev) in B. exact B. }
      assert (Sv : set_nth full d v = full).
      { clear -Ev. revert d Ev. induction full as [|w l IH]; intros [|d] E; cbn in *; try discriminate; [congruence|f_equal; auto]. }
      assert (Keep : forall R, (r <- pass_dims simplify src src_x dst dst_x (S d) todo acc ;; let '(a, o, s) := r in Val (a, Some x :: o, s)) = Val R -> R = (a, o, s) ->
        Forall (has_meaning W r) s /\
        exists va', (forall i e, nth_error a i = Some e -> meaning W r e = Fin (va' i)) /\
          forall dl, Forall2 (matches W r) s dl ->
            oadd (place_all (dims bs) va') (place_all dl (index (kept o (skipn d full)))) = place_all (dims bs) va).
      { intros R Ek ->. apply bind_inv in Ek as (((a1, o1), s1) & E1 & Ek). injection Ek as -> <- ->.
        destruct (IH (S d) acc a o1 s va Sk' E1 La Mv) as (H3' & va' & H5 & H6).
        - intros i e y Ee Iy Fy. apply (Mc i e y Ee); [right; exact Iy|exact Fy].
        - split; [exact H3'|].
          exists va'. split; [exact H5|]. intros dl F. rewrite Skf. cbn [kept]. apply H6, F. }
      destruct (is_copy_dst_dim src_x x) as [k|] eqn:Dd; [|exact (Keep _ E eq_refl)].
      apply bind_inv in E as ([(at_, nd)|] & Ec & E); [|exact (Keep _ E eq_refl)].
      apply bind_inv in E as (((a1, o1), s1) & E1 & E). injection E as -> <- <-. clear Keep.
      destruct k as [i|].
      + destruct (dst_dim_one _ _ _ Dd) as ((e & Ee & Fe) & Only). rewrite (nth_error_nth src_x i EUndef Ee) in Ec.
        destruct (cp_form _ _ _ _ _ _ _ _ _ Ok i e Ee) as (F1 & F2 & F3). destruct (cp_index _ _ _ _ _ _ _ _ _ Ok i e Ee) as (Ps & y & Iy0).
        assert (Iy : index_only dst_x x e).
        { intros z ro Iz Oz. destruct (Iy0 z ro Iz Oz) as (Ez & Er). split; [|exact Er]. destruct Fe as (ro' & Ox). destruct (Iy0 x ro' Ix Ox) as (Exy & _). congruence. }
        assert (Li : (i < length acc)%nat) by (rewrite La; apply nth_error_Some; congruence).
        set (f := fun v => nth i (coord (set_nth full d v)) 0).
        assert (ND : new_dim W r at_ nd (dim_at bs i) (dim_at bd d) f).
        { apply (is_copy_ok W simplify Sf r src dst ps pd bs bd Rs Bs Rd Bd dst_x Nd Nt i d x Ex (cp_straight _ _ _ _ _ _ _ _ _ Ok i e x Ee Ix Fe) e at_ nd f Ec Iy Ps F3).
          - intros w. unfold f. rewrite <- (cp_value _ _ _ _ _ _ _ _ _ Ok i e (set_nth full d w) Ee) by (rewrite set_nth_length; exact Lf).
            symmetry. apply meaning_free. intros z _. unfold r. apply at_index_set; auto.
          - intros Fd w Hw. apply (cp_inside _ _ _ _ _ _ _ _ _ Ok i e); auto. apply in_bounds_set; [exact Box|exact Hw]. }
        destruct ND as (av & lo & hi & st & Ma & Ml & Mh & Ms & Pl).
        assert (Df : defined at_ = true) by (destruct at_; [discriminate|reflexivity..]). rewrite Df in E1.
        set (va1 := fun j => if (j =? i)%nat then av else va j).
        destruct (IH (S d) (set_nth acc i at_) a o1 s1 va1 Sk' E1) as (H3' & va' & H5 & H6).
        * rewrite set_nth_length. exact La.
        * intros j e' Ej. unfold va1. destruct (Nat.eqb_spec j i) as [->|Nj].
          -- rewrite nth_error_set in Ej by exact Li. injection Ej as <-. exact Ma.
          -- rewrite nth_error_set_other in Ej by exact Nj. apply Mv, Ej.
        * intros j e' z Ej Iz Fz. unfold va1. destruct (Nat.eqb_spec j i) as [->|Nj]; [|apply (Mc j e' z Ej); [right; exact Iz|exact Fz]].
          assert (e' = e) by congruence. subst e'. exfalso. destruct Fz as (ro & Oz).
          assert (Izd : In z dst_x) by (rewrite <- (firstn_skipn d dst_x), Sk; apply in_or_app; right; right; exact Iz).
          destruct (Iy z ro Izd Oz) as (-> & _). exact (Nx Iz).
        * split; [constructor; [exists lo, hi, st; auto|exact H3']|].
          exists va'. split; [exact H5|]. intros dl F. inversion F as [|? dd ? dl' Md F']; subst. rewrite Skf. cbn [kept place_all].
          change (place_all dl' (fun k => index (v :: kept o1 (skipn (S d) full)) (S k))) with (place_all dl' (index (kept o1 (skipn (S d) full)))).
          change (index (v :: kept o1 (skipn (S d) full)) 0) with v. rewrite oadd_swap, (H6 dl' F').
          destruct Md as (M1 & M2 & M3 & M4). assert (Edd : dd = Dim lo hi st (d_fold dd)) by (destruct dd; cbn in *; f_equal; congruence).
          specialize (Pl (d_fold dd) M4 v Bv). rewrite <- Edd in Pl. unfold f in Pl. rewrite Sv in Pl. rewrite <- (Mc i e x Ee (or_introl eq_refl) Fe) in Pl.
          rewrite oadd_comm. destruct (Nat.lt_ge_cases i (rank bs)) as [Lr|Lr]; unfold rank in Lr.
          -- rewrite (place_all_split (dims bs) i va1 Lr), (place_all_split (dims bs) i va Lr). unfold va1 at 1. rewrite Nat.eqb_refl.
             fold (dim_at bs i). rewrite <- Pl. rewrite <- !oadd_assoc. f_equal. rewrite oadd_comm. f_equal.
             apply place_all_ext. intros q _. unfold va1. destruct (Nat.ltb_spec q i); [destruct (Nat.eqb_spec q i); [lia|reflexivity]|destruct (Nat.eqb_spec (S q) i); [lia|reflexivity]].
          -- assert (Bc : dim_at bs i = broadcast) by (apply nth_overflow; exact Lr). rewrite Bc in Pl. change (place broadcast av) with (Some 0) in Pl. change (place broadcast (va i)) with (Some 0) in Pl.
             rewrite oadd_0_l in Pl. rewrite Pl, oadd_0_r. apply place_all_ext. intros q Hq. unfold va1. destruct (Nat.eqb_spec q i); [lia|reflexivity].
      + cbn [is_copy] in Ec. rewrite undef_free in Ec. cbn [negb] in Ec. injection Ec as <- <-.
        destruct (IH (S d) acc a o1 s1 va Sk' E1 La Mv) as (H3' & va' & H5 & H6).
        * intros i e y Ee Iy Fy. apply (Mc i e y Ee); [right; exact Iy|exact Fy].
        * split.
          { constructor; [|exact H3']. unfold buffer_bounds. exists (d_min (dim_at bd d)), (d_max (dim_at bd d)), 0. cbn [de_bounds de_stride fst snd].
            rewrite !(field_mean W r dst pd bd) by (auto; discriminate). cbn [field_value meaning]. rewrite !dim_int_nat. auto. }
          exists va'. split; [exact H5|]. intros dl F. inversion F as [|? dd ? dl' Md F']; subst. rewrite Skf. cbn [kept place_all].
          change (place_all dl' (fun k => index (v :: kept o1 (skipn (S d) full)) (S k))) with (place_all dl' (index (kept o1 (skipn (S d) full)))).
          rewrite oadd_swap, (H6 dl' F'). destruct Md as (_ & _ & M3 & _). cbn [de_stride meaning] in M3. injection M3 as M3. unfold place. rewrite <- M3. apply oadd_0_l.
  Qed.
End Pass.
