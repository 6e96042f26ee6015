(** Substitution and evaluation on the machine. *)
From Coq Require Import ZArith List Bool Lia.
From Verif Require Import Arith_Model Arith_Proofs Buf_Model Alloc_Model Expr_Model Expr_Spec Expr_Proofs Stmt_Model Stmt_Proofs Rewrite_Proofs
  Simplify_Model Simplify_Proofs Deps_Model Deps_Spec Deps_Proofs Deps_Props Subst_Model Subst_Spec SubstMean_Proofs.
Import ListNotations.
Open Scope Z_scope.

(** ** The value of an expression whose lets bind distinct symbols *)
Section Value.
  Variable W : world.
  Notation V := (value W).
  Lemma value_free e c c' : (forall y, free y e -> c y = c' y) -> V c e = V c' e.
  Proof.
    intros A. unfold value. pose proof (C17_evaluate W e c c' (fun y => free y e) (fun _ F => F) A) as S.
    unfold same_outcome in S. destruct (eval W c e) as [(v, d)|], (eval W c' e) as [(v', d')|]; try tauto. destruct S as (-> & _). reflexivity.
  Qed.
  Lemma value_eq e c c' : ctx_eq c c' -> V c e = V c' e.
  Proof. intros A. apply value_free. intros y _. symmetry. apply A. Qed.
  Lemma value_val e c v c1 : eval W c e = Val (v, c1) -> V c e = Val v.
  Proof. intros E. unfold value. rewrite E. reflexivity. Qed.
  Lemma value_ub e c : eval W c e = UB -> V c e = UB.
  Proof. intros E. unfold value. rewrite E. reflexivity. Qed.

  Lemma value_bin o a b c : lets_distinct a -> V c (EBin o a b) = (va <- V c a ;; vb <- V c b ;; eval_bin o va vb).
  Proof.
    intros D. unfold value. cbn [eval]. destruct (eval W c a) as [(va, c1)|] eqn:E; [|reflexivity]. cbn [bind].
    pose proof (value_eq b c c1 (eval_ctx W a D c va c1 E)) as Q. unfold value in Q. rewrite Q.
    destruct (eval W c1 b) as [(vb, c2)|]; [|reflexivity]. cbn [bind fst]. destruct (eval_bin o va vb); reflexivity.
  Qed.
  Lemma value_not a c : V c (ENot a) = (va <- V c a ;; Val (of_bool (va =? 0))).
  Proof. unfold value. cbn [eval]. destruct (eval W c a) as [(va, c1)|]; reflexivity. Qed.
  Lemma value_select q t f c : lets_distinct q -> V c (ESelect q t f) = (vq <- V c q ;; if truthy vq then V c t else V c f).
  Proof.
    intros D. unfold value at 1 2. cbn [eval]. destruct (eval W c q) as [(vq, c1)|] eqn:E; [|reflexivity]. cbn [bind].
    rewrite (value_eq t c c1), (value_eq f c c1) by exact (eval_ctx W q D c vq c1 E). unfold value. cbn [fst]. destruct (truthy vq); reflexivity.
  Qed.
  Lemma value_let_nil b c : V c (ELet [] b) = V c b.
  Proof. unfold value. cbn [eval eval_lets bind]. destruct (eval W c b) as [(v, d)|]; reflexivity. Qed.
  Lemma value_let s x l b c : lets_distinct x -> V c (ELet ((s, x) :: l) b) = (v <- V c x ;; V (ctx_set c s v) (ELet l b)).
  Proof.
    intros D. unfold value at 1 2. cbn [eval eval_lets]. destruct (eval W c x) as [(v, c1)|] eqn:E; [|reflexivity]. cbn [bind fst].
    rewrite (value_eq (ELet l b) (ctx_set c s v) (ctx_set c1 s v)).
    2: { intros y. unfold ctx_set. destruct (y =? s)%nat; [reflexivity|]. exact (eval_ctx W x D c v c1 E y). }
    unfold value. cbn [eval]. destruct (eval_lets (eval W) l (ctx_set c1 s v)) as [(c2, old)|]; [|reflexivity]. cbn [bind].
    destruct (eval W c2 b) as [(u, c3)|]; reflexivity.
  Qed.
  (** arguments *)
  Fixpoint vargs (c : context) (l : list expr) : res (list (option Z)) :=
    match l with
    | [] => Val []
    | x :: l' => v <- (if defined x then v <- V c x ;; Val (Some v) else Val None) ;; vs <- vargs c l' ;; Val (v :: vs)
    end.
  Fixpoint vshort (stop : bool) (c : context) (l : list expr) : res Z :=
    match l with
    | [] => Val (of_bool (negb stop))
    | x :: l' => v <- V c x ;; if Bool.eqb (truthy v) stop then Val (of_bool stop) else vshort stop c l'
    end.
  Lemma vargs_eq c c' l : ctx_eq c c' -> vargs c l = vargs c' l.
  Proof. intros E. induction l as [|x l IH]; [reflexivity|]. cbn [vargs]. rewrite IH, (value_eq x c c' E). reflexivity. Qed.
  Lemma vshort_eq stop c c' l : ctx_eq c c' -> vshort stop c l = vshort stop c' l.
  Proof. intros E. induction l as [|x l IH]; [reflexivity|]. cbn [vshort]. rewrite IH, (value_eq x c c' E). reflexivity. Qed.
  Lemma args_value l : Forall lets_distinct l -> forall c, (r <- eval_args (eval W) l c ;; Val (fst r)) = vargs c l.
  Proof.
    induction 1 as [|x l D Dl IH]; intros c; [reflexivity|]. cbn [eval_args vargs]. unfold value. destruct (defined x).
    - destruct (eval W c x) as [(v, c1)|] eqn:E; [|reflexivity]. cbn [bind fst]. rewrite (vargs_eq c c1) by exact (eval_ctx W x D c v c1 E). rewrite <- IH.
      destruct (eval_args (eval W) l c1) as [(vs, c2)|]; reflexivity.
    - cbn [bind]. rewrite <- IH. destruct (eval_args (eval W) l c) as [(vs, c2)|]; reflexivity.
  Qed.
  Lemma at_value l : Forall lets_distinct l -> forall n c, (r <- eval_at (eval W) n l c ;; Val (fst r)) = vargs c (firstn n l).
  Proof.
    induction 1 as [|x l D Dl IH]; intros n c; [destruct n; reflexivity|]. destruct n; [reflexivity|]. cbn [eval_at firstn vargs]. unfold value. destruct (defined x).
    - destruct (eval W c x) as [(v, c1)|] eqn:E; [|reflexivity]. cbn [bind fst]. rewrite (vargs_eq c c1) by exact (eval_ctx W x D c v c1 E). rewrite <- IH.
      destruct (eval_at (eval W) n l c1) as [(vs, c2)|]; reflexivity.
    - cbn [bind]. rewrite <- IH. destruct (eval_at (eval W) n l c) as [(vs, c2)|]; reflexivity.
  Qed.
  Lemma short_value stop l : Forall lets_distinct l -> forall c, (r <- eval_short (eval W) stop l c ;; Val (fst r)) = vshort stop c l.
  Proof.
    induction 1 as [|x l D Dl IH]; intros c; [reflexivity|]. cbn [eval_short vshort]. unfold value. destruct (eval W c x) as [(v, c1)|] eqn:E; [|reflexivity].
    cbn [bind fst]. rewrite (vshort_eq stop c c1) by exact (eval_ctx W x D c v c1 E). rewrite <- IH. destruct (Bool.eqb (truthy v) stop); reflexivity.
  Qed.
  (** the value of a call from the values of its arguments *)
  Definition vcall (fn : intrinsic) (t : option nat) (c : context) (l : list expr) : res Z :=
    match fn with
    | i_none => match t with None => UB | Some n => vs <- vargs c l ;; Val (w_user W n vs) end
    | i_positive_infinity | i_negative_infinity | i_indeterminate => UB
    | i_abs => match l with [x] => v <- V c x ;; cabs 64 v | _ => UB end
    | i_and_then => vshort false c l
    | i_or_else => vshort true c l
    | i_buffer_at =>
        match l with
        | EVar s f_none _ :: at_ => match w_buf W (c s) with
                                    | Some b => vs <- vargs c (firstn (rank b) at_) ;; Val (ptr_value (buffer_at b vs))
                                    | None => UB
                                    end
        | _ => UB
        end
    | _ => vs <- vargs c l ;; Val (w_intrinsic W fn vs)
    end.
  Lemma value_call fn t l c : Forall lets_distinct l -> V c (ECall fn t l) = vcall fn t c l.
  Proof.
    intros D.
    assert (G : forall g, (r <- (r <- eval_args (eval W) l c ;; (let '(vs, c1) := r in Val (g vs : Z, c1))) ;; Val (fst r)) = (vs <- vargs c l ;; Val (g vs))).
    { intros g. rewrite <- (args_value l D). destruct (eval_args (eval W) l c) as [(vs, c1)|]; reflexivity. }
    unfold value. cbn [eval]. unfold vcall. destruct fn; try apply G; try reflexivity.
    - destruct t; [apply G|reflexivity].
    - destruct l as [|x [|]]; try reflexivity. unfold value. destruct (eval W c x) as [(v, c1)|]; [|reflexivity]. cbn [bind fst]. destruct (cabs 64 v); reflexivity.
    - apply (short_value false l D).
    - apply (short_value true l D).
    - destruct l as [|x l]; [reflexivity|]. destruct x; try reflexivity. destruct f; try reflexivity. destruct (w_buf W (c sym)) as [b|]; [|reflexivity].
      inversion D; subst. rewrite <- (at_value l) by assumption. destruct (eval_at (eval W) (rank b) l c) as [(vs, c1)|]; reflexivity.
  Qed.
End Value.

(** ** Clearing explicit minima *)
Section Clear.
  Variable W : world.
  Variable c : context.
  Lemma vargs_clear s b : w_buf W (c s) = Some b -> forall l d n, 0 <= d ->
    match vargs W c (firstn n l), vargs W c (firstn n (clear_mins s d l)) with
    | UB, UB => True
    | Val vs, Val vs' => Forall2 (fun q q' => q' = q \/ q' = None) vs vs' /\
        forall i, nth_error vs' i = Some None -> nth_error vs i = Some None \/ nth_error vs i = Some (Some (d_min (dim_at b (Z.to_nat d + i))))
    | _, _ => False
    end.
  Proof.
    intros Hb. induction l as [|a l IH]; intros d n Hd.
    - cbn [clear_mins]. rewrite firstn_nil. cbn [vargs]. split; [constructor|]. intros [|i]; discriminate.
    - destruct n; cbn [clear_mins firstn vargs]; [split; [constructor|]; intros [|i]; discriminate|].
      specialize (IH (d + 1) n ltac:(lia)).
      destruct (is_min_of a s d) eqn:Mn.
      + unfold is_min_of in Mn. destruct a; try discriminate. destruct f; try discriminate.
        apply andb_true_iff in Mn as [M1 M2]. apply Nat.eqb_eq in M1. apply Z.eqb_eq in M2. subst.
        cbn [defined]. unfold value at 1. cbn [eval]. rewrite Hb. cbn [bind fst].
        destruct (vargs W c (firstn n l)) as [vs|], (vargs W c (firstn n (clear_mins s (d + 1) l))) as [vs'|]; try contradiction; cbn [bind]; [|exact I].
        destruct IH as (F & N). split; [constructor; auto|]. intros [|i] Hi; cbn [nth_error] in *.
        * right. cbn [field_value]. unfold dim_int. destruct (Z.ltb_spec d 0); [lia|]. rewrite Nat.add_0_r. reflexivity.
        * destruct (N i Hi) as [K|K]; [auto|right]. rewrite K. do 4 f_equal. lia.
      + destruct (if defined a then v <- value W c a ;; Val (Some v) else Val None) as [q|]; cbn [bind]; [|exact I].
        destruct (vargs W c (firstn n l)) as [vs|], (vargs W c (firstn n (clear_mins s (d + 1) l))) as [vs'|]; try contradiction; cbn [bind]; [|exact I].
        destruct IH as (F & N). split; [constructor; auto|]. intros [|i] Hi; cbn [nth_error] in *; [left; exact Hi|].
        destruct (N i Hi) as [K|K]; [auto|right]. rewrite K. do 4 f_equal. lia.
  Qed.
  Lemma vargs_app l : forall k n,
    match vargs W c (firstn n (l ++ repeat EUndef k)), vargs W c (firstn n l) with
    | UB, UB => True
    | Val vs, Val vs' => exists j, vs = vs' ++ repeat None j
    | _, _ => False
    end.
  Proof.
    induction l as [|a l IH]; intros k n.
    - cbn [app]. rewrite firstn_nil. cbn [vargs]. revert n. induction k; intros n.
      + cbn [repeat]. rewrite firstn_nil. exists O. reflexivity.
      + destruct n; cbn [repeat firstn vargs defined bind]; [exists O; reflexivity|]. specialize (IHk n).
        destruct (vargs W c (firstn n (repeat EUndef k))) as [vs|]; [|contradiction]. destruct IHk as (j & ->). exists (S j). reflexivity.
    - destruct n; cbn [app firstn vargs]; [exists O; reflexivity|]. specialize (IH k n).
      destruct (if defined a then v <- value W c a ;; Val (Some v) else Val None) as [q|]; cbn [bind]; [|exact I].
      destruct (vargs W c (firstn n (l ++ repeat EUndef k))) as [vs|], (vargs W c (firstn n l)) as [vs'|]; try contradiction; cbn [bind]; [|exact I].
      destruct IH as (j & ->). exists j. reflexivity.
  Qed.
  Lemma value_at_clear t s d l : (forall b, w_buf W (c s) = Some b -> based_at_min b) ->
    vcall W i_buffer_at t c (EVar s f_none d :: pop_undefined (clear_mins s 0 l)) = vcall W i_buffer_at t c (EVar s f_none d :: l).
  Proof.
    intros P. cbn [vcall]. destruct (w_buf W (c s)) as [b|] eqn:Hb; [|reflexivity].
    pose proof (vargs_clear s b Hb l 0 (rank b) ltac:(lia)) as C.
    destruct (pop_app (clear_mins s 0 l)) as [k Ek]. rewrite Ek in C.
    pose proof (vargs_app (pop_undefined (clear_mins s 0 l)) k (rank b)) as A.
    destruct (vargs W c (firstn (rank b) l)) as [vs|];
      destruct (vargs W c (firstn (rank b) (pop_undefined (clear_mins s 0 l) ++ repeat EUndef k))) as [v1|]; try contradiction;
      destruct (vargs W c (firstn (rank b) (pop_undefined (clear_mins s 0 l)))) as [v2|]; try contradiction; [|reflexivity].
    destruct C as (F & N), A as (j & ->). cbn [bind]. do 2 f_equal. unfold buffer_at. rewrite <- (buffer_at_pad (dims b) v2 j).
    apply buffer_at_none; [apply (P b eq_refl)|exact F|].
    intros i dd Hd _ Hn. destruct (N i Hn) as [K|K]; [auto|right]. rewrite K. do 3 f_equal.
    unfold dim_at. cbn [Z.to_nat Nat.add]. apply nth_error_nth. exact Hd.
  Qed.
End Clear.

(** ** The simulation *)
Section Sim.
  Variable W : world.
  Variable x : nat.
  Variable rep : expr.
  Variable v : Z.
  Hypothesis Drep : lets_distinct rep.
  Notation V := (value W).
  Notation mut := (var_mutate x rep).
  Definition crel (c c' : context) : Prop := (forall y, y <> x -> c y = c' y) /\ c' x = v.
  Definition cgood (c : context) : Prop := V c rep = Val v.
  Notation nc := (no_capture x (fun s => free s rep)).
  (** nothing is captured, or the target has the value of the replacement anyway *)
  Definition ccap (c : context) (P : Prop) : Prop := P \/ c x = v.
  Lemma ccap_imp c (P Q : Prop) : (P -> Q) -> ccap c P -> ccap c Q.
  Proof. unfold ccap. tauto. Qed.
  Definition vsok (e : expr) : Prop := forall c c' e', crel c c' -> (free x e -> cgood c) ->
    ccap c (nc e) -> lets_distinct e -> based W e -> mut e = Val e' -> lets_distinct e' /\ V c e' = V c' e.

  Lemma crel_set c c' s u : crel c c' -> s <> x -> crel (ctx_set c s u) (ctx_set c' s u).
  Proof.
    intros (A & B) N. split.
    - intros y Ny. unfold ctx_set. destruct (y =? s)%nat; auto.
    - unfold ctx_set. destruct (Nat.eqb_spec x s); [congruence|exact B].
  Qed.
  Lemma cgood_set c s u : cgood c -> ~ free s rep -> cgood (ctx_set c s u).
  Proof.
    intros G N. unfold cgood in *. rewrite <- G. apply value_free. intros y F. unfold ctx_set. destruct (Nat.eqb_spec y s); [congruence|reflexivity].
  Qed.
  Lemma enter_true s : enter_var x rep s = true -> s <> x /\ ~ free s rep.
  Proof.
    unfold enter_var. rewrite andb_true_iff, !negb_true_iff, Nat.eqb_neq. intros (A & B). split; [exact A|].
    intros F. apply C17_depends_on_exact in F. congruence.
  Qed.
  Lemma enter_false s : enter_var x rep s = false -> s = x \/ free s rep.
  Proof.
    unfold enter_var. rewrite andb_false_iff, !negb_false_iff, Nat.eqb_eq. intros [A|A]; [auto|right]. apply C17_depends_on_exact. exact A.
  Qed.
  Lemma distinct_let s u l b : lets_distinct (ELet ((s, u) :: l) b) <-> ~ In s (map fst l) /\ lets_distinct u /\ lets_distinct (ELet l b).
  Proof.
    cbn [lets_distinct map fst snd]. split.
    - intros (N & (A & B) & C). inversion N; subst. tauto.
    - intros (N & A & B & C & D). split; [constructor; assumption|tauto].
  Qed.
  Lemma distinct_call fn t l : lets_distinct (ECall fn t l) <-> Forall lets_distinct l.
  Proof.
    cbn [lets_distinct]. induction l as [|a l IH]; [split; auto; constructor|]. split.
    - intros (A & B). constructor; [exact A|apply IH, B].
    - intros H. inversion H; subst. split; [assumption|apply IH; assumption].
  Qed.

  Lemma lets_vsok b : vsok b -> forall l, Forall (fun p => vsok (snd p)) l -> vsok (ELet l b).
  Proof.
    intros Hb l Hl c c' e' R G C D Ba E. unfold var_mutate in E. cbn [mutate] in E.
    apply bind_inv in E as ((l', all) & El & E). apply bind_inv in E as (b' & Eb & E). injection E as <-.
    enough (Q : (lets_distinct (ELet l' b') /\ map fst l' = map fst l) /\ V c (ELet l' b') = V c' (ELet l b)) by tauto.
    revert l' all c c' R G C D Ba El Eb. induction Hl as [|(s, u) l Hv Hl IH]; intros l' all c c' R G C D Ba El Eb.
    - cbn [mutate_lets] in El. injection El as <- <-. rewrite !value_let_nil.
      destruct (Hb c c' b' R) as (Q1 & Q2); auto; [apply D|]. split; [|exact Q2]. split; [|reflexivity]. cbn. split; [constructor|auto].
    - cbn [mutate_lets] in El. apply bind_inv in El as (u' & Ev & El). cbn [no_capture no_capture_lets] in C.
      assert (Cv : ccap c (nc u)) by (eapply ccap_imp; [|exact C]; tauto).
      cbn [snd] in Hv. apply distinct_let in D as (Ds & Du & D).
      destruct (Hv c c' u' R) as (Du' & Kv); auto.
      { intros K; apply G, free_cons; auto. }
      { intros K; apply Ba; cbn [takes_address]; auto. }
      assert (Bl : based W (ELet l b)) by (intros K; apply Ba; cbn [takes_address]; right; exact K).
      destruct (enter_var x rep s) eqn:En.
      + destruct (enter_true s En) as (Ns & Nf). apply bind_inv in El as ((l1, al) & El & K). injection K as <- <-.
        assert (C' : forall w, ccap (ctx_set c s w) (no_capture_lets x (fun s => free s rep) nc b l)).
        { intros w. destruct C as [(_ & [->|(_ & C)])|C]; [congruence|left; exact C|right]. unfold ctx_set. destruct (Nat.eqb_spec x s); [congruence|exact C]. }
        assert (Step : forall w, (lets_distinct (ELet l1 b') /\ map fst l1 = map fst l) /\ V (ctx_set c s w) (ELet l1 b') = V (ctx_set c' s w) (ELet l b)).
        { intros w. eapply IH; [apply crel_set; assumption| |apply C'|exact D|exact Bl|exact El|exact Eb].
          intros K; apply cgood_set; [apply G, free_cons; auto|exact Nf]. }
        split.
        * destruct (Step 0) as ((Q1 & Q2) & _). rewrite distinct_let. cbn [map fst]. rewrite Q2. auto.
        * rewrite !value_let by assumption. rewrite Kv. destruct (V c' u) as [w|]; [|reflexivity]. cbn [bind]. apply Step.
      + injection El as <- <-. injection Eb as <-. split; [rewrite distinct_let; auto|].
        rewrite !value_let by assumption. rewrite Kv. destruct (V c' u) as [w|]; [|reflexivity]. cbn [bind]. apply value_free.
        intros y Fy. unfold ctx_set. destruct (Nat.eqb_spec y s); [reflexivity|]. destruct R as (R & Rx).
        destruct (Nat.eq_dec y x) as [->|Ny]; [|exact (R y Ny)]. destruct C as [(_ & C)|C]; [|congruence].
        destruct (enter_false s En) as [->|Fs]; [congruence|]. destruct C as [->|(Cs & _)]; [congruence|].
        exfalso. apply Cs; [|exact Fs]. apply free_lets. exact Fy.
  Qed.

  Lemma mut_defined e e' : (free x e -> rep <> EUndef) -> mut e = Val e' -> defined e' = defined e.
  Proof.
    intros N E. unfold var_mutate in E. destruct e; cbn [mutate] in E; try (injection E as <-; reflexivity).
    - unfold visit_var in E. destruct (Nat.eqb_spec sym x) as [->|].
      + assert (R : rep <> EUndef) by (apply N; exists (RField f); cbn; auto).
        destruct f; [injection E as <-; destruct rep; try reflexivity; congruence|..]; (apply bind_inv in E as (y & _ & E); injection E as <-; reflexivity).
      + injection E as <-. reflexivity.
    - apply bind_inv in E as ((l', al) & _ & E). apply bind_inv in E as (b' & _ & E). injection E as <-. reflexivity.
    - apply bind_inv in E as (a' & _ & E). apply bind_inv in E as (b' & _ & E). injection E as <-. unfold make_bin. destruct (_ && _); reflexivity.
    - apply bind_inv in E as (a' & _ & E). injection E as <-. reflexivity.
    - apply bind_inv in E as (a' & _ & E). apply bind_inv in E as (b' & _ & E). apply bind_inv in E as (d' & _ & E). injection E as <-. reflexivity.
    - apply bind_inv in E as (a' & _ & E). apply bind_inv in E as (b' & _ & E). injection E as <-. reflexivity.
  Qed.

  Lemma args_vsok c c' l l' : crel c c' -> Forall vsok l -> (forall a, In a l -> free x a -> cgood c) -> ccap c (no_capture_all nc l) ->
    Forall lets_distinct l -> (forall a, In a l -> based W a) -> mutate_args mut l = Val l' ->
    Forall lets_distinct l' /\ (forall n, vargs W c (firstn n l') = vargs W c' (firstn n l)) /\ (forall stop, vshort W stop c l' = vshort W stop c' l)
    /\ Forall2 (fun a' a => V c a' = V c' a) l' l.
  Proof.
    intros R Hl G C D Ba E. apply mutate_args_inv in E. induction E as [|a a' l l' Ea E IH].
    { split; [constructor|]. split; [intros [|n]; reflexivity|]. split; [reflexivity|constructor]. }
    inversion Hl as [|? ? Ha Hl']; subst. inversion D as [|? ? Da D']; subst. cbn [no_capture_all] in C.
    assert (Ca : ccap c (nc a)) by (eapply ccap_imp; [|exact C]; tauto). apply (ccap_imp _ _ (no_capture_all nc l)) in C; [|tauto].
    destruct (Ha c c' a' R) as (K1 & K2); auto; [intros K; apply (G a); cbn; auto|apply Ba; cbn; auto|].
    destruct IH as (I1 & I2 & I3 & I4); auto; [intros b I; apply G; cbn; auto|intros b I; apply Ba; cbn; auto|].
    assert (De : defined a' = defined a).
    { apply (mut_defined a a'); [|exact Ea]. intros F Er. specialize (G a (or_introl eq_refl) F). unfold cgood in G. rewrite Er in G. discriminate G. }
    split; [constructor; auto|]. split; [|split].
    - intros [|n]; [reflexivity|]. cbn [firstn vargs]. rewrite De, K2, I2. reflexivity.
    - intros stop. cbn [vshort]. rewrite K2, I3. reflexivity.
    - constructor; auto.
  Qed.
  Lemma value_make_bin o a b c : lets_distinct a -> lets_distinct b -> V c (make_bin o a b) = (va <- V c a ;; vb <- V c b ;; eval_bin o va vb).
  Proof.
    intros Da Db. unfold make_bin. destruct (commutative o && should_commute a b) eqn:E; [|apply value_bin; exact Da].
    rewrite value_bin by exact Db. apply andb_true_iff in E as (E & _). destruct (V c a) as [va|], (V c b) as [vb|]; try reflexivity. cbn [bind].
    destruct o; try discriminate; cbn [eval_bin];
      [unfold cadd; f_equal; apply Z.add_comm|unfold cmul; f_equal; apply Z.mul_comm|rewrite Z.min_comm|rewrite Z.max_comm|rewrite Z.eqb_sym|rewrite Z.eqb_sym|rewrite andb_comm|rewrite orb_comm]; reflexivity.
  Qed.
  Lemma clear_distinct s l : Forall lets_distinct l -> forall d, Forall lets_distinct (clear_mins s d l).
  Proof. induction 1; intros d; cbn [clear_mins]; constructor; auto. destruct (is_min_of x0 s d); [exact I|assumption]. Qed.
  Lemma pop_distinct l : Forall lets_distinct l -> Forall lets_distinct (pop_undefined l).
  Proof. intros H. destruct (pop_app l) as [k E]. rewrite E in H. apply Forall_app in H. tauto. Qed.

  Lemma sub_value e : vsok e.
  Proof.
    induction e as [|s f d|l b IHl IHb|o a b IHa IHb|a IHa|q t f IHq IHt IHf|fn t l IHl|k] using expr_ind'.
    - intros c c' e' R G C D Ba E. injection E as <-. split; [exact I|reflexivity].
    - intros c c' e' R G C D Ba E. unfold var_mutate in E. cbn [mutate] in E. unfold visit_var in E. destruct (Nat.eqb_spec s x) as [->|N].
      + assert (Gc : cgood c) by (apply G; exists (RField f); cbn; auto). unfold cgood in Gc. destruct R as (_ & R).
        destruct f; [injection E as <-; split; [exact Drep|]; rewrite Gc; unfold value; cbn [eval bind fst]; rewrite R; reflexivity|..];
          (apply bind_inv in E as (y & Ey & E); injection E as <-; split; [exact I|]; destruct rep as [|y' f' k'| | | | | |]; try discriminate; destruct f'; try discriminate;
           injection Ey as ->; unfold value in *; cbn [eval bind fst] in *; injection Gc as ->; rewrite R; destruct (w_buf W v); reflexivity).
      + injection E as <-. split; [exact I|]. unfold value. cbn [eval]. destruct R as (R & _). rewrite (R s N). destruct f; try reflexivity; destruct (w_buf W (c' s)); reflexivity.
    - apply lets_vsok; assumption.
    - intros c c' e' R G C (Da & Db) Ba E. unfold var_mutate in E. cbn [mutate] in E. apply bind_inv in E as (a' & Ea & E). apply bind_inv in E as (b' & Eb & E). injection E as <-. cbn [no_capture] in C.
      assert (Ca : ccap c (nc a)) by (eapply ccap_imp; [|exact C]; tauto). assert (Cb : ccap c (nc b)) by (eapply ccap_imp; [|exact C]; tauto).
      destruct (IHa c c' a' R) as (A1 & A2); auto; [intros (ro & O); apply G; exists ro; cbn; auto|intros K; apply Ba; cbn; auto|].
      destruct (IHb c c' b' R) as (B1 & B2); auto; [intros (ro & O); apply G; exists ro; cbn; auto|intros K; apply Ba; cbn; auto|].
      split; [unfold make_bin; destruct (_ && _); cbn; auto|]. rewrite value_make_bin, value_bin, A2, B2 by assumption. reflexivity.
    - intros c c' e' R G C D Ba E. unfold var_mutate in E. cbn [mutate] in E. apply bind_inv in E as (a' & Ea & E). injection E as <-.
      destruct (IHa c c' a' R) as (A1 & A2); auto. split; [exact A1|]. rewrite !value_not, A2. reflexivity.
    - intros c c' e' R G C (Dq & Dt & Df) Ba E. unfold var_mutate in E. cbn [mutate] in E. apply bind_inv in E as (q' & Eq & E). apply bind_inv in E as (t' & Et & E).
      apply bind_inv in E as (f' & Ef & E). injection E as <-. cbn [no_capture] in C.
      assert (Cq : ccap c (nc q)) by (eapply ccap_imp; [|exact C]; tauto). assert (Ct : ccap c (nc t)) by (eapply ccap_imp; [|exact C]; tauto).
      assert (Cf : ccap c (nc f)) by (eapply ccap_imp; [|exact C]; tauto).
      destruct (IHq c c' q' R) as (Q1 & Q2); auto; [intros (ro & O); apply G; exists ro; cbn; auto|intros K; apply Ba; cbn; auto|].
      destruct (IHt c c' t' R) as (T1 & T2); auto; [intros (ro & O); apply G; exists ro; cbn; auto|intros K; apply Ba; cbn; auto|].
      destruct (IHf c c' f' R) as (F1 & F2); auto; [intros (ro & O); apply G; exists ro; cbn; auto|intros K; apply Ba; cbn; auto|].
      split; [cbn; auto|]. rewrite !value_select, Q2, T2, F2 by assumption. reflexivity.
    - intros c c' e' R G C D Ba E. unfold var_mutate in E. cbn [mutate] in E. apply bind_inv in E as (l' & El & E). apply bind_inv in E as (l'' & El' & E). injection E as <-.
      cbn [no_capture] in C. apply distinct_call in D. assert (Dd : fn = i_buffer_at \/ fn <> i_buffer_at) by (destruct fn; auto; right; discriminate).
      rewrite distinct_call. destruct Dd as [->|Dd].
      + destruct l as [|e l].
        { injection El as <-. injection El' as <-. split; [constructor|]. rewrite !value_call by constructor. reflexivity. }
        cbn [mutate_args] in El. apply bind_inv in El as (h & Eh & El). apply bind_inv in El as (m & Em & El). injection El as <-.
        inversion IHl as [|? ? IHe IHl']; subst. cbn [no_capture_all] in C. apply (ccap_imp _ _ (no_capture_all nc l)) in C; [|tauto]. inversion D as [|? ? De Dl]; subst.
        destruct (args_vsok c c' l m) as (M1 & M2 & _ & _); auto.
        { intros a I Fa. apply G. eapply free_at_tail; eauto. }
        { intros a I T. apply Ba. cbn. exact Logic.I. }
        assert (Q : forall s k, h = EVar s f_none k -> Forall lets_distinct l'' /\
           V c (ECall i_buffer_at t l'') = V c (ECall i_buffer_at t (EVar s f_none k :: m))).
        { intros s k ->. cbn [finish_at] in El'. unfold pad in El'. cbn [Nat.sub repeat] in El'. rewrite app_nil_r in El'.
          rewrite (fill_mins_clear (fun _ _ => EUndef) s m (fun _ => eq_refl) 0) in El'. cbn [bind] in El'. injection El' as <-. cbn [Z.of_nat].
          assert (DD : Forall lets_distinct (EVar s f_none k :: pop_undefined (clear_mins s 0 m))).
          { constructor; [exact I|]. apply pop_distinct, clear_distinct, M1. }
          split; [exact DD|]. rewrite !value_call; [|constructor; [exact I|exact M1]|exact DD]. apply value_at_clear. intros b Hb. apply (Ba I (c s) b Hb). }
        assert (NV : (forall s k, h <> EVar s f_none k) -> h = EUndef /\ l'' = h :: m).
        { intros N. destruct h as [|s' f' k'| | | | | |]; cbn [finish_at] in El'; try discriminate; [injection El' as <-; auto|]. destruct f'; try discriminate. exfalso. eapply N. reflexivity. }
        destruct e as [|s f d| | | | | |].
        * injection Eh as <-. destruct (NV ltac:(discriminate)) as (_ & ->). split; [constructor; auto|]. rewrite !value_call by (constructor; auto). reflexivity.
        * (* a variable *)
          cbn [mutate] in Eh. unfold visit_var in Eh. destruct f.
          { destruct (Nat.eqb_spec s x) as [->|N].
            - injection Eh as <-. assert (Gc : cgood c) by (apply G; exists RAddress; cbn; auto). unfold cgood in Gc. destruct R as (_ & R).
              destruct rep as [|y f' k'| | | | | |]; try (destruct (NV ltac:(discriminate)) as (K & _); discriminate K); [discriminate Gc|].
              destruct f'; try (destruct (NV ltac:(discriminate)) as (K & _); discriminate K).
              destruct (Q y k' eq_refl) as (Q1 & Q2). split; [exact Q1|]. rewrite Q2, !value_call by (constructor; auto; exact Logic.I). cbn [vcall].
              unfold value in Gc. cbn [eval bind fst] in Gc. injection Gc as Gc. rewrite Gc, R. destruct (w_buf W v) as [b|]; [|reflexivity]. rewrite M2. reflexivity.
            - injection Eh as <-. destruct (Q s d eq_refl) as (Q1 & Q2). split; [exact Q1|]. rewrite Q2, !value_call by (constructor; auto; exact Logic.I). cbn [vcall].
              destruct R as (R & _). rewrite (R s N). destruct (w_buf W (c' s)) as [b|]; [|reflexivity]. rewrite M2. reflexivity. }
          all: (assert (H : exists s' g, h = EVar s' g d /\ g <> f_none) by (destruct (s =? x)%nat; [apply bind_inv in Eh as (y & _ & Eh)|]; injection Eh as <-; do 2 eexists; (split; [reflexivity|discriminate]));
            destruct H as (s' & g & -> & Ng); destruct g; try congruence; discriminate El').
        * cbn [mutate] in Eh. apply bind_inv in Eh as ((? & ?) & _ & Eh). apply bind_inv in Eh as (? & _ & Eh). injection Eh as <-. destruct (NV ltac:(discriminate)) as (K & _); discriminate K.
        * cbn [mutate] in Eh. apply bind_inv in Eh as (? & _ & Eh). apply bind_inv in Eh as (? & _ & Eh). injection Eh as <-. unfold make_bin in NV. destruct (_ && _); destruct (NV ltac:(discriminate)) as (K & _); discriminate K.
        * cbn [mutate] in Eh. apply bind_inv in Eh as (? & _ & Eh). injection Eh as <-. destruct (NV ltac:(discriminate)) as (K & _); discriminate K.
        * cbn [mutate] in Eh. apply bind_inv in Eh as (? & _ & Eh). apply bind_inv in Eh as (? & _ & Eh). apply bind_inv in Eh as (? & _ & Eh). injection Eh as <-. destruct (NV ltac:(discriminate)) as (K & _); discriminate K.
        * cbn [mutate] in Eh. apply bind_inv in Eh as (? & _ & Eh). apply bind_inv in Eh as (? & _ & Eh). injection Eh as <-. destruct (NV ltac:(discriminate)) as (K & _); discriminate K.
        * injection Eh as <-. destruct (NV ltac:(discriminate)) as (K & _); discriminate K.
      + assert (E2 : l'' = l') by (destruct fn; try (injection El' as ->; reflexivity); congruence). subst l''.
        destruct (args_vsok c c' l l') as (M1 & M2 & M3 & M4); auto.
        { intros a I Fa. apply G. eapply free_arg; eauto. intros ->; congruence. }
        { intros a I T. apply Ba. destruct fn; try (cbn [takes_address]; exact (any_takes a l I T)). exact Logic.I. }
        split; [exact M1|]. rewrite !value_call by assumption.
        assert (M2' : vargs W c l' = vargs W c' l).
        { specialize (M2 (length l + length l')%nat). rewrite !firstn_all2 in M2 by lia. exact M2. }
        destruct fn; cbn [vcall]; rewrite ?M2', ?M3; try reflexivity; [|congruence].
        inversion M4 as [|a1 a2 q1 q2 U V0]; subst; [reflexivity|]. inversion V0; subst; [|reflexivity]. rewrite U. reflexivity.
    - intros c c' e' R G C D Ba E. injection E as <-. split; [exact I|reflexivity].
  Qed.
End Sim.
