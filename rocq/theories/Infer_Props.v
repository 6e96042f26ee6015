(** C63: bounds inference.  If the checks that the pipeline makes hold, every element that the
    functions of the pipeline read to compute the pipeline outputs is in its buffer.

    [C63_needed_inside] is the claim for buffers whose dimensions are the inferred ones or for
    which the checks are made.  [C63_unchecked] shows that for a buffer whose bounds were given
    by the user, but not its strides, the simplifier drops the checks; [C63_small_refuted] that
    then elements outside of the buffer are read.  [C63_output_refuted]: there are no checks for
    a pipeline output that is also read inside of the pipeline. *)
From Coq Require Import ZArith List Bool Lia.
From Verif Require Import Arith_Model Arith_Proofs Buf_Model Alloc_Model Expr_Model Expr_Spec Expr_Proofs Match_Model Rewrite_Model Interval_Model Interval_Spec Interval_Props
  Deps_Spec BoundsOf_Spec Knowledge_Model Simplifier_Model Simplifier_Spec SimplifierGuard_Model SimplifierGuard_Spec SimplifierGuard_Proofs SimplifierApi_Proofs SimplifierCheck_Model
  Simplifier_Props Infer_Model Infer_Spec Infer_Proofs.
Import ListNotations.
Open Scope Z_scope.

(** the values of the dimension variables are in the buffers of the outputs *)
Definition in_outputs (W : world) (r : env) (f : func) (i : input) (x : nat -> Z) : Prop :=
  forall v, dim_var f v -> exists o d k b, In o (f_outputs f) /\ nth_error (o_dims o) d = Some v /\ nth_unsliced (in_slice i) d k /\
    buffer_of W r (o_sym o) b /\ d_min (dim_at b k) <= x v <= d_max (dim_at b k).

(** A pipeline and the buffers it runs on. *)
Record pipeline_ok (W : world) (r : env) (order : list func) (outputs : list nat) : Prop := {
  (** the outputs of the functions are buffers, their symbols are not dimension variables, and
      the dimension variables are dimensions of the buffers *)
  po_outputs : forall f o, In f order -> In o (f_outputs f) -> exists b, buffer_of W r (o_sym o) b;
  po_symbols : forall f o, In f order -> In o (f_outputs f) -> ~ dim_var f (o_sym o);
  po_dims : forall f i o d v k b, In f order -> In i (f_inputs f) -> In o (f_outputs f) -> nth_error (o_dims o) d = Some v ->
    nth_unsliced (in_slice i) d k -> buffer_of W r (o_sym o) b -> (k < rank b)%nat;
  (** the inputs are buffers of the right rank *)
  po_rank : forall f i, In f order -> In i (f_inputs f) -> exists b, buffer_of W r (in_sym i) b /\ rank b = in_rank i;
  (** pipeline outputs are not read *)
  po_inputs : forall f i, In f order -> In i (f_inputs f) -> ~ In (in_sym i) outputs;
  (** a bound of which is_point is true has equal ends *)
  po_points : forall f i b, In f order -> In i (f_inputs f) -> In b (in_bounds i) -> interval_ok b }.

(** the runs of bounds_of are runs that C48 accepts, and their results do not mention the
    dimension variables *)
Definition accepted (W : world) (r : env) same reuse reuse_select fuel (order : list func) : Prop :=
  forall f i, In f order -> In i (f_inputs f) ->
  let ob := get_output_bounds (f_outputs f) (in_slice i) in
  (forall b x, In b (in_bounds i) -> in_outputs W r f i x ->
     exists G j, guards_sound W (with_dims r f x) reuse reuse_select G /\
       bounds_of_interval (guarded_prims G W same reuse reuse_select) ob (fun _ => None) fuel b = Val j) /\
  (forall box, compute_input_bounds (code_prims W same reuse reuse_select) fuel ob i = Val box ->
     forall j v, In j box -> dim_var f v -> ~ free v (i_min j) /\ ~ free v (i_max j)).

(** the inferred bounds and the dimensions of the buffers: the checks are made and hold, or the
    dimensions are the inferred ones *)
Definition sufficient (W : world) (r : env) (m : box_map) (outputs : list nat) : Prop :=
  forall s box b, m s = Some box -> ~ In s outputs -> buffer_of W r s b ->
    exists ds, describes W r ds b /\
      (Forall (holds W r) (input_checks ds box) \/ Forall (holds W r) (allocation_checks ds box) \/ ds = inferred_default box).

Theorem C63_needed_inside W r same reuse reuse_select fuel rank_of order outputs m :
  sensible W -> pipeline_ok W r order outputs -> accepted W r same reuse reuse_select fuel order ->
  compute_allocation_bounds (code_prims W same reuse reuse_select) fuel rank_of order outputs = Val m ->
  sufficient W r m outputs ->
  forall s p, needed W r order outputs s p -> exists b, buffer_of W r s b /\ inside b p.
Proof.
  intros HW OK AC CM SF. set (code := code_prims W same reuse reuse_select) in *.
  apply bind_val in CM as (m0 & CM & Q).
  apply needed_ind'; [intros s b p I B Ins; eauto|].
  intros f i x b q p If Ii Hx Acc B Lo. exists b. split; [exact B|].
  destruct (AC f i If Ii) as (A1 & A2). set (ob := get_output_bounds (f_outputs f) (in_slice i)) in *.
  (* the values of the variables are in the buffers *)
  assert (InO : in_outputs W r f i x).
  { intros v D. destruct (Hx v D) as (o & d & k & e & Io & Nd & U & (bo & Bo & Ino) & E). exists o, d, k, bo. repeat (split; [assumption|]). rewrite E.
    apply Ino. exact (po_dims _ _ _ _ OK f i o d v k bo If Ii Io Nd U Bo). }
  set (r' := with_dims r f x).
  (* get_output_bounds has the bounds of the variables *)
  assert (GO : given_ok W r' ob (fun _ => None)).
  { split; [|intros s m' X; discriminate X].
    assert (Ch : exists bufs : nat -> buf, forall o, In o (f_outputs f) -> buffer_of W r (o_sym o) (bufs (o_sym o))).
    { exists (fun s => match r s with Fin z => match w_buf W z with Some b' => b' | None => b end | _ => b end). intros o Io.
      destruct (po_outputs _ _ _ _ OK f o If Io) as (bo & z & R & Bz). exists z. rewrite R, Bz. auto. }
    destruct Ch as (bufs & Ch).
    assert (Sn : seen_ok W r' (in_slice i) bufs ob (fun s d v => False \/ exists o, In o (f_outputs f) /\ o_sym o = s /\ In (d, v) (dims_of_output o))).
    { apply add_outputs_ok; [|intros v; cbn beta iota; auto]. intros o Io. apply buffer_with_dims; [exact (po_symbols _ _ _ _ OK f o If Io)|exact (Ch o Io)]. }
    intros v iv E. specialize (Sn v). fold ob in Sn. rewrite E in Sn. destruct Sn as (lo & hi & (F1 & F2 & F3 & F4 & F5) & Sn).
    split; [intros K; congruence|]. intros z Rz. rewrite F3, F4. cbn [lower upper].
    assert (D : dim_var f v \/ ~ dim_var f v).
    { destruct (is_dim_var f v) eqn:Q1; [left; apply dim_var_iff; exact Q1|right]. intros X. apply dim_var_iff in X. congruence. }
    destruct D as [D|D].
    - unfold r' in Rz. rewrite with_dims_var in Rz by exact D. injection Rz as <-. destruct (InO v D) as (o & d & k & bo & Io & Nd & U & Bo & Xv).
      rewrite (nth_unsliced_fun _ _ _ _ U (unsliced_spec (in_slice i) d)) in Xv. rewrite (buffer_fun W r _ _ _ Bo (Ch o Io)) in Xv.
      specialize (Sn (o_sym o) d ltac:(right; exists o; auto using dims_of_output_in)). lia.
    - exfalso. (* a variable with bounds is a dimension variable *)
      assert (Dv : forall l m1, (forall u, m1 u <> None -> dim_var f u) -> (forall o, In o l -> In o (f_outputs f)) -> forall u, fold_left (add_output (in_slice i)) l m1 u <> None -> dim_var f u).
      { induction l as [|o l IH]; intros m1 M1 Sub u; cbn [fold_left]; [apply M1|]. apply IH; [|intros o' I; apply Sub; right; exact I].
        assert (Dd : forall l' m2, (forall u, m2 u <> None -> dim_var f u) -> (forall d u, In (d, u) l' -> In u (o_dims o)) -> forall u, fold_left (add_dim (in_slice i) (o_sym o)) l' m2 u <> None -> dim_var f u).
        { induction l' as [|(d, w) l' IH']; intros m2 M2 Sub' u'; cbn [fold_left]; [apply M2|]. apply IH'; [|intros d' u'' I; apply (Sub' d'); right; exact I].
          intros u''. unfold add_dim, set_bounds. destruct (Nat.eqb_spec u'' w) as [->|N]; [|apply M2]. intros _. exists o. split; [apply Sub; left; reflexivity|]. apply (Sub' d). left. reflexivity. }
        apply Dd; [exact M1|]. intros d w I. unfold dims_of_output in I. apply in_combine_r in I. exact I. }
      apply D. apply (Dv (f_outputs f) (fun _ => None)); [intros u N; congruence|auto|]. fold (get_output_bounds (f_outputs f) (in_slice i)). fold ob. congruence. }
  (* the box of the input *)
  set (rank_ok := fun s => match r s with Fin z => match w_buf W z with Some b' => rank b' | None => 0%nat end | _ => 0%nat end).
  assert (Rk : forall f' i', In f' order -> In i' (f_inputs f') -> in_rank i' = rank_ok (in_sym i')).
  { intros f' i' If' Ii'. destruct (po_rank _ _ _ _ OK f' i' If' Ii') as (b' & (z & R & Bz) & E). unfold rank_ok. rewrite R, Bz. auto. }
  assert (Rb : rank b = in_rank i).
  { destruct (po_rank _ _ _ _ OK f i If Ii) as (b' & B' & E). rewrite (buffer_fun W r _ _ _ B B'). exact E. }
  destruct (add_funcs_grows W r code fuel rank_ok order (fun _ => None) m0 Rk ltac:(intros s b' X; discriminate X) CM) as (Sz & _ & K).
  destruct (K f i If Ii) as (box & Bx & K'). fold ob in Bx.
  (* the box has all elements that are read, in the dimensions of the buffer *)
  set (q' := fun d => if (d <? in_rank i)%nat then q d else 0).
  assert (C : box_contains W r box q').
  { intros d. destruct (Nat.lt_ge_cases d (in_rank i)) as [Ld|Ld].
    - unfold q'. destruct (Nat.ltb_spec d (in_rank i)); [|lia].
      destruct (Acc d Ld) as ((bd & lo & hi & Eb & (Fl & Fh) & Rg) & Cr). destruct (input_bounds_nth code fuel ob i box d bd Bx Ld Eb) as (j & J1 & J2).
      destruct (A1 bd x (nth_error_In _ _ Eb) InO) as (G & j' & GS & J').
      destruct (C48_bounds_of_interval W r' same reuse reuse_select ob (fun _ => None) fuel G HW GS GO bd j' lo hi (q d)
        (po_points _ _ _ _ OK f i bd If Ii (nth_error_In _ _ Eb)) J' Fl Fh Rg) as (J3 & En). fold code in J3. rewrite J1 in J3. injection J3 as <-.
      assert (Cj : contains W r' (dim_of box d) (q d)).
      { rewrite J2. apply encloses_contains in En. destruct (nth_error (in_crop i) d) as [c|] eqn:Ec; [|exact En]. apply intersection_contains; [exact En|apply Cr; reflexivity]. }
      assert (Ij : In (dim_of box d) box) by (apply nth_In; rewrite (input_bounds_length _ _ _ _ _ Bx); exact Ld).
      unfold contains in *. unfold r' in Cj. rewrite !mean_with_dims in Cj by (intros v D; apply (A2 box Bx _ v Ij D)). exact Cj.
    - unfold dim_of. rewrite nth_overflow by (rewrite (input_bounds_length _ _ _ _ _ Bx); exact Ld). split; exact I. }
  destruct (K' q' C) as (b' & E' & C'). injection Q as <-.
  destruct (SF (in_sym i) b' b (add_empty_keeps rank_of outputs (in_sym i) b' _ m0 E') (po_inputs _ _ _ _ OK f i If Ii) B) as (ds & D & Ad).
  apply (adequate_inside W r ds b b' q' p D); [rewrite (Sz _ _ E'), <- (Rk f i If Ii); auto|exact Ad|exact C'|].
  intros d. rewrite (Lo d). unfold q'. destruct (Nat.ltb_spec d (in_rank i)); [reflexivity|]. unfold dim_at. rewrite nth_overflow by (fold (rank b); lia). reflexivity.
Qed.

(** ** Checks that are not made
    The checks of an allocation (pipeline.cc:855-856) are "is_broadcast() || ...", and
    is_broadcast() compares the stride.  Of a dimension without a stride - pipeline.cc:707 takes
    the default strides away - the condition has an undefined operand; the simplifier then has
    the undefined expression as its result (simplify.cc:1026-1029), and drops the check
    (simplify.cc:2456-2457). *)
Section Unchecked.
  Variable P : prims.
  (** all results of the simplifier are undefined *)
  Definition vanishes (e : expr) : Prop := forall fuel p st x, mutate P fuel p st e = Val x -> fst x = EUndef.
  Lemma nothing_undef (x : result) : nothing = Val x -> fst x = EUndef.
  Proof. intros H. injection H as <-. reflexivity. Qed.
  Lemma vanishes_undef : vanishes EUndef.
  Proof. intros [|n] p st x; [discriminate|]. cbn [mutate defined]. apply nothing_undef. Qed.
  Lemma boolean_undef fuel p st e x : vanishes e -> mutate_boolean P (mutate P fuel) p st e = Val x -> fst x = EUndef.
  Proof.
    intros H E. unfold mutate_boolean in E. apply bind_val in E as ((e1 & i) & E1 & E). specialize (H _ _ _ _ E1). cbn [fst] in H. subst e1.
    cbn [strip_boolean bind] in E. destruct (is_boolean EUndef); [injection E as <-; reflexivity|]. apply bind_val in E as (b & _ & E). injection E as <-. reflexivity.
  Qed.
  Lemma either_undef (coerce : bool) fuel p st e x : vanishes e -> (if coerce then mutate_boolean P (mutate P fuel) p st e else mutate P fuel p st e) = Val x -> fst x = EUndef.
  Proof. intros H. destruct coerce; [apply boolean_undef; exact H|apply H]. Qed.
  Definition logical (o : binop) : Prop := match o with Equal | NotEqual | Less | LessEqual | And | Or => True | _ => False end.
  Lemma vanishes_logical o a b : logical o -> vanishes a \/ vanishes b -> vanishes (EBin o a b).
  Proof.
    intros L V [|n] p st x; [discriminate|]. cbn [mutate defined]. destruct (p_visit P _); [|discriminate]. intros H.
    assert (Q : visit_logical P (mutate P n) p st o a b = Val x) by (destruct o; try destruct L; exact H).
    unfold visit_logical in Q. apply bind_val in Q as ((a' & ai) & H1 & Q). apply bind_val in Q as ((b' & bi) & H2 & Q). destruct V as [V|V].
    - apply either_undef in H1; [|exact V]. cbn [fst] in H1. subst a'. exact (nothing_undef _ Q).
    - apply either_undef in H2; [|exact V]. cbn [fst] in H2. subst b'. cbn [defined negb] in Q. rewrite orb_true_r in Q. exact (nothing_undef _ Q).
  Qed.
  Lemma vanishes_make o a b : logical o -> vanishes a \/ vanishes b -> vanishes (make_bin o a b).
  Proof. intros L V. unfold make_bin. destruct (_ && _); apply vanishes_logical; tauto. Qed.
  Lemma unchecked ds bounds : Forall (fun x => dx_stride x = EUndef) ds -> Forall vanishes (allocation_checks ds bounds).
  Proof.
    intros H. apply Forall_forall. intros e I. apply in_flat_map in I as ((x & i) & J & I). apply in_combine_l in J. rewrite Forall_forall in H. specialize (H x J). cbn [fst snd] in I.
    assert (B : vanishes (is_broadcast_expr x)).
    { apply vanishes_make; [exact Logic.I|]. right. apply vanishes_make; [exact Logic.I|]. left. rewrite H. exact vanishes_undef. }
    destruct I as [<-|[<-|[]]]; apply vanishes_make; (exact Logic.I || (left; exact B)).
  Qed.
End Unchecked.
(** Whatever the inferred bounds and the dimensions are: if no strides are given, the result of
    simplify of all checks of the allocation is the undefined expression. *)
Theorem C63_unchecked P bounds alignment fuel ds box e e' : Forall (fun x => dx_stride x = EUndef) ds -> In e (allocation_checks ds box) ->
  simplify P bounds alignment fuel e = Val e' -> e' = EUndef.
Proof.
  intros H I E. pose proof (unchecked P ds box H) as V. rewrite Forall_forall in V. apply bind_val in E as (x & E & Q). injection Q as <-. exact (V e I _ _ _ _ E).
Qed.

(** ** Examples *)
(** out(x) = f(in [x - 1, x + 1]) for an intermediate buffer, which is
    g(in [2x, 2x + 1]), where only indices from 0 are read (a copy with padding).
    The buffers out, intm, in are 0, 1, 2; x is 10. *)
Definition c63_x := EVar 10 f_none 0.
Definition c63_f : func := Func [Output 0 [10%nat]] [Input 1 1 [i_bounds (e_sub c63_x (EConst 1)) (e_add c63_x (EConst 1))] [] []].
Definition c63_g : func := Func [Output 1 [10%nat]]
  [Input 2 1 [i_bounds (e_mul c63_x (EConst 2)) (e_add (e_mul c63_x (EConst 2)) (EConst 1))] [i_bounds (EConst 0) EUndef] []].
Definition c63_buf (lo hi : Z) : buf := Buf (Some 1000) 1 [Dim lo hi 1 unfolded].
Definition c63_world (intm_max : Z) : world :=
  World (fun p => if p =? 50 then Some (c63_buf 0 9) else if p =? 51 then Some (c63_buf (-1) intm_max) else if p =? 52 then Some (c63_buf 0 21) else None) (fun _ _ => 0) (fun _ _ => 1).
Definition c63_r : env := fun s => match s with 0%nat => Fin 50 | 1%nat => Fin 51 | 2%nat => Fin 52 | _ => Bad end.
Definition c63_never (p : path) (a b : expr) := false.
Definition c63_one (p : path) := false.
Definition c63_code W := code_prims W (fun _ => match_expr) c63_never c63_one.
Definition c63_m := compute_allocation_bounds (c63_code (c63_world 10)) 40 (fun _ => 1%nat) [c63_f; c63_g] [0%nat].
Definition c63_box (s : nat) := match c63_m with Val m => m s | UB => None end.
Lemma c63_bufs hi p b : hi = 10 \/ hi = 5 -> w_buf (c63_world hi) p = Some b -> In b [c63_buf 0 9; c63_buf (-1) 10; c63_buf (-1) 5; c63_buf 0 21].
Proof.
  intros Hh. cbn [c63_world w_buf]. destruct (p =? 50); [intros E; injection E as <-; cbn; auto|].
  destruct (p =? 51); [intros E; injection E as <-; destruct Hh as [-> | ->]; cbn; auto|]. destruct (p =? 52); [intros E; injection E as <-; cbn; auto 6|discriminate].
Qed.
Lemma c63_field b f d p : In b [c63_buf 0 9; c63_buf (-1) 10; c63_buf (-1) 5; c63_buf 0 21] -> in64 p -> in64 (field_value b f d p).
Proof.
  intros I Hp.
  assert (N : dim_int b d = dim_at b 0 \/ dim_int b d = broadcast).
  { unfold dim_int. destruct (d <? 0); [auto|]. destruct (Z.to_nat d) as [|n]; [auto|]. right. destruct I as [<-|[<-|[<-|[<-|[]]]]]; unfold dim_at; destruct n; reflexivity. }
  unfold in64 in *. destruct f; cbn [field_value]; [exact Hp|..]; try (destruct N as [-> | ->]); destruct I as [<-|[<-|[<-|[<-|[]]]]]; vm_compute; split; discriminate.
Qed.
Lemma c63_at b l : In b [c63_buf 0 9; c63_buf (-1) 10; c63_buf (-1) 5; c63_buf 0 21] -> in64 (ptr_value (buffer_at b l)).
Proof.
  intros I. assert (E : exists lo hi, b = c63_buf lo hi /\ -1 <= lo <= 0 /\ -1 <= hi <= 21) by (destruct I as [<-|[<-|[<-|[<-|[]]]]]; do 2 eexists; (split; [reflexivity|lia])).
  destruct E as (lo & hi & -> & L & H). unfold in64, buffer_at. cbn [c63_buf base dims].
  assert (N : forall q args, buffer_at_loop q [] args = q) by (intros q [|[?|] ?]; reflexivity).
  destruct l as [|[x|] l]; cbn [buffer_at_loop]; rewrite ?N; [vm_compute; split; discriminate| |vm_compute; split; discriminate].
  destruct (d_contains (Dim lo hi 1 unfolded) x) eqn:C; [|vm_compute; split; discriminate].
  unfold d_contains, d_contains2 in C. cbn [d_stride d_min d_max] in C. change (1 =? 0) with false in C. cbn [orb] in C.
  unfold d_offset. cbn [d_stride d_fold d_min ptr_value]. rewrite Z.eqb_refl, orb_true_r. change (imin 64) with (- 2 ^ 63). change (imax 64) with (2 ^ 63 - 1). apply andb_true_iff in C as (A & B).
  apply Z.leb_le in A, B. lia.
Qed.
Lemma c63_sensible hi : hi = 10 \/ hi = 5 -> sensible (c63_world hi).
Proof.
  intros Hh. split.
  - split; cbn [c63_world w_user w_intrinsic]; try (intros; unfold in64; cbn; lia).
    + intros p b f d Hp E. apply c63_field; [exact (c63_bufs hi p b Hh E)|exact Hp].
    + intros p b l E. apply c63_at. exact (c63_bufs hi p b Hh E).
  - intros f l _. reflexivity.
  - intros p b E. destruct (c63_bufs hi p b Hh E) as [<-|[<-|[<-|[<-|[]]]]]; vm_compute; discriminate.
  - intros p b E. destruct (c63_bufs hi p b Hh E) as [<-|[<-|[<-|[<-|[]]]]]; reflexivity.
Qed.
Lemma c63_buffers hi s b : buffer_of (c63_world hi) c63_r s b ->
  (s = 0%nat /\ b = c63_buf 0 9) \/ (s = 1%nat /\ b = c63_buf (-1) hi) \/ (s = 2%nat /\ b = c63_buf 0 21).
Proof. intros (p & R & B). destruct s as [|[|[|s]]]; cbn in R; try discriminate; injection R as <-; cbn in B; injection B as <-; auto. Qed.
Lemma c63_dim_var f v : In f [c63_f; c63_g] -> dim_var f v -> v = 10%nat.
Proof. intros [<-|[<-|[]]] (o & [<-|[]] & [<-|[]]); reflexivity. Qed.
Lemma c63_unsliced d k : nth_unsliced [] d k -> k = d.
Proof. intros H. rewrite (nth_unsliced_fun _ _ _ _ H (unsliced_spec [] d)). reflexivity. Qed.
Lemma c63_pipeline hi outputs : In 0%nat outputs -> ~ In 1%nat outputs -> ~ In 2%nat outputs -> pipeline_ok (c63_world hi) c63_r [c63_f; c63_g] outputs.
Proof.
  intros O0 O1 O2. split.
  - intros f o [<-|[<-|[]]] [<-|[]]; [exists (c63_buf 0 9); exists 50|exists (c63_buf (-1) hi); exists 51]; split; reflexivity.
  - intros f o I J D. pose proof (c63_dim_var f _ I D) as E. destruct I as [<-|[<-|[]]]; destruct J as [<-|[]]; discriminate E.
  - intros f i o d v k b [<-|[<-|[]]] [<-|[]] [<-|[]] E U B; cbn [in_slice] in U; apply c63_unsliced in U as ->; (destruct d as [|[|d]]; [|discriminate E|discriminate E]);
      destruct (c63_buffers hi _ _ B) as [(_ & ->)|[(_ & ->)|(_ & ->)]]; cbn; lia.
  - intros f i [<-|[<-|[]]] [<-|[]]; [exists (c63_buf (-1) hi)|exists (c63_buf 0 21)]; (split; [|reflexivity]); [exists 51|exists 52]; split; reflexivity.
  - intros f i [<-|[<-|[]]] [<-|[]]; assumption.
  - intros f i b [<-|[<-|[]]] [<-|[]] [<-|[]] K; discriminate K.
Qed.
Definition c63_jf := i_bounds (EBin Add (EVar 0 f_min 0) (EConst (-1))) (EBin Add (EVar 0 f_max 0) (EConst 1)).
Definition c63_jg := i_bounds (EBin Mul (EVar 1 f_min 0) (EConst 2)) (EBin Add (EBin Mul (EVar 1 f_max 0) (EConst 2)) (EConst 1)).
Lemma c63_accepted hi : hi = 10 \/ hi = 5 -> accepted (c63_world hi) c63_r (fun _ => match_expr) c63_never c63_one 40 [c63_f; c63_g].
Proof.
  intros Hh f i I J ob. split.
  - intros b x Ib _. exists (checks (c63_world hi) (with_dims c63_r f x) c63_never c63_one). unfold ob. destruct I as [<-|[<-|[]]]; destruct J as [<-|[]]; destruct Ib as [<-|[]].
    + exists c63_jf. split; [apply C48_checks|]. vm_compute. reflexivity.
    + exists c63_jg. split; [apply C48_checks|]. destruct Hh as [-> | ->]; vm_compute; reflexivity.
  - intros box Bx j v Ij D. pose proof (c63_dim_var f v I D) as ->. unfold ob in Bx.
    destruct I as [<-|[<-|[]]]; destruct J as [<-|[]]; vm_compute in Bx; injection Bx as <-; destruct Ij as [<-|[]]; split; intros (ro & H);
    cbn in H; intuition discriminate.
Qed.
(** the element x + 1 of the intermediate buffer, for x = 9, and what is read for it *)
Definition c63_at_pos (z : Z) : position := fun d => match d with O => z | _ => 0 end.
Lemma c63_out hi outputs fs z : In 0%nat outputs -> 0 <= z <= 9 -> needed (c63_world hi) c63_r fs outputs 0 (c63_at_pos z).
Proof.
  intros I Z0. apply (needed_output _ _ _ _ _ (c63_buf 0 9)); [exact I|exists 50; split; reflexivity|]. intros [|d] L; [exact Z0|]. cbn in L. lia.
Qed.
Lemma c63_intm hi outputs : In 0%nat outputs -> needed (c63_world hi) c63_r [c63_f; c63_g] outputs 1 (c63_at_pos 10).
Proof.
  intros I. refine (needed_input _ _ _ _ c63_f (hd (Input 0 0 [] [] []) (f_inputs c63_f)) (fun _ => 9) (c63_buf (-1) hi) (c63_at_pos 10) (c63_at_pos 10) _ (or_introl eq_refl) _ _ _ _).
  - left. reflexivity.
  - intros v D. pose proof (c63_dim_var c63_f v ltac:(left; reflexivity) D) as ->. exists (Output 0 [10%nat]), 0%nat, 0%nat, (c63_at_pos 9).
    split; [left; reflexivity|]. split; [reflexivity|]. split; [exact (unsliced_spec [] 0)|]. split; [apply c63_out; [exact I|lia]|reflexivity].
  - intros d L. cbn [c63_f c63_g f_inputs hd in_rank] in L. assert (d = 0%nat) as -> by lia. split; [|intros c E; discriminate E]. do 3 eexists. split; [reflexivity|]. split; [split; reflexivity|]. cbn. lia.
  - exists 51. split; reflexivity.
  - intros [|[|d]]; reflexivity.
Qed.
Lemma c63_in hi outputs : In 0%nat outputs -> needed (c63_world hi) c63_r [c63_f; c63_g] outputs 2 (c63_at_pos 21).
Proof.
  intros I. refine (needed_input _ _ _ _ c63_g (hd (Input 0 0 [] [] []) (f_inputs c63_g)) (fun _ => 10) (c63_buf 0 21) (c63_at_pos 21) (c63_at_pos 21) _ _ _ _ _ _).
  - right. left. reflexivity.
  - left. reflexivity.
  - intros v D. pose proof (c63_dim_var c63_g v ltac:(right; left; reflexivity) D) as ->. exists (Output 1 [10%nat]), 0%nat, 0%nat, (c63_at_pos 10).
    split; [left; reflexivity|]. split; [reflexivity|]. split; [exact (unsliced_spec [] 0)|]. split; [apply c63_intm; exact I|reflexivity].
  - intros d L. cbn [c63_f c63_g f_inputs hd in_rank] in L. assert (d = 0%nat) as -> by lia. split; [|intros c E; injection E as <-; split; cbn; [lia|exact Logic.I]].
    do 3 eexists. split; [reflexivity|]. split; [split; reflexivity|]. cbn. lia.
  - exists 52. split; reflexivity.
  - intros [|[|d]]; reflexivity.
Qed.
Definition c63_run hi outputs := compute_allocation_bounds (c63_code (c63_world hi)) 40 (fun _ => 1%nat) [c63_f; c63_g] outputs.
Definition c63_boxes : box_map := fun s =>
  if (s =? 2)%nat then Some [i_bounds (EBin Max (EBin Mul (EVar 1 f_min 0) (EConst 2)) (EConst 0)) (EBin Add (EBin Mul (EVar 1 f_max 0) (EConst 2)) (EConst 1))]
  else if (s =? 1)%nat then Some [i_bounds (EBin Add (EVar 0 f_min 0) (EConst (-1))) (EBin Add (EVar 0 f_max 0) (EConst 1))] else None.
Lemma c63_run_value hi outputs : (hi = 10 \/ hi = 5) -> outputs = [0%nat] \/ outputs = [0%nat; 1%nat] -> exists m, c63_run hi outputs = Val m /\ forall s, m s = c63_boxes s.
Proof.
  intros Hh Ho. unfold c63_run. destruct (compute_allocation_bounds (c63_code (c63_world hi)) 40 (fun _ => 1%nat) [c63_f; c63_g] outputs) as [m|] eqn:E;
    [|exfalso; destruct Hh as [-> | ->]; destruct Ho as [-> | ->]; vm_compute in E; discriminate E].
  exists m. split; [reflexivity|]. intros s. destruct Hh as [-> | ->]; destruct Ho as [-> | ->]; vm_compute in E; injection E as <-; destruct s as [|[|[|s]]]; reflexivity.
Qed.

(** the intermediate buffer has its inferred dimensions, and the input passes its checks *)
Lemma C63_ex : exists m, c63_run 10 [0%nat] = Val m /\ sensible (c63_world 10) /\ pipeline_ok (c63_world 10) c63_r [c63_f; c63_g] [0%nat] /\
  accepted (c63_world 10) c63_r (fun _ => match_expr) c63_never c63_one 40 [c63_f; c63_g] /\ sufficient (c63_world 10) c63_r m [0%nat] /\
  needed (c63_world 10) c63_r [c63_f; c63_g] [0%nat] 2 (c63_at_pos 21).
Proof.
  destruct (c63_run_value 10 [0%nat] ltac:(auto) ltac:(auto)) as (m & E & Q). exists m. split; [exact E|]. split; [apply c63_sensible; auto|].
  split; [apply c63_pipeline; cbn; intuition discriminate|]. split; [apply c63_accepted; auto|]. split; [|apply c63_in; left; reflexivity].
  intros s box b M _ B. rewrite Q in M. destruct (c63_buffers 10 _ _ B) as [(-> & ->)|[(-> & ->)|(-> & ->)]]; cbn in M; [discriminate M|injection M as <-|injection M as <-].
  - exists (inferred_default [c63_jf]). split; [|right; right; reflexivity]. split; [reflexivity|]. intros [|[|d]] x X; try discriminate X. injection X as <-. split; [reflexivity|]. split; [reflexivity|discriminate].
  - exists (default_dims 2 1). split; [|left].
    + split; [reflexivity|]. intros [|[|d]] x X; try discriminate X. injection X as <-. split; [reflexivity|]. split; reflexivity.
    + repeat constructor; exists 1; split; try reflexivity; discriminate.
Qed.

(** The user gives the bounds [-1, 5] to the intermediate buffer.  All checks that the
    simplifier leaves hold - those of the intermediate buffer are not left -, but the element
    10 of it is needed. *)
Theorem C63_small_refuted : exists m, c63_run 5 [0%nat] = Val m /\ pipeline_ok (c63_world 5) c63_r [c63_f; c63_g] [0%nat] /\
  (forall s box b, m s = Some box -> s <> 0%nat -> buffer_of (c63_world 5) c63_r s b -> exists ds, describes (c63_world 5) c63_r ds b /\
     (s = 1%nat -> ds = [Dimx (i_bounds (EConst (-1)) (EConst 5)) EUndef] /\ forall P fuel e e', In e (allocation_checks ds box) -> simplify P (fun _ => None) (fun _ => None) fuel e = Val e' -> e' = EUndef) /\
     (s = 2%nat -> Forall (holds (c63_world 5) c63_r) (input_checks ds box))) /\
  needed (c63_world 5) c63_r [c63_f; c63_g] [0%nat] 1 (c63_at_pos 10) /\ buffer_of (c63_world 5) c63_r 1 (c63_buf (-1) 5) /\ ~ inside (c63_buf (-1) 5) (c63_at_pos 10).
Proof.
  destruct (c63_run_value 5 [0%nat] ltac:(auto) ltac:(auto)) as (m & E & Q). exists m. split; [exact E|].
  split; [apply c63_pipeline; cbn; intuition discriminate|]. split; [|split; [apply c63_intm; left; reflexivity|split; [exists 51; split; reflexivity|]]].
  - intros s box b M N B. rewrite Q in M. destruct (c63_buffers 5 _ _ B) as [(-> & ->)|[(-> & ->)|(-> & ->)]]; cbn in M; [discriminate M|injection M as <-|injection M as <-].
    + exists [Dimx (i_bounds (EConst (-1)) (EConst 5)) EUndef]. split; [|split; [|discriminate]].
      * split; [reflexivity|]. intros [|[|d]] x X; try discriminate X. injection X as <-. split; [reflexivity|]. split; [reflexivity|discriminate].
      * intros _. split; [reflexivity|]. intros P fuel e e'. apply C63_unchecked. repeat constructor.
    + exists (default_dims 2 1). split; [|split; [discriminate|intros _]].
      * split; [reflexivity|]. intros [|[|d]] x X; try discriminate X. injection X as <-. split; [reflexivity|]. split; reflexivity.
      * repeat constructor; exists 1; split; try reflexivity; discriminate.
  - intros H. specialize (H 0%nat ltac:(cbn; lia)). cbn in H. lia.
Qed.
(** The intermediate buffer is also an output of the pipeline: there is nothing to check. *)
Theorem C63_output_refuted : exists m, c63_run 5 [0%nat; 1%nat] = Val m /\ sufficient (c63_world 5) c63_r m [0%nat; 1%nat] /\
  needed (c63_world 5) c63_r [c63_f; c63_g] [0%nat; 1%nat] 1 (c63_at_pos 10) /\ buffer_of (c63_world 5) c63_r 1 (c63_buf (-1) 5) /\ ~ inside (c63_buf (-1) 5) (c63_at_pos 10).
Proof.
  destruct (c63_run_value 5 [0%nat; 1%nat] ltac:(auto) ltac:(auto)) as (m & E & Q). exists m. split; [exact E|].
  split; [|split; [apply c63_intm; left; reflexivity|split; [exists 51; split; reflexivity|]]].
  - intros s box b M N B. rewrite Q in M. destruct (c63_buffers 5 _ _ B) as [(-> & ->)|[(-> & ->)|(-> & ->)]]; [destruct N; cbn; auto|destruct N; cbn; auto|]. cbn in M. injection M as <-.
    exists (default_dims 2 1). split; [|left].
    + split; [reflexivity|]. intros [|[|d]] x X; try discriminate X. injection X as <-. split; [reflexivity|]. split; reflexivity.
    + repeat constructor; exists 1; split; try reflexivity; discriminate.
  - intros H. specialize (H 0%nat ltac:(cbn; lia)). cbn in H. lia.
Qed.
