(** Lemmas about loops. *)
From Coq Require Import ZArith List Bool Lia Sorted Permutation.
From Verif Require Import Arith_Model Arith_Proofs Buf_Model Alloc_Model Expr_Model Expr_Proofs Stmt_Model Stmt_Spec Stmt_Proofs.
Import ListNotations.
Open Scope Z_scope.

Lemma loop_values_range lo hi step : 0 < step -> forall n i, lo <= i -> hi - i + 1 <= Z.of_nat n ->
  StronglySorted Z.lt (loop_values lo hi step n i) /\
  (forall v, In v (loop_values lo hi step n i) <-> exists k, 0 <= k /\ v = i + k * step /\ v <= hi).
Proof.
  intros P. induction n as [|n IH]; intros i L B; cbn [loop_values].
  - split; [constructor|]. intro v; split; [intros []|]. intros (k & K & -> & V). nia.
  - destruct ((lo <=? i) && (i <=? hi)) eqn:C.
    + apply andb_prop in C. destruct C as [_ C]. apply Z.leb_le in C.
      destruct (IH (i + step)) as [S M]; [lia|lia|]. split.
      * constructor; [exact S|]. apply Forall_forall. intros v J. apply M in J. destruct J as (k & K & -> & _). nia.
      * intro v; split.
        { intros [<-|J]; [exists 0; lia|]. apply M in J. destruct J as (k & K & -> & V). exists (k + 1). lia. }
        { intros (k & K & -> & V). destruct (Z.eq_dec k 0) as [->|n0]; [left; lia|]. right. apply M. exists (k - 1). lia. }
    + apply andb_false_iff in C. rewrite !Z.leb_gt in C. split; [constructor|].
      intro v; split; [intros []|]. intros (k & K & -> & V). nia.
Qed.

Lemma par_count_inv lo hi stp n : 0 < stp -> lo <= hi + 1 -> par_count lo hi stp = Val n ->
  0 <= n /\ stp * (n - 1) < hi - lo + 1 <= stp * n.
Proof.
  intros P L E. unfold par_count in E.
  apply bind_inv in E; destruct E as (d & E1 & E). apply chk_inv in E1. destruct E1 as [-> R1].
  apply bind_inv in E; destruct E as (e & E2 & E). apply chk_inv in E2. destruct E2 as [-> R2].
  apply bind_inv in E; destruct E as (q & E3 & E). injection E as <-.
  assert (R3 : hi - lo + 1 + stp <= imax 64).
  { unfold ceil_div in E3. apply bind_inv in E3; destruct E3 as (t & E4 & _). apply chk_inv in E4. lia. }
  destruct (ceil_div_ok 64 (hi - lo + 1) stp) as (q' & E4 & B); [lia|lia|unfold imax in *; lia|exact R3|].
  rewrite E3 in E4. injection E4 as <-.
  assert (0 <= q) by nia. rewrite Z.mod_small; [lia|]. split; [lia|].
  change (imax 64) with (2 ^ 63 - 1) in *. nia.
Qed.
Lemma seq_range lo hi stp n : 0 < stp -> 0 <= n -> stp * (n - 1) < hi - lo + 1 <= stp * n ->
  loop_range lo hi stp (map (fun i => i * stp + lo) (map Z.of_nat (seq 0 (Z.to_nat n)))).
Proof.
  intros P N B. split.
  - assert (G : forall m s, StronglySorted Z.lt (map (fun i => i * stp + lo) (map Z.of_nat (seq s m)))).
    { induction m as [|m IH]; intro s; cbn [seq map]; constructor; [apply IH|].
      apply Forall_forall. intros v J. apply in_map_iff in J. destruct J as (y & <- & J).
      apply in_map_iff in J. destruct J as (x & <- & J). apply in_seq in J. nia. }
    apply G.
  - intro v; split.
    + intro J. apply in_map_iff in J. destruct J as (y & <- & J).
      apply in_map_iff in J. destruct J as (x & <- & J). apply in_seq in J.
      exists (Z.of_nat x). split; [lia|]. split; [lia|]. nia.
    + intros (k & K & -> & V). apply in_map_iff. exists k. split; [lia|]. apply in_map_iff. exists (Z.to_nat k).
      split; [lia|]. apply in_seq. split; [lia|]. cbn [plus]. apply Z2Nat.inj_lt; nia.
Qed.

Section Loops.
  Variable X : Type.
  Variable H : host X.
  Notation state := (state X).

  Lemma init_closure_in parent ex : forall l c c0, NoDup (map fst l) -> init_closure parent ex l c = Val c0 ->
    (forall x, ~ In x (map fst l) -> c0 x = c x) /\
    (forall x src d, In (x, EVar src f_none d) l -> ex <> Some x -> c0 x = parent src).
  Proof.
    induction l as [|[s e] l IH]; intros c c0 N E; cbn [init_closure] in E.
    - injection E as <-. split; [reflexivity|]. intros x src d [].
    - cbn [map fst] in N. apply NoDup_cons_iff in N. destruct N as [N1 N2].
      destruct (match ex with Some y => (s =? y)%nat | None => false end) eqn:Ex.
      + destruct (IH _ _ N2 E) as [A B]. split.
        * intros x J. apply A. intro K; apply J; right; exact K.
        * intros x src d [J|J] Nx; [|exact (B _ _ _ J Nx)].
          injection J as -> ->. destruct ex as [y|]; [|discriminate]. apply Nat.eqb_eq in Ex. subst y. congruence.
      + destruct e as [|src f d| | | | | |]; try discriminate. destruct f; try discriminate.
        destruct (IH _ _ N2 E) as [A B]. split.
        * intros x J. cbn [map fst In] in J. rewrite A by tauto. unfold ctx_set. destruct (Nat.eqb_spec x s); [subst; tauto|reflexivity].
        * intros x src' d' [J|J] Nx; [|exact (B _ _ _ J Nx)].
          injection J as <- <- <-. rewrite A by exact N1. unfold ctx_set. rewrite Nat.eqb_refl. reflexivity.
  Qed.
  Lemma init_context_captured parent cl sym c0 x v :
    (forall l, cl = Some l -> NoDup (map fst l)) -> init_context X H parent cl (Some sym) = Val c0 ->
    captured parent cl x v -> x <> sym -> c0 x = v.
  Proof.
    intros N E C n. destruct cl as [l|]; cbn [init_context captured] in *.
    - destruct C as (src & d & J & ->). apply (proj2 (init_closure_in _ _ _ _ _ (N l eq_refl) E) x src d J). congruence.
    - injection E as <-. symmetry. exact C.
  Qed.

  Lemma par_iterations sym f A q parent cl lo step_ c0 : good X A q f -> init_context X H parent cl (Some sym) = Val c0 ->
    forall sched wc result st z st', inv st ->
    (forall w c, wc w = Some c -> forall x, ~ In x (sym :: A) -> c x = c0 x) ->
    par_loop X H sym f parent cl lo step_ sched wc result st = Val (z, st') ->
    exists zs, iterations f (fun v c => c sym = v /\ forall x, ~ In x (sym :: A) -> c x = c0 x)
                 (map (fun i => i * step_ + lo) (map snd sched)) st zs st' /\
               z = if result =? 0 then first_failure zs else result.
  Proof.
    intros G E0. induction sched as [|[w i] sched IH]; intros wc result st z st' I Wc E; cbn [par_loop] in E.
    - injection E as <- <-. exists []. split; [constructor|]. unfold first_failure. cbn [find].
      destruct (Z.eqb_spec result 0); congruence.
    - apply bind_inv in E; destruct E as (c & E1 & E). apply bind_inv in E; destruct E as (t & E2 & E).
      apply bind_inv in E; destruct E as (v & E3 & E). apply bind_inv in E; destruct E as ([zi st1] & E4 & E).
      apply chk_inv in E2. destruct E2 as [-> _]. apply chk_inv in E3. destruct E3 as [-> _].
      assert (Cc : forall x, ~ In x (sym :: A) -> c x = c0 x).
      { destruct (wc w) as [c'|] eqn:Ew; [injection E1 as <-; exact (Wc _ _ Ew)|]. rewrite E0 in E1. injection E1 as <-. reflexivity. }
      pose proof (G _ _ _ (I : inv (set_ctx X st _)) E4) as S.
      pose proof (step_inv X _ _ _ _ _ (I : inv (set_ctx X st _)) S) as I1.
      assert (Wc' : forall w0 c1, (if (w0 =? w)%nat then Some (s_ctx X st1) else wc w0) = Some c1 ->
                forall x, ~ In x (sym :: A) -> c1 x = c0 x).
      { intros w0 c1 J x Nx. destruct (w0 =? w)%nat; [|exact (Wc _ _ J x Nx)]. injection J as <-.
        rewrite (k_ctx X _ _ _ _ _ S x) by (intro K; apply Nx; right; exact K). cbn [s_ctx set_ctx]. unfold ctx_set.
        destruct (Nat.eqb_spec x sym); [subst; exfalso; apply Nx; left; reflexivity|exact (Cc x Nx)]. }
      destruct (IH _ _ _ _ _ I1 Wc' E) as (zs & Its & Ez). exists (zi :: zs). split.
      + cbn [map snd]. eapply it_next; [|exact E4|exact Its]. cbn [s_ctx set_ctx]. split.
        * unfold ctx_set. rewrite Nat.eqb_refl. reflexivity.
        * intros x Nx. unfold ctx_set. destruct (Nat.eqb_spec x sym); [subst; exfalso; apply Nx; left; reflexivity|exact (Cc x Nx)].
      + rewrite Ez. unfold first_failure. cbn [find].
        destruct (Z.eqb_spec result 0) as [->|n]; [destruct (Z.eqb_spec zi 0) as [->|n]; cbn [negb]; [reflexivity|]|].
        * apply Z.eqb_neq in n. rewrite ?n. reflexivity.
        * apply Z.eqb_neq in n. rewrite n. reflexivity.
  Qed.
End Loops.
