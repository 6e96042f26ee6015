(** The pieces of concatenations. *)
From Coq Require Import ZArith List Bool Arith Lia.
From Verif Require Import Arith_Model Arith_Proofs Buf_Model Buf_Spec Buf_Proofs BufSlice_Proofs Buf_Props ForEach_Spec ForEach_Proofs ForEach_Props Copy_Model Copy_Spec CopyBox_Proofs Expr_Model Rewrite_Model Match_Model Match_Proofs Stmt_Model Stmt_Spec Deps_Spec Const_Model
  VSem_Spec VExec_Proofs VFrame_Proofs CopyStmt_Spec Concat_Model Concat_Spec Concat_Proofs Concat2_Proofs Concat3_Proofs Concat4_Proofs.
Import ListNotations.
Open Scope Z_scope.

Definition concat_piece (bs : list buf) (bz : list Z) (dim i : nat) : piece :=
  let b := nth i bz 0 in let b' := nth (S i) bz 0 in
  Piece [] (repeat no_limit dim ++ [(Some b, Some (b' - 1))]) (repeat no_limit dim ++ [(Some 0, Some (b' - b - 1))]) (nth i bs (Buf None 0 []))
    (fun r => set_nth r dim (nth dim r 0 - b)) None.
Definition concat_points (dims : list nat) (rank_ dim : nat) (b : expr) : list interval :=
  let points := map (fun x => p_point (e_var x)) (firstn rank_ dims) in set_nth points dim (point_sub (nth dim points undef_interval) b).
Lemma concat_inputs_ok dims rank_ dim : forall srcs bounds l, concat_inputs srcs dims rank_ dim bounds = Val l -> length bounds = S (length srcs) /\ length l = length srcs /\
  forall k s r, nth_error srcs k = Some (s, r) -> r = rank_ /\ nth_error l k = Some (CInput s (concat_points dims rank_ dim (nth k bounds EUndef))
    (repeat undef_interval dim ++ [p_range (EConst 0) (e_sub (nth (S k) bounds EUndef) (nth k bounds EUndef))])
    (repeat undef_interval dim ++ [p_range (nth k bounds EUndef) (nth (S k) bounds EUndef)]) []).
Proof.
  induction srcs as [|(s, r) srcs IH]; intros bounds l M.
  - destruct bounds as [|b [|b' bounds]]; try discriminate M. injection M as <-. split; [reflexivity|]. split; [reflexivity|]. intros [|k] ? ? K; discriminate.
  - destruct bounds as [|b [|b' bounds]]; try discriminate M. cbn [concat_inputs] in M. destruct ((r =? rank_)%nat && _ && _) eqn:C; [|discriminate].
    apply andb_prop in C as (C & _). apply andb_prop in C as (C & _). apply Nat.eqb_eq in C. cbv zeta in M. apply bind_inv in M as (l' & Ml & M). injection M as <-.
    destruct (IH _ _ Ml) as (L1 & L2 & N). split; [cbn [length tl] in *; lia|]. split; [cbn [length]; rewrite L2; reflexivity|]. intros [|k] s' r' K; cbn [nth_error] in *.
    + injection K as <- <-. split; [exact C|]. reflexivity.
    + destruct (N k s' r' K) as (-> & ->). split; reflexivity.
Qed.
Lemma concat_inputs_dim dims rank_ dim srcs bounds l : concat_inputs srcs dims rank_ dim bounds = Val l -> srcs <> [] -> (dim < rank_)%nat.
Proof.
  destruct srcs as [|(s, r) srcs]; intros M N; [contradiction|]. destruct bounds as [|b [|b' bounds]]; try discriminate M. cbn [concat_inputs] in M.
  destruct ((r =? rank_)%nat && _ && _) eqn:C; [|discriminate]. apply andb_prop in C as (C & _). apply andb_prop in C as (_ & C). apply Nat.ltb_lt, C.
Qed.
Lemma free_sub x a b : free x (e_sub a b) -> free x a \/ free x b.
Proof. intros (ro & O). cbn in O. destruct O; [left|right]; exists ro; assumption. Qed.
Lemma free_const x z : ~ free x (EConst z).
Proof. intros (ro & O). exact O. Qed.
Lemma limits_at n l k x : nth_error (repeat no_limit n ++ [l]) k = Some x -> k <> n -> x = no_limit.
Proof.
  intros K N. destruct (Nat.lt_ge_cases k n) as [L|L].
  - rewrite nth_error_app1 in K by (rewrite repeat_length; exact L). apply nth_error_In, repeat_spec in K. exact K.
  - rewrite nth_error_app2, repeat_length in K by (rewrite repeat_length; exact L). destruct (k - n)%nat as [|j] eqn:J; [lia|]. destruct j; discriminate.
Qed.
Lemma limits_one n (l : limits) x : nth_error (repeat no_limit n ++ [l]) n = Some x -> x = l.
Proof. rewrite nth_error_app2, repeat_length, Nat.sub_diag by (rewrite repeat_length; lia). cbn. congruence. Qed.

Section Concat.
  Variable H : host mem.
  Variable E : venv.
  Variables (srcs : list (nat * nat)) (dst : copy_output) (rank_ dim : nat) (bounds : list expr) (bz : list Z) (bs : list buf) (bd : buf) (ins : list copy_input).
  Hypothesis Hins : concat_inputs srcs (co_dims dst) rank_ dim bounds = Val ins.
  Hypothesis Hne : srcs <> [].
  Hypothesis Hrank : length (co_dims dst) = rank_ /\ rank bd = rank_.
  Hypothesis Hdims : NoDup (co_dims dst) /\ ~ In (co_sym dst) (co_dims dst).
  Hypothesis Hsrc : Forall2 (fun s b => (exists k, E (fst s) = Buffer k b /\ alone k = true) /\ (rank b <= rank_)%nat /\ fst s <> co_sym dst /\ ~ In (fst s) (co_dims dst) /\
    (forall d, In d (dims b) -> d_stride d = 0 -> d_min d <= 0 <= d_max d)) srcs bs.
  Hypothesis Hb : Forall2 (fun e z => veval mem H E e = Val z /\ - 2 ^ 62 < z < 2 ^ 62) bounds bz.
  Hypothesis Hfree : forall e x, In e bounds -> free x e -> x <> co_sym dst /\ ~ In x (co_dims dst) /\ ~ In x (map fst srcs).
  Hypothesis Hthere : forall i idx, (i < length srcs)%nat -> in_bounds (dims bd) idx -> concat_at bz dim i idx -> locate bd (index idx) <> None /\ concat_source bs bz dim i idx <> None.
  Hypothesis Hapart : forall i idx idx', (i < length srcs)%nat -> in_bounds (dims bd) idx -> in_bounds (dims bd) idx' -> concat_at bz dim i idx' ->
    apart (elem_size bd) (locate bd (index idx)) (concat_source bs bz dim i idx').
  Let ps := map (concat_piece bs bz dim) (seq 0 (length srcs)).
  Lemma cdim : (dim < rank_)%nat. Proof. exact (concat_inputs_dim _ _ _ _ _ _ Hins Hne). Qed.
  Lemma csrc_nth k s r : nth_error srcs k = Some (s, r) -> let b := nth k bs (Buf None 0 []) in
    (exists kd, E s = Buffer kd b /\ alone kd = true) /\ (rank b <= rank_)%nat /\ s <> co_sym dst /\ ~ In s (co_dims dst) /\ (forall d, In d (dims b) -> d_stride d = 0 -> d_min d <= 0 <= d_max d).
  Proof.
    clear - Hsrc. revert k. induction Hsrc as [|(s', r') b ss bs' P F IH]; intros k K; [destruct k; discriminate|].
    destruct k as [|k]; cbn [nth_error] in K; [injection K as -> ->; exact P|]. cbn [nth]. exact (IH F k K).
  Qed.
  Lemma bz_nth k : (k < length bounds)%nat -> let e := nth k bounds EUndef in veval mem H E e = Val (nth k bz 0) /\ - 2 ^ 62 < nth k bz 0 < 2 ^ 62 /\ In e bounds /\ defined e = true.
  Proof.
    intros L. cbn zeta. enough (Q : veval mem H E (nth k bounds EUndef) = Val (nth k bz 0) /\ - 2 ^ 62 < nth k bz 0 < 2 ^ 62).
    - destruct Q as (Q1 & Q2). split; [exact Q1|]. split; [exact Q2|]. split; [apply nth_In; exact L|]. destruct (nth k bounds EUndef); try reflexivity. discriminate Q1.
    - clear - Hb L. revert k L. induction Hb as [|e z l l' P F IH]; intros k L; [cbn in L; lia|]. destruct k as [|k]; cbn [nth]; [exact P|]. apply IH; [exact F|cbn in L; lia].
  Qed.
  Lemma cps_nth k p : nth_error ps k = Some p <-> (k < length srcs)%nat /\ p = concat_piece bs bz dim k.
  Proof.
    unfold ps. split.
    - intros K. assert (L : (k < length srcs)%nat) by (rewrite <- (seq_length (length srcs) 0), <- (map_length (concat_piece bs bz dim)); apply nth_error_Some; congruence). split; [exact L|].
      rewrite (map_nth_error _ _ _ (nth_error_nth' (seq 0 (length srcs)) O ltac:(rewrite seq_length; exact L))) in K. injection K as <-. rewrite seq_nth by exact L. reflexivity.
    - intros (L & ->). rewrite (map_nth_error _ _ _ (nth_error_nth' (seq 0 (length srcs)) O ltac:(rewrite seq_length; exact L))). rewrite seq_nth by exact L. reflexivity.
  Qed.
  Lemma clen idx : in_bounds (dims bd) idx -> length idx = rank_.
  Proof. intros B. rewrite (in_bounds_length _ _ B). exact (proj2 Hrank). Qed.
  Lemma concat_covered k idx : in_bounds (dims bd) idx -> covered (concat_piece bs bz dim k) idx <-> concat_at bz dim k idx.
  Proof.
    intros B. unfold covered, concat_piece, concat_at. cbn [p_slice p_out unsliced]. rewrite within_one by (rewrite (clen idx B); exact cdim).
    destruct idx; cbn [agrees]; split; intros; try (split; [exact I|]); lia.
  Qed.
  Lemma concat_from k idx : (k < length srcs)%nat -> in_bounds (dims bd) idx -> concat_at bz dim k idx -> source (concat_piece bs bz dim k) idx = concat_source bs bz dim k idx.
  Proof.
    intros L B C. pose proof (proj2 (Hthere k idx L B C)) as T. unfold source, concat_piece. cbn [p_slice p_in p_src p_coord p_pad unsliced].
    replace (match idx with [] => idx | _ :: _ => idx end) with idx by (destruct idx; reflexivity). unfold concat_source in *.
    destruct (nth_error srcs k) as [(s, r)|] eqn:K; [|apply nth_error_None in K; lia]. destruct (csrc_nth k s r K) as (_ & R & _ & _ & Z0). cbn zeta in *.
    set (b := nth k bs (Buf None 0 [])) in *. set (c := set_nth idx dim (nth dim idx 0 - nth k bz 0)) in *.
    rewrite reach_ok.
    - destruct (locate b (index c)); reflexivity.
    - apply located_place, T.
    - exact Z0.
    - intros j l J. destruct (Nat.eq_dec j dim) as [->|N].
      + apply limits_one in J as ->. unfold limited, index, c. cbn [fst snd]. rewrite nth_set_nth by (rewrite (clen idx B); exact cdim). rewrite Nat.eqb_refl. unfold concat_at in C. lia.
      + rewrite (limits_at _ _ _ _ J N). split; split; exact I.
  Qed.
  Lemma points_nth k j : (j < rank_)%nat -> nth_error (concat_points (co_dims dst) rank_ dim (nth k bounds EUndef)) j =
    Some (let x := p_point (e_var (nth j (co_dims dst) O)) in if (j =? dim)%nat then point_sub x (nth k bounds EUndef) else x).
  Proof.
    intros L. destruct Hrank as (R1 & _). unfold concat_points. rewrite firstn_all2 by lia. rewrite nth_error_set_nth, map_length, R1.
    pose proof cdim as Ld. destruct (Nat.ltb_spec dim rank_); [|lia]. rewrite andb_true_r. destruct (Nat.eqb_spec j dim) as [->|N].
    - cbn zeta. f_equal. f_equal. rewrite (nth_indep _ _ (p_point (e_var O))) by (rewrite map_length; lia). rewrite (map_nth (fun x => p_point (e_var x))). reflexivity.
    - rewrite (map_nth_error (fun x => p_point (e_var x)) j (co_dims dst) (d := nth j (co_dims dst) O)) by (apply nth_error_nth'; lia). reflexivity.
  Qed.
  Lemma points_length b : length (concat_points (co_dims dst) rank_ dim b) = rank_.
  Proof. unfold concat_points. rewrite set_nth_length, map_length, firstn_length. lia. Qed.
  Lemma points_lt b j x : nth_error (concat_points (co_dims dst) rank_ dim b) j = Some x -> (j < rank_)%nat.
  Proof. intros J. rewrite <- (points_length b). apply nth_error_Some. intros Q. rewrite Q in J. discriminate. Qed.
  Lemma veval_sub E' a b x y : veval mem H E' a = Val x -> veval mem H E' b = Val y -> - 2 ^ 63 <= x - y < 2 ^ 63 -> veval mem H E' (e_sub a b) = Val (x - y).
  Proof. intros A B R. unfold e_sub, make_bin. cbn [commutative andb veval]. rewrite A, B. cbn [bind eval_bin]. unfold csub. apply chk_ok. unfold imin, imax. change (2 ^ (64 - 1)) with (2 ^ 63). lia. Qed.
  Lemma concat_pieces : Forall2 (fun i p => piece_of mem H E i dst bd p /\ p_pad p = None) ins ps.
  Proof.
    destruct (concat_inputs_ok _ _ _ _ _ _ Hins) as (Lb & Li & N). apply Forall2_nth; [unfold ps; rewrite map_length, seq_length; exact Li|].
    intros k c p Kc Kp. apply cps_nth in Kp as (L & ->). destruct (nth_error srcs k) as [(s, r)|] eqn:K; [|apply nth_error_None in K; lia].
    destruct (N k s r K) as (-> & Q). rewrite Kc in Q. injection Q as ->. clear N Kc. destruct (csrc_nth k s rank_ K) as ((kd & Es & As) & R & N1 & N2 & Z0).
    destruct (bz_nth k ltac:(lia)) as (V1 & B1 & I1 & D1). destruct (bz_nth (S k) ltac:(lia)) as (V2 & B2 & I2 & D2). cbn zeta in *.
    assert (Ss : In s (map fst srcs)) by (apply nth_error_In in K; apply (in_map fst) in K; exact K).
    assert (Gl : forall lo hi l, gives_limits mem H E (lo, hi) l -> Forall2 (gives_limits mem H E) (repeat undef_interval dim ++ [(lo, hi)]) (repeat no_limit dim ++ [l])).
    { intros lo hi l G. clear - G. induction dim as [|n IH]; cbn [repeat app]; [constructor; [exact G|constructor]|]. constructor; [split; reflexivity|exact IH]. }
    assert (U : forall x, x = s \/ x = co_sym dst -> ~ free x (nth k bounds EUndef) /\ ~ free x (nth (S k) bounds EUndef)).
    { intros x Hx. split; intros Fx; [destruct (Hfree _ x I1 Fx) as (F1 & F2 & F3)|destruct (Hfree _ x I2 Fx) as (F1 & F2 & F3)]; destruct Hx as [-> | ->]; auto. }
    split; [|reflexivity]. constructor; cbn [ci_sym ci_bounds ci_input_crop ci_output_crop ci_output_slice concat_piece p_slice p_out p_in p_src p_coord].
    - exists kd. auto.
    - destruct Hdims. auto.
    - apply Forall_nth_error. intros j x J. assert (Lj : (j < rank_)%nat) by exact (points_lt _ _ _ J).
      rewrite points_nth in J by exact Lj. injection J as <-. cbn zeta. destruct (j =? dim)%nat; apply same_refl.
    - constructor.
    - apply Gl. split; cbn [fst snd gives]; [auto|]. split; [reflexivity|]. apply veval_sub; [exact V2|reflexivity|lia].
    - apply Gl. split; cbn [fst snd gives]; [auto|]. split; [reflexivity|]. apply veval_sub; [apply veval_sub; [exact V2|exact V1|lia]|reflexivity|lia].
    - assert (Uc : forall lo hi, (forall x, x = s \/ x = co_sym dst -> ~ free x lo /\ ~ free x hi) -> Forall (fun x => unused s x /\ unused (co_sym dst) x) (repeat undef_interval dim ++ [(lo, hi)])).
      { intros lo hi G. apply Forall_app. split; [apply Forall_forall; intros x Ix; apply repeat_spec in Ix as ->; repeat split; intros (ro & [])|].
        constructor; [|constructor]. split; apply G; auto. }
      apply Forall_app. split; [|apply Forall_app; split].
      + apply Uc. intros x Hx. destruct (U x Hx) as (U1 & U2). split; [exact U1|]. intros F. apply free_sub in F as [F|F]; [exact (U2 F)|exact (free_const _ _ F)].
      + apply Uc. intros x Hx. destruct (U x Hx) as (U1 & U2). split; [exact (free_const x 0)|]. intros F. apply free_sub in F as [F|F]; [|exact (free_const _ _ F)]. apply free_sub in F as [F|F]; auto.
      + apply Forall_nth_error. intros j x J. assert (Lj : (j < rank_)%nat) by exact (points_lt _ _ _ J).
        rewrite points_nth in J by exact Lj. injection J as <-. cbn zeta. set (y := nth j (co_dims dst) O).
        assert (Iy : In y (co_dims dst)) by (apply nth_In; destruct Hrank; lia).
        assert (Uy : forall x, x = s \/ x = co_sym dst -> ~ free x (e_var y)).
        { intros x Hx (ro & Fx & _). subst x. destruct Hdims. destruct Hx as [Hx|Hx]; rewrite Hx in Iy; auto. }
        assert (G : forall x, x = s \/ x = co_sym dst -> unused x (if (j =? dim)%nat then point_sub (p_point (e_var y)) (nth k bounds EUndef) else p_point (e_var y))).
        { intros x Hx. unfold unused. destruct (j =? dim)%nat; cbn [point_sub p_point fst snd]; [|split; apply Uy; exact Hx].
          split; intros F; apply free_sub in F as [F|F]; [exact (Uy x Hx F)|exact (proj1 (U x Hx) F)|exact (Uy x Hx F)|exact (proj1 (U x Hx) F)]. }
        split; apply G; auto.
    - intros idx B C. replace (unsliced [] idx) with idx by (destruct idx; reflexivity). cbn zeta. pose proof cdim as Ld. pose proof (clen idx B) as Ll. destruct Hrank as (R1 & _).
      apply concat_covered in C; [|exact B]. unfold concat_at in C.
      apply vlist_nth; [rewrite map_length, points_length, set_nth_length; lia|].
      intros j e J. rewrite nth_error_map in J. destruct (Nat.lt_ge_cases j rank_) as [Lj|Lj].
      2:{ exfalso. unfold interval in *. rewrite (proj2 (nth_error_None (concat_points _ _ _ _) j)) in J by (rewrite points_length; lia). discriminate. }
      unfold interval in *. rewrite points_nth in J by exact Lj. cbn zeta in J.
      assert (Vx : veval mem H (at_values E (co_dims dst) idx) (e_var (nth j (co_dims dst) O)) = Val (nth j idx 0)).
      { rewrite veval_var, (at_nth _ idx E j (nth j (co_dims dst) O) (proj1 Hdims)); [reflexivity|lia|]. apply nth_error_nth'. lia. }
      rewrite nth_set_nth by lia. destruct (Nat.eqb_spec j dim) as [->|Nj]; injection J as <-; cbn [point_sub p_point fst]; [|exact Vx].
      apply veval_sub; [exact Vx| |lia]. rewrite <- V1. apply eval_frame. intros x Fx. apply at_out. exact (proj1 (proj2 (Hfree _ x I1 Fx))).
  Qed.
  Lemma concat_provided : Forall (provided bd) ps.
  Proof.
    apply Forall_nth_error. intros k p K. apply cps_nth in K as (L & ->). constructor.
    - cbn [concat_piece p_slice]. intros j v J. destruct j; discriminate.
    - intros idx B C. apply concat_covered in C; [|exact B]. rewrite concat_from by auto. exact (Hthere k idx L B C).
    - intros idx idx' B B' C. apply concat_covered in C; [|exact B']. rewrite concat_from by auto. exact (Hapart k idx idx' L B B' C).
  Qed.
  Lemma concat_result m m' : combined bd ps m m' ->
    (forall i idx d s k, (i < length srcs)%nat -> in_bounds (dims bd) idx -> concat_at bz dim i idx -> (forall j, (i < j < length srcs)%nat -> ~ concat_at bz dim j idx) ->
       locate bd (index idx) = Some d -> concat_source bs bz dim i idx = Some s -> 0 <= k < elem_size bd -> m' (d + k) = m (s + k)) /\
    (forall a, (forall idx i d, in_bounds (dims bd) idx -> (i < length srcs)%nat -> concat_at bz dim i idx -> locate bd (index idx) = Some d -> ~ (d <= a < d + elem_size bd)) -> m' a = m a).
  Proof.
    intros C. split.
    - intros i idx d s k L B A La Ld Ls K. refine (combined_nth bd ps m m' i _ idx d s k C (proj2 (cps_nth i _) (conj L eq_refl)) B _ _ Ld _ K).
      + apply concat_covered; auto.
      + intros j q J Q. apply cps_nth in Q as (Lj & ->). rewrite concat_covered by exact B. apply La. lia.
      + rewrite concat_from by auto. exact Ls.
    - intros a F. apply (proj2 C). intros idx p d B I Cv Ld. apply In_nth_error in I as (j & J). apply cps_nth in J as (L & ->). apply concat_covered in Cv; [|exact B].
      exact (F idx j d B L Cv Ld).
  Qed.
End Concat.
