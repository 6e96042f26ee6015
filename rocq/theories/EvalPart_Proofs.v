(** Evaluation where some symbols and buffers are not known: the meaning, where there is one, is what is evaluated. *)
From Coq Require Import ZArith List Bool Lia.
From Verif Require Import Arith_Model Arith_Spec Arith_Proofs Buf_Model Alloc_Model Expr_Model Expr_Spec Expr_Proofs Stmt_Model Stmt_Proofs.
Import ListNotations.
Open Scope Z_scope.

Lemma xbin_bad_l o b : xbin o Bad b = Bad.
Proof. destruct o, b; reflexivity. Qed.
Lemma xbin_bad_r o a : xbin o a Bad = Bad.
Proof. destruct o, a; reflexivity. Qed.

(** The environment knows a part of the context. *)
Definition part_of (c : context) (r : env) : Prop := forall s, r s = Bad \/ (r s = Fin (c s) /\ in64 (c s)).
Lemma part_of_eq c c' r : ctx_eq c c' -> part_of c r -> part_of c' r.
Proof. intros Q P s. rewrite Q. apply P. Qed.
Lemma part_of_set c r s v : part_of c r -> in64 v -> part_of (ctx_set c s v) (env_set r s (Fin v)).
Proof. intros P V t. unfold ctx_set, env_set. destruct (t =? s)%nat; auto. Qed.
Lemma part_of_bad c r s v : part_of c r -> part_of (ctx_set c s v) (env_set r s Bad).
Proof. intros P t. unfold ctx_set, env_set. destruct (t =? s)%nat; auto. Qed.

Definition knows (m : xval) (v : Z) : Prop := m = Bad \/ (m = Fin v /\ in64 v).

Section Part.
  Variables W W' : world.
  Hypothesis HW : world_ok W.
  Hypothesis Bufs : forall p b, w_buf W p = Some b -> w_buf W' p = Some b.
  Hypothesis User : w_user W' = w_user W.
  Hypothesis Intr : w_intrinsic W' = w_intrinsic W.

  Definition part_ok (e : expr) : Prop := lets_distinct e -> consts_ok e ->
    forall c r v c', part_of c r -> eval W' c e = Val (v, c') -> knows (meaning W r e) v.
  Definition parts_ok (l : list expr) := Forall part_ok l /\ Forall lets_distinct l /\ Forall consts_ok l.
  Lemma parts_ok_inv x l : parts_ok (x :: l) -> part_ok x /\ lets_distinct x /\ consts_ok x /\ parts_ok l.
  Proof. intros (A & B & C); inversion A; inversion B; inversion C; subst; exact (conj H1 (conj H5 (conj H9 (conj H2 (conj H6 H10))))). Qed.

  Lemma lets_part : forall (l : list (nat * expr)) (k : env -> xval) c r c1 old,
    parts_ok (map snd l) -> part_of c r -> eval_lets (eval W') l c = Val (c1, old) ->
    xlets (meaning W) k l r = Bad \/ exists r1, part_of c1 r1 /\ xlets (meaning W) k l r = k r1.
  Proof.
    induction l as [|[s x] l IH]; intros k c r c1 old Ha Er E; cbn [eval_lets] in E.
    - injection E as <- <-. right. exists r. split; [exact Er|reflexivity].
    - cbn [map snd] in Ha. apply parts_ok_inv in Ha. destruct Ha as (H1 & H2 & H3 & H4).
      apply bind_inv in E; destruct E as ([v c0] & E0 & E).
      apply bind_inv in E; destruct E as ([c2 old'] & E1 & E). injection E as <- <-. cbn [xlets].
      destruct (H1 H2 H3 c r v c0 Er E0) as [->|(-> & V)]; [auto|].
      apply (IH k (ctx_set c0 s v) (env_set r s (Fin v)) c2 old' H4); auto. apply part_of_set; auto.
      eapply part_of_eq; [|exact Er]. exact (eval_ctx W' x H2 _ _ _ E0).
  Qed.
  Lemma args_part : forall l c r vs c1,
    parts_ok l -> part_of c r -> eval_args (eval W') l c = Val (vs, c1) ->
    xargs (map (fun a => (defined a, meaning W r a)) l) = None \/ xargs (map (fun a => (defined a, meaning W r a)) l) = Some vs.
  Proof.
    induction l as [|x l IH]; intros c r vs c1 Ha Er E; cbn [eval_args] in E.
    - injection E as <- <-. auto.
    - apply parts_ok_inv in Ha. destruct Ha as (H1 & H2 & H3 & H4). cbn [map].
      destruct (defined x).
      + apply bind_inv in E; destruct E as ([v c0] & E0 & E).
        apply bind_inv in E; destruct E as ([vs' c2] & E1 & E). injection E as <- <-. cbn [xargs].
        destruct (H1 H2 H3 c r v c0 Er E0) as [->|(-> & V)]; [auto|].
        destruct (IH c0 r vs' c2 H4 (part_of_eq _ _ _ (eval_ctx W' x H2 _ _ _ E0) Er) E1) as [->| ->]; auto.
      + apply bind_inv in E; destruct E as ([vs' c2] & E1 & E). injection E as <- <-. cbn [xargs].
        destruct (IH c r vs' c2 H4 Er E1) as [->| ->]; auto.
  Qed.
  Lemma at_part : forall l n c r vs c1,
    parts_ok l -> part_of c r -> eval_at (eval W') n l c = Val (vs, c1) ->
    xargs (firstn n (map (fun a => (defined a, meaning W r a)) l)) = None \/ xargs (firstn n (map (fun a => (defined a, meaning W r a)) l)) = Some vs.
  Proof.
    induction l as [|x l IH]; intros n c r vs c1 Ha Er E; cbn [eval_at] in E.
    - injection E as <- <-. cbn [map]. rewrite firstn_nil. auto.
    - destruct n as [|n]; [injection E as <- <-; auto|].
      apply parts_ok_inv in Ha. destruct Ha as (H1 & H2 & H3 & H4). cbn [map firstn].
      destruct (defined x).
      + apply bind_inv in E; destruct E as ([v c0] & E0 & E).
        apply bind_inv in E; destruct E as ([vs' c2] & E1 & E). injection E as <- <-. cbn [xargs].
        destruct (H1 H2 H3 c r v c0 Er E0) as [->|(-> & V)]; [auto|].
        destruct (IH n c0 r vs' c2 H4 (part_of_eq _ _ _ (eval_ctx W' x H2 _ _ _ E0) Er) E1) as [->| ->]; auto.
      + apply bind_inv in E; destruct E as ([vs' c2] & E1 & E). injection E as <- <-. cbn [xargs].
        destruct (IH n c r vs' c2 H4 Er E1) as [->| ->]; auto.
  Qed.
  Lemma short_part stop : forall l c r v c1,
    parts_ok l -> part_of c r -> eval_short (eval W') stop l c = Val (v, c1) ->
    knows (xshort stop (map snd (map (fun a => (defined a, meaning W r a)) l))) v.
  Proof.
    induction l as [|x l IH]; intros c r v c1 Ha Er E; cbn [eval_short] in E.
    - injection E as <- <-. right. split; [reflexivity|apply in64_bool].
    - apply parts_ok_inv in Ha. destruct Ha as (H1 & H2 & H3 & H4). cbn [map snd xshort].
      apply bind_inv in E; destruct E as ([w c0] & E0 & E).
      destruct (H1 H2 H3 c r w c0 Er E0) as [->|(-> & V)]; [left; reflexivity|].
      destruct (Bool.eqb (truthy w) stop).
      + injection E as <- <-. right. split; [reflexivity|apply in64_bool].
      + exact (IH c0 r v c1 H4 (part_of_eq _ _ _ (eval_ctx W' x H2 _ _ _ E0) Er) E).
  Qed.

  Ltac fin := match goal with
    | H : Val _ = Val _ |- _ => injection H as <- <-
    end.

  Lemma eval_part : forall e, part_ok e.
  Proof.
    induction e as [|s f d|l b IHl IHb|o a b IHa IHb|a IHa|q t f IHq IHt IHf|fn t l IHl|k] using expr_ind';
      intros D K c r v c' Er E; cbn [eval] in E.
    - discriminate.
    - cbn [meaning]. destruct (Er s) as [->|(-> & V)]; [left; destruct f; reflexivity|].
      destruct f; [fin; right; auto|..];
        (destruct (w_buf W (c s)) as [b|] eqn:B; [|left; reflexivity]); rewrite (Bufs _ _ B) in E; fin; right; (split; [reflexivity|]);
        pose proof (fun f => wk_field W HW (c s) b f d V B) as WF; first [exact (WF f_rank)|exact (WF f_elem_size)|exact (WF f_size_bytes)|exact (WF f_min)|exact (WF f_max)|exact (WF f_stride)|exact (WF f_fold_factor)].
    - cbn [lets_distinct consts_ok] in *. destruct D as (D1 & D2 & D3), K as (K1 & K2).
      apply bind_inv in E; destruct E as ([c1 old] & E0 & E).
      apply bind_inv in E; destruct E as ([w c2] & E1 & E). fin. cbn [meaning].
      destruct (lets_part l (fun r => meaning W r b) c r c1 old) as [->|(r1 & A1 & ->)]; auto.
      { exact (conj (Forall_snd _ _ IHl) (conj (go_Forall_snd _ _ D2) (go_Forall_snd _ _ K1))). }
      { left; reflexivity. }
      exact (IHb D3 K2 c1 r1 w c2 A1 E1).
    - cbn [lets_distinct consts_ok] in *. destruct D as (D1 & D2), K as (K1 & K2).
      apply bind_inv in E; destruct E as ([va c1] & E0 & E).
      apply bind_inv in E; destruct E as ([vb c2] & E1 & E).
      apply bind_inv in E; destruct E as (w & E2 & E). fin. cbn [meaning].
      destruct (IHa D1 K1 c r va c1 Er E0) as [->|(-> & V1)]; [rewrite xbin_bad_l; left; reflexivity|].
      destruct (IHb D2 K2 c1 r vb c2 (part_of_eq _ _ _ (eval_ctx W' a D1 _ _ _ E0) Er) E1) as [->|(-> & V2)]; [rewrite xbin_bad_r; left; reflexivity|].
      right. split; [exact (eval_bin_mean o va vb w V1 V2 E2)|exact (eval_bin_in64 o va vb w V1 V2 E2)].
    - cbn [lets_distinct consts_ok] in *.
      apply bind_inv in E; destruct E as ([va c1] & E0 & E). fin. cbn [meaning].
      destruct (IHa D K c r va c1 Er E0) as [->|(-> & V1)]; [left; reflexivity|]. right. split; [reflexivity|apply in64_bool].
    - cbn [lets_distinct consts_ok] in *. destruct D as (D1 & D2 & D3), K as (K1 & K2 & K3).
      apply bind_inv in E; destruct E as ([vq c1] & E0 & E). cbn [meaning].
      destruct (IHq D1 K1 c r vq c1 Er E0) as [->|(-> & V1)]; [left; reflexivity|]. cbn [xselect].
      pose proof (part_of_eq _ _ _ (eval_ctx W' q D1 _ _ _ E0) Er) as Er1.
      destruct (truthy vq); [exact (IHt D2 K2 c1 r v c' Er1 E)|exact (IHf D3 K3 c1 r v c' Er1 E)].
    - cbn [lets_distinct consts_ok] in *. apply go_Forall in D, K.
      assert (A : parts_ok l) by (exact (conj IHl (conj D K))).
      cbn [meaning].
      assert (AR : forall vs c1, eval_args (eval W') l c = Val (vs, c1) ->
        xargs (map (fun a => (defined a, meaning W r a)) l) = None \/ xargs (map (fun a => (defined a, meaning W r a)) l) = Some vs)
        by (intros; eapply args_part; eauto).
      destruct fn; try discriminate;
        try (apply bind_inv in E; destruct E as ([vs c1] & E0 & E); rewrite Intr in E; fin; cbn [xcall];
             (destruct (AR _ _ E0) as [->| ->]; [left; reflexivity|]);
             right; split; [reflexivity|apply (wk_intrinsic W HW)]).
      + destruct t as [n|]; [|discriminate].
        apply bind_inv in E; destruct E as ([vs c1] & E0 & E); rewrite User in E; fin. cbn [xcall]. destruct (AR _ _ E0) as [->| ->]; [left; reflexivity|].
        right; split; [reflexivity|apply (wk_user W HW)].
      + destruct l as [|x [|]]; try discriminate.
        apply bind_inv in E; destruct E as ([w c1] & E0 & E).
        apply bind_inv in E; destruct E as (u & E1 & E). fin. apply chk_inv in E1.
        apply parts_ok_inv in A; destruct A as (H1 & H2 & H3 & _). cbn [xcall map].
        destruct (H1 H2 H3 c r w c1 Er E0) as [->|(-> & V)]; [left; reflexivity|]. destruct E1 as [-> R].
        right. split; [reflexivity|exact R].
      + cbn [xcall]. eapply short_part; eauto.
      + cbn [xcall]. eapply short_part; eauto.
      + destruct l as [|[] at_]; try discriminate. destruct f; try discriminate.
        apply parts_ok_inv in A; destruct A as (_ & _ & _ & A). cbn [xcall map].
        destruct (Er sym) as [->|(-> & V)]; [left; reflexivity|].
        destruct (w_buf W (c sym)) as [b|] eqn:B; [|left; reflexivity]. rewrite (Bufs _ _ B) in E.
        apply bind_inv in E; destruct E as ([vs c1] & E0 & E). fin.
        destruct (at_part at_ (rank b) c r vs c1 A Er E0) as [->| ->]; [left; reflexivity|].
        right. split; [reflexivity|]. eapply wk_at; eauto.
    - fin. right. split; [reflexivity|exact K].
  Qed.

  (** What has a meaning there is evaluated to it. *)
  Lemma eval_known e c r v c' z : lets_distinct e -> consts_ok e -> part_of c r -> eval W' c e = Val (v, c') -> meaning W r e = Fin z -> v = z.
  Proof. intros D K P E M. destruct (eval_part e D K c r v c' P E) as [B|(B & _)]; congruence. Qed.
End Part.
