From Coq Require Import ZArith List Bool Lia.
From Verif Require Import Expr_Model Expr_Proofs Match_Model.
Import ListNotations.
Open Scope Z_scope.

(** The order is the lexicographic order of a prefix code. *)
Fixpoint code (e : expr) : list Z :=
  match e with
  | EUndef => [0]
  | EVar s f d => [1; Z.of_nat s; field_type f; d]
  | ELet l b => 2 :: Z.of_nat (length l) ::
      (fix go (l : list (nat * expr)) := match l with [] => [] | p :: l' => Z.of_nat (fst p) :: code (snd p) ++ go l' end) l
      ++ code b
  | EBin o a b => binop_type o :: code a ++ code b
  | ENot a => 16 :: code a
  | ESelect c t f => 17 :: code c ++ code t ++ code f
  | ECall fn t l => 18 :: intrinsic_type fn :: Z.of_nat (length l) ::
      (fix go (l : list expr) := match l with [] => [] | p :: l' => code p ++ go l' end) l
      ++ (match t with Some n => [0; Z.of_nat n] | None => [1] end)
  | EConst c => [19; c]
  end.

Fixpoint lexZ (a b : list Z) : comparison :=
  match a, b with
  | [], [] => Eq
  | [], _ => Lt
  | _, [] => Gt
  | x :: a, y :: b => lex (Z.compare x y) (lexZ a b)
  end.

Lemma lex_assoc a b c : lex (lex a b) c = lex a (lex b c). Proof. destruct a; reflexivity. Qed.
Lemma lex_eq a b : lex a b = Eq <-> a = Eq /\ b = Eq.
Proof. destruct a, b; cbn; intuition congruence. Qed.
Lemma nat_cmp m n : Z.compare (Z.of_nat m) (Z.of_nat n) = Nat.compare m n.
Proof. apply Nat2Z.inj_compare. Qed.

Lemma binop_type_inj o p : binop_type o = binop_type p -> o = p.
Proof. destruct o, p; cbn; intro; congruence. Qed.
Lemma intrinsic_type_inj o p : intrinsic_type o = intrinsic_type p -> o = p.
Proof. destruct o, p; cbn; intro; congruence. Qed.
Lemma field_type_inj o p : field_type o = field_type p -> o = p.
Proof. destruct o, p; cbn; intro; congruence. Qed.
Lemma binop_type_range o : 3 <= binop_type o <= 15.
Proof. destruct o; cbn; lia. Qed.

Lemma code_hd e k : exists l, code e ++ k = type_of e :: l.
Proof. destruct e; cbn; eexists; reflexivity. Qed.

Lemma lex_ne x y k : x <> y -> lex (Z.compare x y) k = Z.compare x y.
Proof. intro H; destruct (Z.compare_spec x y); [contradiction|reflexivity|reflexivity]. Qed.

Definition codes (l : list expr) := (fix go (l : list expr) := match l with [] => [] | p :: l' => code p ++ go l' end) l.
Definition codesl (l : list (nat * expr)) :=
  (fix go (l : list (nat * expr)) := match l with [] => [] | p :: l' => Z.of_nat (fst p) :: code (snd p) ++ go l' end) l.

Definition cc (a : expr) := forall b k k', lexZ (code a ++ k) (code b ++ k') = lex (compare a b) (lexZ k k').

Lemma codes_ok : forall l, Forall cc l -> forall l' k k', length l = length l' ->
  lexZ (codes l ++ k) (codes l' ++ k') = lex (cmp_exprs compare l l') (lexZ k k').
Proof.
  induction 1 as [|x l Hx Hl IH]; intros [|y l'] k k' E; try discriminate; [reflexivity|].
  cbn [codes cmp_exprs]. fold (codes l) (codes l'). rewrite <- !app_assoc, Hx, lex_assoc.
  rewrite IH by (cbn in E; lia). reflexivity.
Qed.

Lemma codesl_ok : forall l, Forall (fun p => cc (snd p)) l -> forall l' k k', length l = length l' ->
  lexZ (codesl l ++ k) (codesl l' ++ k') = lex (cmp_lets compare l l') (lexZ k k').
Proof.
  induction 1 as [|[s x] l Hx Hl IH]; intros [|[t y] l'] k k' E; try discriminate; [reflexivity|].
  cbn [codesl cmp_lets fst snd app lexZ]. fold (codesl l) (codesl l'). cbn [snd] in Hx.
  rewrite <- !app_assoc, Hx, !lex_assoc, nat_cmp.
  rewrite IH by (cbn in E; lia). reflexivity.
Qed.

Lemma target_ok t t' k k' :
  lexZ ((match t with Some n => [0; Z.of_nat n] | None => [1] end) ++ k)
       ((match t' with Some n => [0; Z.of_nat n] | None => [1] end) ++ k') = lex (cmp_target t t') (lexZ k k').
Proof. destruct t, t'; cbn [app lexZ cmp_target]; rewrite ?nat_cmp; reflexivity. Qed.

Lemma other a b k k' : type_of a <> type_of b ->
  lexZ (code a ++ k) (code b ++ k') = lex (Z.compare (type_of a) (type_of b)) (lexZ k k').
Proof.
  intro H. destruct (code_hd a k) as (l & ->), (code_hd b k') as (l' & ->). cbn [lexZ].
  rewrite !lex_ne by assumption. reflexivity.
Qed.

Ltac oth := match goal with |- context [compare ?x ?y] =>
   change (compare x y) with (Z.compare (type_of x) (type_of y)) end; apply other; cbn [type_of];
   repeat match goal with o : binop |- _ => destruct o end; discriminate.

Lemma code_ok : forall a, cc a.
Proof.
  induction a as [|s f d|l b IHl IHb|o a b IHa IHb|a IHa|q t f IHq IHt IHf|fn t l IHl|z] using expr_ind';
    intros [|s' f' d'|l' b'|o' a' b'|a'|q' t' f'|fn' t' l'|z'] k k'; try (oth; fail).
  - reflexivity.
  - cbn [code app lexZ compare]. rewrite nat_cmp, !lex_assoc. reflexivity.
  - cbn [code compare]. fold (codesl l) (codesl l'). cbn [app lexZ]. rewrite nat_cmp. rewrite !lex_assoc.
    cbn [lex Z.compare Pos.compare Pos.compare_cont]. destruct (Nat.compare_spec (length l) (length l')) as [E| |]; try reflexivity.
    cbn [lex]. rewrite <- !app_assoc, codesl_ok by assumption. rewrite IHb. reflexivity.
  - cbn [code compare app lexZ]. rewrite <- !app_assoc, IHa, IHb, !lex_assoc. reflexivity.
  - cbn [code compare app lexZ]. rewrite IHa. reflexivity.
  - cbn [code compare app lexZ]. rewrite <- !app_assoc, IHq, IHt, IHf, !lex_assoc. reflexivity.
  - cbn [code compare]. fold (codes l) (codes l'). cbn [app lexZ]. rewrite nat_cmp, !lex_assoc.
    cbn [lex Z.compare Pos.compare Pos.compare_cont].
    destruct (Nat.compare_spec (length l) (length l')) as [E| |]; cbn [lex]; try (rewrite ?lex_assoc; reflexivity).
    rewrite <- !app_assoc, codes_ok by assumption. rewrite target_ok. reflexivity.
  - cbn [code app lexZ compare]. reflexivity.
Qed.

Lemma compare_code a b : compare a b = lexZ (code a) (code b).
Proof.
  pose proof (code_ok a b [] []) as H. rewrite !app_nil_r in H. rewrite H. destruct (compare a b); reflexivity.
Qed.

Lemma lexZ_opp : forall a b, lexZ b a = CompOpp (lexZ a b).
Proof.
  induction a as [|x a IH]; intros [|y b]; cbn [lexZ]; try reflexivity.
  rewrite (Z.compare_antisym x y), IH. destruct (x ?= y); reflexivity.
Qed.
Lemma lexZ_eq : forall a b, lexZ a b = Eq <-> a = b.
Proof.
  induction a as [|x a IH]; intros [|y b]; cbn [lexZ]; try (split; congruence).
  rewrite lex_eq, IH, Z.compare_eq_iff. split; [intros [-> ->]; reflexivity|intro E; injection E as -> ->; auto].
Qed.
Lemma lexZ_trans : forall a b c, lexZ a b = Lt -> lexZ b c = Lt -> lexZ a c = Lt.
Proof.
  induction a as [|x a IH]; intros [|y b] [|z c]; cbn [lexZ]; try congruence.
  destruct (Z.compare_spec x y), (Z.compare_spec y z); cbn [lex]; try congruence; intros;
    subst; try rewrite Z.compare_refl; cbn [lex]; eauto;
    match goal with |- lex (?u ?= ?v) _ = _ => destruct (Z.compare_spec u v); try lia; reflexivity end.
Qed.

Lemma cmp_exprs_eq : forall l, Forall (fun a => forall b, compare a b = Eq -> a = b) l ->
  forall l', length l = length l' -> cmp_exprs compare l l' = Eq -> l = l'.
Proof.
  induction 1 as [|x l Hx Hl IH]; intros [|y l'] E; try discriminate; [reflexivity|].
  cbn [cmp_exprs]. rewrite lex_eq. intros [H1 H2]. f_equal; [auto|apply IH; [cbn in E; lia|assumption]].
Qed.
Lemma cmp_lets_eq : forall l, Forall (fun p => forall b, compare (snd p) b = Eq -> snd p = b) l ->
  forall l', length l = length l' -> cmp_lets compare l l' = Eq -> l = l'.
Proof.
  induction 1 as [|[s x] l Hx Hl IH]; intros [|[t y] l'] E; try discriminate; [reflexivity|].
  cbn [cmp_lets]. rewrite !lex_eq. intros [[H0 H1] H2]. apply Nat.compare_eq_iff in H0. cbn [snd] in Hx.
  rewrite (Hx y H1), H0. f_equal. apply IH; [cbn in E; lia|assumption].
Qed.

Lemma compare_eq_l : forall a b, compare a b = Eq -> a = b.
Proof.
  induction a as [|s f d|l b IHl IHb|o a b IHa IHb|a IHa|q t f IHq IHt IHf|fn t l IHl|z] using expr_ind';
    intros [|s' f' d'|l' b'|o' a' b'|a'|q' t' f'|fn' t' l'|z'];
    try (cbn [compare type_of]; repeat match goal with o : binop |- _ => destruct o end; discriminate).
  - reflexivity.
  - cbn [compare]. rewrite !lex_eq, Nat.compare_eq_iff, !Z.compare_eq_iff. intros (-> & F & ->).
    apply field_type_inj in F; subst; reflexivity.
  - cbn [compare]. rewrite !lex_eq, Nat.compare_eq_iff. intros (L & H & B).
    rewrite (cmp_lets_eq l IHl l' L H), (IHb _ B). reflexivity.
  - cbn [compare]. rewrite !lex_eq, Z.compare_eq_iff. intros (O & A & B).
    apply binop_type_inj in O. rewrite O, (IHa _ A), (IHb _ B). reflexivity.
  - cbn [compare]. intro H; f_equal; auto.
  - cbn [compare]. rewrite !lex_eq. intros (A & B & C). f_equal; auto.
  - cbn [compare]. rewrite !lex_eq, Z.compare_eq_iff, Nat.compare_eq_iff. intros (A & (L & B) & C).
    apply intrinsic_type_inj in A. rewrite A, (cmp_exprs_eq l IHl l' L B). f_equal.
    destruct t, t'; cbn [cmp_target] in C; try congruence. apply Nat.compare_eq_iff in C; congruence.
  - cbn [compare]. rewrite Z.compare_eq_iff. congruence.
Qed.

Lemma compare_refl a : compare a a = Eq.
Proof. rewrite compare_code; apply lexZ_eq; reflexivity. Qed.
Lemma compare_eq a b : compare a b = Eq <-> a = b.
Proof. split; [apply compare_eq_l|intros ->; apply compare_refl]. Qed.
Lemma match_eq a b : match_expr a b = true <-> a = b.
Proof. rewrite <- compare_eq; unfold match_expr; destruct (compare a b); split; congruence. Qed.
