From Coq Require Import ZArith List Bool Lia.
From Verif Require Import Expr_Model Expr_Proofs Match_Model Match_Proofs Stmt_Model Stmt_Proofs StmtMatch_Model StmtMatch_Spec.
Import ListNotations.
Open Scope Z_scope.

(** ** The order is that of a prefix code *)
Definition coded {A} (cmp : A -> A -> comparison) (f : A -> list Z) (a : A) : Prop :=
  forall b k k', lexZ (f a ++ k) (f b ++ k') = lex (cmp a b) (lexZ k k').
Section ListCode.
  Context {A : Type}.
  Variable f : A -> list Z.
  Fixpoint elems_code (l : list A) : list Z := match l with [] => [] | x :: l' => f x ++ elems_code l' end.
  Definition list_code (l : list A) : list Z := Z.of_nat (length l) :: elems_code l.
End ListCode.
Definition nat_code (n : nat) : list Z := [Z.of_nat n].
Definition var_code (v : option nat) : list Z := match v with Some n => [0; Z.of_nat n] | None => [1] end.
Definition interval_code (i : interval) : list Z := code (fst i) ++ code (snd i).
Definition dim_code (d : dim_expr) : list Z := interval_code (de_bounds d) ++ code (de_stride d) ++ code (de_fold d).
Definition let_code (p : nat * expr) : list Z := Z.of_nat (fst p) :: code (snd p).
Fixpoint scode (s : stmt) : list Z :=
  match s with
  | SUndef => [0]
  | SCall t i o x => 1 :: list_code nat_code i ++ list_code nat_code o ++ list_code code x ++ nat_code t
  | SCopy s x d dx p => 2 :: nat_code s ++ list_code code x ++ nat_code d ++ list_code nat_code dx ++ var_code p
  | SLet l x _ => 3 :: list_code let_code l ++ scode x
  | SBlock l => 4 :: Z.of_nat (length l) :: elems_code scode l
  | SLoop s _ i st x => 5 :: nat_code s ++ interval_code i ++ code st ++ scode x
  | SAllocate s _ e d x => 6 :: nat_code s ++ code e ++ list_code dim_code d ++ scode x
  | SMake s p e d x => 7 :: nat_code s ++ code p ++ code e ++ list_code dim_code d ++ scode x
  | SConst s v x => 8 :: nat_code s ++ [v] ++ scode x
  | SClone s v x => 9 :: nat_code s ++ nat_code v ++ scode x
  | SCropBuffer s v l x => 10 :: nat_code s ++ nat_code v ++ list_code interval_code l ++ scode x
  | SCropDim s v d i x => 11 :: nat_code s ++ nat_code v ++ nat_code d ++ interval_code i ++ scode x
  | SSliceBuffer s v l x => 12 :: nat_code s ++ nat_code v ++ list_code code l ++ scode x
  | SSliceDim s v d e x => 13 :: nat_code s ++ nat_code v ++ nat_code d ++ code e ++ scode x
  | STranspose s v p x => 14 :: nat_code s ++ nat_code v ++ list_code nat_code p ++ scode x
  | SAsync s t x => 15 :: var_code s ++ scode t ++ scode x
  | SCheck c => 16 :: code c
  end.

Lemma coded_code a : coded compare code a. Proof. exact (code_ok a). Qed.
Lemma coded_nat a : coded Nat.compare nat_code a.
Proof. intros b k k'. cbn [nat_code app lexZ]. rewrite nat_cmp. reflexivity. Qed.
Lemma coded_var a : coded cmp_var var_code a.
Proof. intros b k k'. destruct a, b; cbn [var_code app lexZ cmp_var]; rewrite ?nat_cmp; reflexivity. Qed.
Lemma coded_interval a : coded cmp_interval interval_code a.
Proof. intros b k k'. unfold interval_code, cmp_interval. rewrite <- !app_assoc, !coded_code, !lex_assoc. reflexivity. Qed.
Lemma coded_dim a : coded cmp_dim dim_code a.
Proof. intros b k k'. unfold dim_code, cmp_dim. rewrite <- !app_assoc, coded_interval, !coded_code, !lex_assoc. reflexivity. Qed.
Lemma coded_let a : coded cmp_let let_code a.
Proof. intros b k k'. unfold let_code, cmp_let. cbn [app lexZ]. rewrite coded_code, nat_cmp, !lex_assoc. reflexivity. Qed.
Lemma coded_elems {A} cmp f (l : list A) : Forall (coded cmp f) l -> forall l' k k', length l = length l' ->
  lexZ (elems_code f l ++ k) (elems_code f l' ++ k') = lex (cmp_elems cmp l l') (lexZ k k').
Proof.
  induction 1 as [|x l Hx Hl IH]; intros [|y l'] k k' E; try discriminate; [reflexivity|].
  cbn [elems_code cmp_elems]. rewrite <- !app_assoc, Hx, lex_assoc, IH by (cbn in E; lia). reflexivity.
Qed.
Lemma coded_list {A} cmp f (l : list A) : Forall (coded cmp f) l -> coded (cmp_list cmp) (list_code f) l.
Proof.
  intros H l' k k'. unfold list_code, cmp_list. cbn [app lexZ]. rewrite nat_cmp, lex_assoc.
  destruct (Nat.compare_spec (length l) (length l')) as [E| |]; try reflexivity.
  cbn [lex]. apply coded_elems; assumption.
Qed.
Lemma all_coded {A} cmp f (l : list A) : (forall a : A, coded cmp f a) -> coded (cmp_list cmp) (list_code f) l.
Proof. intro H. apply coded_list. apply Forall_forall; auto. Qed.
Lemma coded_z (a b : Z) k k' : lexZ ([a] ++ k) ([b] ++ k') = lex (Z.compare a b) (lexZ k k').
Proof. reflexivity. Qed.

Lemma scode_hd s k : exists l, scode s ++ k = stmt_type s :: l.
Proof. destruct s; cbn; eexists; reflexivity. Qed.
Lemma sother a b k k' : stmt_type a <> stmt_type b ->
  lexZ (scode a ++ k) (scode b ++ k') = lex (Z.compare (stmt_type a) (stmt_type b)) (lexZ k k').
Proof.
  intro H. destruct (scode_hd a k) as (l & ->), (scode_hd b k') as (l' & ->). cbn [lexZ].
  rewrite !lex_ne by assumption. reflexivity.
Qed.
Ltac soth := match goal with |- context [compare_stmt ?x ?y] =>
   change (compare_stmt x y) with (Z.compare (stmt_type x) (stmt_type y)) end; apply sother; cbn [stmt_type]; discriminate.
Ltac step := rewrite ?(coded_nat _ _ _ _), ?(coded_var _ _ _ _), ?(coded_code _ _ _ _), ?(coded_interval _ _ _ _), ?coded_z,
   ?(all_coded _ _ _ coded_nat _ _ _), ?(all_coded _ _ _ coded_code _ _ _), ?(all_coded _ _ _ coded_interval _ _ _),
   ?(all_coded _ _ _ coded_dim _ _ _), ?(all_coded _ _ _ coded_let _ _ _).
Lemma scode_ok : forall a, coded compare_stmt scode a.
Proof.
  induction a using stmt_ind'; intros b' k k'; destruct b'; try (soth; fail);
    cbn [scode compare_stmt]; cbn [app]; cbn [lexZ]; rewrite Z.compare_refl; cbn [lex]; rewrite <- ?app_assoc.
  all: try (repeat first [progress step | progress rewrite ?lex_assoc | match goal with IH : coded compare_stmt scode _ |- _ => rewrite IH; clear IH end]; reflexivity).
  2: { rewrite coded_nat. cbn [app lexZ]. rewrite IHa, !lex_assoc. reflexivity. }
  cbn [app lexZ]. rewrite nat_cmp, lex_assoc. destruct (Nat.compare_spec (length l) (length l0)) as [E| |]; try reflexivity.
  cbn [lex]. apply coded_elems; assumption.
Qed.
Lemma compare_stmt_code a b : compare_stmt a b = lexZ (scode a) (scode b).
Proof.
  pose proof (scode_ok a b [] []) as H. rewrite !app_nil_r in H. rewrite H. destruct (compare_stmt a b); reflexivity.
Qed.

(** ** What compares equal *)
Lemma scode_forget : forall s, scode (forget s) = scode s.
Proof.
  induction s using stmt_ind'; cbn [scode forget]; try reflexivity; try congruence.
  rewrite map_length. do 2 f_equal. induction H as [|x l Hx Hl IH]; [reflexivity|]. cbn [map elems_code]. congruence.
Qed.
Lemma elems_eq {A} (cmp : A -> A -> comparison) l : Forall (fun a => forall b, cmp a b = Eq -> a = b) l ->
  forall l', length l = length l' -> cmp_elems cmp l l' = Eq -> l = l'.
Proof.
  induction 1 as [|x l Hx Hl IH]; intros [|y l'] E; try discriminate; [reflexivity|].
  cbn [cmp_elems]. rewrite lex_eq. intros [H1 H2]. f_equal; [auto|apply IH; [cbn in E; lia|assumption]].
Qed.
Lemma list_eq {A} (cmp : A -> A -> comparison) l l' : (forall a b, cmp a b = Eq -> a = b) -> cmp_list cmp l l' = Eq -> l = l'.
Proof.
  intros H. unfold cmp_list. rewrite lex_eq, Nat.compare_eq_iff. intros [E1 E2]. apply (elems_eq cmp); auto.
  apply Forall_forall; auto.
Qed.
Lemma var_eq a b : cmp_var a b = Eq -> a = b.
Proof. destruct a, b; cbn [cmp_var]; try congruence. rewrite Nat.compare_eq_iff. congruence. Qed.
Lemma interval_eq a b : cmp_interval a b = Eq -> a = b.
Proof. destruct a, b. unfold cmp_interval; cbn [fst snd]. rewrite lex_eq, !compare_eq. intros [-> ->]; reflexivity. Qed.
Lemma dim_eq a b : cmp_dim a b = Eq -> a = b.
Proof.
  destruct a, b. unfold cmp_dim; cbn. rewrite !lex_eq, !compare_eq. intros (H & -> & ->).
  apply interval_eq in H. congruence.
Qed.
Lemma let_eq a b : cmp_let a b = Eq -> a = b.
Proof. destruct a, b. unfold cmp_let; cbn [fst snd]. rewrite lex_eq, compare_eq, Nat.compare_eq_iff. intros [-> ->]; reflexivity. Qed.
Lemma cmp_nat_eq a b : Nat.compare a b = Eq -> a = b. Proof. apply Nat.compare_eq_iff. Qed.
Ltac eqs := repeat match goal with
  | H : lex _ _ = Eq |- _ => rewrite lex_eq in H
  | H : _ /\ _ |- _ => destruct H
  | H : Nat.compare _ _ = Eq |- _ => apply cmp_nat_eq in H
  | H : Z.compare _ _ = Eq |- _ => apply Z.compare_eq_iff in H
  | H : compare _ _ = Eq |- _ => apply compare_eq in H
  | H : cmp_var _ _ = Eq |- _ => apply var_eq in H
  | H : cmp_interval _ _ = Eq |- _ => apply interval_eq in H
  | H : cmp_list Nat.compare _ _ = Eq |- _ => apply (list_eq _ _ _ cmp_nat_eq) in H
  | H : cmp_list compare _ _ = Eq |- _ => apply (list_eq _ _ _ compare_eq_l) in H
  | H : cmp_list cmp_interval _ _ = Eq |- _ => apply (list_eq _ _ _ interval_eq) in H
  | H : cmp_list cmp_dim _ _ = Eq |- _ => apply (list_eq _ _ _ dim_eq) in H
  | H : cmp_list cmp_let _ _ = Eq |- _ => apply (list_eq _ _ _ let_eq) in H
  | IH : forall b, compare_stmt ?x b = Eq -> _, H : compare_stmt ?x _ = Eq |- _ => apply IH in H
  end.
Lemma stmt_eq_l : forall a b, compare_stmt a b = Eq -> forget a = forget b.
Proof.
  induction a using stmt_ind'; intros b' E; destruct b'; cbn [compare_stmt stmt_type] in E; try discriminate E; eqs;
    cbn [forget]; try congruence.
  f_equal. clear - H H0 H1. revert l0 H0 H1. induction H as [|x l Hx Hl IH]; intros [|y l'] E1 E2; try discriminate; [reflexivity|].
  cbn [cmp_elems] in E2. rewrite lex_eq in E2. destruct E2. cbn [map]. f_equal; [auto|apply IH; [cbn in E1; lia|assumption]].
Qed.
Lemma compare_stmt_eq a b : compare_stmt a b = Eq <-> forget a = forget b.
Proof.
  split; [apply stmt_eq_l|]. intro H. rewrite compare_stmt_code. apply lexZ_eq.
  rewrite <- (scode_forget a), <- (scode_forget b). congruence.
Qed.
Lemma match_stmt_eq a b : match_stmt a b = true <-> forget a = forget b.
Proof. rewrite <- compare_stmt_eq; unfold match_stmt; destruct (compare_stmt a b); split; congruence. Qed.

(** ** canonicalize_nodes *)
Definition EI (m : maps) : Prop := forall k r, In (k, r) (m_exprs m) -> k = r.
Lemma find_expr_ok l e r : (forall k r, In (k, r) l -> k = r) -> find_expr l e = Some r -> r = e.
Proof.
  induction l as [|[k v] l IH]; intros H; cbn [find_expr]; [discriminate|].
  destruct (match_expr e k) eqn:E.
  - intro F. apply match_eq in E. assert (k = v) by (apply H; left; reflexivity). congruence.
  - apply IH. intros; apply H; right; assumption.
Qed.
Definition keeps (e : expr) : Prop := made e -> forall m, EI m ->
  exists m', canon_expr e m = (e, m') /\ EI m' /\ m_stmts m' = m_stmts m.
Lemma keep_list {A} (f : A -> maps -> A * maps) l :
  Forall (fun x => forall m, EI m -> exists m', f x m = (x, m') /\ EI m' /\ m_stmts m' = m_stmts m) l ->
  forall m, EI m -> exists m', canon_list f l m = (l, m') /\ EI m' /\ m_stmts m' = m_stmts m.
Proof.
  induction 1 as [|x l Hx Hl IH]; intros m M; cbn [canon_list]; [eauto|].
  destruct (Hx m M) as (m1 & -> & M1 & S1). destruct (IH m1 M1) as (m2 & -> & M2 & S2). exists m2. repeat split; congruence || assumption.
Qed.
Lemma keep_pairs (f : expr -> maps -> expr * maps) l :
  Forall (fun p => forall m, EI m -> exists m', f (snd p) m = (snd p, m') /\ EI m' /\ m_stmts m' = m_stmts m) l ->
  forall m, EI m -> exists m', canon_pairs f l m = (l, m') /\ EI m' /\ m_stmts m' = m_stmts m.
Proof.
  induction 1 as [|[s x] l Hx Hl IH]; intros m M; cbn [canon_pairs]; [eauto|]. cbn [snd] in Hx.
  destruct (Hx m M) as (m1 & -> & M1 & S1). destruct (IH m1 M1) as (m2 & -> & M2 & S2). exists m2. repeat split; congruence || assumption.
Qed.
Lemma made_bin o a b : (commutative o = true -> type_of a <= type_of b) -> make_bin o a b = EBin o a b.
Proof.
  intro H. unfold make_bin, should_commute. destruct (commutative o); [|reflexivity]. cbn [andb].
  destruct (Z.ltb_spec (type_of b) (type_of a)); [|reflexivity]. specialize (H eq_refl). lia.
Qed.
Lemma keep_go l : (fix go (l : list expr) : Prop := match l with [] => True | x :: l' => made x /\ go l' end) l -> Forall made l.
Proof. induction l as [|x l IH]; [constructor|]. intros [H1 H2]. constructor; auto. Qed.
Lemma keep_gol l : (fix go (l : list (nat * expr)) : Prop := match l with [] => True | (_, x) :: l' => made x /\ go l' end) l ->
  Forall (fun p => made (snd p)) l.
Proof. induction l as [|[s x] l IH]; [constructor|]. intros [H1 H2]. constructor; auto. Qed.
Lemma Forall_imp2 {A} (P Q R : A -> Prop) l : (forall x, P x -> Q x -> R x) -> Forall P l -> Forall Q l -> Forall R l.
Proof. intros H. rewrite !Forall_forall. auto. Qed.
Lemma canon_store e m r m1 : EI m1 -> m_stmts m1 = m_stmts m -> r = e ->
  exists m', (r, if defined r then Maps ((e, r) :: m_exprs m1) (m_stmts m1) else m1) = (e, m') /\ EI m' /\ m_stmts m' = m_stmts m.
Proof.
  intros M1 S1 ->. eexists; split; [reflexivity|]. destruct (defined e); [|auto]. split; [|exact S1].
  intros k r [I|I]; [congruence|exact (M1 _ _ I)].
Qed.
Ltac use IH := match goal with M : EI ?m |- context [canon_expr ?x ?m] =>
  let m' := fresh "m" in let M' := fresh "M" in let E := fresh "E" in
  destruct (IH ltac:(assumption) m M) as (m' & -> & M' & E) end.
Lemma canon_expr_keeps : forall e, keeps e.
Proof.
  induction e as [|s f d|l b IHl IHb|o a b IHa IHb|a IHa|q t f IHq IHt IHf|fn t l IHl|z] using expr_ind'; intros B m M;
    cbn [canon_expr]; cbn [made] in B;
    match goal with |- context [find_expr ?x ?y] => destruct (find_expr x y) as [r|] eqn:E end;
    try (exists m; split; [f_equal; exact (find_expr_ok _ _ _ M E)|auto]; fail);
    try (apply canon_store; auto; fail); clear E.
  - destruct B as [Bl Bb]. apply keep_gol in Bl.
    destruct (keep_pairs canon_expr l (Forall_imp2 _ _ _ l (fun p (H1 : keeps (snd p)) (H2 : made (snd p)) => H1 H2) IHl Bl) m M) as (m1 & E1 & M1 & S1).
    rewrite E1. use IHb. apply canon_store; [assumption|congruence|congruence].
  - destruct B as (C & Ba & Bb). use IHa. use IHb. apply canon_store; [assumption|congruence|apply made_bin; assumption].
  - use IHa. apply canon_store; [assumption|congruence|congruence].
  - destruct B as (C & Ba & Bb). use IHq. use IHt. use IHf. apply canon_store; [assumption|congruence|congruence].
  - apply keep_go in B.
    destruct (keep_list canon_expr l (Forall_imp2 _ _ _ l (fun p (H1 : keeps p) (H2 : made p) => H1 H2) IHl B) m M) as (m1 & E1 & M1 & S1).
    rewrite E1. apply canon_store; [assumption|congruence|congruence].
Qed.
Definition kept {A} (f : A -> maps -> A * maps) (x : A) : Prop :=
  forall m, EI m -> exists m', f x m = (x, m') /\ EI m' /\ m_stmts m' = m_stmts m.
Lemma kept_expr e : made e -> kept canon_expr e.
Proof. intros B m M. exact (canon_expr_keeps e B m M). Qed.
Lemma kept_interval i : made_interval i -> kept canon_interval i.
Proof.
  destruct i as [a b]. intros [A B] m M. unfold canon_interval. cbn [fst snd] in *.
  destruct (kept_expr a A m M) as (m1 & -> & M1 & S1). destruct (kept_expr b B m1 M1) as (m2 & -> & M2 & S2).
  exists m2. repeat split; congruence || assumption.
Qed.
Lemma kept_dim d : made_dim d -> kept canon_dim d.
Proof.
  destruct d as [b s f]. intros (B & A & F) m M. unfold canon_dim. cbn in B, A, F |- *.
  destruct (kept_interval b B m M) as (m1 & E1 & M1 & S1). cbn in E1. rewrite E1.
  destruct (kept_expr s A m1 M1) as (m2 & -> & M2 & S2). destruct (kept_expr f F m2 M2) as (m3 & -> & M3 & S3).
  exists m3. repeat split; congruence || assumption.
Qed.
Lemma kept_list {A} (f : A -> maps -> A * maps) (P : A -> Prop) l : (forall x, P x -> kept f x) -> Forall P l -> kept (canon_list f) l.
Proof. intros H F m M. apply keep_list; [|assumption]. rewrite Forall_forall in *. intros x I m0. apply H; auto. Qed.
Lemma kept_pairs l : Forall made (map snd l) -> kept (canon_pairs canon_expr) l.
Proof.
  intros F m M. apply keep_pairs; [|assumption]. rewrite Forall_forall in *. intros x I m0. apply kept_expr. apply F. apply in_map. assumption.
Qed.

(** The statements: [P k r] for the entries of the map, [T] for the statements of the program. *)
Section Stmts.
  Variable P : stmt -> stmt -> Prop.
  Variable T : stmt -> Prop.
  Hypothesis P_refl : forall s, P s s.
  Hypothesis P_trans : forall a k r, T a -> T k -> match_stmt a k = true -> P k r -> P a r.
  Hypothesis P_let : forall l b b' c, P b b' -> P (SLet l b c) (SLet l b' c).
  Hypothesis P_block : forall l l', (2 <= length l)%nat -> Forall in_block l -> Forall2 P l l' -> P (SBlock l) (block_make l').
  Hypothesis P_loop : forall v w i st b b', P b b' -> P (SLoop v w i st b) (SLoop v w i st b').
  Hypothesis P_allocate : forall v w e ds b b', P b b' -> P (SAllocate v w e ds b) (SAllocate v w e ds b').
  Hypothesis P_make : forall v p e ds b b', P b b' -> P (SMake v p e ds b) (SMake v p e ds b').
  Hypothesis P_const : forall v x b b', P b b' -> P (SConst v x b) (SConst v x b').
  Hypothesis P_clone : forall v x b b', P b b' -> P (SClone v x b) (SClone v x b').
  Hypothesis P_crop : forall v x l b b', P b b' -> P (SCropBuffer v x l b) (SCropBuffer v x l b').
  Hypothesis P_crop_dim : forall v x d i b b', P b b' -> P (SCropDim v x d i b) (SCropDim v x d i b').
  Hypothesis P_slice : forall v x l b b', P b b' -> P (SSliceBuffer v x l b) (SSliceBuffer v x l b').
  Hypothesis P_slice_dim : forall v x d e b b', P b b' -> P (SSliceDim v x d e b) (SSliceDim v x d e b').
  Hypothesis P_transpose : forall v x p b b', P b b' -> P (STranspose v x p b) (STranspose v x p b').
  Hypothesis P_async : forall v t t' b b', P t t' -> P b b' -> P (SAsync v t b) (SAsync v t' b').
  Hypothesis T_closed : forall x y, within x y -> T y -> T x.

  Definition SI (m : maps) : Prop := EI m /\ forall k r, In (k, r) (m_stmts m) -> T k /\ P k r.
  Definition good (s : stmt) : Prop := built s -> T s -> forall m, SI m -> exists r m', canon_stmt s m = (r, m') /\ SI m' /\ P s r.
  Lemma find_stmt_ok l s r : T s -> (forall k r, In (k, r) l -> T k /\ P k r) -> find_stmt l s = Some r -> P s r.
  Proof.
    intro Ts. induction l as [|[k v] l IH]; intros H; cbn [find_stmt]; [discriminate|].
    destruct (match_stmt s k) eqn:E.
    - intro F. injection F as <-. destruct (H k v) as [T1 P1]; [left; reflexivity|]. exact (P_trans s k v Ts T1 E P1).
    - apply IH. intros; apply H; right; assumption.
  Qed.
  Lemma stored s r m1 : SI m1 -> P s r -> T s ->
    exists r' m', (r, if sdefined r then Maps (m_exprs m1) ((s, r) :: m_stmts m1) else m1) = (r', m') /\ SI m' /\ P s r'.
  Proof.
    intros (M1 & S1) H Ts. do 2 eexists; split; [reflexivity|]. split; [|assumption].
    destruct (sdefined r); [|split; assumption]. split; [exact M1|].
    intros k r0 [I|I]; [injection I as <- <-; auto|exact (S1 _ _ I)].
  Qed.
  Lemma good_list l : Forall good l -> Forall built l -> Forall T l -> forall m, SI m ->
    exists l' m', canon_list canon_stmt l m = (l', m') /\ SI m' /\ Forall2 P l l'.
  Proof.
    induction 1 as [|x l Hx Hl IH]; intros B Ts m M; cbn [canon_list]; [exists [], m; auto|].
    inversion B; inversion Ts; subst. destruct (Hx ltac:(assumption) ltac:(assumption) m M) as (r & m1 & -> & M1 & S1).
    destruct (IH ltac:(assumption) ltac:(assumption) m1 M1) as (l' & m2 & -> & M2 & S2). exists (r :: l'), m2. auto.
  Qed.
  Lemma si_keep {A} (f : A -> maps -> A * maps) x m : kept f x -> SI m -> exists m', f x m = (x, m') /\ SI m'.
  Proof.
    intros K (M & S1). destruct (K m M) as (m' & E & M' & E'). exists m'. split; [exact E|]. split; [exact M'|].
    rewrite E'. exact S1.
  Qed.
  Ltac keep K := match goal with M : SI ?m |- _ => let m' := fresh "m" in let M' := fresh "M" in let E := fresh "E" in
    destruct (si_keep _ _ m K M) as (m' & E & M'); rewrite E; clear E M end.
  Ltac sub IH := match goal with M : SI ?m, Ts : T _ |- _ => let r := fresh "r" in let m' := fresh "m" in let M' := fresh "M" in let E := fresh "E" in let Q := fresh "Q" in
    destruct (IH ltac:(assumption) ltac:(refine (T_closed _ _ _ Ts); econstructor; solve [econstructor]) m M) as (r & m' & E & M' & Q); rewrite E; clear E M end.
  Ltac fin H := apply stored; [assumption|apply H; assumption|assumption].
  Ltac start := match goal with M : SI _, Ts : T _ |- context [find_stmt ?x ?y] => let E := fresh "E" in
    destruct (find_stmt x y) as [?|] eqn:E; [do 2 eexists; split; [reflexivity|]; split; [exact M|exact (find_stmt_ok _ _ _ Ts (proj2 M) E)]|clear E] end.
  Lemma canon_stmt_good : forall s, good s.
  Proof.
    induction s using stmt_ind'; intros B Ts m M; cbn [canon_stmt]; cbn [built] in B;
      try (match goal with |- context [find_stmt ?x ?y] => idtac end; start).
    - fin P_refl.
    - do 2 eexists; split; [reflexivity|]; auto.
    - keep (kept_list _ _ _ kept_expr B). fin P_refl.
    - destruct B as [B1 B2]. keep (kept_pairs _ B1). sub IHs. fin P_let.
    - destruct B as (B1 & B2 & B3).
      assert (B4 : Forall built l).
      { clear - B3. induction l as [|x l IH]; [constructor|]. destruct B3; constructor; auto. }
      assert (T4 : Forall T l).
      { rewrite Forall_forall. intros x I. refine (T_closed _ _ _ Ts). econstructor; [exact I|constructor]. }
      destruct (good_list l H B4 T4 m M) as (l' & m' & -> & M' & Q). apply stored; [assumption|apply P_block; assumption|assumption].
    - destruct B as (B1 & B2 & B3 & B4). keep (kept_interval _ B2). keep (kept_expr _ B3). keep (kept_expr _ B1). sub IHs. fin P_loop.
    - destruct B as (B1 & B2 & B3). keep (kept_expr _ B1). keep (kept_list _ _ _ kept_dim B2). sub IHs. fin P_allocate.
    - destruct B as (B1 & B2 & B3 & B4). keep (kept_expr _ B1). keep (kept_expr _ B2). keep (kept_list _ _ _ kept_dim B3). sub IHs. fin P_make.
    - sub IHs. fin P_const.
    - sub IHs. fin P_clone.
    - destruct B as (B1 & B2). keep (kept_list _ _ _ kept_interval B1). sub IHs. fin P_crop.
    - destruct B as (B1 & B2). keep (kept_interval _ B1). sub IHs. fin P_crop_dim.
    - destruct B as (B1 & B2). keep (kept_list _ _ _ kept_expr B1). sub IHs. fin P_slice.
    - destruct B as (B1 & B2). keep (kept_expr _ B1). sub IHs. fin P_slice_dim.
    - sub IHs. fin P_transpose.
    - destruct B as (B1 & B2). sub IHs1. sub IHs2. fin P_async.
    - keep (kept_expr _ B). fin P_refl.
  Qed.
End Stmts.

Lemma block_made l : (2 <= length l)%nat -> Forall in_block l -> block_make l = SBlock l.
Proof.
  intros L F. unfold block_make.
  assert (E1 : flatten_blocks l = l). { clear L. induction F as [|x l Hx Hl IH]; [reflexivity|]. destruct x; cbn [flatten_blocks]; try (f_equal; exact IH); contradiction. }
  assert (E2 : erase_undefs l = l). { clear L E1. induction F as [|x l Hx Hl IH]; [reflexivity|]. unfold erase_undefs in *. destruct x; cbn [filter sdefined]; try (f_equal; exact IH); contradiction. }
  rewrite E1, E2. destruct l as [|x [|y l]]; cbn [length] in L; [lia|lia|reflexivity].
Qed.
Lemma forget_in_block x y : forget x = forget y -> in_block x -> in_block y.
Proof. destruct x, y; cbn; intros H; try discriminate H; tauto. Qed.

Lemma canon_forget s : built s -> forget (canonicalize_stmt s) = forget s.
Proof.
  intro B. unfold canonicalize_stmt.
  assert (G : good (fun a b => forget a = forget b) (fun _ => True) s).
  { apply canon_stmt_good; try (intros; cbn [forget]; congruence).
    - intros a k r _ _ M Q. apply match_stmt_eq in M. congruence.
    - intros l l' L F Q. assert (F2 : Forall in_block l').
      { clear L. induction Q as [|x y l l' Hx Q IH]; [constructor|]. inversion F; subst. constructor; [eapply forget_in_block; eassumption|auto]. }
      assert (L2 : (2 <= length l')%nat) by (replace (length l') with (length l); [exact L|clear - Q; induction Q; cbn [length]; congruence]).
      rewrite (block_made l' L2 F2). cbn [forget]. f_equal. clear - Q. induction Q; [reflexivity|]. cbn [map]. congruence.
 }
  destruct (G B I (Maps [] [])) as (r & m' & E & _ & P); [split; intros ? ? []|]. rewrite E. cbn [fst]. congruence.
Qed.
Lemma within_trans x y z : within x y -> within y z -> within x z.
Proof. intros H1 H2. induction H2; eauto using within. Qed.
Lemma canon_exact s : built s -> told_apart s -> canonicalize_stmt s = s.
Proof.
  intros B A. unfold canonicalize_stmt.
  assert (G : good (fun a b => a = b) (fun x => within x s) s).
  { apply canon_stmt_good; try (intros; congruence).
    - intros a k r W1 W2 M Q. apply match_stmt_eq in M. rewrite <- Q. apply A; assumption.
    - intros l l' L F Q. assert (l = l') by (clear - Q; induction Q; congruence). subst. symmetry; apply block_made; assumption.
    - intros x y W1 W2. eapply within_trans; eassumption. }
  destruct (G B (within_self s) (Maps [] [])) as (r & m' & E & _ & P); [split; intros ? ? []|]. rewrite E. cbn [fst]. congruence.
Qed.
Lemma canon_expr_same e : made e -> canonicalize_expr e = e.
Proof.
  intro B. unfold canonicalize_expr. destruct (canon_expr_keeps e B (Maps [] [])) as (m' & -> & _); [|reflexivity]. intros ? ? [].
Qed.
