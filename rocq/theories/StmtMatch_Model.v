(** Structural comparison of statements (slinky/builder/substitute.cc:114-430) and canonicalize_nodes
    (slinky/builder/optimizations.cc:1855-1885, slinky/builder/node_mutator.cc).

    Simplifications:
    - A call_stmt with a target is compared by its address: [target] stands for it.
    - A copy_stmt has no implementation here; two copies with implementations are also told apart by their addresses.
    - The [value] of a constant_buffer stands for what is compared: its metadata and contents (or its address).
    - same_as: nodes are always rebuilt. *)
From Coq Require Import ZArith List Bool.
From Verif Require Import Expr_Model Match_Model Stmt_Model.
Import ListNotations.
Open Scope Z_scope.

(** stmt.h:14-34 *)
Definition stmt_type (s : stmt) : Z :=
  match s with
  | SUndef => 0 | SCall _ _ _ _ => 1 | SCopy _ _ _ _ _ => 2 | SLet _ _ _ => 3 | SBlock _ => 4 | SLoop _ _ _ _ _ => 5
  | SAllocate _ _ _ _ _ => 6 | SMake _ _ _ _ _ => 7 | SConst _ _ _ => 8 | SClone _ _ _ => 9 | SCropBuffer _ _ _ _ => 10
  | SCropDim _ _ _ _ _ => 11 | SSliceBuffer _ _ _ _ => 12 | SSliceDim _ _ _ _ _ => 13 | STranspose _ _ _ _ => 14
  | SAsync _ _ _ => 15 | SCheck _ => 16
  end.

(** substitute.cc:165-182: containers *)
Section Container.
  Context {A : Type}.
  Variable cmp : A -> A -> comparison.
  Fixpoint cmp_elems (l l' : list A) {struct l} : comparison :=
    match l, l' with
    | x :: l, y :: l' => lex (cmp x y) (cmp_elems l l')
    | _, _ => Eq
    end.
  Definition cmp_list (l l' : list A) : comparison := lex (Nat.compare (length l) (length l')) (cmp_elems l l').
End Container.
(** substitute.cc:131-144.  Two points have equal maxima when they have equal minima. *)
Definition cmp_interval (a b : interval) : comparison := lex (compare (fst a) (fst b)) (compare (snd a) (snd b)).
Definition cmp_dim (a b : dim_expr) : comparison :=
  lex (cmp_interval (de_bounds a) (de_bounds b)) (lex (compare (de_stride a) (de_stride b)) (compare (de_fold a) (de_fold b))).
Definition cmp_let (a b : nat * expr) : comparison := lex (Nat.compare (fst a) (fst b)) (compare (snd a) (snd b)).
(** var() is the greatest id, expr.h:28 *)
Definition cmp_var (a b : option nat) : comparison :=
  match a, b with Some m, Some n => Nat.compare m n | Some _, None => Lt | None, Some _ => Gt | None, None => Eq end.

(** substitute.cc:114-130 and the visit functions 213-218, 249-392 *)
Fixpoint compare_stmt (a b : stmt) {struct a} : comparison :=
  match a, b with
  | SCall t i o x, SCall t' i' o' x' =>
      lex (cmp_list Nat.compare i i') (lex (cmp_list Nat.compare o o') (lex (cmp_list compare x x') (Nat.compare t t')))
  | SCopy s x d dx p, SCopy s' x' d' dx' p' =>
      lex (Nat.compare s s') (lex (cmp_list compare x x') (lex (Nat.compare d d') (lex (cmp_list Nat.compare dx dx') (cmp_var p p'))))
  | SLet l x _, SLet l' x' _ => lex (cmp_list cmp_let l l') (compare_stmt x x')
  | SBlock l, SBlock l' => lex (Nat.compare (length l) (length l')) (cmp_elems compare_stmt l l')
  | SLoop s _ i st x, SLoop s' _ i' st' x' => lex (Nat.compare s s') (lex (cmp_interval i i') (lex (compare st st') (compare_stmt x x')))
  | SAllocate s _ e d x, SAllocate s' _ e' d' x' => lex (Nat.compare s s') (lex (compare e e') (lex (cmp_list cmp_dim d d') (compare_stmt x x')))
  | SMake s p e d x, SMake s' p' e' d' x' =>
      lex (Nat.compare s s') (lex (compare p p') (lex (compare e e') (lex (cmp_list cmp_dim d d') (compare_stmt x x'))))
  | SConst s v x, SConst s' v' x' => lex (Nat.compare s s') (lex (Z.compare v v') (compare_stmt x x'))
  | SClone s v x, SClone s' v' x' => lex (Nat.compare s s') (lex (Nat.compare v v') (compare_stmt x x'))
  | SCropBuffer s v l x, SCropBuffer s' v' l' x' =>
      lex (Nat.compare s s') (lex (Nat.compare v v') (lex (cmp_list cmp_interval l l') (compare_stmt x x')))
  | SCropDim s v d i x, SCropDim s' v' d' i' x' =>
      lex (Nat.compare s s') (lex (Nat.compare v v') (lex (Nat.compare d d') (lex (cmp_interval i i') (compare_stmt x x'))))
  | SSliceBuffer s v l x, SSliceBuffer s' v' l' x' =>
      lex (Nat.compare s s') (lex (Nat.compare v v') (lex (cmp_list compare l l') (compare_stmt x x')))
  | SSliceDim s v d e x, SSliceDim s' v' d' e' x' =>
      lex (Nat.compare s s') (lex (Nat.compare v v') (lex (Nat.compare d d') (lex (compare e e') (compare_stmt x x'))))
  | STranspose s v p x, STranspose s' v' p' x' =>
      lex (Nat.compare s s') (lex (Nat.compare v v') (lex (cmp_list Nat.compare p p') (compare_stmt x x')))
  | SAsync s t x, SAsync s' t' x' => lex (cmp_var s s') (lex (compare_stmt t t') (compare_stmt x x'))
  | SCheck c, SCheck c' => compare c c'
  | _, _ => Z.compare (stmt_type a) (stmt_type b)
  end.
(** substitute.cc:411, 424-430 *)
Definition match_stmt (a b : stmt) : bool := match compare_stmt a b with Eq => true | _ => false end.

(** ** canonicalize_nodes
    The two maps, ordered by [compare] and [compare_stmt].  An entry is made before its value is computed in the code; the
    nodes that are looked up meanwhile are smaller. *)
Record maps := Maps { m_exprs : list (expr * expr); m_stmts : list (stmt * stmt) }.
Fixpoint find_expr (l : list (expr * expr)) (e : expr) : option expr :=
  match l with [] => None | (k, v) :: l' => if match_expr e k then Some v else find_expr l' e end.
Fixpoint find_stmt (l : list (stmt * stmt)) (s : stmt) : option stmt :=
  match l with [] => None | (k, v) :: l' => if match_stmt s k then Some v else find_stmt l' s end.

Section Lists.
  Context {A : Type}.
  Variable f : A -> maps -> A * maps.
  Fixpoint canon_list (l : list A) (m : maps) {struct l} : list A * maps :=
    match l with
    | [] => ([], m)
    | x :: l' => let '(x', m1) := f x m in let '(r, m2) := canon_list l' m1 in (x' :: r, m2)
    end.
End Lists.
Section Pairs.
  Variable f : expr -> maps -> expr * maps.
  Fixpoint canon_pairs (l : list (nat * expr)) (m : maps) {struct l} : list (nat * expr) * maps :=
    match l with
    | [] => ([], m)
    | (s, x) :: l' => let '(x', m1) := f x m in let '(r, m2) := canon_pairs l' m1 in ((s, x') :: r, m2)
    end.
End Pairs.

(** optimizations.cc:1873-1877 and node_mutator.cc:13-37, 150-203 *)
Fixpoint canon_expr (e : expr) (m : maps) {struct e} : expr * maps :=
  match find_expr (m_exprs m) e with
  | Some r => (r, m)
  | None =>
      let '(r, m1) :=
        match e with
        | EUndef | EVar _ _ _ | EConst _ => (e, m)
        | ELet l b => let '(l', m1) := canon_pairs canon_expr l m in let '(b', m2) := canon_expr b m1 in (ELet l' b', m2)
        | EBin o a b => let '(a', m1) := canon_expr a m in let '(b', m2) := canon_expr b m1 in (make_bin o a' b', m2)
        | ENot a => let '(a', m1) := canon_expr a m in (ENot a', m1)
        | ESelect c t f => let '(c', m1) := canon_expr c m in let '(t', m2) := canon_expr t m1 in
                           let '(f', m3) := canon_expr f m2 in (ESelect c' t' f', m3)
        | ECall fn t l => let '(l', m1) := canon_list canon_expr l m in (ECall fn t l', m1)
        end in
      (r, if defined r then Maps ((e, r) :: m_exprs m1) (m_stmts m1) else m1)
  end.
(** node_mutator.h:83-89 *)
Definition canon_interval (x : interval) (m : maps) : interval * maps :=
  let '(a, m1) := canon_expr (fst x) m in let '(b, m2) := canon_expr (snd x) m1 in ((a, b), m2).
Definition canon_dim (d : dim_expr) (m : maps) : dim_expr * maps :=
  let '(b, m1) := canon_interval (de_bounds d) m in let '(s, m2) := canon_expr (de_stride d) m1 in
  let '(f, m3) := canon_expr (de_fold d) m2 in (DimE b s f, m3).

(** optimizations.cc:1862-1871 and node_mutator.cc:91-103, 118-146, 206-325 *)
Fixpoint canon_stmt (s : stmt) (m : maps) {struct s} : stmt * maps :=
  match s with
  | SCall _ _ _ _ => (s, m)
  | _ =>
  match find_stmt (m_stmts m) s with
  | Some r => (r, m)
  | None =>
      let '(r, m1) :=
        match s with
        | SUndef | SCall _ _ _ _ => (s, m)
        | SCopy a x d dx p => let '(x', m1) := canon_list canon_expr x m in (SCopy a x' d dx p, m1)
        | SLet l b c => let '(l', m1) := canon_pairs canon_expr l m in let '(b', m2) := canon_stmt b m1 in (SLet l' b' c, m2)
        | SBlock l => let '(l', m1) := canon_list canon_stmt l m in (block_make l', m1)
        | SLoop v w i st b =>
            let '(i', m1) := canon_interval i m in let '(st', m2) := canon_expr st m1 in let '(w', m3) := canon_expr w m2 in
            let '(b', m4) := canon_stmt b m3 in (SLoop v w' i' st' b', m4)
        | SAllocate v w e ds b =>
            let '(e', m1) := canon_expr e m in let '(ds', m2) := canon_list canon_dim ds m1 in
            let '(b', m3) := canon_stmt b m2 in (SAllocate v w e' ds' b', m3)
        | SMake v p e ds b =>
            let '(p', m1) := canon_expr p m in let '(e', m2) := canon_expr e m1 in
            let '(ds', m3) := canon_list canon_dim ds m2 in let '(b', m4) := canon_stmt b m3 in (SMake v p' e' ds' b', m4)
        | SConst v x b => let '(b', m1) := canon_stmt b m in (SConst v x b', m1)
        | SClone v x b => let '(b', m1) := canon_stmt b m in (SClone v x b', m1)
        | SCropBuffer v x l b => let '(l', m1) := canon_list canon_interval l m in let '(b', m2) := canon_stmt b m1 in (SCropBuffer v x l' b', m2)
        | SCropDim v x d i b => let '(i', m1) := canon_interval i m in let '(b', m2) := canon_stmt b m1 in (SCropDim v x d i' b', m2)
        | SSliceBuffer v x l b => let '(l', m1) := canon_list canon_expr l m in let '(b', m2) := canon_stmt b m1 in (SSliceBuffer v x l' b', m2)
        | SSliceDim v x d e b => let '(e', m1) := canon_expr e m in let '(b', m2) := canon_stmt b m1 in (SSliceDim v x d e' b', m2)
        | STranspose v x p b => let '(b', m1) := canon_stmt b m in (STranspose v x p b', m1)
        | SAsync v t b => let '(t', m1) := canon_stmt t m in let '(b', m2) := canon_stmt b m1 in (SAsync v t' b', m2)
        | SCheck c => let '(c', m1) := canon_expr c m in (SCheck c', m1)
        end in
      (r, if sdefined r then Maps (m_exprs m1) ((s, r) :: m_stmts m1) else m1)
  end
  end.
(** optimizations.cc:1881-1885 *)
Definition canonicalize_expr (e : expr) : expr := fst (canon_expr e (Maps [] [])).
Definition canonicalize_stmt (s : stmt) : stmt := fst (canon_stmt s (Maps [] [])).
