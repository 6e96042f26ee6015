(** Structural comparison of expressions (slinky/builder/substitute.cc:28-247, 394-430):
    the matcher class and the functions match and compare on expr. *)
From Coq Require Import ZArith List Bool.
From Verif Require Import Expr_Model.
Import ListNotations.
Open Scope Z_scope.

(** expr.h:86-125: position in the enumeration *)
Definition intrinsic_type (f : intrinsic) : Z :=
  match f with
  | i_none => 0 | i_negative_infinity => 1 | i_positive_infinity => 2 | i_indeterminate => 3
  | i_abs => 4 | i_and_then => 5 | i_or_else => 6 | i_buffer_at => 7
  | i_semaphore_init => 8 | i_semaphore_signal => 9 | i_semaphore_wait => 10 | i_wait_for => 11
  | i_trace_begin => 12 | i_trace_end => 13 | i_free => 14 | i_validate_buffer => 15
  end.
(** expr.h:127-138 *)
Definition field_type (f : field) : Z :=
  match f with
  | f_none => 0 | f_rank => 1 | f_elem_size => 2 | f_size_bytes => 3
  | f_min => 4 | f_max => 5 | f_stride => 6 | f_fold_factor => 7
  end.

(** substitute.cc:40-48 and the sequence "if (!try_match(...)) return": the first
    difference decides *)
Definition lex (c k : comparison) : comparison := match c with Eq => k | _ => c end.

(** substitute.cc:166-172: the elements of two containers of equal size *)
Section Containers.
  Variable cmp : expr -> expr -> comparison.
  Fixpoint cmp_exprs (l l' : list expr) {struct l} : comparison :=
    match l, l' with
    | x :: l, y :: l' => lex (cmp x y) (cmp_exprs l l')
    | _, _ => Eq
    end.
  (** substitute.cc:157-162: pairs of a symbol and a value *)
  Fixpoint cmp_lets (l l' : list (nat * expr)) {struct l} : comparison :=
    match l, l' with
    | (s, x) :: l, (t, y) :: l' => lex (lex (Nat.compare s t) (cmp x y)) (cmp_lets l l')
    | _, _ => Eq
    end.
End Containers.

(** substitute.cc:237-247: two nodes with a target are ordered by address, and a node
    with a target is before one without *)
Definition cmp_target (a b : option nat) : comparison :=
  match a, b with
  | Some m, Some n => Nat.compare m n
  | Some _, None => Lt
  | None, Some _ => Gt
  | None, None => Eq
  end.

(** substitute.cc:96-113 and the visit functions 184-247.  Comparing the addresses
    first (e == op) is a shortcut: it can only skip comparing equal trees. *)
Fixpoint compare (a b : expr) {struct a} : comparison :=
  match a, b with
  | EVar s f d, EVar s' f' d' =>
      lex (Nat.compare s s') (lex (Z.compare (field_type f) (field_type f')) (Z.compare d d'))
  | EConst x, EConst y => Z.compare x y
  | ELet l x, ELet l' x' =>
      lex (Nat.compare (length l) (length l')) (lex (cmp_lets compare l l') (compare x x'))
  | EBin o x y, EBin o' x' y' =>
      lex (Z.compare (binop_type o) (binop_type o')) (lex (compare x x') (compare y y'))
  | ENot x, ENot x' => compare x x'
  | ESelect x y z, ESelect x' y' z' => lex (compare x x') (lex (compare y y') (compare z z'))
  | ECall f t l, ECall f' t' l' =>
      lex (Z.compare (intrinsic_type f) (intrinsic_type f'))
        (lex (lex (Nat.compare (length l) (length l')) (cmp_exprs compare l l')) (cmp_target t t'))
  | _, _ => Z.compare (type_of a) (type_of b)
  end.

(** substitute.cc:394-400, 426-430 *)
Definition match_expr (a b : expr) : bool := match compare a b with Eq => true | _ => false end.
(** substitute.h:28-33, node_less *)
Definition node_less (a b : expr) : bool := match compare a b with Lt => true | _ => false end.

(** substitute.cc:131-137: an interval whose ends are the same node is only compared
    by its min when both intervals are such points *)
Definition compare_interval (pa : bool) (amin amax : expr) (pb : bool) (bmin bmax : expr) : comparison :=
  lex (compare amin bmin) (if negb pa || negb pb then compare amax bmax else Eq).
