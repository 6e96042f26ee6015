(** Fusing sibling declarations that make the same buffer (slinky/builder/optimizations.cc:1213-1305: match of spans, sibling_fuser, fuse_siblings; the class
    stmt_mutator, node_mutator.cc:30-141).

    A node whose parts did not change is rebuilt here, which gives the same node (for a block: if it is one that block::make makes).  The body of a fused declaration is visited after
    it was put together, so the recursion is on fuel: [UB] if there is not enough, which C57_defined rules out. *)
From Coq Require Import ZArith List Bool.
From Verif Require Import Arith_Model Buf_Model Expr_Model Stmt_Model Match_Model OptSym_Model.
Import ListNotations.
Open Scope Z_scope.

(** optimizations.cc:1213-1220 *)
Section Spans.
  Context {A : Type}.
  Variable f : A -> A -> bool.
  Fixpoint match_span (l l' : list A) : bool :=
    match l, l' with [], [] => true | a :: l, b :: l' => f a b && match_span l l' | _, _ => false end.
End Spans.
(** substitute.cc:131-147, 394-430: intervals and dimensions.  The shortcut for two intervals that are points makes no difference to equality. *)
Definition match_interval (a b : interval) : bool := match_expr (fst a) (fst b) && match_expr (snd a) (snd b).
Definition match_dim (a b : dim_expr) : bool := match_interval (de_bounds a) (de_bounds b) && match_expr (de_stride a) (de_stride b) && match_expr (de_fold a) (de_fold b).
Definition same_storage (a b : storage) : bool := match a, b with automatic, automatic | stack, stack | heap, heap => true | _, _ => false end.

(** optimizations.cc:1224-1245 *)
Definition can_fuse (a b : stmt) : bool :=
  match a, b with
  | SAllocate _ w e ds _, SAllocate _ w' e' ds' _ => same_storage w w' && match_expr e e' && match_span match_dim ds ds'
  | SMake _ p e ds _, SMake _ p' e' ds' _ => match_expr p p' && match_expr e e' && match_span match_dim ds ds'
  | SCropDim _ src d i _, SCropDim _ src' d' i' _ => Nat.eqb src src' && Nat.eqb d d' && match_interval i i'
  | SCropBuffer _ src l _, SCropBuffer _ src' l' _ => Nat.eqb src src' && match_span match_interval l l'
  | SSliceDim _ src d x _, SSliceDim _ src' d' x' _ => Nat.eqb src src' && Nat.eqb d d' && match_expr x x'
  | SSliceBuffer _ src l _, SSliceBuffer _ src' l' _ => Nat.eqb src src' && match_span match_expr l l'
  | STranspose _ src p _, STranspose _ src' p' _ => Nat.eqb src src' && match_span Nat.eqb p p'
  | _, _ => false
  end.
(** the symbol and the body of a declaration that can be fused *)
Definition declares (s : stmt) : option (nat * stmt) :=
  match s with
  | SAllocate x _ _ _ b | SMake x _ _ _ b | SCropBuffer x _ _ b | SCropDim x _ _ _ b | SSliceBuffer x _ _ b | SSliceDim x _ _ _ b | STranspose x _ _ b => Some (x, b)
  | _ => None
  end.
(** node_mutator.cc:30-88: clone_with(op, new_body) *)
Definition with_body (s b : stmt) : stmt :=
  match s with
  | SLet l _ c => SLet l b c
  | SLoop x w i st _ => SLoop x w i st b
  | SAllocate x w e ds _ => SAllocate x w e ds b
  | SMake x p e ds _ => SMake x p e ds b
  | SConst x c _ => SConst x c b
  | SClone x src _ => SClone x src b
  | SCropBuffer x src l _ => SCropBuffer x src l b
  | SCropDim x src d i _ => SCropDim x src d i b
  | SSliceBuffer x src l _ => SSliceBuffer x src l b
  | SSliceDim x src d e _ => SSliceDim x src d e b
  | STranspose x src p _ => STranspose x src p b
  | _ => s
  end.
(** optimizations.cc:1247-1263 *)
Definition fuse (a b : stmt) : option stmt :=
  if can_fuse a b then
    match declares a, declares b with
    | Some (x, A), Some (y, B) => Some (with_body a (block_make [A; SClone y x B]))
    | _, _ => None
    end
  else None.

Section Block.
  Variable mutate : stmt -> res stmt.
  (** optimizations.cc:1277-1293: [back] is result.back(), [l] the statements that follow; the value is what is pushed from [back] on *)
  Fixpoint fuse_list (back : stmt) (l : list stmt) : res (list stmt) :=
    match l with
    | [] => m <- mutate back ;; Val [m]
    | x :: l' =>
        match fuse back x with
        | Some c => fuse_list c l'
        | None => m <- mutate back ;; r <- fuse_list x l' ;; Val (m :: r)
        end
    end.
End Block.
Fixpoint fuser (n : nat) (s : stmt) {struct n} : res stmt :=
  match n with
  | O => UB
  | S n' =>
      match s with
      | SUndef | SCall _ _ _ _ | SCopy _ _ _ _ _ | SCheck _ => Val s
      | SBlock [] => Val s
      | SBlock (x :: l) => r <- fuse_list (fuser n') x l ;; Val (block_make r)
      | SLet _ b _ | SLoop _ _ _ _ b | SAllocate _ _ _ _ b | SMake _ _ _ _ b | SConst _ _ b | SClone _ _ b
      | SCropBuffer _ _ _ b | SCropDim _ _ _ _ b | SSliceBuffer _ _ _ b | SSliceDim _ _ _ _ b | STranspose _ _ _ b =>
          b' <- fuser n' b ;; Val (with_body s b')
      | SAsync x t b => t' <- fuser n' t ;; b' <- fuser n' b ;; Val (SAsync x t' b')
      end
  end.
(** optimizations.cc:1302-1305 *)
Definition fuse_siblings (s : stmt) : res stmt := fuser (2 * stmt_size s) s.
