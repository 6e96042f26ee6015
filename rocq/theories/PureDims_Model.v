(** Slicing dimensions of extent one off the buffers of calls (slinky/builder/optimizations.cc:1498-1665: pure_dims_remover, remove_pure_dims; the class stmt_mutator,
    node_mutator.cc:30-141).

    A node whose parts did not change is rebuilt here, which gives the same node (for a block: if it is one that block::make makes).  attrs.min_rank of a call is taken from its target:
    [None] is the default, the largest int, and negative ranks are not modelled.  [UB]: std::bitset throws std::out_of_range, is indexed out of its range, or outputs.front() of no outputs is used. *)
From Coq Require Import ZArith List Bool.
From Verif Require Import Arith_Model Buf_Model Expr_Model Stmt_Model Match_Model OptSym_Model FuseSib_Model.
Import ListNotations.
Open Scope Z_scope.

(** optimizations.cc:1502: std::bitset<64> *)
Definition dimset := nat -> bool.
Definition no_dims : dimset := fun _ => false.
Definition set_dim (sd : dimset) (d : nat) : res dimset := if (d <? 64)%nat then Val (fun k => (k =? d)%nat || sd k) else UB.
Definition or_dims (a b : dimset) : dimset := fun k => a k || b k.
(** optimizations.cc:1511-1520 *)
Definition erase_dim (sd : dimset) (d : nat) : res dimset :=
  if (64 <? d)%nat then UB else Val (fun k => if (k <? d)%nat then sd k else if (S k <? 64)%nat then sd (S k) else false).
(** optimizations.cc:1522-1526: the same node (is_point) also matches *)
Definition is_extent_one (i : interval) : bool := defined (fst i) && defined (snd i) && match_expr (fst i) (snd i).
(** optimizations.cc:1528-1537, from dimension [i] on *)
Fixpoint find_sliceable (i : nat) (l : list interval) : res dimset :=
  match l with
  | [] => Val no_dims
  | x :: l' => sd <- find_sliceable (S i) l' ;; if is_extent_one x then set_dim sd i else Val sd
  end.
(** optimizations.cc:1573-1577 *)
Fixpoint find_constant (i : nat) (l : list dim) : res dimset :=
  match l with
  | [] => Val no_dims
  | x :: l' => sd <- find_constant (S i) l' ;; if d_max x - d_min x + 1 =? 1 then set_dim sd i else Val sd
  end.
(** optimizations.cc:1590-1594 *)
Definition transpose_dims (sd : dimset) (p : list nat) : res dimset :=
  if (64 <? length p)%nat || existsb (fun d => (64 <=? d)%nat) p then UB else Val (fun k => if (k <? length p)%nat then sd (nth k p O) else false).
(** optimizations.cc:1608-1612: the last dimension first *)
Fixpoint erase_at (i : nat) (l : list expr) (sd : dimset) : res dimset :=
  match l with
  | [] => Val sd
  | x :: l' => sd' <- erase_at (S i) l' sd ;; if defined x then erase_dim sd' i else Val sd'
  end.

(** optimizations.cc:1634-1636 *)
Fixpoint trim (l : list expr) : list expr :=
  match l with
  | [] => []
  | x :: l' => match trim l' with [] => if defined x then [x] else [] | r => x :: r end
  end.
(** optimizations.cc:1627-1632 *)
Definition slices_for (o : nat) (n : nat) (sd : dimset) : list expr :=
  trim (map (fun d => if (n <=? d)%nat && sd d then EVar o f_min (Z.of_nat d) else EUndef) (seq 0 64)).
(** optimizations.cc:1643-1653: [done] is sliced *)
Fixpoint slice_all (at_ : list expr) (done : list nat) (l : list nat) (s : stmt) : stmt :=
  match l with
  | [] => s
  | i :: l' => if existsb (Nat.eqb i) done then slice_all at_ done l' s else slice_all at_ (i :: done) l' (SSliceBuffer i i at_ s)
  end.
(** optimizations.cc:1617-1655 *)
Definition remove_call (m : nat -> dimset) (min_rank : option nat) (ins outs : list nat) (s : stmt) : res stmt :=
  match min_rank with
  | None => Val s
  | Some n =>
      match outs with
      | [] => if (n <? 64)%nat then UB else Val s
      | o :: _ =>
          match slices_for o n (fun d => forallb (fun i => m i d) outs) with
          | [] => Val s
          | at_ => Val (slice_all at_ [] (outs ++ ins) s)
          end
      end
  end.

Section Pass.
  Variable min_rank : nat -> option nat.
  Variable consts : Z -> option buf.
  Definition mset (m : nat -> dimset) (x : nat) (sd : dimset) : nat -> dimset := fun y => if (y =? x)%nat then sd else m y.
  Fixpoint remover (m : nat -> dimset) (s : stmt) {struct s} : res stmt :=
    let decl x sd b make := b' <- remover (mset m x sd) b ;; Val (make b') in
    match s with
    | SUndef | SCopy _ _ _ _ _ | SCheck _ => Val s
    | SCall t ins outs _ => remove_call m (min_rank t) ins outs s
    | SLet l b c => b' <- remover m b ;; Val (SLet l b' c)
    | SBlock l =>
        r <- (fix go (l : list stmt) : res (list stmt) := match l with [] => Val [] | x :: l' => x' <- remover m x ;; r <- go l' ;; Val (x' :: r) end) l ;; Val (block_make r)
    | SLoop x w i st b => b' <- remover m b ;; Val (SLoop x w i st b')
    | SAllocate x w e ds b => (* 1559-1563 *) sd <- find_sliceable 0 (map de_bounds ds) ;; decl x sd b (SAllocate x w e ds)
    | SMake x p e ds b => (* 1565-1569 *) sd <- find_sliceable 0 (map de_bounds ds) ;; decl x sd b (SMake x p e ds)
    | SConst x c b => (* 1571-1580 *) q <- match consts c with Some q => Val q | None => UB end ;; sd <- find_constant 0 (dims q) ;; decl x sd b (SConst x c)
    | SClone x src b => (* 1582-1586 *) decl x (m src) b (SClone x src)
    | SCropBuffer x src l b => (* 1552-1557 *) sd <- find_sliceable 0 l ;; decl x (or_dims (m src) sd) b (SCropBuffer x src l)
    | SCropDim x src d i b => (* 1542-1550 *)
        if is_extent_one i then sd <- set_dim (m src) d ;; decl x sd b (SCropDim x src d i)
        else b' <- remover m b ;; Val (SCropDim x src d i b')
    | SSliceBuffer x src l b => (* 1606-1615 *) sd <- erase_at 0 (firstn 64 l) (m src) ;; decl x sd b (SSliceBuffer x src l)
    | SSliceDim x src d e b => (* 1599-1604 *) sd <- erase_dim (m src) d ;; decl x sd b (SSliceDim x src d e)
    | STranspose x src p b => (* 1588-1597 *) sd <- transpose_dims (m src) p ;; decl x sd b (STranspose x src p)
    | SAsync x t b => t' <- remover m t ;; b' <- remover m b ;; Val (SAsync x t' b')
    end.
  (** optimizations.cc:1662-1665 *)
  Definition remove_pure_dims (s : stmt) : res stmt := remover (fun _ => no_dims) s.
End Pass.
