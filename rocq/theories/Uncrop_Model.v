(** Model of substitute_inputs (slinky/builder/pipeline.cc:530-568) and of the clones that its symbols come from (pipeline.cc:842-847).

    Simplifications: blocks are not flattened again (block::make); a copy without a padding has no symbol for it. *)
From Coq Require Import ZArith List Bool Arith.
From Verif Require Import Arith_Model Buf_Model Expr_Model Stmt_Model.
Import ListNotations.
Open Scope Z_scope.

(** symbol_map<var> *)
Definition renaming := nat -> option nat.
Definition renamed (subs : renaming) (x : nat) : nat := match subs x with Some y => y | None => x end.

(** pipeline.cc:531-568, and node_mutator.cc:91-143, stmt_mutator *)
Fixpoint substitute_inputs (subs : renaming) (s : stmt) {struct s} : stmt :=
  let go := substitute_inputs subs in
  match s with
  | SUndef => SUndef
  | SCall t ins outs sc => SCall t (map (renamed subs) ins) outs sc
  | SCopy src src_x dst dst_x pad => SCopy (renamed subs src) src_x dst dst_x (option_map (renamed subs) pad)
  | SLet l b c => SLet l (go b) c
  | SBlock l => SBlock (map go l)
  | SLoop sym w i st b => SLoop sym w i st (go b)
  | SAllocate sym w e ds b => SAllocate sym w e ds (go b)
  | SMake sym p e ds b => SMake sym p e ds (go b)
  | SConst sym p b => SConst sym p (go b)
  | SClone sym src b => SClone sym src (go b)
  | SCropBuffer sym src l b => SCropBuffer sym src l (go b)
  | SCropDim sym src d i b => SCropDim sym src d i (go b)
  | SSliceBuffer sym src l b => SSliceBuffer sym src l (go b)
  | SSliceDim sym src d x b => SSliceDim sym src d x (go b)
  | STranspose sym src p b => STranspose sym src p (go b)
  | SAsync sym t b => SAsync sym (go t) (go b)
  | SCheck c => SCheck c
  end.

(** pipeline.cc:842-847: the body of the allocation of [x]; pipeline.cc:1286-1290: the substitution in it *)
Definition uncrop (x y : nat) (body : stmt) : stmt := SClone y x (substitute_inputs (fun z => if (z =? x)%nat then Some y else None) body).
