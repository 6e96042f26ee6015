(** Performing crops, slices and transposes in place (slinky/builder/optimizations.cc:1759-1848, 1856-1859: reuse_shadows, optimize_symbols).

    The map can_mutate is a function to bool: a symbol that is not in it is false (can_mutate[op->src] && *can_mutate[op->src], 1772).  A node whose parts did not
    change is rebuilt here, which gives the same node.  prove_true(max_workers == loop::serial) (1814) is a parameter: the theorems are for all of them that
    are sound.  The body of a crop that becomes one in place is first substituted, then visited, so the recursion is on fuel: [UB] if there is not enough, or if the
    substitution fails an assert. *)
From Coq Require Import ZArith List Bool.
From Verif Require Import Arith_Model Buf_Model Expr_Model Stmt_Model Simplify_Model Deps_Model Subst_Model StmtSubst_Model.
Import ListNotations.
Open Scope Z_scope.

Definition mutables := nat -> bool.
Definition mset (m : mutables) (s : nat) (b : bool) : mutables := fun x => if (x =? s)%nat then b else m x.
(** optimizations.cc:1803-1808: the closure hands on all symbols that the statement depends on *)
Definition hand_on (s : stmt) : stmt := SLet (map (fun x => (x, EVar x f_none 0)) (find_dependencies_stmt s)) s true.

(** the number of statements in a statement *)
Fixpoint stmt_size (s : stmt) : nat :=
  match s with
  | SUndef | SCall _ _ _ _ | SCopy _ _ _ _ _ | SCheck _ => 1
  | SBlock l => S ((fix go (l : list stmt) := match l with [] => O | x :: l' => (stmt_size x + go l')%nat end) l)
  | SLet _ b _ | SLoop _ _ _ _ b | SAllocate _ _ _ _ b | SMake _ _ _ _ b | SConst _ _ b | SClone _ _ b
  | SCropBuffer _ _ _ b | SCropDim _ _ _ _ b | SSliceBuffer _ _ _ b | SSliceDim _ _ _ _ b | STranspose _ _ _ b => S (stmt_size b)
  | SAsync _ t b => S (stmt_size t + stmt_size b)
  end.

Section Reuse.
  Variable proves_serial : expr -> bool.

  (** the members of a block, one after the other (node_mutator.cc:90-105) *)
  Section List_.
    Variable f : mutables -> stmt -> res (stmt * mutables).
    Fixpoint reuse_list (m : mutables) (l : list stmt) : res (list stmt * mutables) :=
      match l with
      | [] => Val ([], m)
      | x :: l' => r <- f m x ;; let '(x', m1) := r in r <- reuse_list m1 l' ;; let '(r', m2) := r in Val (x' :: r', m2)
      end.
  End List_.

  Fixpoint reuse (n : nat) (m : mutables) (s : stmt) {struct n} : res (stmt * mutables) :=
    match n with
    | O => UB
    | S n' =>
        let rec := reuse n' in
        (* 1765-1789: visit_buffer_mutator; [make] is clone_with(op, sym, body) *)
        let mutator (sym src : nat) (b : stmt) (make : nat -> stmt -> stmt) :=
          r <- (if m src && negb (any_flag (depends_on_stmt b src)) then b' <- substitute_stmt b sym (EVar src f_none 0) ;; Val (src, b') else Val (sym, b)) ;;
          let '(sym', b') := r in r <- rec (mset m sym true) b' ;; let '(b2, m2) := r in Val (make sym' b2, m2) in
        (* 1791-1795: visit_buffer_decl *)
        let decl (sym : nat) (mutable : bool) (b : stmt) (make : stmt -> stmt) :=
          r <- rec (mset m sym mutable) b ;; let '(b', m') := r in Val (make b', m') in
        (* 1797-1810: mutate_closure; the map is restored *)
        let closure (b : stmt) := r <- rec (fun _ => false) b ;; Val (hand_on (fst r)) in
        match s with
        | SUndef | SCall _ _ _ _ | SCopy _ _ _ _ _ | SCheck _ => Val (s, m)
        | SLet l b c => r <- rec m b ;; let '(b', m') := r in Val (SLet l b' c, m')
        | SBlock l => r <- reuse_list rec m l ;; let '(l', m') := r in Val (block_make l', m')
        | SLoop sym w i st b => (* 1812-1819 *)
            if proves_serial w then r <- rec m b ;; let '(b', m') := r in Val (SLoop sym w i st b', m')
            else b' <- closure b ;; Val (SLoop sym w i st b', m)
        | SAsync sym t b => (* 1821-1826 *) t' <- closure t ;; b' <- closure b ;; Val (SAsync sym t' b', m)
        | SAllocate sym w e ds b => (* 1828 *) decl sym true b (SAllocate sym w e ds)
        | SMake sym p e ds b => (* 1829 *) decl sym true b (SMake sym p e ds)
        | SConst sym p b => (* 1830-1833 *) decl sym false b (SConst sym p)
        | SClone sym src b => r <- rec m b ;; let '(b', m') := r in Val (SClone sym src b', m')
        | SCropBuffer sym src l b => (* 1835 *) mutator sym src b (fun s' => SCropBuffer s' src l)
        | SCropDim sym src d i b => (* 1836 *) mutator sym src b (fun s' => SCropDim s' src d i)
        | SSliceBuffer sym src l b => (* 1837 *) mutator sym src b (fun s' => SSliceBuffer s' src l)
        | SSliceDim sym src d e b => (* 1838 *) mutator sym src b (fun s' => SSliceDim s' src d e)
        | STranspose sym src p b => (* 1839 *) mutator sym src b (fun s' => STranspose s' src p)
        end
    end.
  (** 1856-1859: optimize_symbols *)
  Definition optimize_symbols (s : stmt) : res stmt := r <- reuse (stmt_size s) (fun _ => false) s ;; Val (fst r).
End Reuse.
