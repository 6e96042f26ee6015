(** Substituting a variable in statements (slinky/builder/substitute.cc:440-830, 896-900).

    A failed assert is [UB].  As in Subst_Model.v a node whose parts did not change is rebuilt here, which gives the same node.  One
    simplification: a let_stmt that is a closure stays one in the code if nothing in it changes; here it is a plain let in any case, as it is in the code when
    something changes (the theorems are about statements without closures). *)
From Coq Require Import ZArith List Bool.
From Verif Require Import Arith_Model Buf_Model Expr_Model Stmt_Model Simplify_Model Deps_Model Subst_Model.
Import ListNotations.
Open Scope Z_scope.

Section Lists.
  Context {A B : Type}.
  Variable f : A -> res B.
  Fixpoint map_res (l : list A) : res (list B) := match l with [] => Val [] | a :: l' => b <- f a ;; r <- map_res l' ;; Val (b :: r) end.
End Lists.
(** is_variable(e, s, buffer_field::max, d) *)
Definition is_max_of (e : expr) (s : nat) (d : Z) : bool :=
  match e with EVar s' f_max d' => (s' =? s)%nat && (d' =? d) | _ => false end.

Section Var.
  Variable target : nat.
  Variable replacement : expr.
  Notation mut := (var_mutate target replacement).
  (** substitute.cc:801 *)
  Notation enter := (enter_var target replacement).
  (** substitute.cc:824-830: var_substitutor::visit_symbol *)
  Definition visit_symbol (x : nat) : res nat := if (x =? target)%nat then replacement_symbol replacement else Val x.
  Definition mut_interval (i : interval) : res interval := a <- mut (fst i) ;; b <- mut (snd i) ;; Val (a, b).
  Definition mut_dim (d : dim_expr) : res dim_expr :=
    i <- mut_interval (de_bounds d) ;; s <- mut (de_stride d) ;; f <- mut (de_fold d) ;; Val (DimE i s f).
  (** substitute.cc:593-616: substitute_crop_bounds.  The mutate_variable of a var_substitutor given no variable is a null expr (substitute.h:66-69), so
      there is no implicit clamp to include. *)
  Definition crop_bounds (new_src : nat) (d : nat) (i : interval) : res interval :=
    r <- mut_interval i ;;
    Val (if is_min_of (fst r) new_src (Z.of_nat d) then EUndef else fst r, if is_max_of (snd r) new_src (Z.of_nat d) then EUndef else snd r).
  Fixpoint crop_all (new_src : nat) (d : nat) (l : list interval) : res (list interval) :=
    match l with [] => Val [] | i :: l' => i' <- crop_bounds new_src d i ;; r <- crop_all new_src (S d) l' ;; Val (i' :: r) end.

  Fixpoint sub_stmt (s : stmt) {struct s} : res stmt :=
    (* the body of a declaration of [sym]: [op->body] if the declaration cannot be entered *)
    let decl sym (b : stmt) (b' : res stmt) := if enter sym then b' else Val b in
    match s with
    | SUndef => Val SUndef
    | SCall t ins outs sc => (* 719-740 *)
        i' <- map_res visit_symbol ins ;; o' <- map_res visit_symbol outs ;; sc' <- map_res mut sc ;; Val (SCall t i' o' sc')
    | SCopy src src_x dst dst_x pad => (* 743-775 *)
        src' <- visit_symbol src ;; dst' <- visit_symbol dst ;;
        pad' <- match pad with Some p => p' <- visit_symbol p ;; Val (Some p') | None => Val None end ;;
        if forallb enter dst_x then x' <- map_res mut src_x ;; Val (SCopy src' x' dst' dst_x pad') else Val s
    | SLet l b c => (* 441-470, 487 *)
        r <- mutate_lets enter mut l ;; let '(l', all) := r in b' <- (if all : bool then sub_stmt b else Val b) ;; Val (SLet l' b' false)
    | SBlock l => (* node_mutator.cc:90-105 *)
        l' <- (fix go (l : list stmt) := match l with [] => Val [] | x :: l' => x' <- sub_stmt x ;; r <- go l' ;; Val (x' :: r) end) l ;; Val (block_make l')
    | SLoop sym w i st b => (* 489-501; max_workers is not substituted *)
        i' <- mut_interval i ;; st' <- mut st ;; b' <- decl sym b (sub_stmt b) ;; Val (SLoop sym w i' st' b')
    | SAllocate sym m e ds b => (* 502-519 *)
        e' <- mut e ;; ds' <- map_res mut_dim ds ;; b' <- decl sym b (sub_stmt b) ;; Val (SAllocate sym m e' ds' b')
    | SMake sym p e ds b => (* 521-540 *)
        p' <- mut p ;; e' <- mut e ;; ds' <- map_res mut_dim ds ;; b' <- decl sym b (sub_stmt b) ;; Val (SMake sym p' e' ds' b')
    | SConst sym p b => (* 542-552 *) b' <- decl sym b (sub_stmt b) ;; Val (SConst sym p b')
    | SSliceBuffer sym src at_ b => (* 554-575 *)
        src' <- visit_symbol src ;; at' <- map_res mut at_ ;; b' <- decl sym b (sub_stmt b) ;; Val (SSliceBuffer sym src' at' b')
    | SSliceDim sym src d at_ b => (* 577-589 *)
        src' <- visit_symbol src ;; at' <- mut at_ ;; b' <- decl sym b (sub_stmt b) ;; Val (SSliceDim sym src' d at' b')
    | SCropBuffer sym src l b => (* 620-637 *)
        src' <- visit_symbol src ;; l' <- crop_all src' 0 l ;; b' <- decl sym b (sub_stmt b) ;; Val (SCropBuffer sym src' l' b')
    | SCropDim sym src d i b => (* 639-651 *)
        src' <- visit_symbol src ;; i' <- crop_bounds src' d i ;; b' <- decl sym b (sub_stmt b) ;; Val (SCropDim sym src' d i' b')
    | STranspose sym src p b => (* 706-717 *) src' <- visit_symbol src ;; b' <- decl sym b (sub_stmt b) ;; Val (STranspose sym src' p b')
    | SClone sym src b => (* 777-788 *) src' <- visit_symbol src ;; b' <- decl sym b (sub_stmt b) ;; Val (SClone sym src' b')
    | SAsync sym t b => (* 653-664; enter_decl of no symbol is no symbol *)
        match sym with
        | Some x => t' <- decl x t (sub_stmt t) ;; b' <- decl x b (sub_stmt b) ;; Val (SAsync sym t' b')
        | None => Val s
        end
    | SCheck c => (* node_mutator.cc: visit(const check* ) *) c' <- mut c ;; Val (SCheck c')
    end.
End Var.
(** substitute.cc:896-900: substitute(const stmt&, var, const expr&) *)
Definition substitute_stmt (s : stmt) (target : nat) (replacement : expr) : res stmt :=
  if is_var replacement target then Val s else sub_stmt target replacement s.
