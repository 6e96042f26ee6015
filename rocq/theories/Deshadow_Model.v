(** Removing shadowed declarations (slinky/builder/optimizations.cc:1667-1757, 1844-1847; the class substitutor, substitute.cc:441-788; the names of symbols,
    runtime/expr_stmt.cc:23-53).

    A failed assert is [UB].  As in Subst_Model.v a node whose parts did not change is rebuilt here, which gives the same node, but for one simplification: a let_stmt
    that is a closure stays one in the code if nothing in it changes; here it is a plain let in any case (the theorems are about statements without closures). *)
From Coq Require Import ZArith List Bool String.
From Coq Require Import DecimalString.
From Verif Require Import Arith_Model Buf_Model Expr_Model Stmt_Model Simplify_Model Deps_Model Subst_Model StmtSubst_Model.
Import ListNotations.
Open Scope Z_scope.

(** ** Names of symbols *)
(** node_context (runtime/expr.h): [sym_to_name]; [name_to_sym] is its inverse *)
Definition context_names := list string.
(** std::to_string *)
Definition to_string (n : nat) : string := NilZero.string_of_uint (Nat.to_uint n).
(** expr_stmt.cc:23-31: the symbol may also have no name.  (No symbol is not used here.) *)
Definition name_of (c : context_names) (x : nat) : string := nth x c ("<" ++ to_string x ++ ">")%string.
(** expr_stmt.cc:50-53: lookup *)
Fixpoint find_name (c : context_names) (s : string) : option nat :=
  match c with [] => None | t :: c' => if String.eqb s t then Some O else option_map S (find_name c' s) end.
(** expr_stmt.cc:33-41 *)
Definition insert_name (c : context_names) (s : string) : nat * context_names :=
  match find_name c s with Some x => (x, c) | None => (List.length c, c ++ [s]) end.
(** expr_stmt.cc:42-49: [n] iterations are left, the next one is number [i] *)
Definition candidate (prefix : string) (i : nat) : string := (prefix ++ "#" ++ to_string i)%string.
Fixpoint unique_name (c : context_names) (prefix name : string) (i n : nat) : string :=
  match n with
  | O => name
  | S n' => match find_name c name with None => name | Some _ => unique_name c prefix (candidate prefix i) (S i) n' end
  end.
Definition insert_unique (c : context_names) (prefix : string) : nat * context_names :=
  insert_name c (unique_name c prefix prefix 0 (List.length c)).

(** ** The class deshadower *)
(** [symbols], and the context, to which symbols are added *)
Definition dstate := ((nat -> option nat) * context_names)%type.
Definition put (m : nat -> option nat) (x : nat) (v : option nat) : nat -> option nat := fun y => if (y =? x)%nat then v else m y.
(** optimizations.cc:1688-1691: visit_symbol *)
Definition renamed (m : nat -> option nat) (x : nat) : nat := match m x with Some y => y | None => x end.
(** the declarations that were entered, with what [symbols] was before *)
Definition entered := list (nat * option nat).
(** 1699: exit_decls.  The elements of a std::vector are destroyed from the first to the last. *)
Definition exit_decls (l : entered) (t : dstate) : dstate := (fold_left (fun m p => put m (fst p) (snd p)) l (fst t), snd t).
Section Lists.
  Context {A B : Type}.
  Variable f : A -> dstate -> res (B * dstate).
  Fixpoint each (l : list A) (t : dstate) : res (list B * dstate) :=
    match l with
    | [] => Val ([], t)
    | a :: l' => r <- f a t ;; let '(b, t1) := r in r <- each l' t1 ;; let '(bs, t2) := r in Val (b :: bs, t2)
    end.
End Lists.
Section Deshadow.
  Variable in_loop : option nat.
  (** 1683-1686 *)
  Definition rename (x : nat) (c : context_names) : nat * context_names :=
    insert_unique c (name_of c x ++ match in_loop with Some l => "." ++ name_of c l | None => "" end)%string.
  (** a declaration is given the name [x'] *)
  Definition declare (x x' : nat) (t : dstate) : dstate := (put (fst t) x (Some x'), snd t).
  (** 1693-1697: the new name, and the state *)
  Definition enter_decl (x : nat) (t : dstate) : nat * dstate :=
    match fst t x with
    | Some _ => let '(x', c) := rename x (snd t) in (x', declare x x' (fst t, c))
    | None => (x, declare x x t)
    end.
  Definition saved (x : nat) (t : dstate) : nat * option nat := (x, fst t x).
  Fixpoint enter_all (l : list nat) (t : dstate) : list nat * entered * dstate :=
    match l with
    | [] => ([], [], t)
    | x :: l' => let '(x', t1) := enter_decl x t in let '(r, e, t2) := enter_all l' t1 in (x' :: r, saved x t :: e, t2)
    end.
  Section Lets.
    Variable mut : expr -> dstate -> res (expr * dstate).
    (** substitute.cc:443-460 *)
    Fixpoint d_lets (l : list (nat * expr)) (t : dstate) : res (list (nat * expr) * entered * dstate) :=
      match l with
      | [] => Val ([], [], t)
      | (s, x) :: l' =>
          r <- mut x t ;; let '(x', t1) := r in
          let '(s', t2) := enter_decl s t1 in
          r <- d_lets l' t2 ;; let '(l1, e, t3) := r in Val ((s', x') :: l1, saved s t1 :: e, t3)
      end.
  End Lets.

  (** node_mutator.cc:146-196; substitute.cc:443-486, 668-705.  The mutate_variable of a deshadower is the one of substitutor (substitute.h:66-69): the given
      expr, or a null expr if it is given none. *)
  Fixpoint d_expr (e : expr) (t : dstate) {struct e} : res (expr * dstate) :=
    match e with
    | EUndef => Val (EUndef, t)
    | EConst c => Val (EConst c, t)
    | EVar s f d => Val (EVar (renamed (fst t) s) f d, t)
    | ELet l b =>
        r <- d_lets d_expr l t ;; let '(l', e, t1) := r in
        r <- d_expr b t1 ;; let '(b', t2) := r in Val (ELet l' b', exit_decls e t2)
    | EBin o a b => r <- d_expr a t ;; let '(a', t1) := r in r <- d_expr b t1 ;; let '(b', t2) := r in Val (make_bin o a' b', t2)
    | ENot a => r <- d_expr a t ;; let '(a', t1) := r in Val (ENot a', t1)
    | ESelect c x y =>
        r <- d_expr c t ;; let '(c', t1) := r in r <- d_expr x t1 ;; let '(x', t2) := r in
        r <- d_expr y t2 ;; let '(y', t3) := r in Val (ESelect c' x' y', t3)
    | ECall fn g args =>
        r <- each d_expr args t ;; let '(args', t1) := r in
        args'' <- match fn with i_buffer_at => finish_at (fun _ _ => EUndef) (fun _ => O) args' | _ => Val args' end ;;
        Val (ECall fn g args'', t1)
    end.
  Definition d_interval (i : interval) (t : dstate) : res (interval * dstate) :=
    r <- d_expr (fst i) t ;; let '(a, t1) := r in r <- d_expr (snd i) t1 ;; let '(b, t2) := r in Val ((a, b), t2).
  Definition d_dim (d : dim_expr) (t : dstate) : res (dim_expr * dstate) :=
    r <- d_interval (de_bounds d) t ;; let '(i, t1) := r in r <- d_expr (de_stride d) t1 ;; let '(s, t2) := r in
    r <- d_expr (de_fold d) t2 ;; let '(f, t3) := r in Val (DimE i s f, t3).
  (** substitute.cc:593-616: substitute_crop_bounds *)
  Definition d_crop (src : nat) (d : nat) (i : interval) (t : dstate) : res (interval * dstate) :=
    r <- d_interval i t ;; let '(i', t1) := r in
    Val ((if is_min_of (fst i') src (Z.of_nat d) then EUndef else fst i', if is_max_of (snd i') src (Z.of_nat d) then EUndef else snd i'), t1).
  Fixpoint d_crops (src : nat) (d : nat) (l : list interval) (t : dstate) : res (list interval * dstate) :=
    match l with
    | [] => Val ([], t)
    | i :: l' => r <- d_crop src d i t ;; let '(i', t1) := r in r <- d_crops src (S d) l' t1 ;; let '(r', t2) := r in Val (i' :: r', t2)
    end.
End Deshadow.

Fixpoint d_stmt (il : option nat) (s : stmt) (t : dstate) {struct s} : res (stmt * dstate) :=
  (* a declaration whose new name [sym'] has been chosen *)
  let inside := fun il sym (b : stmt) (p : nat * dstate) old k =>
    let '(sym', t1) := p in r <- d_stmt il b t1 ;; let '(b', t2) := r in Val (k sym' b' : stmt, exit_decls [(sym, old)] t2) in
  let decl := fun sym b t k => inside il sym b (enter_decl il sym t) (fst t sym) k in
  match s with
  | SUndef => Val (SUndef, t)
  | SCall g ins outs sc => (* substitute.cc:719-740 *)
      r <- each (d_expr il) sc t ;; let '(sc', t1) := r in Val (SCall g (map (renamed (fst t)) ins) (map (renamed (fst t)) outs) sc', t1)
  | SCopy src src_x dst dst_x pad => (* substitute.cc:743-775 *)
      let '(dx, e, t1) := enter_all il dst_x t in
      r <- each (d_expr il) src_x t1 ;; let '(sx, t2) := r in
      Val (SCopy (renamed (fst t) src) sx (renamed (fst t) dst) dx (option_map (renamed (fst t)) pad), exit_decls e t2)
  | SLet l b _ => (* substitute.cc:443-470 *)
      r <- d_lets il (d_expr il) l t ;; let '(l', e, t1) := r in
      r <- d_stmt il b t1 ;; let '(b', t2) := r in Val (SLet l' b' false, exit_decls e t2)
  | SBlock l => (* node_mutator.cc:90-105 *)
      r <- (fix go (l : list stmt) (t : dstate) : res (list stmt * dstate) :=
              match l with
              | [] => Val ([], t)
              | x :: l' => r <- d_stmt il x t ;; let '(x', t1) := r in r <- go l' t1 ;; let '(xs, t2) := r in Val (x' :: xs, t2)
              end) l t ;; let '(l', t1) := r in Val (block_make l', t1)
  | SLoop sym w i st b => (* optimizations.cc:1701-1717 *)
      r <- d_interval il i t ;; let '(i', t1) := r in r <- d_expr il st t1 ;; let '(st', t2) := r in r <- d_expr il w t2 ;; let '(w', t3) := r in
      let p := enter_decl il sym t3 in inside (Some (fst p)) sym b p (fst t3 sym) (fun sym' => SLoop sym' w' i' st')
  | SAllocate sym m e ds b => (* optimizations.cc:1719-1738: not renamed *)
      r <- d_expr il e t ;; let '(e', t1) := r in r <- each (d_dim il) ds t1 ;; let '(ds', t2) := r in
      inside il sym b (sym, declare sym sym t2) (fst t2 sym) (fun sym' => SAllocate sym' m e' ds')
  | SMake sym p e ds b => (* optimizations.cc:1740-1754: always renamed *)
      r <- d_expr il p t ;; let '(p', t1) := r in r <- d_expr il e t1 ;; let '(e', t2) := r in r <- each (d_dim il) ds t2 ;; let '(ds', t3) := r in
      let '(sym', c) := rename il sym (snd t3) in
      inside il sym b (sym', declare sym sym' (fst t3, c)) (fst t3 sym) (fun sym' => SMake sym' p' e' ds')
  | SConst sym p b => (* substitute.cc:542-552 *) decl sym b t (fun sym' => SConst sym' p)
  | SSliceBuffer sym src at_ b => (* substitute.cc:554-575 *)
      r <- each (d_expr il) at_ t ;; let '(at', t1) := r in decl sym b t1 (fun sym' => SSliceBuffer sym' (renamed (fst t) src) at')
  | SSliceDim sym src d at_ b => (* substitute.cc:577-589 *)
      r <- d_expr il at_ t ;; let '(at', t1) := r in decl sym b t1 (fun sym' => SSliceDim sym' (renamed (fst t) src) d at')
  | SCropBuffer sym src l b => (* substitute.cc:620-637 *)
      r <- d_crops il (renamed (fst t) src) 0 l t ;; let '(l', t1) := r in decl sym b t1 (fun sym' => SCropBuffer sym' (renamed (fst t) src) l')
  | SCropDim sym src d i b => (* substitute.cc:639-651 *)
      r <- d_crop il (renamed (fst t) src) d i t ;; let '(i', t1) := r in decl sym b t1 (fun sym' => SCropDim sym' (renamed (fst t) src) d i')
  | STranspose sym src p b => (* substitute.cc:706-717 *) decl sym b t (fun sym' => STranspose sym' (renamed (fst t) src) p)
  | SClone sym src b => (* substitute.cc:777-788 *) decl sym b t (fun sym' => SClone sym' (renamed (fst t) src))
  | SAsync sym k b => (* substitute.cc:653-664 *)
      match sym with
      | Some x =>
          let '(x', t1) := enter_decl il x t in
          r <- d_stmt il k t1 ;; let '(k', t2) := r in r <- d_stmt il b t2 ;; let '(b', t3) := r in
          Val (SAsync (Some x') k' b', exit_decls [saved x t] t3)
      | None => UB (* set_value_in_scope(symbols, var(), ...): symbol_map::grow((size_t)-1) does not reach the index (runtime/expr.h:744-748) *)
      end
  | SCheck c => (* node_mutator.cc: visit(const check* ) *) r <- d_expr il c t ;; let '(c', t1) := r in Val (SCheck c', t1)
  end.
(** optimizations.cc:1677-1681, 1844-1847 *)
Definition deshadow (s : stmt) (external : list nat) (c : context_names) : res (stmt * context_names) :=
  r <- d_stmt None s (fold_left (fun m x => put m x (Some x)) external (fun _ => None), c) ;; let '(s', t) := r in Val (s', snd t).
