(** Substitution into expressions (slinky/builder/substitute.cc:440-962,
    node_mutator.cc:30-200).

    A failed assert and SLINKY_UNREACHABLE are [UB].  A node whose parts did not change is
    reused in the code; here it is rebuilt, which gives the same node, because nodes are only
    made by make.  enter_decl of the two substitutors modelled returns either its argument or
    var(): the model is a boolean. *)
From Coq Require Import ZArith List Bool.
From Verif Require Import Arith_Model Buf_Model Expr_Model Stmt_Model Simplify_Model Deps_Model Match_Model.
Import ListNotations.
Open Scope Z_scope.

(** substitute.h:43-86: the class substitutor, with its virtual functions *)
Section Substitutor.
  Variable enter_decl : nat -> bool.
  (** visit(const variable* ) *)
  Variable visit_variable : nat -> field -> Z -> res expr.
  (** mutate_variable(nullptr, buf, buffer_field::min, d) *)
  Variable implicit_min : nat -> nat -> expr.
  Variable target_rank : nat -> nat.

  (** substitute.cc:682-696: the dimensions from [d] on *)
  Fixpoint fill_mins (s : nat) (d : nat) (l : list expr) : res (list expr) :=
    match l with
    | [] => Val []
    | a :: l' =>
        a' <- (if defined a then Val (if is_min_of a s (Z.of_nat d) then EUndef else a)
               else let m := implicit_min s d in
                    if defined m && is_min_of m s (Z.of_nat d) then UB else Val m) ;;
        r <- fill_mins s (S d) l' ;; Val (a' :: r)
    end.
  Definition pad (n : nat) (l : list expr) : list expr := l ++ repeat EUndef (n - length l).
  (** 678-702 *)
  Definition finish_at (args : list expr) : res (list expr) :=
    match args with
    | [] => Val []
    | EUndef :: _ => Val args
    | EVar s f_none d :: at_ => r <- fill_mins s 0 (pad (target_rank s) at_) ;; Val (EVar s f_none d :: pop_undefined r)
    | _ => UB
    end.

  Section Lists.
    Variable mutate : expr -> res expr.
    (** 443-460: the lets, and whether every declaration could be entered.  After one that
        could not, the values are left alone. *)
    Fixpoint mutate_lets (l : list (nat * expr)) : res (list (nat * expr) * bool) :=
      match l with
      | [] => Val ([], true)
      | (s, x) :: l' =>
          x' <- mutate x ;;
          if enter_decl s then r <- mutate_lets l' ;; let '(l1, all) := r in Val ((s, x') :: l1, all)
          else Val ((s, x') :: l', false)
      end.
    Fixpoint mutate_args (l : list expr) : res (list expr) :=
      match l with [] => Val [] | x :: l' => x' <- mutate x ;; r <- mutate_args l' ;; Val (x' :: r) end.
  End Lists.

  (** node_mutator.cc:30-38, 146-196; substitute.cc:443-472, 485, 670-710.  mutate of a null
      expr is a null expr (node_mutator.h:64-74). *)
  Fixpoint mutate (e : expr) : res expr :=
    match e with
    | EUndef => Val EUndef
    | EConst c => Val (EConst c)
    | EVar s f d => visit_variable s f d
    | ELet l b =>
        r <- mutate_lets mutate l ;; let '(l', all) := r in
        b' <- (if all : bool then mutate b else Val b) ;; Val (ELet l' b')
    | EBin o a b => a' <- mutate a ;; b' <- mutate b ;; Val (make_bin o a' b')
    | ENot a => a' <- mutate a ;; Val (ENot a')
    | ESelect c t f => c' <- mutate c ;; t' <- mutate t ;; f' <- mutate f ;; Val (ESelect c' t' f')
    | ECall fn t args =>
        args' <- mutate_args mutate args ;;
        args'' <- match fn with i_buffer_at => finish_at args' | _ => Val args' end ;;
        Val (ECall fn t args'')
    end.
End Substitutor.

(** ** Substituting a variable, substitute.cc:778-822, 868-891 *)
Definition is_var (e : expr) (x : nat) : bool := match e with EVar s f_none _ => (s =? x)%nat | _ => false end.
Definition enter_var (target : nat) (replacement : expr) (x : nat) : bool :=
  negb (x =? target)%nat && negb (any_flag (depends_on replacement x)).
(** 806-810: replacement_symbol *)
Definition replacement_symbol (replacement : expr) : res nat :=
  match replacement with EVar s f_none _ => Val s | _ => UB end.
(** 789-803.  variable::make(new_sym, field, dim). *)
Definition visit_var (target : nat) (replacement : expr) (s : nat) (f : field) (d : Z) : res expr :=
  if (s =? target)%nat then
    match f with
    | f_none => Val replacement
    | _ => y <- replacement_symbol replacement ;; Val (EVar y f d)
    end
  else Val (EVar s f d).
Definition var_mutate (target : nat) (replacement : expr) : expr -> res expr :=
  mutate (enter_var target replacement) (visit_var target replacement) (fun _ _ => EUndef) (fun _ => O).
(** 868-871 *)
Definition substitute (e : expr) (target : nat) (replacement : expr) : res expr :=
  if is_var replacement target then Val e else var_mutate target replacement e.
(** 872-880 *)
Definition substitute_interval (i : interval) (target : nat) (replacement : expr) : res interval :=
  if is_var replacement target then Val i
  else a <- var_mutate target replacement (fst i) ;; b <- var_mutate target replacement (snd i) ;; Val (a, b).
Definition substitute_dim (d : dim_expr) (target : nat) (replacement : expr) : res dim_expr :=
  if is_var replacement target then Val d
  else a <- var_mutate target replacement (fst (de_bounds d)) ;; b <- var_mutate target replacement (snd (de_bounds d)) ;;
       s <- var_mutate target replacement (de_stride d) ;; f <- var_mutate target replacement (de_fold d) ;;
       Val (DimE (a, b) s f).

(** ** Substituting the metadata of a buffer, substitute.cc:824-866, 893-912 *)
(** buffer.h: dim_expr::get_field *)
Definition dim_field (d : dim_expr) (f : field) : expr :=
  match f with
  | f_min => fst (de_bounds d)
  | f_max => snd (de_bounds d)
  | f_stride => de_stride d
  | f_fold_factor => de_fold d
  | _ => EUndef
  end.
Section Buffer.
  Variable target : nat.
  Variable elem : expr.
  Variable ds : list dim_expr.
  Variable def : option nat.

  Definition default_field (f : field) (d : Z) : expr := match def with Some y => EVar y f d | None => EUndef end.
  (** 840-866: the field of the target buffer.  [d] is an int: a negative one would be used
      as an index. *)
  Definition metadata (f : field) (d : Z) : res expr :=
    match f with
    | f_rank => Val (match def with Some y => EVar y f_rank (-1) | None => EConst (Z.of_nat (length ds)) end)
    | f_elem_size => Val (if defined elem then elem else default_field f d)
    | f_min | f_max | f_stride | f_fold_factor =>
        if d <? Z.of_nat (length ds) then
          if d <? 0 then UB
          else match nth_error ds (Z.to_nat d) with
               | None => UB
               | Some x =>
                   let sub := dim_field x f in
                   Val (if defined sub then sub else match def with None => sub | Some y => EVar y f d end)
               end
        else Val (match def with Some y => EVar y f d | None => EConst 0 end)
    | f_none | f_size_bytes => UB
    end.
  (** substitute.cc:476-483 *)
  Definition visit_buffer (s : nat) (f : field) (d : Z) : res expr :=
    match f with
    | f_none => Val (EVar s f d)
    | _ => if (s =? target)%nat then metadata f d else Val (EVar s f d)
    end.
  Definition buffer_implicit_min (s : nat) (d : nat) : expr :=
    if (s =? target)%nat then match metadata f_min (Z.of_nat d) with Val e => e | UB => EUndef end else EUndef.
  Definition substitute_buffer (e : expr) : res expr :=
    mutate (fun x => negb (x =? target)%nat) visit_buffer buffer_implicit_min
      (fun s => if (s =? target)%nat then length ds else O) e.
End Buffer.

(** ** Substituting an expression, substitute.cc:932-960, node_mutator.cc:11-38 *)
Section Expression.
  Variable target replacement : expr.
  Section Lists.
    Variable mut : expr -> expr.
    Definition emutate_lets (l : list (nat * expr)) : list (nat * expr) := map (fun p => (fst p, mut (snd p))) l.
  End Lists.
  Fixpoint substitute_expr (e : expr) : expr :=
    if match_expr e target then replacement
    else match e with
    | EUndef | EConst _ | EVar _ _ _ => e
    | ELet l b => ELet (emutate_lets substitute_expr l) (substitute_expr b)
    | EBin o a b => make_bin o (substitute_expr a) (substitute_expr b)
    | ENot a => ENot (substitute_expr a)
    | ESelect c t f => ESelect (substitute_expr c) (substitute_expr t) (substitute_expr f)
    | ECall fn t args => ECall fn t (map substitute_expr args)
    end.
End Expression.
