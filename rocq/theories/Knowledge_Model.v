(** What the simplifier knows about variables and buffer fields, and how it learns from
    conditions (slinky/builder/simplify.cc:252-365, 378-430, 524-705; symbol_map and
    scoped_value_in_symbol_map, slinky/runtime/expr.h:740-890).

    A symbol_map is a function to options: growing its vector is not observable.  A
    [knowledge] object refers to the two maps of the simplifier; the model puts the maps in
    the record.  Only the fields of buffer_info that learning reads or writes, or that
    visit(const variable* ) reads, are modelled. *)
From Coq Require Import ZArith List Bool.
From Verif Require Import Arith_Model Arith_Spec ModRem_Model Expr_Model Match_Model Deps_Model Interval_Model.
Import ListNotations.
Open Scope Z_scope.

(** simplify.cc:255-260 *)
Record expr_info := Info { x_bounds : interval; x_align : modrem; x_known : expr }.
Definition info_empty : expr_info := Info i_undef mr_all EUndef.
(** 269-275 *)
Definition info_of_value (v : expr) : expr_info :=
  if defined v then Info (point v) (match as_constant v with Some c => MR 0 c | None => mr_all end) v
  else info_empty.
(** 277-281: expr_info::substitution *)
Definition info_substitution (v : expr) : expr_info := Info i_undef mr_all v.
(** interval_expr::as_point, expr.h:311 *)
Definition as_point (i : interval) : expr := if i_point i then i_min i else EUndef.
(** 285-288 *)
Definition info_value (i : expr_info) : expr := if defined (x_known i) then x_known i else as_point (x_bounds i).

(** 367-393; elem_size, dims and rank of 395-430.  [b_decl]: decl.defined() *)
Record dim_info := DimInfo { di_min : expr_info; di_max : expr_info; di_stride : expr_info; di_fold : expr_info }.
Definition dim_empty : dim_info := DimInfo info_empty info_empty info_empty info_empty.
Record buffer_info := BufInfo { b_elem_size : expr_info; b_dims : list dim_info; b_rank : Z; b_decl : bool }.
(** 430: buffer_info(var sym) *)
Definition buffer_info_of (s : nat) : buffer_info := BufInfo (info_of_value (EVar s f_elem_size (-1))) [] (-1) false.
(** 376-384 *)
Definition dim_field (d : dim_info) (f : field) : expr_info :=
  match f with f_min => di_min d | f_max => di_max d | f_stride => di_stride d | f_fold_factor => di_fold d | _ => di_min d end.
Definition set_dim_field (d : dim_info) (f : field) (i : expr_info) : dim_info :=
  match f with
  | f_max => DimInfo (di_min d) i (di_stride d) (di_fold d)
  | f_stride => DimInfo (di_min d) (di_max d) i (di_fold d)
  | f_fold_factor => DimInfo (di_min d) (di_max d) (di_stride d) i
  | _ => DimInfo i (di_max d) (di_stride d) (di_fold d)
  end.
(** 401-404: dims[d] after dims.resize(d + 1) if necessary *)
Definition dims_resized (l : list dim_info) (d : nat) : list dim_info := l ++ repeat dim_empty (S d - length l).
Fixpoint set_dim (l : list dim_info) (d : nat) (x : dim_info) : list dim_info :=
  match l, d with
  | [], _ => []
  | _ :: l', O => x :: l'
  | y :: l', S d' => y :: set_dim l' d' x
  end.

(** knowledge: the maps it refers to, the saved values (the last one first) and the facts *)
Record knowledge := Know {
  k_vars : nat -> option expr_info;
  k_bufs : nat -> option buffer_info;
  k_vk : list (nat * option expr_info);
  k_bk : list (nat * option buffer_info);
  k_facts : list (expr * expr) }.
Definition map_set {A} (m : nat -> option A) (s : nat) (v : option A) : nat -> option A :=
  fun t => if (t =? s)%nat then v else m t.
(** a new knowledge object for the maps *)
Definition knowledge_new (v : nat -> option expr_info) (b : nat -> option buffer_info) : knowledge := Know v b [] [] [].

(** expr.h:854-866: exit_scope of a scoped value puts the old value back *)
Fixpoint restore {A} (m : nat -> option A) (l : list (nat * option A)) : nat -> option A :=
  match l with [] => m | (s, v) :: l' => restore (map_set m s v) l' end.
(** simplify.cc:585-593: the last saved value first *)
Definition exit_scope (k : knowledge) : knowledge :=
  Know (restore (k_vars k) (k_vk k)) (restore (k_bufs k) (k_bk k)) [] [] (k_facts k).

Section Learn.
  (** simplify(static_cast<const T* >(nullptr), a, b) (simplify_exprs.cc) *)
  Variable sbin : binop -> expr -> expr -> res expr.

  (** simplify_exprs.cc:393-409, as in Interval_Model *)
  Definition intersect (a b : interval) : res interval :=
    lo <- (if defined (i_min a) && defined (i_min b) then sbin Max (i_min a) (i_min b)
           else Val (if defined (i_min a) then i_min a else i_min b)) ;;
    hi <- (if defined (i_max a) && defined (i_max b) then sbin Min (i_max a) (i_max b)
           else Val (if defined (i_max a) then i_max a else i_max b)) ;;
    Val (if match_expr lo hi then point lo else i_bounds lo hi).

  (** simplify.cc:303-309 *)
  Definition merge (i : expr_info) (b : interval) (a : modrem) : res expr_info :=
    b' <- intersect (x_bounds i) b ;;
    a' <- mr_inter 64 (x_align i) a ;;
    Val (Info b' a' (match as_constant (as_point b') with Some c => EConst c | None => x_known i end)).

  Definition learned_nothing (b : interval) (a : modrem) : bool :=
    negb (defined (i_min b)) && negb (defined (i_max b)) && (modulus a =? 1).
  Definition only_pure (e : expr) : expr := if defined e && negb (is_pure e) then EUndef else e.
  (** 553-557.  Assigning undefined to an end makes is_point false (expr.h:309 compares the
      ends; both are undefined or different then). *)
  Definition pure_interval (b : interval) : interval :=
    Interval (only_pure (i_min b)) (only_pure (i_max b)) (i_point b && is_pure (i_min b)).
  Definition default_info {A} (o : option A) (d : A) : A := match o with Some x => x | None => d end.
  (** 565-579: the fields of [info].  buffer_info::rank is an int. *)
  Definition learn_field (info : buffer_info) (f : field) (d : Z) (b : interval) (a : modrem) : res buffer_info :=
    if 0 <=? d then
      match f with
      | f_min | f_max | f_stride | f_fold_factor =>
          let l := dims_resized (b_dims info) (Z.to_nat d) in
          let di := nth (Z.to_nat d) l dim_empty in
          i <- merge (dim_field di f) b a ;;
          Val (BufInfo (b_elem_size info) (set_dim l (Z.to_nat d) (set_dim_field di f i)) (b_rank info) (b_decl info))
      | _ => Val info
      end
    else
      match f with
      | f_elem_size => i <- merge (b_elem_size info) b a ;; Val (BufInfo i (b_dims info) (b_rank info) (b_decl info))
      | f_rank => Val (match as_constant (as_point b) with
                       | Some c => BufInfo (b_elem_size info) (b_dims info) (wrap 32 c) (b_decl info)
                       | None => info
                       end)
      | _ => Val info
      end.
  (** 532-580 *)
  Definition add_var_info (k : knowledge) (s : nat) (f : field) (d : Z) (b : interval) (a : modrem) : res knowledge :=
    match f with
    | f_none =>
        i <- merge (default_info (k_vars k s) info_empty) b a ;;
        Val (Know (map_set (k_vars k) s (Some i)) (k_bufs k) ((s, k_vars k s) :: k_vk k) (k_bk k) (k_facts k))
    | _ =>
        let b := pure_interval b in
        if learned_nothing b a then Val k else
        let bk := if existsb (fun p => (fst p =? s)%nat) (k_bk k) then k_bk k else (s, k_bufs k s) :: k_bk k in
        info <- learn_field (default_info (k_bufs k s) (buffer_info_of s)) f d b a ;;
        Val (Know (k_vars k) (map_set (k_bufs k) s (Some info)) (k_vk k) bk (k_facts k))
    end.
  Definition add_fact (k : knowledge) (a b : expr) : knowledge :=
    Know (k_vars k) (k_bufs k) (k_vk k) (k_bk k) (k_facts k ++ [(a, b)]).

  (** 595-613 *)
  Definition learn_from_equal (k : knowledge) (a b : expr) : res knowledge :=
    k <- match a with
         | EVar s f d => add_var_info k s f d (point b) mr_all
         | EBin Mod (EVar s f d) (EConst m) =>
             match b with EConst c => add_var_info k s f d i_undef (MR m c) | _ => Val k end
         | EBin Mod _ _ => Val k
         | _ => Val (add_fact k (e_eq a b) (EConst 1))
         end ;;
    match b with EVar s f d => add_var_info k s f d (point a) mr_all | _ => Val k end.

  (** The bounds that a < b (615-634) and a <= b (635-654) give for two operands that are
      not taken apart; [strict] is less. *)
  Definition is_var (e : expr) : bool := match e with EVar _ _ _ => true | _ => false end.
  Definition learn_leaf (strict : bool) (k : knowledge) (a b : expr) : res knowledge :=
    k <- match a with
         | EVar s f d =>
             hi <- (if strict then sbin Add b (EConst (-1)) else Val b) ;;
             add_var_info k s f d (i_bounds EUndef hi) mr_all
         | _ => Val k
         end ;;
    k <- match b with
         | EVar s f d =>
             lo <- (if strict then sbin Add a (EConst 1) else Val a) ;;
             add_var_info k s f d (i_bounds lo EUndef) mr_all
         | _ => Val k
         end ;;
    Val (if is_var a || is_var b then k else add_fact k ((if strict then e_lt else e_le) a b) (EConst 1)).
  (** 615-623, 635-643: a max on the right is taken apart first, then a min on the left *)
  Fixpoint learn_left (strict : bool) (k : knowledge) (a b : expr) {struct a} : res knowledge :=
    match a with
    | EBin Min x y => k <- learn_left strict k x b ;; learn_left strict k y b
    | _ => learn_leaf strict k a b
    end.
  Fixpoint learn_from_order (strict : bool) (k : knowledge) (a b : expr) {struct b} : res knowledge :=
    match b with
    | EBin Max x y => k <- learn_from_order strict k a x ;; learn_from_order strict k a y
    | _ => learn_left strict k a b
    end.
  Definition learn_from_less := learn_from_order true.
  Definition learn_from_less_equal := learn_from_order false.

  (** as_variable, expr_stmt.cc:729-736: a variable without a field *)
  Definition is_plain_variable (e : expr) : bool := match e with EVar _ f_none _ => true | _ => false end.
  (** 656-676 ([pos]) and 677-695 (not [pos]) *)
  Fixpoint learn (pos : bool) (k : knowledge) (c : expr) {struct c} : res knowledge :=
    match pos, c with
    | true, EBin And a b => k <- learn true k a ;; learn true k b
    | false, EBin Or a b => k <- learn false k a ;; learn false k b
    | _, ENot a => learn (negb pos) k a
    | true, EBin Less a b => learn_from_less k a b
    | true, EBin LessEqual a b => learn_from_less_equal k a b
    | true, EBin Equal a b => learn_from_equal k a b
    | false, EBin Less a b => learn_from_less_equal k b a
    | false, EBin LessEqual a b => learn_from_less k b a
    | false, EBin NotEqual a b => learn_from_equal k a b
    | true, _ =>
        match as_constant c with
        | Some _ => Val k
        | None => if is_plain_variable c then Val k else Val (add_fact k c (EConst 1))
        end
    | false, _ => match as_constant c with Some _ => Val k | None => Val (add_fact k c (EConst 0)) end
    end.
End Learn.
