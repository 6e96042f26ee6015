(** The simplifier on expressions: simplify, bounds_of, prove_true, prove_false and
    attempt_to_prove (slinky/builder/simplify.cc:33-51, 319-350, 432-529, 699-1181,
    2477-2509, 2811-2825).

    The visitor is modelled function by function.  The functions it calls that are modelled
    elsewhere (simplify of one node, bounds_of of one node, constant bounds, learning,
    substitution, add_constant, the arithmetic of residue classes) are the fields of the
    record [prims]; [code_prims] are these functions.  The record exists so that the same
    visitor can also be run with primitives that stop when they are asked something outside
    of the range in which they are known to be correct (Simplifier_Props.v).

    same_as compares addresses; the answers are a parameter [p_same], which may depend on
    where in the run (a [path]) the question is asked, but is only believed about equal
    expressions.  The same holds for the reuse of nodes in bounds_of (BoundsOf_Model.v).

    The recursion of mutate is not structural (what it returns is often simplified again):
    the model has fuel, and running out of it is [UB].  Lets are not modelled (1183-1255):
    mutate of a let is [UB].  A failed assert is [UB].  The maps are restored when the
    [knowledge] is destroyed (C41_forgotten), so the model goes on with the maps it had. *)
From Coq Require Import ZArith List Bool.
From Verif Require Import Arith_Model Arith_Spec ModRem_Model Buf_Model Expr_Model Match_Model Rewrite_Model Simplify_Model Const_Model
  Interval_Model BoundsOf_Model Deps_Model Subst_Model Knowledge_Model.
Import ListNotations.
Open Scope Z_scope.

Definition path := list nat.

(** simplify.cc:433-435 *)
Record state := State { s_vars : nat -> option expr_info; s_bufs : nat -> option buffer_info; s_proving : bool }.
Definition empty_state : state := State (fun _ => None) (fun _ => None) false.

Record prims := Prims {
  p_visit : expr -> bool;                                        (* the expressions that are taken apart *)
  p_same : path -> expr -> expr -> bool;                         (* same_as *)
  p_bin : binop -> expr -> expr -> res expr;                     (* simplify(op, a, b) *)
  p_not : expr -> res expr;
  p_select : expr -> expr -> expr -> res expr;
  p_call : intrinsic -> option nat -> list expr -> res expr;
  p_add_constant : expr -> Z -> res expr;
  p_true : expr -> res bool;                                     (* prove_constant_true *)
  p_false : expr -> res bool;
  p_bounds_bin : path -> (expr -> res expr) -> binop -> option (expr * expr) -> interval -> interval -> res interval;
  p_bounds_not : path -> option expr -> interval -> res interval;
  p_bounds_select : path -> interval -> interval -> interval -> res interval;
  p_bounds_call : intrinsic -> option nat -> list expr -> list interval -> res interval;
  p_align : binop -> modrem -> modrem -> res modrem;             (* modulus_of, and | for the other operators *)
  p_aligned : binop -> modrem -> expr -> expr -> res (option expr); (* the rules in visit_binary *)
  p_learn : bool -> (nat -> option expr_info) -> (nat -> option buffer_info) -> expr -> res knowledge;
  p_subst : expr -> expr -> expr -> res expr;                    (* slinky::substitute(x, target, replacement) *)
  p_at : nat -> nat -> bool -> bool }.                           (* an index of buffer_at is dropped *)

(** ** The primitives of the code *)

(** 718-731, 733-745 *)
Definition prove_constant_true (e : expr) : res bool :=
  if negb (defined e) then Val false else
  ec <- evaluate_constant e ;;
  match ec with
  | Some c => Val (negb (c =? 0))
  | None =>
      a <- constant_lower_bound e ;;
      if match as_constant a with Some x => 0 <? x | None => false end then Val true
      else b <- constant_upper_bound e ;; Val (match as_constant b with Some x => x <? 0 | None => false end)
  end.
Definition prove_constant_false (e : expr) : res bool :=
  if negb (defined e) then Val false else
  ec <- evaluate_constant e ;;
  match ec with
  | Some c => Val (c =? 0)
  | None =>
      a <- constant_lower_bound e ;;
      match as_constant a with
      | None => Val false
      | Some x => b <- constant_upper_bound e ;;
                  Val (match as_constant b with Some y => (x =? 0) && (y =? 0) | None => false end)
      end
  end.
(** 921-925 (and 914, 1112) *)
Definition modulus_of (o : binop) (a b : modrem) : res modrem :=
  match o with
  | Add => mr_add 64 a b | Sub => mr_sub 64 a b | Mul => mr_mul 64 a b | Div => mr_div 64 a b | Mod => mr_mod 64 a b
  | _ => mr_union 64 a b
  end.
(** 972-973, 983: the numbers a_mod and a_rem are literals of the rules *)
Definition rule_div_sum (m r : Z) : rule := Rule 972
  (PBin Div (PBin Add (PWild 0) (PConst 0)) (PConst 1))
  [(PBin Add (PBin Div (PWild 0) (PConst 1))
      (REval (PBin Sub (PBin Div (PLit r) (PConst 1)) (PBin Div (PBin Sub (PLit r) (PConst 0)) (PConst 1)))),
    PBin Equal (PBin Mod (PLit m) (PConst 1)) (PLit 0))].
Definition rule_div_difference (m r : Z) : rule := Rule 973
  (PBin Div (PBin Sub (PConst 0) (PWild 0)) (PConst 1))
  [(PBin Sub (REval (PBin Add (PBin Div (PLit r) (PConst 1)) (PBin Div (PBin Sub (PConst 0) (PLit r)) (PConst 1))))
      (PBin Div (PWild 0) (PConst 1)),
    PBin Equal (PBin Mod (PLit m) (PConst 1)) (PLit 0))].
Definition rule_mod (m r : Z) : rule := Rule 983
  (PBin Mod (PWild 0) (PConst 0))
  [(REval (PBin Mod (PLit r) (PConst 0)), REval (PBin Equal (PBin Mod (PLit m) (PConst 0)) (PLit 0)))].
Definition aligned_rules (o : binop) (al : modrem) : list rule :=
  match o with
  | Div => [rule_div_sum (modulus al) (remainder al); rule_div_difference (modulus al) (remainder al)]
  | Mod => [rule_mod (modulus al) (remainder al)]
  | _ => []
  end.
Definition apply_aligned (o : binop) (al : modrem) (a b : expr) : res (option expr) := apply_rules (aligned_rules o al) (EBin o a b).

(** simplify_bounds.cc:120-363: bounds_of on two intervals *)
Definition bounds_of_bin (W : world) (reuse : expr -> expr -> bool) (simplify_all : expr -> res expr) (o : binop)
    (op : option (expr * expr)) (a b : interval) : res interval :=
  match o with
  | Add => bounds_of_add reuse simplify_all op a b
  | Sub => bounds_of_sub reuse simplify_all op a b
  | Mul => bounds_of_mul reuse a b
  | Div => bounds_of_div reuse a b
  | Mod => bounds_of_mod reuse W a b
  | Min => bounds_of_min reuse a b
  | Max => bounds_of_max reuse a b
  | Equal => bounds_of_equal reuse a b
  | NotEqual => bounds_of_not_equal reuse a b
  | Less => bounds_of_lt reuse a b
  | LessEqual => bounds_of_le reuse a b
  | And => bounds_of_and reuse a b
  | Or => bounds_of_or reuse a b
  end.

(** [same], [reuse], [reuse_select], [is_op]: the answers about addresses *)
Definition code_prims (W : world) (same : path -> expr -> expr -> bool) (reuse : path -> expr -> expr -> bool)
    (reuse_select : path -> bool) : prims :=
  {| p_visit := fun _ => true;
     p_same := same;
     p_bin := simplify_bin;
     p_not := simplify_not;
     p_select := simplify_select;
     p_call := simplify_call W;
     p_add_constant := add_constant;
     p_true := prove_constant_true;
     p_false := prove_constant_false;
     p_bounds_bin := fun p => bounds_of_bin W (reuse p);
     p_bounds_not := fun p op a =>
       bounds_of_not op (match op with Some x => same p (i_min a) (ENot x) && match_expr (i_min a) (ENot x) && match_expr (i_max a) (ENot x) | None => false end) a;
     p_bounds_select := fun p => bounds_of_select (reuse_select p);
     p_bounds_call := bounds_of_call W;
     p_align := modulus_of;
     p_aligned := apply_aligned;
     p_learn := fun pos v b c => learn simplify_bin pos (knowledge_new v b) c;
     p_subst := fun target rep x => Val (substitute_expr target rep x);
     p_at := fun _ _ _ => true |}.

(** ** The visitor *)
Section Simplifier.
  Variable P : prims.

  (** an expression and what is known about it *)
  Definition result := (expr * expr_info)%type.
  Definition nothing : res result := Val (EUndef, info_empty).

  (** same_as of two expressions *)
  Definition same_as (p : path) (a b : expr) : bool := match_expr a b && p_same P p a b.
  (** interval_expr::is_point of an interval whose ends may be the same object *)
  Definition repoint (p : path) (i : interval) : interval :=
    Interval (i_min i) (i_max i)
      (defined (i_min i) && match_expr (i_min i) (i_max i) && (i_point i || p_same P p (i_min i) (i_max i))).
  (** 47-51 *)
  Definition ensure_is_point (i : interval) : interval :=
    if negb (i_point i) && match_expr (i_min i) (i_max i) then point (i_min i) else i.
  (** 439-444 *)
  Definition set_result (e : expr) (i : expr_info) : res result :=
    if defined e then Val (e, Info (ensure_is_point (x_bounds i)) (x_align i) (x_known i)) else nothing.

  (** 33-42 *)
  Fixpoint strip_boolean (x : expr) : res expr :=
    match x with
    | EBin NotEqual a b => if is_zero b then if p_visit P x then strip_boolean a else UB else if is_zero a then UB else Val x
    | _ => Val x
    end.

  (** 319-353.  One end: the adjustment is computed even if the difference overflowed; it is
      not used then. *)
  Definition trim_min (al : modrem) (e : expr) : res expr :=
    match as_constant e with
    | None => Val e
    | Some c =>
        t <- euclidean_mod 64 c (modulus al) 0 ;;
        let '(o1, d) := sub_with_overflow 64 (remainder al) t in
        d' <- euclidean_mod 64 d (modulus al) 0 ;;
        let '(o2, n) := add_with_overflow 64 c d' in
        Val (if o1 || o2 then e else EConst n)
    end.
  Definition trim_max (al : modrem) (e : expr) : res expr :=
    match as_constant e with
    | None => Val e
    | Some c =>
        t <- euclidean_mod 64 c (modulus al) 0 ;;
        let '(o1, d) := sub_with_overflow 64 t (remainder al) in
        d' <- euclidean_mod 64 d (modulus al) 0 ;;
        let '(o2, n) := sub_with_overflow 64 c d' in
        Val (if o1 || o2 then e else EConst n)
    end.
  Definition trim_bounds_using_alignment (p : path) (i : expr_info) : res expr_info :=
    let al := x_align i in
    let b := x_bounds i in
    b <- (if modulus al =? 0 then Val (point (EConst (remainder al)))
          else if 1 <? modulus al then
            lo <- trim_min al (i_min b) ;; hi <- trim_max al (i_max b) ;;
            Val (Interval lo hi (i_point b && match_expr lo (i_min b) && match_expr hi (i_max b)))
          else Val b) ;;
    Val (Info b (match as_constant (as_point (repoint p b)) with Some c => MR 0 c | None => al end) (x_known i)).

  (** 747-756 *)
  Definition attempt (i : interval) : res (option bool) :=
    t <- p_true P (i_min i) ;;
    if t then Val (Some true) else f <- p_false P (i_max i) ;; Val (if f then Some false else None).

  Section Visit.
    (** mutate(e, &info) *)
    Variable mut : path -> state -> expr -> res result.

    (** 488-497 *)
    Definition mutate_boolean (p : path) (st : state) (e : expr) : res result :=
      x <- mut (0 :: p)%nat st e ;; let '(e1, i) := x in
      e2 <- strip_boolean e1 ;;
      if is_boolean e2 then Val (e2, i)
      else b <- p_bounds_bin P p (fun x => y <- mut (1 :: p)%nat empty_state x ;; Val (fst y)) NotEqual None (x_bounds i) (point (EConst 0)) ;;
           Val (e2, Info (repoint p b) (x_align i) (x_known i)).

    (** 758-771 *)
    Definition where_true (p : path) (st : state) (e : expr) : res interval :=
      x <- mutate_boolean p (State (s_vars st) (s_bufs st) true) e ;; Val (x_bounds (snd x)).
    Definition attempt_to_prove (p : path) (st : state) (e : expr) : res (option bool) := i <- where_true p st e ;; attempt i.
    Definition prove_true (p : path) (st : state) (e : expr) : res bool := i <- where_true p st e ;; p_true P (i_min i).
    Definition prove_false (p : path) (st : state) (e : expr) : res bool := i <- where_true p st e ;; p_false P (i_max i).

    (** 1120-1122 *)
    Definition should_substitute (e : expr) : bool :=
      match e with EConst _ => true | EVar _ f_none _ => true | _ => false end.
    (** 775-781, 858-866: the symbol that a known value stands for *)
    Definition visit_symbol (st : state) (s : nat) : nat :=
      match s_vars st s with
      | Some i => match x_known i with EVar s' f_none _ => s' | _ => s end
      | None => s
      end.
    (** 785-805: what is known about the field; the flag tells that it is the field of an
        implicit broadcast dimension.  The index is an int; a negative one is out of bounds. *)
    Definition known_field (i : buffer_info) (f : field) (d : Z) : res (option expr_info * bool) :=
      match f with
      | f_elem_size => Val (Some (b_elem_size i), false)
      | f_min | f_max | f_stride | f_fold_factor =>
          if (0 <=? b_rank i) && (b_rank i <=? d) then Val (None, true)
          else if d <? Z.of_nat (length (b_dims i)) then
            if d <? 0 then UB else Val (Some (Knowledge_Model.dim_field (nth (Z.to_nat d) (b_dims i) dim_empty) f), false)
          else Val (None, false)
      | _ => Val (None, false)
      end.
    Definition or_else (a b : expr) : expr := if defined a then a else b.
    (** 807-834 *)
    Definition field_result (result : expr) (f : field) (fi : option expr_info) : res Knowledge_Model.expr_info :=
      let b := match fi with Some i => x_bounds i | None => i_undef end in
      let al := match fi with Some i => x_align i | None => mr_all end in
      let lo := or_else (i_min b) (match f with f_rank | f_elem_size => EConst 0 | _ => result end) in
      let hi := or_else (i_max b) result in
      Val (Info (Interval lo hi (i_point b)) al EUndef).
    Definition visit_field (p : path) (st : state) (s : nat) (f : field) (d : Z) : res result :=
      let s' := visit_symbol st s in
      let result := EVar s' f d in
      k <- match s_bufs st s' with Some i => known_field i f d | None => Val (None, false) end ;;
      let '(fi, implicit) := k in
      if implicit then mut (0 :: p)%nat st (EConst 0) else
      let decl := match s_bufs st s' with Some i => b_decl i | None => false end in
      let x := match fi with Some i => info_value i | None => EUndef end in
      if defined x && (negb decl || should_substitute x || is_var x || s_proving st) && negb (match_expr x (EVar s f d))
      then mut (1 :: p)%nat st x
      else i <- field_result result f fi ;; set_result result i.
    (** 836-855 *)
    Definition visit_variable (p : path) (st : state) (s : nat) (d : Z) : res result :=
      let op := EVar s f_none d in
      match s_vars st s with
      | Some i =>
          if defined (x_known i) then mut (0 :: p)%nat st (x_known i)
          else match as_constant (as_point (x_bounds i)) with
               | Some _ => set_result (i_min (x_bounds i)) (Info (point (i_min (x_bounds i))) mr_all EUndef)
               | None =>
                   let b := x_bounds i in
                   set_result op (Info (Interval (or_else (i_min b) op) (or_else (i_max b) op)
                                          (i_point b || (negb (defined (i_min b)) && negb (defined (i_max b))))) (x_align i) (x_known i))
               end
      | None => set_result op (Info (point op) mr_all EUndef)
      end.

    (** 888-892.  || evaluates the second only if the first is false. *)
    Definition or_false (a : res bool) (b : unit -> res bool) : res bool := x <- a ;; if x then Val true else b tt.
    Definition less_equal (a a_max b b_min : expr) : res bool :=
      let cmp x y := e <- p_bin P Less x y ;; p_false P e in
      or_false (cmp b_min a_max) (fun _ =>
      or_false (if match_expr a a_max then Val false else cmp b_min a) (fun _ =>
      if match_expr b b_min then Val false else cmp b a_max)).
    (** 872-916.  [o] is Min or Max. *)
    Definition visit_min_max (p : path) (st : state) (o : binop) (ea eb : expr) : res result :=
      xa <- mut (0 :: p)%nat st ea ;; let '(a, ai) := xa in
      xb <- mut (1 :: p)%nat st eb ;; let '(b, bi) := xb in
      if negb (defined a) || negb (defined b) then nothing else
      let is_min := match o with Min => true | _ => false end in
      ab <- less_equal a (i_max (x_bounds ai)) b (i_min (x_bounds bi)) ;;
      if ab : bool then (if is_min then set_result a ai else set_result b bi) else
      ba <- less_equal b (i_max (x_bounds bi)) a (i_min (x_bounds ai)) ;;
      if ba : bool then (if is_min then set_result b bi else set_result a ai) else
      r <- p_bin P o a b ;;
      if same_as p r (EBin o ea eb) then
        bo <- p_bounds_bin P p (fun x => y <- mut (2 :: p)%nat empty_state x ;; Val (fst y)) o (Some (ea, eb)) (x_bounds ai) (x_bounds bi) ;;
        al <- p_align P o (x_align ai) (x_align bi) ;;
        set_result r (Info bo al EUndef)
      else mut (3 :: p)%nat st r.

    (** 939-957: (x/c0)*c1 where x is a multiple of c0 *)
    Definition aligned_product (p : path) (st : state) (o : binop) (a b : expr) : res (option expr) :=
      match o, b, a with
      | Mul, EConst c1, EBin Div da (EConst c0) =>
          if c0 =? 0 then Val None else
          x <- mut (4 :: p)%nat st da ;;
          let al := x_align (snd x) in
          if modulus al <=? 0 then Val None else
          m <- crem 64 (modulus al) c0 ;;
          if negb (m =? 0) then Val None else
          r <- crem 64 (remainder al) c0 ;;
          Val (if r =? 0 then Some (e_div (e_mul (fst x) (EConst c1)) (EConst c0)) else None)
      | _, _, _ => Val None
      end.
    (** 927-1000 *)
    Definition visit_binary (p : path) (st : state) (o : binop) (ea eb : expr) : res result :=
      xa <- mut (0 :: p)%nat st ea ;; let '(a, ai) := xa in
      xb <- mut (1 :: p)%nat st eb ;; let '(b, bi) := xb in
      if negb (defined a) || negb (defined b) then nothing else
      m <- aligned_product p st o a b ;;
      match m with Some e => mut (5 :: p)%nat st e | None =>
      rr <- p_aligned P o (x_align ai) a b ;;
      match rr with Some e => mut (6 :: p)%nat st e | None =>
      r <- p_bin P o a b ;;
      if same_as p r (EBin o ea eb) then
        bo <- p_bounds_bin P p (fun x => y <- mut (2 :: p)%nat empty_state x ;; Val (fst y)) o (Some (ea, eb)) (x_bounds ai) (x_bounds bi) ;;
        al <- p_align P o (x_align ai) (x_align bi) ;;
        i <- trim_bounds_using_alignment p (Info bo al EUndef) ;;
        set_result r i
      else mut (3 :: p)%nat st r
      end end.
    (** 1001-1013 *)
    Definition visit_add (p : path) (st : state) (ea eb : expr) : res result :=
      match as_constant eb with
      | Some c => r <- p_add_constant P ea c ;; if defined r then mut (7 :: p)%nat st r else visit_binary p st Add ea eb
      | None => visit_binary p st Add ea eb
      end.

    (** 1019-1047 *)
    Definition logical_constant (b : bool) : res result := set_result (EConst (of_bool b)) (Info (point (EConst (of_bool b))) mr_all EUndef).
    Definition visit_logical (p : path) (st : state) (o : binop) (ea eb : expr) : res result :=
      let coerce := match o with And | Or => true | _ => false end in
      xa <- (if coerce then mutate_boolean (0 :: p)%nat st ea else mut (0 :: p)%nat st ea) ;; let '(a, ai) := xa in
      xb <- (if coerce then mutate_boolean (1 :: p)%nat st eb else mut (1 :: p)%nat st eb) ;; let '(b, bi) := xb in
      if negb (defined a) || negb (defined b) then nothing else
      r <- p_bin P o a b ;;
      if same_as p r (EBin o ea eb) then
        let bounds x y := p_bounds_bin P p (fun x => y <- mut (2 :: p)%nat empty_state x ;; Val (fst y)) o (Some (ea, eb)) x y in
        bo <- bounds (x_bounds ai) (x_bounds bi) ;;
        q <- attempt bo ;;
        match q with Some v => logical_constant v | None =>
        b1 <- bounds (point a) (x_bounds bi) ;;
        q <- attempt b1 ;;
        match q with Some v => logical_constant v | None =>
        b2 <- bounds (x_bounds ai) (point b) ;;
        q <- attempt b2 ;;
        match q with Some v => logical_constant v | None => set_result r (Info bo mr_all EUndef) end end end
      else mut (3 :: p)%nat st r.
    (** 1055-1071 *)
    Definition visit_not (p : path) (st : state) (ea : expr) : res result :=
      xa <- mutate_boolean (0 :: p)%nat st ea ;; let '(a, ai) := xa in
      if negb (defined a) then nothing else
      q <- attempt (x_bounds ai) ;;
      match q with Some v => logical_constant (negb v) | None =>
      r <- p_not P a ;;
      if same_as p r (ENot ea) then bo <- p_bounds_not P p (Some ea) (x_bounds ai) ;; set_result r (Info bo mr_all EUndef)
      else mut (3 :: p)%nat st r
      end.

    (** 699-704: knowledge::substitute *)
    Fixpoint apply_facts (l : list (expr * expr)) (x : expr) : res expr :=
      match l with [] => Val x | (a, b) :: l' => y <- p_subst P a b x ;; apply_facts l' y end.
    (** 1085-1102: one branch, under the condition or its negation *)
    Definition visit_branch (p : path) (st : state) (pos : bool) (c e : expr) : res result :=
      k <- p_learn P pos (s_vars st) (s_bufs st) c ;;
      let st' := State (k_vars k) (k_bufs k) (s_proving st) in
      x <- mut (0 :: p)%nat st' e ;; let '(t, ti) := x in
      l <- apply_facts (k_facts k) t ;;
      if same_as p l t then Val (t, ti) else mut (1 :: p)%nat st' l.
    (** 1073-1118 *)
    Definition visit_select (p : path) (st : state) (ec et ef : expr) : res result :=
      xc <- mutate_boolean (0 :: p)%nat st ec ;; let '(c, ci) := xc in
      if negb (defined c) then nothing else
      q <- attempt (x_bounds ci) ;;
      match q with Some v => mut (4 :: p)%nat st (if v then et else ef) | None =>
      xt <- visit_branch (1 :: p)%nat st true c et ;; let '(t, ti) := xt in
      xf <- visit_branch (2 :: p)%nat st false c ef ;; let '(f, fi) := xf in
      if negb (defined t) && negb (defined f) then nothing else
      r <- p_select P c t f ;;
      if same_as p r (ESelect ec et ef) then
        bo <- p_bounds_select P p (x_bounds ci) (x_bounds ti) (x_bounds fi) ;;
        al <- p_align P Min (x_align ti) (x_align fi) ;;
        i <- trim_bounds_using_alignment p (Info bo al EUndef) ;;
        set_result r i
      else mut (3 :: p)%nat st r
      end.

    Fixpoint mutate_args (p : path) (n : nat) (st : state) (l : list expr) : res (list result) :=
      match l with
      | [] => Val []
      | a :: l' => x <- mut (n :: 0 :: p)%nat st a ;; r <- mutate_args p (S n) st l' ;; Val (x :: r)
      end.
    (** expr.h:564 dim_expr::is_broadcast(): min == 0 && max == 0 && stride == 0 *)
    Definition dim_is_broadcast (d : dim_info) : expr :=
      e_and (e_and (e_eq (info_value (di_min d)) (EConst 0)) (e_eq (info_value (di_max d)) (EConst 0)))
            (e_eq (info_value (di_stride d)) (EConst 0)).
    (** 1149-1162: the argument of dimension [n] *)
    Definition default_index (p : path) (st : state) (s : nat) (n : nat) (d : dim_info) (a : expr) : res expr :=
      let folded := defined (info_value (di_fold d)) in
      q <- (if folded then prove_true p st (e_eq a (EConst 0)) else prove_true p st (e_eq a (info_value (di_min d)))) ;;
      if q : bool then if p_at P s n (negb folded) then Val EUndef else UB
      else z <- p_true P (dim_is_broadcast d) ;; Val (if z : bool then EUndef else a).
    Fixpoint default_indices (p : path) (st : state) (s : nat) (n : nat) (ds : list dim_info) (l : list expr) : res (list expr) :=
      match ds, l with
      | d :: ds', a :: l' =>
          a' <- default_index (n :: 1 :: p)%nat st s n d a ;; r <- default_indices p st s (S n) ds' l' ;; Val (a' :: r)
      | _, _ => Val l
      end.
    (** 1135-1163 *)
    Definition visit_buffer_at (p : path) (st : state) (args : list expr) : res (list expr) :=
      match args with
      | EVar s f_none d :: l =>
          match s_bufs st s with
          | None => Val args
          | Some i =>
              let l := if 0 <=? b_rank i then firstn (Z.to_nat (b_rank i)) l else l in
              l' <- default_indices p st s 0 (b_dims i) l ;; Val (EVar s f_none d :: l')
          end
      | _ => UB
      end.
    (** 1124-1181 *)
    Definition finish_visit_call (p : path) (st : state) (fn : intrinsic) (t : option nat) (eargs args : list expr) (bs : list interval) : res result :=
      r <- p_call P fn t args ;;
      if same_as p r (ECall fn t eargs) then bo <- p_bounds_call P fn t eargs bs ;; set_result r (Info bo mr_all EUndef)
      else mut (3 :: p)%nat st r.
    Definition visit_call (p : path) (st : state) (fn : intrinsic) (t : option nat) (eargs : list expr) : res result :=
      xs <- mutate_args p 0 st eargs ;;
      let args := map fst xs in
      let bs := map (fun x => x_bounds (snd x)) xs in
      match fn with
      | i_buffer_at =>
          match args with
          | [] => UB
          | EUndef :: _ => nothing
          | _ => args' <- visit_buffer_at p st args ;; finish_visit_call p st fn t eargs args' bs
          end
      | i_abs =>
          match args, bs with
          | [x], [b] =>
              pos <- p_true P (e_ge (i_min b) (EConst 0)) ;;
              if pos : bool then set_result x (Info b mr_all EUndef) else
              neg <- p_true P (e_le (i_max b) (EConst 0)) ;;
              if neg : bool then mut (4 :: p)%nat st (e_sub (EConst 0) x) else
              finish_visit_call p st fn t eargs args bs
          | _, _ => UB
          end
      | _ => finish_visit_call p st fn t eargs args bs
      end.

    (** 472-482 and the visit functions *)
    Definition visit (p : path) (st : state) (e : expr) : res result :=
      match e with
      | EUndef => nothing
      | EConst c => set_result e (Info (point e) (MR 0 c) EUndef)
      | EVar s f_none d => visit_variable p st s d
      | EVar s f d => visit_field p st s f d
      | ELet _ _ => UB
      | EBin o a b =>
          match o with
          | Add => visit_add p st a b
          | Sub | Mul | Div | Mod => visit_binary p st o a b
          | Min | Max => visit_min_max p st o a b
          | _ => visit_logical p st o a b
          end
      | ENot a => visit_not p st a
      | ESelect c t f => visit_select p st c t f
      | ECall fn t args => visit_call p st fn t args
      end.
  End Visit.

  Fixpoint mutate (fuel : nat) (p : path) (st : state) (e : expr) : res result :=
    match fuel with
    | O => UB
    | S n => if defined e then if p_visit P e then visit (mutate n) p st e else UB else nothing
    end.

  (** ** The functions of the API, simplify.cc:453-470, 2477-2509, 2811-2825 *)
  Definition initial_state (bounds : nat -> option interval) (alignment : nat -> option modrem) : state :=
    State (fun s => match bounds s, alignment s with
                    | None, None => None
                    | Some b, None => Some (Info b mr_all EUndef)
                    | Some b, Some a => Some (Info b a EUndef)
                    | None, Some a => Some (Info i_undef a EUndef)
                    end) (fun _ => None) false.
  Variable bounds : nat -> option interval.
  Variable alignment : nat -> option modrem.
  Variable fuel : nat.
  Definition s0 := initial_state bounds alignment.
  Definition simplify (e : expr) : res expr := x <- mutate fuel [] s0 e ;; Val (fst x).
  Definition bounds_of (e : expr) : res interval := x <- mutate fuel [] s0 e ;; Val (x_bounds (snd x)).
  Definition api_prove_true (e : expr) : res bool := prove_true (mutate fuel) [] s0 e.
  Definition api_prove_false (e : expr) : res bool := prove_false (mutate fuel) [] s0 e.
  Definition api_attempt_to_prove (e : expr) : res (option bool) := attempt_to_prove (mutate fuel) [] s0 e.

  (** 508-529: mutate of an interval, with what is known about the ends *)
  Definition deep_is_point (x : interval) : bool := i_point x || match_expr (i_min x) (i_max x).
  Definition emptiness_pattern : pat :=
    PSel (PBin Less (PWild 1) (PWild 0)) (PBin Add (PWild 1) (PLit 1)) (PWild 0).
  Definition mutate_interval (x : interval) : res (interval * expr_info * expr_info) :=
    if deep_is_point x then
      r <- mutate fuel [0%nat] s0 (i_min x) ;; let '(e, i) := r in Val (point e, i, i)
    else
      rl <- mutate fuel [0%nat] s0 (i_min x) ;; let '(lo, li) := rl in
      rh <- mutate fuel [1%nat] s0 (i_max x) ;; let '(hi, hi_info) := rh in
      m <- (if defined lo then match_any_variant emptiness_pattern lo else Val None) ;;
      let r := match m with
               | Some bs => if match_expr (bound_var bs 1) hi then i_bounds (bound_var bs 0) (bound_var bs 1) else i_bounds lo hi
               | None => i_bounds lo hi
               end in
      Val (ensure_is_point r, li, hi_info).
  Definition simplify_interval (x : interval) : res interval := r <- mutate_interval x ;; let '(i, _, _) := r in Val i.
  (** 2499-2509.  The point case calls bounds_of without the alignments. *)
  Definition bounds_of_interval (x : interval) : res interval :=
    if deep_is_point x then
      y <- mutate fuel [] (initial_state bounds (fun _ => None)) (i_min x) ;; Val (x_bounds (snd y))
    else r <- mutate_interval x ;; let '(_, li, hi) := r in Val (i_bounds (i_min (x_bounds li)) (i_max (x_bounds hi))).
End Simplifier.
