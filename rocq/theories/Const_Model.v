(** constant_evaluator, evaluate_constant, constant_lower_bound, constant_upper_bound and
    constant_adder (slinky/builder/simplify.cc:33-42, 101-218, 2511-2809).

    Where the code returns the existing node because no operand changed, the model builds
    the node again: the same tree for nodes built by the constructors.  [same_as] is
    structural equality. *)
From Coq Require Import ZArith List Bool.
From Verif Require Import Arith_Model Arith_Spec Expr_Model Match_Model.
Import ListNotations.
Open Scope Z_scope.

(** simplify.cc:33-42; the assertion is not modelled *)
Fixpoint strip_boolean (x : expr) : expr :=
  match x with
  | EBin NotEqual a b => if is_zero b then strip_boolean a else x
  | _ => x
  end.

Definition same (a b : expr) : bool := match_expr a b.

Section Constant.
  (** constant_required *)
  Variable req : bool.

  (** simplify.cc:2534-2554; [s] is the sign *)
  Definition c_min_max (s : Z) (o : binop) (a b : expr) : expr :=
    let take := match o with Min => 0 <? s | _ => s <? 0 end in
    match as_constant a, as_constant b with
    | Some x, Some y => EConst (match o with Min => Z.min x y | _ => Z.max x y end)
    | Some _, None => if take then a else if defined b then make_bin o a b else EUndef
    | None, Some _ => if take then b else if defined a then make_bin o a b else EUndef
    | None, None => if defined a && defined b then make_bin o a b else EUndef
    end.
  (** simplify.cc:2558-2570 *)
  Definition c_binary (o : binop) (a b : expr) : res expr :=
    match as_constant a, as_constant b with
    | Some x, Some y => make_or_eval_binary o x y
    | _, _ => Val (if defined a && defined b then make_bin o a b else EUndef)
    end.
  (** simplify.cc:2575-2579 *)
  Definition sign_of (x : expr) : Z := if is_positive x then 1 else if is_negative x then -1 else 0.
  Definition bound_of_logical (s : Z) : expr := EConst (if s <? 0 then 0 else 1).

  (** simplify.cc:2666-2692 *)
  Definition c_and_or (s : Z) (o : binop) (a0 b0 : expr) : expr :=
    let a1 := strip_boolean a0 in let b1 := strip_boolean b0 in
    let '(a, b) := match as_constant b1 with Some _ => (b1, a1) | None => (a1, b1) end in
    match as_constant a with
    | Some x =>
        let first := match o with And => negb (truthy x) | _ => truthy x end in
        boolean (if first then a else b)
    | None => if negb (s =? 0) then bound_of_logical s
              else if defined a && defined b then make_bin o a b else EUndef
    end.
  (** simplify.cc:2736-2774 *)
  Definition c_short (s : Z) (fn : intrinsic) (t : option nat) (a0 b0 : expr) : expr :=
    let is_and := match fn with i_and_then => true | _ => false end in
    let a := strip_boolean a0 in let b := strip_boolean b0 in
    match as_constant a with
    | Some x => boolean (if truthy x then (if is_and then b else a) else (if is_and then a else b))
    | None =>
        match as_constant b with
        | Some y => boolean (if truthy y then (if is_and then a else b) else (if is_and then b else a))
        | None => if negb (s =? 0) then bound_of_logical s
                  else if defined a && defined b then ECall fn t [a; b] else EUndef
        end
    end.

  (** simplify.cc:2511-2785.  [s] is the sign: positive for an upper bound, negative for
      a lower bound, zero for constant folding. *)
  Fixpoint cev (s : Z) (e : expr) {struct e} : res expr :=
    match e with
    | EUndef => Val EUndef
    | EConst c => Val (EConst c)
    | EVar _ _ _ => Val (if req then EUndef else e)                       (* 2532 *)
    | EBin o a b =>
        match o with
        | Min | Max => x <- cev s a ;; y <- cev s b ;; Val (c_min_max s o x y)   (* 2555-2556 *)
        | Add => x <- cev s a ;; y <- cev s b ;; c_binary Add x y               (* 2572 *)
        | Sub => x <- cev s a ;; y <- cev (- s) b ;; c_binary Sub x y           (* 2573 *)
        | Mul | Div =>                                                          (* 2581-2606 *)
            x <- cev 0 a ;; y <- cev 0 b ;;
            if (s =? 0) || is_const x 0 || is_const y 0
               || match as_constant x, as_constant y with Some _, Some _ => true | _, _ => false end
            then c_binary o x y
            else if match o with Mul => negb (sign_of x =? 0) | _ => false end
                 then y' <- cev (s * sign_of x) b ;; c_binary o x y'
            else if negb (sign_of y =? 0) then x' <- cev (s * sign_of y) a ;; c_binary o x' y
            else Val (if defined x && defined y then e else EUndef)
        | Mod =>                                                                (* 2611-2630 *)
            if s =? 0 then x <- cev s a ;; y <- cev s b ;; c_binary Mod x y
            else if s <? 0 then Val (EConst 0)
            else (* mutate(max(0, max(-b, b) - 1)) *)
              y <- cev s b ;; y' <- cev (- s) b ;;
              n <- c_binary Sub (EConst 0) y' ;;
              m <- c_binary Sub (c_min_max s Max n y) (EConst 1) ;;
              let result := c_min_max s Max (EConst 0) m in
              let equiv := e_max (EConst 0) (e_sub (e_max (e_neg b) b) (EConst 1)) in
              Val (if negb (same equiv result) then result else if req then EUndef else e)
        | Equal | NotEqual =>                                                   (* 2632-2642 *)
            if s =? 0 then x <- cev s a ;; y <- cev s b ;; c_binary o x y
            else Val (bound_of_logical s)
        | Less | LessEqual =>                                                   (* 2644-2667 *)
            x <- cev (- s) a ;; y <- cev s b ;;
            match as_constant x, as_constant y with
            | Some p, Some q => v <- eval_bin o p q ;; Val (EConst v)
            | _, _ => Val (if negb (s =? 0) then bound_of_logical s
                           else if defined x && defined y then make_bin o x y else EUndef)
            end
        | And => x <- cev (Z.min s 0) a ;; y <- cev (Z.min s 0) b ;; Val (c_and_or s And x y)   (* 2698 *)
        | Or => x <- cev (Z.max s 0) a ;; y <- cev (Z.max s 0) b ;; Val (c_and_or s Or x y)     (* 2699 *)
        end
    | ENot a =>                                                                 (* 2701-2714 *)
        x <- cev (- s) a ;;
        Val (match as_constant (strip_boolean x) with
             | Some p => EConst (if p =? 0 then 1 else 0)
             | None => if negb (s =? 0) then bound_of_logical s
                       else if defined (strip_boolean x) then ENot (strip_boolean x) else EUndef
             end)
    | ESelect c t f =>                                                          (* 2715-2736 *)
        c' <- cev 0 c ;;
        match as_constant (strip_boolean c') with
        | Some p => if truthy p then cev s t else cev s f
        | None =>
            x <- cev s t ;; y <- cev s f ;;
            Val (match as_constant x, as_constant y with
                 | Some p, Some q =>
                     if s <? 0 then EConst (Z.min p q) else if 0 <? s then EConst (Z.max p q)
                     else if defined (strip_boolean c') then ESelect (strip_boolean c') x y else EUndef
                 | _, _ => if defined (strip_boolean c') && defined x && defined y then ESelect (strip_boolean c') x y else EUndef
                 end)
        end
    | ELet lets body =>                                                         (* node_mutator.cc:13-28 *)
        lets' <- (fix go (l : list (nat * expr)) : res (list (nat * expr)) :=
                    match l with
                    | [] => Val []
                    | (n, x) :: l' => x' <- cev s x ;; r <- go l' ;; Val ((n, x') :: r)
                    end) lets ;;
        body' <- cev s body ;; Val (ELet lets' body')
    | ECall fn t args =>                                                        (* 2737-2784 *)
        let rest :=
          if req then Val EUndef
          else if s =? 0
               then args' <- (fix go (l : list expr) : res (list expr) :=
                                match l with [] => Val [] | x :: l' => x' <- cev s x ;; r <- go l' ;; Val (x' :: r) end) args ;;
                    Val (ECall fn t args')
               else Val e in
        match fn with
        | i_abs =>
            match args with
            | [x] => (* mutate(max(0, max(x, -x))) *)
                y <- cev s x ;; y' <- cev (- s) x ;;
                n <- c_binary Sub (EConst 0) y' ;;
                let result := c_min_max s Max (EConst 0) (c_min_max s Max y n) in
                if negb (same (e_max (EConst 0) (e_max x (e_neg x))) result) then Val result else rest
            | _ => UB
            end
        | i_and_then =>
            match args with
            | [x; y] => x' <- cev (Z.min s 0) x ;; y' <- cev (Z.min s 0) y ;; Val (c_short s fn t x' y')
            | _ => UB
            end
        | i_or_else =>
            match args with
            | [x; y] => x' <- cev (Z.max s 0) x ;; y' <- cev (Z.max s 0) y ;; Val (c_short s fn t x' y')
            | _ => UB
            end
        | _ => rest
        end
    end.
End Constant.

(** simplify.cc:2801-2809 *)
Definition constant_lower_bound (e : expr) : res expr := cev false (-1) e.
Definition constant_upper_bound (e : expr) : res expr := cev false 1 e.
Definition evaluate_constant (e : expr) : res (option Z) := r <- cev true 0 e ;; Val (as_constant r).
Definition evaluate_constant_lower_bound (e : expr) : res (option Z) := r <- cev true (-1) e ;; Val (as_constant r).
Definition evaluate_constant_upper_bound (e : expr) : res (option Z) := r <- cev true 1 e ;; Val (as_constant r).

(** ** constant_adder, simplify.cc:101-218.  The state is the number of cancellations;
    the constant [c] is put back after each use, so it is a parameter.  UB: the
    multiplications of [c] overflow. *)
Fixpoint cadder (c : Z) (n : Z) (e : expr) {struct e} : res (expr * Z) :=
  let add_sub := fun (o : binop) (sign_b : Z) (a b : expr) (ma mb : Z -> Z -> res (expr * Z)) =>
      k <- cmul 64 c (- sign_b) ;;
      if is_const b k then Val (a, n + 1)                                         (* 127-131 *)
      else
        ra <- ma c n ;; let '(a', n1) := ra in
        if defined a' then Val (make_bin o a' b, n1)
        else
          c' <- cmul 64 c sign_b ;;
          rb <- mb c' n1 ;; let '(b', n2) := rb in
          if defined b' then Val (make_bin o a b', n2) else Val (EUndef, n2) in
  let min_max := fun (o : binop) (a b : expr) (ma mb : Z -> Z -> res (expr * Z)) =>
      ra <- ma c n ;; let '(a', n1) := ra in
      rb <- mb c n1 ;; let '(b', n2) := rb in
      if defined a' && defined b' then Val (make_bin o a' b', n2)
      else if defined a' && (n <? n2) then Val (make_bin o a' (make_bin Add b (EConst c)), n2 - 1)
      else if defined b' && (n <? n2) then Val (make_bin o (make_bin Add a (EConst c)) b', n2 - 1)
      else Val (EUndef, n2) in
  match e with
  | EUndef => Val (EUndef, n)
  | EConst v => if add_overflows 64 v c then Val (EUndef, n) else Val (EConst (v + c), n)      (* 110-116 *)
  | EVar _ _ _ => Val (EUndef, n)
  | ELet lets body =>
      r <- cadder c n body ;; let '(body', n1) := r in
      if defined body' then Val (ELet lets body', n1) else Val (EUndef, n1)
  | EBin o a b =>
      match o with
      | Add => add_sub Add 1 a b (fun c n => cadder c n a) (fun c n => cadder c n b)
      | Sub => add_sub Sub (-1) a b (fun c n => cadder c n a) (fun c n => cadder c n b)
      | Min => min_max Min a b (fun c n => cadder c n a) (fun c n => cadder c n b)
      | Max => min_max Max a b (fun c n => cadder c n a) (fun c n => cadder c n b)
      | Mul =>
          match as_constant b with
          | Some y =>
              if y =? 0 then Val (EUndef, n) else
              m <- euclidean_mod 64 c y 0 ;;
              if m =? 0 then
                d <- euclidean_div 64 c y 0 ;;
                r <- cadder d n a ;; let '(a', n1) := r in
                _ <- cmul 64 d y ;;
                if defined a' then Val (make_bin Mul a' b, n1) else Val (EUndef, n1)
              else Val (EUndef, n)
          | None => Val (EUndef, n)
          end
      | _ => Val (EUndef, n)
      end
  | ENot _ => Val (EUndef, n)
  | ESelect q t f =>
      rt <- cadder c n t ;; let '(t', n1) := rt in
      if defined t' then
        rf <- cadder c n1 f ;; let '(f', n2) := rf in
        if defined f' then Val (ESelect q t' f', n2) else Val (EUndef, n2)
      else Val (EUndef, n1)
  | ECall _ _ _ => Val (EUndef, n)
  end.
(** simplify.cc:215-218 *)
Definition add_constant (a : expr) (b : Z) : res expr :=
  if b =? 0 then Val a else r <- cadder b 0 a ;; Val (fst r).
