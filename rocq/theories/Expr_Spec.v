(** What a slinky expression means, independently of how it is evaluated: a value in
    the integers extended with the two infinities.  This is the specification that the
    evaluator, the constructors and the simplifier are compared with.

    [Bad] is "no meaning": an undefined expression, indeterminate, and combinations such
    as infinity - infinity that have no value. *)
From Coq Require Import ZArith List Bool.
From Verif Require Import Arith_Spec Buf_Model Alloc_Model Expr_Model.
Import ListNotations.
Open Scope Z_scope.

Inductive xval := Fin (z : Z) | PInf | NInf | Bad.

Definition xneg (a : xval) : xval :=
  match a with Fin z => Fin (- z) | PInf => NInf | NInf => PInf | Bad => Bad end.
Definition xadd (a b : xval) : xval :=
  match a, b with
  | Bad, _ | _, Bad => Bad
  | Fin x, Fin y => Fin (x + y)
  | PInf, NInf | NInf, PInf => Bad
  | PInf, _ | _, PInf => PInf
  | NInf, _ | _, NInf => NInf
  end.
Definition xsub (a b : xval) : xval := xadd a (xneg b).
(** an infinity of the sign of [s]: nothing for 0 *)
Definition xinf (s : Z) : xval := if s =? 0 then Bad else if 0 <? s then PInf else NInf.
Definition xmul (a b : xval) : xval :=
  match a, b with
  | Bad, _ | _, Bad => Bad
  | Fin x, Fin y => Fin (x * y)
  | PInf, Fin y => xinf y
  | NInf, Fin y => xinf (- y)
  | Fin x, PInf => xinf x
  | Fin x, NInf => xinf (- x)
  | PInf, PInf | NInf, NInf => PInf
  | _, _ => NInf
  end.
(** Euclidean division and remainder, with x / 0 = x % 0 = 0 (C01) *)
Definition xdiv (a b : xval) : xval :=
  match a, b with
  | Fin x, Fin y => Fin (ediv x y)
  | PInf, Fin y => xinf y
  | NInf, Fin y => xinf (- y)
  | _, _ => Bad
  end.
Definition xmod (a b : xval) : xval :=
  match a, b with Fin x, Fin y => Fin (emod x y) | _, _ => Bad end.
Definition xmin (a b : xval) : xval :=
  match a, b with
  | Bad, _ | _, Bad => Bad
  | NInf, _ | _, NInf => NInf
  | PInf, x | x, PInf => x
  | Fin x, Fin y => Fin (Z.min x y)
  end.
Definition xmax (a b : xval) : xval :=
  match a, b with
  | Bad, _ | _, Bad => Bad
  | PInf, _ | _, PInf => PInf
  | NInf, x | x, NInf => x
  | Fin x, Fin y => Fin (Z.max x y)
  end.
(** comparisons; two infinities of the same sign are not compared *)
Definition xcmp (f : Z -> Z -> bool) (lt gt : bool) (a b : xval) : xval :=
  match a, b with
  | Bad, _ | _, Bad => Bad
  | Fin x, Fin y => Fin (of_bool (f x y))
  | PInf, PInf | NInf, NInf => Bad
  | NInf, _ | _, PInf => Fin (of_bool lt)
  | PInf, _ | _, NInf => Fin (of_bool gt)
  end.
Definition xbool2 (f : bool -> bool -> bool) (a b : xval) : xval :=
  match a, b with Fin x, Fin y => Fin (of_bool (f (truthy x) (truthy y))) | _, _ => Bad end.
Definition xnot (a : xval) : xval := match a with Fin x => Fin (of_bool (x =? 0)) | _ => Bad end.
Definition xselect (c t f : xval) : xval :=
  match c with Fin x => if truthy x then t else f | _ => Bad end.
Definition xabs (a : xval) : xval :=
  match a with Fin x => Fin (Z.abs x) | PInf | NInf => PInf | Bad => Bad end.

Definition xbin (o : binop) (a b : xval) : xval :=
  match o with
  | Add => xadd a b
  | Sub => xsub a b
  | Mul => xmul a b
  | Div => xdiv a b
  | Mod => xmod a b
  | Min => xmin a b
  | Max => xmax a b
  | Equal => xcmp Z.eqb false false a b
  | NotEqual => xcmp (fun x y => negb (x =? y)) true true a b
  | Less => xcmp Z.ltb true false a b
  | LessEqual => xcmp Z.leb true false a b
  | And => xbool2 andb a b
  | Or => xbool2 orb a b
  end.

(** The order in which simplification may move: a meaningless expression may become
    anything, a meaningful one keeps its value. *)
Definition refines (a b : xval) : Prop := a = Bad \/ a = b.

(** An environment gives every symbol a value. *)
Definition env := nat -> xval.
Definition env_set (r : env) (s : nat) (v : xval) : env := fun t => if (t =? s)%nat then v else r t.
Definition of_context (c : context) : env := fun s => Fin (c s).

Definition xopt (v : xval) : option (option Z) :=
  match v with Fin z => Some (Some z) | _ => None end.

Section Meaning.
  Variable W : world.

  (** short-circuit operators: the arguments after the deciding one do not matter *)
  Fixpoint xshort (stop : bool) (l : list xval) : xval :=
    match l with
    | [] => Fin (of_bool (negb stop))
    | Fin z :: l' => if Bool.eqb (truthy z) stop then Fin (of_bool stop) else xshort stop l'
    | _ => Bad
    end.

  (** The values of call arguments: [None] when one of them has no finite value;
      undefined arguments are passed as undefined. *)
  Fixpoint xargs (l : list (bool * xval)) : option (list (option Z)) :=
    match l with
    | [] => Some []
    | (false, _) :: l' => option_map (cons None) (xargs l')
    | (true, Fin z) :: l' => option_map (cons (Some z)) (xargs l')
    | _ => None
    end.

  Definition xcall (fn : intrinsic) (target : option nat) (r : env) (args : list expr) (vs : list (bool * xval)) : xval :=
    match fn with
    | i_none => match target, xargs vs with Some n, Some l => Fin (w_user W n l) | _, _ => Bad end
    | i_positive_infinity => PInf
    | i_negative_infinity => NInf
    | i_indeterminate => Bad
    | i_abs => match vs with [(_, v)] => xabs v | _ => Bad end
    | i_and_then => xshort false (map snd vs)
    | i_or_else => xshort true (map snd vs)
    | i_buffer_at =>
        match args, vs with
        | EVar s f_none _ :: _, _ :: at_ =>
            match r s with
            | Fin p => match w_buf W p with
                       | Some b => match xargs (firstn (rank b) at_) with
                                   | Some l => Fin (ptr_value (buffer_at b l))
                                   | None => Bad
                                   end
                       | None => Bad
                       end
            | _ => Bad
            end
        | _, _ => Bad
        end
    | _ => match xargs vs with Some l => Fin (w_intrinsic W fn l) | None => Bad end
    end.

  (** lets are taken in order: later values see earlier bindings.  A binding with no
      value makes the let meaningless. *)
  Section Lets.
    Variable mean : env -> expr -> xval.
    Variable k : env -> xval.
    Fixpoint xlets (l : list (nat * expr)) (r : env) {struct l} : xval :=
      match l with
      | [] => k r
      | (s, x) :: l' => match mean r x with
                        | Bad => Bad
                        | v => xlets l' (env_set r s v)
                        end
      end.
  End Lets.

  Fixpoint meaning (r : env) (e : expr) {struct e} : xval :=
    match e with
    | EUndef => Bad
    | EConst c => Fin c
    | EVar s f d =>
        match f with
        | f_none => r s
        | _ => match r s with
               | Fin p => match w_buf W p with Some b => Fin (field_value b f d p) | None => Bad end
               | _ => Bad
               end
        end
    | EBin o a b => xbin o (meaning r a) (meaning r b)
    | ENot a => xnot (meaning r a)
    | ESelect c t f => xselect (meaning r c) (meaning r t) (meaning r f)
    | ELet lets body =>
        xlets meaning (fun r => meaning r body) lets r
    | ECall fn target args =>
        xcall fn target r args (map (fun a => (defined a, meaning r a)) args)
    end.
End Meaning.

(** *** When evaluation on 64-bit integers is well defined.

    [fits W r e]: every operation that evaluating [e] performs has its operands
    defined and a result that is an index_t (for / and %, that the operands are not
    the minimum and -1, whose quotient is not an index_t). *)
Definition op_fits (o : binop) (x y : Z) : Prop :=
  match o with
  | Add => - 2 ^ 63 <= x + y < 2 ^ 63
  | Sub => - 2 ^ 63 <= x - y < 2 ^ 63
  | Mul => - 2 ^ 63 <= x * y < 2 ^ 63
  | Div | Mod => ~ (x = - 2 ^ 63 /\ y = -1)
  | _ => True
  end.

Section Fits.
  Variable W : world.
  Section Lists.
    Variable ft : env -> expr -> Prop.
    Fixpoint fits_lets (k : env -> Prop) (l : list (nat * expr)) (r : env) {struct l} : Prop :=
      match l with
      | [] => k r
      | (s, x) :: l' => ft r x /\ fits_lets k l' (env_set r s (meaning W r x))
      end.
    Fixpoint fits_args (r : env) (l : list expr) {struct l} : Prop :=
      match l with
      | [] => True
      | x :: l' => (defined x = true -> ft r x) /\ fits_args r l'
      end.
    Fixpoint fits_at (r : env) (n : nat) (l : list expr) {struct l} : Prop :=
      match l, n with
      | x :: l', S n' => (defined x = true -> ft r x) /\ fits_at r n' l'
      | _, _ => True
      end.
    Fixpoint fits_short (r : env) (stop : bool) (l : list expr) {struct l} : Prop :=
      match l with
      | [] => True
      | x :: l' => ft r x /\ (forall v, meaning W r x = Fin v -> truthy v <> stop -> fits_short r stop l')
      end.
  End Lists.

  Fixpoint fits (r : env) (e : expr) {struct e} : Prop :=
    match e with
    | EUndef => False
    | EConst _ => True
    | EVar s f _ =>
        match f with
        | f_none => True
        | _ => exists p b, r s = Fin p /\ w_buf W p = Some b
        end
    | EBin o a b => fits r a /\ fits r b /\
        (forall x y, meaning W r a = Fin x -> meaning W r b = Fin y -> op_fits o x y)
    | ENot a => fits r a
    | ESelect q t f => fits r q /\
        (forall v, meaning W r q = Fin v -> if truthy v then fits r t else fits r f)
    | ELet lets body => fits_lets fits (fun r => fits r body) lets r
    | ECall fn target args =>
        match fn with
        | i_positive_infinity | i_negative_infinity | i_indeterminate => False
        | i_none => target <> None /\ fits_args fits r args
        | i_abs => match args with
                   | [x] => fits r x /\ meaning W r x <> Fin (- 2 ^ 63)
                   | _ => False
                   end
        | i_and_then => fits_short fits r false args
        | i_or_else => fits_short fits r true args
        | i_buffer_at =>
            match args with
            | EVar s f_none _ :: at_ => exists p b, r s = Fin p /\ w_buf W p = Some b /\ fits_at fits r (rank b) at_
            | _ => False
            end
        | _ => fits_args fits r args
        end
    end.
End Fits.
