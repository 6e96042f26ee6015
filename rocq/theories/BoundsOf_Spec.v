(** What it means for an interval of expressions to bound a value. *)
From Coq Require Import ZArith List Bool.
From Verif Require Import Arith_Model Arith_Spec Expr_Model Expr_Spec Interval_Model.
Import ListNotations.
Open Scope Z_scope.

(** an end with value [x] is a lower (upper) bound of [v] *)
Definition lower (x : xval) (v : Z) : Prop := match x with Fin z => z <= v | NInf => True | _ => False end.
Definition upper (x : xval) (v : Z) : Prop := match x with Fin z => v <= z | PInf => True | _ => False end.
(** both ends of the interval have values, and [v] lies between them *)
Definition encloses (W : world) (r : env) (i : interval) (v : Z) : Prop :=
  lower (meaning W r (i_min i)) v /\ upper (meaning W r (i_max i)) v.
Definition end_of (i : interval) (x : expr) : Prop := x = i_min i \/ x = i_max i.

(** the values of the operators on integers *)
Definition zop (o : binop) (x y : Z) : Z :=
  match o with
  | Add => x + y | Sub => x - y | Mul => x * y | Div => ediv x y | Mod => emod x y
  | Min => Z.min x y | Max => Z.max x y
  | Equal => if x =? y then 1 else 0 | NotEqual => if x =? y then 0 else 1
  | Less => if x <? y then 1 else 0 | LessEqual => if x <=? y then 1 else 0
  | And => if (x =? 0) || (y =? 0) then 0 else 1
  | Or => if (x =? 0) && (y =? 0) then 0 else 1
  end.
Definition znot (x : Z) : Z := if x =? 0 then 1 else 0.
Definition zselect (c t f : Z) : Z := if c =? 0 then f else t.
