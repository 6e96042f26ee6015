(** Implementing copies, slinky/builder/optimizations.cc:39-194, 1309-1373.

    Simplifications:
    - simplify is a parameter (it is modelled in Simplifier_Model.v).
    - The name of the sliced destination, new in the node_context, is a parameter.
    - The target of the call to copy is a number; what it does is given by the host (Stmt_Model.v). *)
From Coq Require Import ZArith List Bool.
From Verif Require Import Arith_Model Buf_Model Expr_Model Stmt_Model Deps_Model Match_Model Const_Model Subst_Model.
Import ListNotations.
Open Scope Z_scope.

(** expr_stmt.cc:706-716 *)
Definition buffer_bounds (b : nat) (d : nat) : interval := (EVar b f_min (Z.of_nat d), EVar b f_max (Z.of_nat d)).
Definition buffer_stride (b : nat) (d : nat) : expr := EVar b f_stride (Z.of_nat d).
Definition buffer_fold_factor (b : nat) (d : nat) : expr := EVar b f_fold_factor (Z.of_nat d).
(** expr_stmt.cc:736-742 *)
Definition e_buffer_at (b : nat) (at_ : list expr) : expr := ECall i_buffer_at None (EVar b f_none (-1) :: at_).

(** 40-48 *)
Definition select_or_undef (c t f : expr) : expr :=
  if defined t && defined f then ESelect c t f else if defined t then t else f.
(** expr_stmt.cc:388-397: whether both are points (pairs of the same node) decides only whether the node is shared *)
Definition select_interval (c : expr) (t f : interval) : interval := (ESelect c (fst t) (fst f), ESelect c (snd t) (snd f)).
(** 50-56 *)
Definition select_dim (c : expr) (t f : dim_expr) : dim_expr :=
  DimE (select_interval c (de_bounds t) (de_bounds f)) (select_or_undef c (de_stride t) (de_stride f)) (select_or_undef c (de_fold t) (de_fold f)).

(** 59-99: a and b such that y = a*x + b *)
Fixpoint is_linear (y : expr) (x : nat) {struct y} : option (expr * expr) :=
  if is_var y x then Some (EConst 1, EConst 0)
  else if negb (d_var (depends_on y x)) then Some (EConst 0, y)
  else match y with
       | EBin Add p q =>
           match is_linear p x, is_linear q x with
           | Some (aa, ab), Some (ba, bb) => Some (e_add aa ba, e_add ab bb)
           | _, _ => None
           end
       | EBin Sub p q =>
           match is_linear p x, is_linear q x with
           | Some (aa, ab), Some (ba, bb) => Some (e_sub aa ba, e_sub ab bb)
           | _, _ => None
           end
       | EBin Mul p q =>
           let other := match is_linear q x with
                        | Some (a, b) => if negb (d_var (depends_on p x)) then Some (e_mul a p, e_mul b p) else None
                        | None => None
                        end in
           match is_linear p x with
           | Some (a, b) => if negb (d_var (depends_on q x)) then Some (e_mul a q, e_mul b q) else other
           | None => other
           end
       | _ => None
       end.

Section Copy.
  Variable simplify : expr -> res expr.

  (** 124-128: the other dimensions of dst are at their minimum *)
  Fixpoint only_dim (e : expr) (dst : nat) (dst_x : list nat) (i d : nat) : res expr :=
    match dst_x with
    | [] => Val e
    | x :: l => e' <- (if (i =? d)%nat then Val e else substitute e x (EVar dst f_min (Z.of_nat i))) ;; only_dim e' dst l (S i) d
    end.

  (** 103-165 *)
  Fixpoint is_copy (src : nat) (src_x : expr) (src_d dst : nat) (dst_x : list nat) (dst_d : nat) {struct src_x} : res (option (expr * dim_expr)) :=
    match src_x with
    | ESelect c t f =>
        rt <- is_copy src t src_d dst dst_x dst_d ;;
        match rt with
        | None => Val None
        | Some (at_t, dim_t) =>
            rf <- is_copy src f src_d dst dst_x dst_d ;;
            match rf with
            | None => Val None
            | Some (at_f, dim_f) => Val (Some (ESelect c at_t at_f, select_dim c dim_t dim_f))
            end
        end
    | _ =>
        if negb (d_var (depends_on_any src_x dst_x)) then
          Val (Some (src_x, DimE (buffer_bounds dst dst_d) (EConst 0) EUndef))
        else
          e <- only_dim src_x dst dst_x 0 dst_d ;;
          e <- simplify e ;;
          match is_linear e (nth dst_d dst_x O) with
          | None => Val None
          | Some (a, b) =>
              scale <- simplify a ;;
              offset <- simplify b ;;
              bound <- evaluate_constant_lower_bound scale ;;
              match bound with
              | None => Val None
              | Some k =>
                  if k <? 0 then Val None
                  else
                    let stride := e_mul (buffer_stride src src_d) scale in
                    let fold := buffer_fold_factor src src_d in
                    if negb (any_flag (depends_on offset dst)) then
                      let at_ := e_add (e_align_up (e_sub (EVar src f_min (Z.of_nat src_d)) offset) scale) offset in
                      Val (Some (at_, DimE (e_div (e_sub at_ offset) scale, e_div (e_sub (EVar src f_max (Z.of_nat src_d)) offset) scale) stride fold))
                    else
                      Val (Some (e_add (e_mul (EVar dst f_min (Z.of_nat dst_d)) scale) offset, DimE (buffer_bounds dst dst_d) stride fold))
              end
          end
    end.

  (** 175-188: the src dimension that uses [x] ([None]: transpose::new_dim, there is none); nothing if there is more than one *)
  Fixpoint uses_from (src_x : list expr) (x : nat) (i : nat) : list nat :=
    match src_x with [] => [] | e :: l => (if any_flag (depends_on e x) then [i] else []) ++ uses_from l x (S i) end.
  Definition is_copy_dst_dim (src_x : list expr) (x : nat) : option (option nat) :=
    match uses_from src_x x 0 with [] => Some None | [i] => Some (Some i) | _ => None end.

  (** 1333-1352: the loop over the dimensions of dst from [d] on.  The results are the new src_x, dst_x ([None]: var()) and
      the dimensions of the source. *)
  Fixpoint pass_dims (src : nat) (src_x : list expr) (dst : nat) (dst_x : list nat) (d : nat) (todo : list nat) (acc : list expr) :
      res (list expr * list (option nat) * list dim_expr) :=
    match todo with
    | [] => Val (acc, [], [])
    | x :: l =>
        let keep := r <- pass_dims src src_x dst dst_x (S d) l acc ;; let '(a, o, s) := r in Val (a, Some x :: o, s) in
        match is_copy_dst_dim src_x x with
        | None => keep
        | Some k =>
            (* 167-171 *)
            r <- is_copy src (match k with Some i => nth i src_x EUndef | None => EUndef end) (match k with Some i => i | None => O end) dst dst_x d ;;
            match r with
            | None => keep
            | Some (at_, dim) =>
                let acc' := match k with Some i => if defined at_ then set_nth acc i at_ else acc | None => acc end in
                r <- pass_dims src src_x dst dst_x (S d) l acc' ;; let '(a, o, s) := r in Val (a, None :: o, dim :: s)
            end
        end
    end.

  (** 1358-1363: loops and slices for the dimensions that are left *)
  Fixpoint nest (sliced : nat) (d : nat) (dst_x : list (option nat)) (body : stmt) : stmt :=
    match dst_x with
    | [] => body
    | None :: l => nest sliced (S d) l body
    | Some x :: l => nest sliced (S d) l (SLoop x (EConst 1) (buffer_bounds sliced d) (EConst 1) (SSliceDim sliced sliced d (EVar x f_none (-1)) body))
    end.

  (** 1309-1364 *)
  Definition implement_copy (target sliced : nat) (src : nat) (src_x : list expr) (dst : nat) (dst_x : list nat) (pad : option nat) : res stmt :=
    r <- pass_dims src src_x dst dst_x 0 dst_x src_x ;; let '(at_, rest, dims) := r in
    let call := SCall target [] ([src; sliced] ++ match pad with Some p => [p] | None => [] end) [] in
    Val (SClone sliced dst (nest sliced 0 rest (SMake src (e_buffer_at src at_) (EVar src f_elem_size (-1)) dims call))).
End Copy.
