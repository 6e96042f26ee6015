(** What a copy statement means, and the copies and simplifiers that implement_copy is proved for. *)
From Coq Require Import ZArith List Bool.
From Verif Require Import Arith_Model Buf_Model Buf_Spec ForEach_Spec Copy_Model Copy_Spec Expr_Model Expr_Spec Expr_Proofs Stmt_Model Deps_Spec Subst_Spec Const_Model.
Import ListNotations.
Open Scope Z_scope.

(** The assignments of a copy: each element of [dst] from the element of [src] at [coord]; where [src] has none, nothing or
    the element of the padding. *)
Definition copied (dst src : buf) (coord : list Z -> list Z) : list (ptr * ptr) :=
  map (fun idx => (locate dst (index idx), locate src (index (coord idx)))) (box (dims dst)).
Definition copied_or (dst src pad : buf) (coord : list Z -> list Z) : list (ptr * ptr) :=
  map (fun idx => (locate dst (index idx), match locate src (index (coord idx)) with Some s => Some s | None => locate pad (index idx) end))
    (box (dims dst)).

(** [simplify] keeps values that are numbers, adds no occurrences of symbols, and gives expressions that the evaluator
    and evaluate_constant_lower_bound are right about. *)
Record simplifies (W : world) (simplify : expr -> res expr) : Prop := {
  sf_value : forall e e' r z, simplify e = Val e' -> meaning W r e = Fin z -> meaning W r e' = Fin z;
  sf_form : forall e e', simplify e = Val e' -> lets_distinct e' /\ consts_ok e';
  sf_symbols : forall e e' x ro, simplify e = Val e' -> occurs x ro e' -> occurs x ro e;
  sf_bound : forall e e' r z k, simplify e = Val e' -> meaning W r e' = Fin z -> evaluate_constant_lower_bound e' = Val (Some k) -> k <= z }.

(** Of the symbols [xs], only [x] is used by [e], and only for its value. *)
Definition index_only (xs : list nat) (x : nat) (e : expr) : Prop :=
  forall y ro, In y xs -> occurs y ro e -> y = x /\ ro = RField f_none.
(** The conditions of the outer selects of [e] do not use the symbols [xs]. *)
Fixpoint plain_selects (xs : list nat) (e : expr) : Prop :=
  match e with
  | ESelect c t f => (forall x, In x xs -> ~ free x c) /\ plain_selects xs t /\ plain_selects xs f
  | _ => True
  end.
(** All the coordinates of the dimension are where the first would have them. *)
Definition straight (d : dim) : Prop := d_stride d = 0 \/ d_fold d = unfolded.

(** The environment in which the symbols [xs] have the values [vs]. *)
Fixpoint at_index (xs : list nat) (vs : list Z) (r : env) : env :=
  match xs, vs with x :: xs', v :: vs' => env_set (at_index xs' vs' r) x (Fin v) | _, _ => r end.

(** The copies from [bs], named [src], to [bd], named [dst], in the environment [r], whose source index at the index [idx] of
    the destination is [coord idx]:
    - there is a symbol for each dimension of the destination, and an index for each dimension of the source;
    - each index uses at most one of the symbols, only for its value, and not in the condition of an outer select;
    - a dimension of the source whose index uses a symbol is not folded;
    - if an index refers to the destination, it is in bounds. *)
Record copyable (W : world) (r : env) (src : nat) (src_x : list expr) (dst : nat) (dst_x : list nat) (bs bd : buf) (coord : list Z -> list Z) : Prop := {
  cp_src : exists p, r src = Fin p /\ w_buf W p = Some bs;
  cp_dst : exists p, r dst = Fin p /\ w_buf W p = Some bd;
  cp_distinct : NoDup dst_x /\ ~ In src dst_x /\ ~ In dst dst_x;
  cp_rank : rank bd = length dst_x /\ (rank bs <= length src_x)%nat;
  cp_form : forall i e, nth_error src_x i = Some e -> lets_distinct e /\ consts_ok e /\ ~ takes_address e;
  cp_index : forall i e, nth_error src_x i = Some e -> plain_selects dst_x e /\ exists x, index_only dst_x x e;
  cp_value : forall i e idx, nth_error src_x i = Some e -> length idx = length dst_x ->
    meaning W (at_index dst_x idx r) e = Fin (nth i (coord idx) 0);
  cp_straight : forall i e x, nth_error src_x i = Some e -> In x dst_x -> free x e -> straight (dim_at bs i);
  cp_inside : forall i e idx, nth_error src_x i = Some e -> free dst e -> in_bounds (dims bd) idx -> d_contains (dim_at bs i) (nth i (coord idx) 0) = true }.

(** *** The calls to copy *)
(** The calls that were made: source, destination and padding. *)
Definition copy_calls := list (buf * buf * option buf).
(** The host's function [target] records the buffers that [src], [dst] and [pad] name, and succeeds. *)
Definition records_copies (H : host copy_calls) (target src dst : nat) (pad : option nat) : Prop :=
  forall c m x b1 b2, m (c src) = Some b1 -> m (c dst) = Some b2 ->
    h_call copy_calls H target [] ([src; dst] ++ match pad with Some p => [p] | None => [] end) [] c m x = (0, x ++ [(b1, b2, match pad with Some p => m (c p) | None => None end)]).
(** What a call to copy assigns: each element of its destination. *)
Definition assigns (call : buf * buf * option buf) : list (ptr * ptr) :=
  let '(src, dst, pad) := call in match pad with Some p => elementwise_or dst src p | None => elementwise dst src end.
(** The memory after the calls, one after the other. *)
Inductive carried_out (es : Z) : copy_calls -> mem -> mem -> Prop :=
| carried_nil m : carried_out es [] m m
| carried_cons call l m m1 m2 : assigned es (assigns call) m m1 -> carried_out es l m1 m2 -> carried_out es (call :: l) m m2.
