(** insert_early_free (slinky/builder/optimizations.cc:1378-1496).

    A mutator gives back the node itself when nothing in it changes (same_as); here a flag says whether something changed. *)
From Coq Require Import ZArith List Bool.
From Verif Require Import Expr_Model Stmt_Model Deps_Model.
Import ListNotations.
Open Scope Z_scope.

(** what a mutator leaves: the statement, whether it changed, found and visited_something *)
Definition mutated := (stmt * bool * bool * bool)%type.
(** check(free(names.front())), 1418 *)
Definition free_check (x : nat) : stmt := SCheck (ECall i_free None [EVar x f_none 0]).
(** 1413-1423 *)
Definition visit_terminal (names : list nat) (s : stmt) (found visited : bool) : mutated :=
  if negb found && any_flag (depends_on_any_stmt s names) then
    if visited then (block_make [s; free_check (hd O names)], true, true, visited) else (s, false, true, visited)
  else (s, false, found, visited).
Definition named (x : nat) (names : list nat) : bool := existsb (Nat.eqb x) names.
(** node_mutator.cc:118-127: a declaration with a mutated body *)
Definition with_body (f : stmt -> stmt) (s : stmt) (r : mutated) : mutated :=
  let '(b', ch, fo, vi) := r in (if ch then f b' else s, ch, fo, vi).
Section Lists.
  Variable ins : stmt -> bool -> bool -> mutated.
  (** 1391-1404: from the last statement to the first *)
  Fixpoint ins_list (l : list stmt) (found visited : bool) {struct l} : list stmt * bool * bool * bool :=
    match l with
    | [] => ([], false, found, visited)
    | x :: l' =>
        let '(r, ch, fo, vi) := ins_list l' found visited in
        if ch || fo then (x :: r, ch, fo, true)
        else let '(x', ch', fo', vi') := ins x fo vi in (x' :: r, ch', fo', true)
    end.
End Lists.

(** 1378-1474, insert_free_into_allocate *)
Fixpoint ins (names : list nat) (s : stmt) (found visited : bool) {struct s} : mutated :=
  match s with
  | SUndef => (s, false, found, visited)
  (** 1391-1411 *)
  | SBlock l =>
      let '(r, ch, fo, vi) := ins_list (ins names) l found visited in (if ch then block_make r else s, ch, fo, vi)
  (** 1425-1429 *)
  | SLoop _ _ _ _ _ | SCall _ _ _ _ | SCopy _ _ _ _ _ | SCheck _ | SLet _ _ _ => visit_terminal names s found visited
  (** 1433-1448 *)
  | SMake sym p e ds b =>
      let dep := any_flag (depends_on_any p names) in
      let found := found || dep in
      if named sym names then (s, false, found, visited)
      else with_body (SMake sym p e ds) s (ins (if dep then names ++ [sym] else names) b found visited)
  (** 1450-1473 *)
  | SClone sym src b =>
      let fs := named src names in let found := found || fs in
      if named sym names then (s, false, found, visited)
      else with_body (SClone sym src) s (ins (if fs then names ++ [sym] else names) b found visited)
  | SCropBuffer sym src x b =>
      let fs := named src names in let found := found || fs in
      if named sym names then (s, false, found, visited)
      else with_body (SCropBuffer sym src x) s (ins (if fs then names ++ [sym] else names) b found visited)
  | SCropDim sym src d x b =>
      let fs := named src names in let found := found || fs in
      if named sym names then (s, false, found, visited)
      else with_body (SCropDim sym src d x) s (ins (if fs then names ++ [sym] else names) b found visited)
  | SSliceBuffer sym src x b =>
      let fs := named src names in let found := found || fs in
      if named sym names then (s, false, found, visited)
      else with_body (SSliceBuffer sym src x) s (ins (if fs then names ++ [sym] else names) b found visited)
  | SSliceDim sym src d x b =>
      let fs := named src names in let found := found || fs in
      if named sym names then (s, false, found, visited)
      else with_body (SSliceDim sym src d x) s (ins (if fs then names ++ [sym] else names) b found visited)
  | STranspose sym src p b =>
      let fs := named src names in let found := found || fs in
      if named sym names then (s, false, found, visited)
      else with_body (STranspose sym src p) s (ins (if fs then names ++ [sym] else names) b found visited)
  (** node_mutator.cc:118-146: as any stmt_mutator *)
  | SAllocate sym w e ds b => with_body (SAllocate sym w e ds) s (ins names b found visited)
  | SConst sym v b => with_body (SConst sym v) s (ins names b found visited)
  | SAsync sym t b =>
      let '(t', c1, fo, vi) := ins names t found visited in
      let '(b', c2, fo', vi') := ins names b fo vi in
      (if c1 || c2 then SAsync sym t' b' else s, c1 || c2, fo', vi')
  end.
(** 1481: insert_free_into_allocate(op->sym).mutate(body) *)
Definition insert_free (x : nat) (b : stmt) : stmt * bool := let '(b', ch, _, _) := ins [x] b false false in (b', ch).

Section EarlyList.
  Variable f : stmt -> stmt * bool.
  Fixpoint early_list (l : list stmt) {struct l} : list stmt * bool :=
    match l with
    | [] => ([], false)
    | x :: l' => let '(x', c) := f x in let '(r, c') := early_list l' in (x' :: r, c || c')
    end.
End EarlyList.
Definition rebuilt (f : stmt -> stmt) (s : stmt) (r : stmt * bool) : stmt * bool :=
  let '(b', ch) := r in (if ch then f b' else s, ch).
(** 1476-1489, early_free_inserter, and node_mutator.cc:91-146 *)
Fixpoint early (s : stmt) {struct s} : stmt * bool :=
  match s with
  | SUndef | SCall _ _ _ _ | SCopy _ _ _ _ _ | SCheck _ => (s, false)
  | SAllocate sym w e ds b =>
      let '(b1, c1) := early b in
      let '(b2, c2) := match w with heap => insert_free sym b1 | _ => (b1, false) end in
      (if c1 || c2 then SAllocate sym w e ds b2 else s, c1 || c2)
  | SBlock l => let '(r, ch) := early_list early l in (if ch then block_make r else s, ch)
  | SLet l b c => rebuilt (fun b => SLet l b c) s (early b)
  | SLoop v w i st b => rebuilt (SLoop v w i st) s (early b)
  | SMake v p e ds b => rebuilt (SMake v p e ds) s (early b)
  | SConst v x b => rebuilt (SConst v x) s (early b)
  | SClone v x b => rebuilt (SClone v x) s (early b)
  | SCropBuffer v x l b => rebuilt (SCropBuffer v x l) s (early b)
  | SCropDim v x d i b => rebuilt (SCropDim v x d i) s (early b)
  | SSliceBuffer v x l b => rebuilt (SSliceBuffer v x l) s (early b)
  | SSliceDim v x d e b => rebuilt (SSliceDim v x d e) s (early b)
  | STranspose v x p b => rebuilt (STranspose v x p) s (early b)
  | SAsync v t b =>
      let '(t', c1) := early t in let '(b', c2) := early b in (if c1 || c2 then SAsync v t' b' else s, c1 || c2)
  end.
(** 1493-1496 *)
Definition insert_early_free (s : stmt) : stmt := fst (early s).
