(** What the layout of the allocations of a loop level must preserve, and what it must achieve. *)
From Coq Require Import ZArith List Bool.
Import ListNotations.
From Verif Require Import Layout_Model.
Open Scope Z_scope.

(** the numbers of the calls of a statement, in the order in which they run *)
Fixpoint leaves1 (c : code) : list Z :=
  match c with
  | Leaf k => [k]
  | Nest _ l | Alloc _ l | Const _ l => flat_map leaves1 l
  end.
Definition leaves (l : list code) : list Z := flat_map leaves1 l.
(** the buffers that are allocated somewhere in it *)
Fixpoint allocs1 (c : code) : list nat :=
  match c with
  | Leaf _ => []
  | Alloc b l => b :: flat_map allocs1 l
  | Nest _ l | Const _ l => flat_map allocs1 l
  end.
Definition allocs (l : list code) : list nat := flat_map allocs1 l.
(** the same, each with the loops around it, from the outermost one inward, in addition to those of [outer] *)
Fixpoint scopes1 (outer : list (nat * nat)) (c : code) : list (list (nat * nat) * nat) :=
  match c with
  | Leaf _ => []
  | Alloc b l => (outer, b) :: flat_map (scopes1 outer) l
  | Nest v l => flat_map (scopes1 (outer ++ [v])) l
  | Const _ l => flat_map (scopes1 outer) l
  end.
Definition scopes (outer : list (nat * nat)) (l : list code) : list (list (nat * nat) * nat) := flat_map (scopes1 outer) l.
(** the constants that are declared somewhere in it *)
Fixpoint consts1 (c : code) : list nat :=
  match c with
  | Leaf _ => []
  | Const b l => b :: flat_map consts1 l
  | Nest _ l | Alloc _ l => flat_map consts1 l
  end.
Definition consts (l : list code) : list nat := flat_map consts1 l.
(** the calls and loops of it, without the allocations and constants *)
Fixpoint skeleton1 (c : code) : list code :=
  match c with
  | Leaf k => [Leaf k]
  | Nest v l => [Nest v (flat_map skeleton1 l)]
  | Alloc _ l | Const _ l => flat_map skeleton1 l
  end.
Definition skeleton (l : list code) : list code := flat_map skeleton1 l.
(** [n] is one of the statements of [l], at any depth *)
Inductive within (n : code) : list code -> Prop :=
| within_here l : In n l -> within n l
| within_nest l v l' : In (Nest v l') l -> within n l' -> within n l
| within_alloc l b l' : In (Alloc b l') l -> within n l' -> within n l
| within_const l b l' : In (Const b l') l -> within n l' -> within n l.
(** from lo up to hi *)
Definition upto (lo hi : Z) : list Z := map (fun i => lo + Z.of_nat i) (seq 0 (Z.to_nat (hi + 1 - lo))).
(** consecutive ranges that together are lo .. hi, each of which runs exactly its calls, in order, and knows what is allocated in it *)
Definition sound (r : range) : Prop := start r <= stop r /\ leaves (body r) = upto (start r) (stop r) /\ forall b, In b (allocations r) <-> In b (allocs (body r)).
Fixpoint chain (lo hi : Z) (l : list range) : Prop :=
  match l with
  | [] => lo = hi + 1
  | r :: l' => start r = lo /\ sound r /\ chain (stop r + 1) hi l'
  end.
