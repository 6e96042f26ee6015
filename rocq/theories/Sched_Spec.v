(** What it means that functions are ordered, and computed in the innermost loops that are around all their consumers. *)
From Coq Require Import List.
From Verif Require Import Sched_Model.
Import ListNotations.

Section Spec.
  Variable g : graph.
  Variable outputs : list nat.
  (** the functions that are needed for the outputs *)
  Inductive needed : nat -> Prop :=
  | needed_output f : In f outputs -> needed f
  | needed_producer f p : needed f -> In p (producers g f) -> needed p.
  (** what [p] computes is used by [f], maybe through other functions *)
  Inductive feeds : nat -> nat -> Prop :=
  | feeds_one p f : In p (producers g f) -> feeds p f
  | feeds_more p q f : feeds p q -> In q (producers g f) -> feeds p f.
  Definition cyclic : Prop := exists f, needed f /\ feeds f f.

  Definition before {A} (x y : A) (l : list A) : Prop := exists l1 l2 l3, l = l1 ++ x :: l2 ++ y :: l3.
  Definition prefix {A} (a b : list A) : Prop := exists c, b = a ++ c.
  (** The loops around something are given from the outermost one inward, the innermost one of none is the root. *)
  Definition innermost (nest : list (nat * nat)) : loop_id := last (map Some nest) None.
  Definition consumed (f c : nat) : Prop := needed c /\ In f (producers g c).
  (** [outer f]: the loops around [f] and its own loops.  [nest f]: these and its own loops. *)
  Record nested (outer nest : nat -> list (nat * nat)) : Prop := {
    nest_own : forall f, needed f -> nest f = outer f ++ map (fun v => (f, v)) (rev (loops g f));
    (** an output is computed outside of all loops *)
    nest_output : forall f, needed f -> (forall c, ~ consumed f c) -> outer f = [];
    (** the loops are around each consumer *)
    nest_consumer : forall f c, needed f -> consumed f c -> prefix (outer f) (nest c);
    (** without compute_at, there are as many loops as possible *)
    nest_most : forall f P, needed f -> compute_at g f = None -> (exists c, consumed f c) -> (forall c, consumed f c -> prefix P (nest c)) -> prefix P (outer f);
    (** with compute_at, it is the innermost one; if it is around the consumers twice, the inner one *)
    nest_at : forall f l, needed f -> compute_at g f = Some l -> innermost (outer f) = l;
    nest_at_most : forall f l P, needed f -> compute_at g f = Some l -> (exists c, consumed f c) -> (forall c, consumed f c -> prefix P (nest c)) -> innermost P = l -> prefix P (outer f) }.

  (** The calls of a list of calls and loops, in order, each with the loops around it. *)
  Fixpoint calls_of (outer : list (nat * nat)) (i : item) : list (list (nat * nat) * nat) :=
    match i with
    | Call f => [(outer, f)]
    | Loop f v body => (fix go (l : list item) := match l with [] => [] | x :: l' => calls_of (outer ++ [(f, v)]) x ++ go l' end) body
    end.
  Definition calls (outer : list (nat * nat)) (l : list item) : list (list (nat * nat) * nat) := flat_map (calls_of outer) l.
End Spec.
