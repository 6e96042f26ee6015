(** What the program that is built has to do with the funcs of the pipeline. *)
From Coq Require Import ZArith List Bool.
From Verif Require Import Sched_Model Sched_Spec Layout_Model Layout_Spec Build_Model.
Import ListNotations.

(** The calls and loops of a program, without its allocations and constants: the call number k is the one of the k-th function of [L]. *)
Fixpoint program1 (L : list nat) (c : code) : list item :=
  match c with
  | Leaf k => [Call (nth (Z.to_nat k) L 0)]
  | Nest (f, v) l => [Loop f v (flat_map (program1 L) l)]
  | Alloc _ l | Const _ l => flat_map (program1 L) l
  end.
Definition program (L : list nat) (l : list code) : list item := flat_map (program1 L) l.
(** the functions that it calls *)
Definition called (L : list nat) (l : list code) : list nat := map (fun k => nth (Z.to_nat k) L 0) (leaves l).

Section Spec.
  Variable p : pipe.
  (** the functions that the outputs of the pipeline are outputs of *)
  Variable outputs : list nat.
  Notation need f := (needed (gr p) outputs f).
  (** [b] is a buffer that [f] produces and that is not an output of the pipeline *)
  Definition intermediate (b f : nat) : Prop := need f /\ In b (outs p f) /\ ~ In b (pipe_outs p).
  Definition uses (f b : nat) : Prop := need f /\ In b (ins p f).
  (** A buffer is an output of one function only; each function has an output; a buffer that a function produces has a producer; and [producers] has the functions that produce the inputs. *)
  Record consistent : Prop := {
    c_single : forall f f' b, need f -> need f' -> In b (outs p f) -> In b (outs p f') -> f = f';
    c_some : forall f, need f -> outs p f <> [];
    c_produced : forall f b, need f -> In b (outs p f) -> produced p b = true;
    c_producers : forall f c b, need f -> In b (outs p f) -> uses c b -> In f (producers (gr p) c) }.
  (** the loop that a buffer is stored in: the root, unless store_at is given; store_at can be the innermost loop that the function is computed in *)
  Definition storage (outer : nat -> list (nat * nat)) (f b : nat) : loop_id :=
    match store_at p b with None => None | Some (Innermost_of _) => innermost (outer f) | Some (At l) => l end.
  (** store_at is the innermost loop of the own function, the root, or a loop that is around the function and around all functions that use the buffer *)
  Definition storable (nest : nat -> list (nat * nat)) : Prop := forall b f, intermediate b f ->
    match store_at p b with
    | Some (Innermost_of g) => g = f
    | Some (At (Some x)) => In x (nest f) /\ forall c, uses c b -> In x (nest c)
    | Some (At None) | None => True
    end.
  (** [code] is the program [items] with allocations and constants around its statements *)
  Record built (outer nest : nat -> list (nat * nat)) (items : list item) (code : list code) : Prop := {
    (** without these, it is the program, and the calls are in the same order *)
    b_program : program (map snd (calls [] items)) code = items;
    b_called : called (map snd (calls [] items)) code = map snd (calls [] items);
    (** each intermediate buffer is allocated once, in the loop that it is stored in, and around the function that produces it and all functions that use it *)
    b_alloc : forall b, In b (allocs code) <-> exists f, intermediate b f;
    b_once : NoDup (allocs code);
    b_scope : forall Q b, In (Q, b) (scopes [] code) -> exists f, intermediate b f /\ prefix Q (nest f) /\ innermost Q = storage outer f b;
    b_around : forall b x f, within (Alloc b x) code -> intermediate b f \/ uses f b -> In f (called (map snd (calls [] items)) x);
    (** each constant that is used is declared once, around all functions that use it *)
    b_const : forall c, In c (consts code) <-> constant p c = true /\ exists f, uses f c;
    b_const_once : NoDup (consts code);
    b_const_around : forall c x f, within (Const c x) code -> uses f c -> In f (called (map snd (calls [] items)) x) }.
End Spec.
