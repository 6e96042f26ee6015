(** Specification of C67: what a buffer that is folded in a pipelined loop holds. *)
From Coq Require Import ZArith List Bool.
From Verif Require Import Sema_Model.
Import ListNotations.
Local Open Scope Z_scope.

(** What can happen in a loop: any run, cut off anywhere. *)
Definition reaches (l : loop) (s : state) : Prop := exists acts, run l (init l) acts = Some s.

(** Rows of a buffer, one of its dimensions: iteration j needs the rows [low j .. top j], the
    ones before [first] are not used at all. It computes what no earlier iteration did. *)
Record rows := Rows { first : Z; low : nat -> Z; top : nat -> Z }.

Definition from (r : rows) (j : nat) : Z :=
  match j with
  | O => first r
  | S i => Z.max (low r j) (top r i + 1)
  end.
Definition computed (r : rows) (j : nat) : list Z :=
  map (fun i => from r j + Z.of_nat i) (seq 0 (Z.to_nat (top r j + 1 - from r j))).

(** Memory: for each row of the storage the row of the buffer in it. *)
Definition memory := Z -> option Z.
Definition put (m : memory) (a : Z) (v : option Z) : memory := fun b => if a =? b then v else m b.

(** [c]: the part that computes the buffer. While it runs, the rows it computes are undefined. *)
Definition happens (fold : Z) (r : rows) (c : nat) (m : memory) (e : event) : memory :=
  match e with
  | Began j u => if Nat.eqb u c then fold_left (fun m x => put m (x mod fold) None) (computed r j) m else m
  | Ended j u => if Nat.eqb u c then fold_left (fun m x => put m (x mod fold) (Some x)) (computed r j) m else m
  end.
Definition memory_after (fold : Z) (r : rows) (c : nat) (l : list event) : memory :=
  fold_left (happens fold r c) l (fun _ => None).

(** The rows are as slide_and_fold_storage found them: [factor] is the most rows an iteration
    needs, [overlap] the most it computes; they do not go back and leave no gaps. *)
Record good_rows (r : rows) (factor overlap : Z) : Prop := {
  not_back : forall j, top r j <= top r (S j);
  no_gap : forall j, low r (S j) <= top r j + 1;
  start_size : top r 0 - first r + 1 <= factor;
  window_size : forall j, top r j - low r j + 1 <= factor;
  new_size : forall j, top r (S j) - top r j <= overlap
}.

(** Part u of iteration j is running. *)
Definition busy (s : state) (j u : nat) : Prop := In (Began j u) (log s) /\ ~ In (Ended j u) (log s).

(** Everything is done. *)
Definition all_done (l : loop) (s : state) : Prop :=
  length (pcs s) = iterations l /\ forall p, In p (pcs s) -> p = length (l_ops l).

Definition of_iteration (j : nat) (e : event) : bool := match e with Began i _ | Ended i _ => Nat.eqb i j end.

(** The calls of a loop body in the order of the program, and the stages of the parts. *)
Fixpoint body_calls (b : body) : list (nat * bool) :=
  match b with
  | Call id f => [(id, f)]
  | Block a b => body_calls a ++ body_calls b
  | Scope b | Nested b => body_calls b
  end.
Definition folding (l : list (nat * bool)) : nat := length (filter snd l).
Definition stages_of (l : list part) : list nat := flat_map (fun p => match p_stage p with Some k => [k] | None => [] end) l.

(** Part c of the body has a stage. *)
Definition synchronized (maxw : Z) (b : body) (c : nat) : Prop :=
  exists p k, nth_error (loop_parts maxw b) c = Some p /\ p_stage p = Some k.
