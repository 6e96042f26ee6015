(** What running a tree of statements does: a list of actions on objects (the storage of a
    buffer), in the order they happen.  Nothing here is about the pass. *)
From Coq Require Import List Bool Arith Permutation.
From Verif Require Import Par_Model.
Import ListNotations.

(** The storage of a buffer: of one from outside, or of an allocation in some iterations of
    the loops around it. *)
Inductive object := Outer (s : sym) | Inner (id : nat) (iterations : list nat).

(** One step of a call, a copy or a check: which one, in which iterations of the loops around
    it, the how many-th step, and what it reads and writes.  What it does with semaphores is
    ordered with everything. *)
Record action := Action {
  a_id : nat;
  a_iterations : list nat;
  a_step : nat;
  a_reads : list object;
  a_writes : list object;
  a_semaphore : bool }.

Definition disjoint (a b : list object) : Prop := forall o, In o a -> In o b -> False.
(** The order of two actions does not matter. *)
Definition independent (a b : action) : Prop :=
  a_semaphore a = false /\ a_semaphore b = false /\
  disjoint (a_writes a) (a_reads b) /\ disjoint (a_writes a) (a_writes b) /\ disjoint (a_reads a) (a_writes b).

(** The same actions, with independent ones in another order. *)
Inductive same : list action -> list action -> Prop :=
  | same_refl : forall l, same l l
  | same_swap : forall l a b r, independent a b -> same (l ++ a :: b :: r) (l ++ b :: a :: r)
  | same_trans : forall a b c, same a b -> same b c -> same a c.

(** Two things run at the same time *)
Inductive shuffle {A} : list A -> list A -> list A -> Prop :=
  | shuffle_nil : shuffle [] [] []
  | shuffle_left : forall x a b c, shuffle a b c -> shuffle (x :: a) b (x :: c)
  | shuffle_right : forall x a b c, shuffle a b c -> shuffle a (x :: b) (x :: c).
Fixpoint shuffles {A} (l : list (list A)) (c : list A) : Prop :=
  match l with
  | [] => c = []
  | a :: l => exists b, shuffles l b /\ shuffle a b c
  end.

Section Runs.
  (** How many steps a call, copy or check takes, and how many iterations a loop has, in
      given iterations of the loops around it: these depend on the values of variables and
      the bounds of buffers, which the pass does not change. *)
  Variable steps : nat -> list nat -> nat.
  Variable count : nat -> list nat -> nat.

  Definition leaf id it (reads writes : list object) (sem : bool) : list action :=
    map (fun k => Action id it k reads writes sem) (seq 0 (steps id it)).

  (** [runs t it env tr]: [tr] is one way to run [t] (evaluate.cc); [it]: the iterations of
      the loops around it, [env]: the storage of each buffer.  A check is taken to write the
      buffers it is about: what uses them stays behind it.  A serial loop runs its iterations
      one after the other, a parallel one in any interleaving; an async returns when both its
      parts have (evaluate.cc 542-571). *)
  Fixpoint runs (t : tree) (it : list nat) (env : sym -> object) (tr : list action) : Prop :=
    match t with
    | TCall id ins outs => tr = leaf id it (map env ins) (map env outs) false
    | TCopy id src dst pad =>
      tr = leaf id it (env src :: match pad with Some p => [env p] | None => [] end) [env dst] false
    | TCheck id fields ats sem => tr = leaf id it (map env ats) (map env fields ++ map env ats) sem
    | TAlias x src b => runs b it (bind env x (env src)) tr
    | TAlloc id x b => runs b it (bind env x (Inner id it)) tr
    | TLoop id par b =>
      exists trs, length trs = count id it /\
        (forall k, k < length trs -> runs b (k :: it) env (nth k trs [])) /\
        (if par then shuffles trs tr else tr = concat trs)
    | TBlock ts =>
      (fix go ts tr := match ts with
        | [] => tr = []
        | t :: ts => exists a b, runs t it env a /\ go ts b /\ tr = a ++ b
        end) ts tr
    | TAsync a b => exists ta tb, runs a it env ta /\ runs b it env tb /\ shuffle ta tb tr
    end.

  (** The iterations of its parallel loops can be run in any order. *)
  Fixpoint race_free (t : tree) (it : list nat) (env : sym -> object) : Prop :=
    match t with
    | TAlias x src b => race_free b it (bind env x (env src))
    | TAlloc id x b => race_free b it (bind env x (Inner id it))
    | TLoop id par b =>
      (forall k, k < count id it -> race_free b (k :: it) env) /\
      (par = true -> forall j k ta tb x y, j < k -> k < count id it ->
        runs b (j :: it) env ta -> runs b (k :: it) env tb -> In x ta -> In y tb -> independent x y)
    | TBlock ts => (fix go ts := match ts with [] => True | t :: ts => race_free t it env /\ go ts end) ts
    | TAsync a b => race_free a it env /\ race_free b it env
    | _ => True
    end.
End Runs.

(** The numbers of the statements *)
Fixpoint ids (t : tree) : list nat :=
  match t with
  | TCall id _ _ | TCopy id _ _ _ | TCheck id _ _ _ => [id]
  | TAlias _ _ b => ids b
  | TAlloc id _ b | TLoop id _ b => id :: ids b
  | TBlock ts => flat_map ids ts
  | TAsync a b => ids a ++ ids b
  end.

(** No symbol is declared where it already means something, all symbols are known; copies have
    no padding, and nothing is asynchronous yet. *)
Fixpoint plain (scope : list sym) (t : tree) : Prop :=
  match t with
  | TCall _ ins outs => incl (ins ++ outs) scope
  | TCopy _ src dst pad => In src scope /\ In dst scope /\ pad = None
  | TCheck _ fields ats _ => incl (fields ++ ats) scope
  | TAlias x src b => ~ In x scope /\ In src scope /\ plain (x :: scope) b
  | TAlloc _ x b => ~ In x scope /\ plain (x :: scope) b
  | TLoop _ _ b => plain scope b
  | TBlock ts => (fix go ts := match ts with [] => True | t :: ts => plain scope t /\ go ts end) ts
  | TAsync _ _ => False
  end.

(** Memory: an action changes only what it writes, in a way that depends only on what it
    reads and writes. *)
Definition respects {V} (act : action -> (object -> V) -> (object -> V)) : Prop :=
  (forall a m m', (forall o, m o = m' o) -> forall o, act a m o = act a m' o) /\
  forall a, a_semaphore a = false ->
    (forall m o, ~ In o (a_writes a) -> act a m o = m o) /\
    (forall m m', (forall o, In o (a_reads a ++ a_writes a) -> m o = m' o) ->
       forall o, In o (a_writes a) -> act a m o = act a m' o).
Definition perform {V} (act : action -> (object -> V) -> (object -> V)) (tr : list action) (m : object -> V) : object -> V :=
  fold_left (fun m a => act a m) tr m.
