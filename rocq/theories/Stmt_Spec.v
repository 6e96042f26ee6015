(** What the properties of the evaluation of statements are about, independently of how
    the evaluator works. *)
From Coq Require Import ZArith List Bool Lia Sorted Permutation.
From Verif Require Import Arith_Model Buf_Model Alloc_Model Expr_Model Expr_Proofs Stmt_Model.
Import ListNotations.
Open Scope Z_scope.

(** The lets in the expressions of [s], and the let statements, bind distinct symbols. *)
Definition distinct_interval (x : interval) : Prop := lets_distinct (fst x) /\ lets_distinct (snd x).
Definition distinct_dim (d : dim_expr) : Prop :=
  distinct_interval (de_bounds d) /\ lets_distinct (de_stride d) /\ lets_distinct (de_fold d).
Fixpoint distinct (s : stmt) : Prop :=
  match s with
  | SUndef | SCall _ _ _ _ | SCopy _ _ _ _ _ => True
  | SLet l b _ => NoDup (map fst l) /\ Forall lets_distinct (map snd l) /\ distinct b
  | SBlock l => (fix go (l : list stmt) := match l with [] => True | x :: l' => distinct x /\ go l' end) l
  | SLoop _ w x st b => lets_distinct w /\ distinct_interval x /\ lets_distinct st /\ distinct b
  | SAllocate _ _ e ds b => lets_distinct e /\ Forall distinct_dim ds /\ distinct b
  | SMake _ p e ds b => lets_distinct p /\ lets_distinct e /\ Forall distinct_dim ds /\ distinct b
  | SConst _ _ b | SClone _ _ b | STranspose _ _ _ b => distinct b
  | SCropBuffer _ _ l b => Forall distinct_interval l /\ distinct b
  | SCropDim _ _ _ x b => distinct_interval x /\ distinct b
  | SSliceBuffer _ _ l b => Forall lets_distinct l /\ distinct b
  | SSliceDim _ _ _ x b => lets_distinct x /\ distinct b
  | SAsync _ t b => distinct t /\ distinct b
  | SCheck c => lets_distinct c
  end.

(** The symbols of the asyncs that [s] runs in its own context. *)
Fixpoint async_syms (s : stmt) : list nat :=
  match s with
  | SUndef | SCall _ _ _ _ | SCopy _ _ _ _ _ | SCheck _ => []
  | SLet _ b _ | SLoop _ _ _ _ b | SAllocate _ _ _ _ b | SMake _ _ _ _ b | SConst _ _ b | SClone _ _ b
  | STranspose _ _ _ b | SCropBuffer _ _ _ b | SCropDim _ _ _ _ b | SSliceBuffer _ _ _ b | SSliceDim _ _ _ _ b => async_syms b
  | SBlock l => (fix go (l : list stmt) := match l with [] => [] | x :: l' => async_syms x ++ go l' end) l
  | SAsync sym _ _ => match sym with Some x => [x] | None => [] end
  end.

(** [s] has no parallel loop (stmt.h: loop::serial is max_workers 1) and no async. *)
Definition serial_workers (e : expr) : bool := match e with EConst k => k <=? 1 | _ => false end.
Fixpoint sequential (s : stmt) : bool :=
  match s with
  | SUndef | SCall _ _ _ _ | SCopy _ _ _ _ _ | SCheck _ => true
  | SLet _ b _ | SAllocate _ _ _ _ b | SMake _ _ _ _ b | SConst _ _ b | SClone _ _ b
  | STranspose _ _ _ b | SCropBuffer _ _ _ b | SCropDim _ _ _ _ b | SSliceBuffer _ _ _ b | SSliceDim _ _ _ _ b => sequential b
  | SLoop _ w _ _ b => serial_workers w && sequential b
  | SBlock l => (fix go (l : list stmt) := match l with [] => true | x :: l' => sequential x && go l' end) l
  | SAsync _ _ _ => false
  end.

(** The code of a failure, if the event is one. *)
Definition fails (e : event) : option Z :=
  match e with
  | EvCall _ r => if r =? 0 then None else Some r
  | EvCheckFailed => Some 1
  | EvFailed _ => Some (-1)
  | _ => None
  end.
Definition succeeds (e : event) : Prop := fails e = None.
Definition is_free (e : event) : Prop := match e with EvFree _ _ => True | _ => False end.

(** The result [z] says whether something failed, and is the code of a failure. *)
Definition reports (z : Z) (evs : list event) : Prop :=
  (z = 0 -> Forall succeeds evs) /\ (z <> 0 -> exists e, In e evs /\ fails e = Some z).
(** The first failure was the last thing to happen, but for freeing memory. *)
Definition stops_at_first_failure (z : Z) (evs : list event) : Prop :=
  (z = 0 /\ Forall succeeds evs) \/
  (z <> 0 /\ exists pre f post, evs = pre ++ f :: post /\ Forall succeeds pre /\ fails f = Some z /\ Forall is_free post).

(** How often a block of memory was obtained and given back. *)
Definition count (f : event -> option Z) (p : Z) (evs : list event) : nat :=
  length (filter (fun e => match f e with Some q => q =? p | None => false end) evs).
Definition alloc_of (e : event) : option Z := match e with EvAlloc _ p => Some p | _ => None end.
Definition free_of (e : event) : option Z := match e with EvFree _ p => Some p | _ => None end.
Definition allocs := count alloc_of.
Definition frees := count free_of.
(** how many of the buffers that exist own the block [p] *)
Definition live (l : list (Z * Z)) (p : Z) : nat := length (filter (fun x => snd x =? p) l).

(** Every block is given back as often as it is obtained, except those owned before or
    after, and never before it is obtained. *)
Definition balanced (l : list (Z * Z)) (evs : list event) (l' : list (Z * Z)) : Prop :=
  forall p, p <> 0 ->
    (allocs p evs + live l p = frees p evs + live l' p)%nat /\
    (forall pre post, evs = pre ++ post -> (frees p pre <= allocs p pre + live l p)%nat).

(** All allocations of [s] ask for the stack. *)
Fixpoint stack_only (s : stmt) : bool :=
  match s with
  | SUndef | SCall _ _ _ _ | SCopy _ _ _ _ _ | SCheck _ => true
  | SLet _ b _ | SLoop _ _ _ _ b | SMake _ _ _ _ b | SConst _ _ b | SClone _ _ b
  | STranspose _ _ _ b | SCropBuffer _ _ _ b | SCropDim _ _ _ _ b | SSliceBuffer _ _ _ b | SSliceDim _ _ _ _ b => stack_only b
  | SAllocate _ w _ _ b => match w with stack => stack_only b | _ => false end
  | SBlock l => (fix go (l : list stmt) := match l with [] => true | x :: l' => stack_only x && go l' end) l
  | SAsync _ t b => stack_only t && stack_only b
  end.
Definition not_alloc (e : event) : Prop := alloc_of e = None.

(** The evaluator's objects are below the next new address. *)
Definition inv {X} (st : state X) : Prop :=
  (forall a, s_next X st <= a -> s_buf X st a = None) /\ Forall (fun k => fst k < s_next X st) (s_alloc X st).

(** The statements run one after the other until one fails. *)
Section Runs.
  Context {S : Type}.
  Inductive runs : list (S -> res (Z * S)) -> S -> Z -> S -> Prop :=
  | runs_nil s : runs [] s 0 s
  | runs_next f fs s s1 z s2 : f s = Val (0, s1) -> runs fs s1 z s2 -> runs (f :: fs) s z s2
  | runs_fail f fs s z s1 : f s = Val (z, s1) -> z <> 0 -> runs (f :: fs) s z s1.
End Runs.

(** The values a loop from [lo] to [hi] in steps of [step] takes, in order. *)
Definition loop_range (lo hi step : Z) (vs : list Z) : Prop :=
  StronglySorted Z.lt vs /\ forall v, In v vs <-> exists k, 0 <= k /\ v = lo + k * step /\ v <= hi.

(** Symbol [x] has the value [v] in a context made for the closure [cl], if any, from
    the context [parent]. *)
Definition captured (parent : context) (cl : option (list (nat * expr))) (x : nat) (v : Z) : Prop :=
  match cl with
  | None => v = parent x
  | Some l => exists src d, In (x, EVar src f_none d) l /\ v = parent src
  end.

(** The iterations for the values [vs], one after the other whatever their results
    [zs]; [ok v c] says in which context [c] the iteration for [v] may run. *)
Section Iterations.
  Context {X : Type} (f : state X -> res (Z * state X)) (ok : Z -> context -> Prop).
  Inductive iterations : list Z -> state X -> list Z -> state X -> Prop :=
  | it_nil s : iterations [] s [] s
  | it_next v vs s c z s1 zs s2 : ok v c -> f (set_ctx X s c) = Val (z, s1) ->
      iterations vs s1 zs s2 -> iterations (v :: vs) s (z :: zs) s2.
End Iterations.
Definition first_failure (zs : list Z) : Z := match find (fun z => negb (z =? 0)) zs with Some z => z | None => 0 end.

(** [n] iterations are each given to some worker exactly once: what the thread pool
    guarantees (C05, C06). *)
Definition complete_schedule (n : Z) (sched : list (nat * Z)) : Prop :=
  Permutation (map snd sched) (map Z.of_nat (seq 0 (Z.to_nat n))).
