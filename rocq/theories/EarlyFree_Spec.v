(** What happens to the memory of allocations when a program runs. *)
From Coq Require Import ZArith List Bool.
From Verif Require Import Expr_Model Stmt_Model Deps_Spec.
Import ListNotations.

(** An allocation is made, its memory is used, it is freed early, and its statement ends (which frees it if it was not freed
    before).  [Invalid]: something is freed that is not an allocation. *)
Inductive event := Make (i : nat) (w : storage) | Use (i : nat) | Free (i : nat) | End_ (i : nat) | Invalid.

(** [r x i]: the symbol x points into allocation i *)
Definition pointers := nat -> nat -> Prop.
Definition point (r : pointers) (x : nat) (P : nat -> Prop) : pointers := fun y => if (y =? x)%nat then P else r y.
Definition nothing (i : nat) : Prop := False.
(** i is pointed to by a symbol of e that stands for its pointer, or whose elements have their address taken.  (The other
    roles read metadata, which outlives the memory.) *)
Definition pointed (r : pointers) (e : expr) (i : nat) : Prop :=
  exists y ro, occurs y ro e /\ (ro = RField f_none \/ ro = RAddress) /\ r y i.
Definition uses (P : nat -> Prop) (t : list event) : Prop := Forall (fun e => exists i, e = Use i /\ P i) t.
Definition freed (c : expr) : option nat := match c with ECall i_free _ [EVar x f_none _] => Some x | _ => None end.

Inductive shuffle {A} : list A -> list A -> list A -> Prop :=
| shuffle_nil : shuffle [] [] []
| shuffle_l x a b c : shuffle a b c -> shuffle (x :: a) b (x :: c)
| shuffle_r x a b c : shuffle a b c -> shuffle a (x :: b) (x :: c).

(** let values are computed one after the other *)
Inductive lets_run : pointers -> list (nat * expr) -> pointers -> list event -> Prop :=
| lets_nil r : lets_run r [] r []
| lets_cons r x v l r' t1 t2 : uses (pointed r v) t1 -> lets_run (point r x (pointed r v)) l r' t2 ->
    lets_run r ((x, v) :: l) r' (t1 ++ t2).

(** [runs r s ok t]: s may run with the events t and succeed (ok) or fail.
    The values of conditions, bounds and indices are not followed: a loop may run its body any number of times, interleaved in
    any way (which includes one after the other), and calls, copies and checks may or may not use what they point to, in any
    order, and may or may not fail.  Expressions where an integer is expected (bounds, strides, indices) use no memory. *)
Inductive runs : pointers -> stmt -> bool -> list event -> Prop :=
| run_undef r : runs r SUndef true []
| run_call (r : pointers) f ins outs sc ok t :
    uses (fun i => (exists y, (In y ins \/ In y outs) /\ r y i) \/ exists e, In e sc /\ pointed r e i) t ->
    runs r (SCall f ins outs sc) ok t
| run_copy (r : pointers) src x dst dx pad ok t :
    uses (fun i => r src i \/ r dst i \/ exists p, pad = Some p /\ r p i) t -> runs r (SCopy src x dst dx pad) ok t
| run_let r l b c r' t1 ok t2 : lets_run r l r' t1 -> runs r' b ok t2 -> runs r (SLet l b c) ok (t1 ++ t2)
| run_block r l ok t : runs_list r l ok t -> runs r (SBlock l) ok t
| run_loop r v w i st b ok t : runs_many (point r v nothing) b ok t -> runs r (SLoop v w i st b) ok t
| run_allocate r v w e ds b i ok t : runs (point r v (eq i)) b ok t -> runs r (SAllocate v w e ds b) ok (Make i w :: t ++ [End_ i])
| run_allocate_fails r v w e ds b : runs r (SAllocate v w e ds b) false []
| run_make r v p e ds b t1 ok t2 : uses (pointed r p) t1 -> runs (point r v (pointed r p)) b ok t2 -> runs r (SMake v p e ds b) ok (t1 ++ t2)
| run_make_fails r v p e ds b t : uses (pointed r p) t -> runs r (SMake v p e ds b) false t
| run_const r v x b ok t : runs (point r v nothing) b ok t -> runs r (SConst v x b) ok t
| run_clone r v x b ok t : runs (point r v (r x)) b ok t -> runs r (SClone v x b) ok t
| run_crop r v x l b ok t : runs (point r v (r x)) b ok t -> runs r (SCropBuffer v x l b) ok t
| run_crop_dim r v x d i b ok t : runs (point r v (r x)) b ok t -> runs r (SCropDim v x d i b) ok t
| run_slice r v x l b ok t : runs (point r v (r x)) b ok t -> runs r (SSliceBuffer v x l b) ok t
| run_slice_dim r v x d e b ok t : runs (point r v (r x)) b ok t -> runs r (SSliceDim v x d e b) ok t
| run_transpose r v x p b ok t : runs (point r v (r x)) b ok t -> runs r (STranspose v x p b) ok t
| run_async r v a b ok1 t1 ok2 t2 t :
    runs r a ok1 t1 -> runs (match v with Some v => point r v nothing | None => r end) b ok2 t2 -> shuffle t1 t2 t ->
    runs r (SAsync v a b) (ok1 && ok2) t
| run_check r c ok t : freed c = None -> uses (pointed r c) t -> runs r (SCheck c) ok t
| run_free (r : pointers) c x i : freed c = Some x -> r x i -> runs r (SCheck c) true [Free i]
| run_free_invalid (r : pointers) c x : freed c = Some x -> (forall i, ~ r x i) -> runs r (SCheck c) true [Invalid]
with runs_list : pointers -> list stmt -> bool -> list event -> Prop :=
| list_nil r : runs_list r [] true []
| list_stop r s l t : runs r s false t -> runs_list r (s :: l) false t
| list_cons r s l t1 ok t2 : runs r s true t1 -> runs_list r l ok t2 -> runs_list r (s :: l) ok (t1 ++ t2)
with runs_many : pointers -> stmt -> bool -> list event -> Prop :=
| many_none r b : runs_many r b true []
| many_more r b ok1 t1 ok2 t2 t : runs r b ok1 t1 -> runs_many r b ok2 t2 -> shuffle t1 t2 t -> runs_many r b (ok1 && ok2) t.

Definition made (t : list event) : list nat := flat_map (fun e => match e with Make i _ => [i] | _ => [] end) t.
(** every allocation gets a new identity, other than those that are pointed to from outside *)
Definition fresh (r : pointers) (t : list event) : Prop := NoDup (made t) /\ forall x i, r x i -> ~ In i (made t).
Definition without_frees (t : list event) : list event := filter (fun e => match e with Free _ => false | _ => true end) t.

(** No statement of the program is free(x). *)
Fixpoint no_free (s : stmt) : Prop :=
  match s with
  | SUndef | SCall _ _ _ _ | SCopy _ _ _ _ _ => True
  | SCheck c => freed c = None
  | SBlock l => (fix go (l : list stmt) := match l with [] => True | x :: l' => no_free x /\ go l' end) l
  | SLet _ b _ | SLoop _ _ _ _ b | SAllocate _ _ _ _ b | SMake _ _ _ _ b | SConst _ _ b | SClone _ _ b
  | SCropBuffer _ _ _ b | SCropDim _ _ _ _ b | SSliceBuffer _ _ _ b | SSliceDim _ _ _ _ b | STranspose _ _ _ b => no_free b
  | SAsync _ t b => no_free t /\ no_free b
  end.
(** x occurs anywhere in s, free or bound *)
Fixpoint mentioned (x : nat) (s : stmt) {struct s} : Prop :=
  match s with
  | SUndef => False
  | SCall _ ins outs sc => In x ins \/ In x outs \/ any_of (free x) sc
  | SCopy src src_x dst dst_x pad => src = x \/ dst = x \/ pad = Some x \/ In x dst_x \/ any_of (free x) src_x
  | SLet l b _ => Exists (fun p => fst p = x \/ free x (snd p)) l \/ mentioned x b
  | SBlock l => (fix go (l : list stmt) := match l with [] => False | y :: l' => mentioned x y \/ go l' end) l
  | SLoop v w i st b => v = x \/ free_interval x i \/ free x st \/ free x w \/ mentioned x b
  | SAllocate v _ e ds b => v = x \/ free x e \/ Exists (free_dim x) ds \/ mentioned x b
  | SMake v p e ds b => v = x \/ free x p \/ free x e \/ Exists (free_dim x) ds \/ mentioned x b
  | SConst v _ b => v = x \/ mentioned x b
  | SClone v src b => v = x \/ src = x \/ mentioned x b
  | SCropBuffer v src l b => v = x \/ Exists (free_interval x) l \/ src = x \/ mentioned x b
  | SCropDim v src _ i b => v = x \/ free_interval x i \/ src = x \/ mentioned x b
  | SSliceBuffer v src at_ b => v = x \/ any_of (free x) at_ \/ src = x \/ mentioned x b
  | SSliceDim v src _ at_ b => v = x \/ free x at_ \/ src = x \/ mentioned x b
  | STranspose v src _ b => v = x \/ src = x \/ mentioned x b
  | SAsync v t b => v = Some x \/ mentioned x t \/ mentioned x b
  | SCheck c => free x c
  end.
(** x is not the name of another allocation, constant or task in s, and the task and the body of an async do not share it. *)
Fixpoint not_reused (x : nat) (s : stmt) : Prop :=
  match s with
  | SUndef | SCall _ _ _ _ | SCopy _ _ _ _ _ | SCheck _ => True
  | SBlock l => (fix go (l : list stmt) := match l with [] => True | y :: l' => not_reused x y /\ go l' end) l
  | SAllocate v _ _ _ b | SConst v _ b => v <> x /\ not_reused x b
  | SLet _ b _ | SLoop _ _ _ _ b | SMake _ _ _ _ b | SClone _ _ b
  | SCropBuffer _ _ _ b | SCropDim _ _ _ _ b | SSliceBuffer _ _ _ b | SSliceDim _ _ _ _ b | STranspose _ _ _ b => not_reused x b
  | SAsync v t b => v <> Some x /\ (~ mentioned x t \/ ~ free_stmt x b) /\ not_reused x t /\ not_reused x b
  end.
(** This holds of the name of every allocation on the heap, in its body. *)
Fixpoint well_named (s : stmt) : Prop :=
  match s with
  | SUndef | SCall _ _ _ _ | SCopy _ _ _ _ _ | SCheck _ => True
  | SBlock l => (fix go (l : list stmt) := match l with [] => True | y :: l' => well_named y /\ go l' end) l
  | SAllocate v w _ _ b => (w = heap -> not_reused v b) /\ well_named b
  | SLet _ b _ | SLoop _ _ _ _ b | SMake _ _ _ _ b | SConst _ _ b | SClone _ _ b
  | SCropBuffer _ _ _ b | SCropDim _ _ _ _ b | SSliceBuffer _ _ _ b | SSliceDim _ _ _ _ b | STranspose _ _ _ b => well_named b
  | SAsync _ t b => well_named t /\ well_named b
  end.
