(** Reference counting: slinky/base/ref_count.h, used by expr, stmt, thread_pool::task
    and buffer_expr handles.

    The model is a transition system.  A handle (ref_count<T>) is a slot; a slot is a
    variable of the program or a member of an object (an expression node holds handles
    of its children), so that destroying an object drops handles.  One API call writes
    its handles and queues the accesses to reference counts that are still to come; each
    of them is a separate atomic step and steps of different threads interleave freely.

    Simplifications:
    - counters are unbounded (the C++ has an int);
    - a handle that one thread is reading or writing is not written by another: that
      would be a data race on [value], undefined behaviour in C++.  Such schedules are
      not runs of the model ([None]);
    - an object's destructor drops the handles that are its members and does nothing
      else that involves handles;
    - atomics are sequentially consistent. *)
From Coq Require Import ZArith List Bool Arith.
Import ListNotations.

Inductive phase := Alive | Dying | Freed.
Record object := Object { o_count : Z; o_phase : phase }.
(** [s_owner]: the object whose member this handle is; [None] is a variable *)
Record slot := Slot { s_owner : option nat; s_value : option nat }.

(** What remains to be done of a call. *)
Inductive micro :=
| MAdd (o h : nat) (g : option nat)
    (* value->add_ref(), on behalf of handle [h], which took the value from handle [g] *)
| MRel (o : nat)        (* v->release() *)
| MDrop (s : nat)       (* ~ref_count of a member of an object that is being destroyed *)
| MFree (o : nat).      (* the end of T::destroy *)

Record state := State {
  objects : list object;
  slots : list slot;
  threads : list (list micro);
  raw : list nat;            (* values taken with take(): each is one reference *)
  destroyed : list nat }.    (* history: T::destroy was called *)

Definition init (nthreads : nat) : state := State [] [] (repeat [] nthreads) [] [].

Inductive op :=
| OSlot                      (* a new variable: ref_count() *)
| ONew (h n : nat)           (* h = new T, an object with [n] members *)
| OAssign (h g : nat)        (* h = g, or the copy constructor when h is new *)
| ONull (h : nat)            (* h = nullptr, or ~ref_count() *)
| OMove (h g : nat)          (* h = std::move(g), or the move constructor when h is new *)
| OTake (h : nat)            (* h.take() *)
| OAssume (h o : nat)        (* h = ref_count::assume(o), h is new *)
| OStep.                     (* the next pending operation of this thread *)

Fixpoint upd {A} (l : list A) (i : nat) (x : A) : list A :=
  match l, i with
  | [], _ => []
  | _ :: l', O => x :: l'
  | y :: l', S i' => y :: upd l' i' x
  end.

Definition value (st : state) (s : nat) : option nat :=
  match nth_error (slots st) s with Some x => s_value x | None => None end.
Definition set_value (st : state) (s : nat) (v : option nat) : state :=
  match nth_error (slots st) s with
  | Some x => State (objects st) (upd (slots st) s (Slot (s_owner x) v)) (threads st) (raw st) (destroyed st)
  | None => st
  end.
Definition set_object (st : state) (o : nat) (x : object) : state :=
  State (upd (objects st) o x) (slots st) (threads st) (raw st) (destroyed st).
Definition set_thread (st : state) (t : nat) (l : list micro) : state :=
  State (objects st) (slots st) (upd (threads st) t l) (raw st) (destroyed st).

(** The handles in use by a call that has not read its source's object yet. *)
Definition uses (m : micro) (s : nat) : bool :=
  match m with
  | MAdd _ h g => (h =? s) || match g with Some g => g =? s | None => false end
  | _ => false
  end.
Definition writes (m : micro) (s : nat) : bool := match m with MAdd _ h _ => h =? s | _ => false end.
Definition in_use (st : state) (s : nat) : bool := existsb (fun m => uses m s) (concat (threads st)).
Definition being_written (st : state) (s : nat) : bool := existsb (fun m => writes m s) (concat (threads st)).
(** the handle exists: it is a variable or a member of an object not being destroyed *)
Definition exists_slot (st : state) (s : nat) : bool :=
  match nth_error (slots st) s with
  | None => false
  | Some x => match s_owner x with
              | None => true
              | Some o => match nth_error (objects st) o with
                          | Some (Object _ Alive) => true
                          | _ => false
                          end
              end
  end.
Definition can_write (st : state) (s : nat) : bool := exists_slot st s && negb (in_use st s).
Definition can_read (st : state) (s : nat) : bool := exists_slot st s && negb (being_written st s).

(** the handles that are members of [o] *)
Definition members (st : state) (o : nat) : list nat :=
  filter (fun s => match nth_error (slots st) s with
                   | Some x => match s_owner x with Some o' => o' =? o | None => false end
                   | None => false
                   end) (seq 0 (length (slots st))).

Definition opt {A} (f : nat -> A) (v : option nat) : list A := match v with Some o => [f o] | None => [] end.
Definition eq_value (a b : option nat) : bool :=
  match a, b with Some x, Some y => x =? y | None, None => true | _, _ => false end.

(** ref_count.h:58-65, operator=(T* v), with [v] from the handle [g] or new.  The copy
    and pointer constructors (ref_count.h:47-50) are the case of a null handle: they set
    the value and call add_ref.  The destructor (ref_count.h:52-54) is the case [v] null. *)
Definition assign (st : state) (t h : nat) (v : option nat) (g : option nat) : state :=
  let old := value st h in
  if eq_value old v then st
  else set_thread (set_value st h v) t (opt (fun o => MAdd o h g) v ++ opt MRel old).

(** The result of an access to an object that was destroyed is [Fault]. *)
Inductive outcome := Next (st : state) | Race | Fault.

(** ref_count.h:29-36: add_ref, release *)
Definition micro_step (st : state) (t : nat) (m : micro) (rest : list micro) : outcome :=
  match m with
  | MAdd o _ _ =>
      match nth_error (objects st) o with
      | Some (Object c Alive) => Next (set_thread (set_object st o (Object (c + 1) Alive)) t rest)
      | _ => Fault
      end
  | MRel o =>
      match nth_error (objects st) o with
      | Some (Object c Alive) =>
          if (c =? 1)%Z then
            let st1 := set_object st o (Object (c - 1) Dying) in
            Next (State (objects st1) (slots st1)
                        (upd (threads st1) t (map MDrop (members st o) ++ MFree o :: rest)) (raw st1) (o :: destroyed st1))
          else Next (set_thread (set_object st o (Object (c - 1) Alive)) t rest)
      | _ => Fault
      end
  | MDrop s =>
      if in_use st s then Race
      else Next (set_thread (set_value st s None) t (opt MRel (value st s) ++ rest))
  | MFree o =>
      match nth_error (objects st) o with
      | Some (Object c Dying) => Next (set_thread (set_object st o (Object c Freed)) t rest)
      | _ => Fault
      end
  end.

Fixpoint remove_one (x : nat) (l : list nat) : option (list nat) :=
  match l with
  | [] => None
  | y :: l' => if y =? x then Some l' else match remove_one x l' with Some r => Some (y :: r) | None => None end
  end.

Definition step (st : state) (t : nat) (a : op) : outcome :=
  match nth_error (threads st) t with
  | None => Race
  | Some (m :: rest) => match a with OStep => micro_step st t m rest | _ => Race end
  | Some [] =>
      match a with
      | OStep => Race
      | OSlot => Next (State (objects st) (slots st ++ [Slot None None]) (threads st) (raw st) (destroyed st))
      | ONew h n =>
          (* the new object has count 0 (ref_count.h:14); its members are null *)
          if can_write st h then
            let o := length (objects st) in
            let st1 := State (objects st ++ [Object 0 Alive]) (slots st ++ repeat (Slot (Some o) None) n)
                             (threads st) (raw st) (destroyed st) in
            Next (assign st1 t h (Some o) None)
          else Race
      | OAssign h g =>
          (* ref_count.h:67 *)
          if can_write st h && can_read st g then Next (assign st t h (value st g) (Some g)) else Race
      | ONull h => if can_write st h then Next (assign st t h None None) else Race
      | OMove h g =>
          (* ref_count.h:69-73: std::swap(value, other.value); other = nullptr; *)
          if can_write st h && can_write st g then
            let st1 := set_value (set_value st h (value st g)) g (value st h) in
            Next (assign st1 t g None None)
          else Race
      | OTake h =>
          (* ref_count.h:89-93 *)
          if can_write st h then
            Next (State (objects st) (slots (set_value st h None)) (threads st)
                        (opt (fun o => o) (value st h) ++ raw st) (destroyed st))
          else Race
      | OAssume h o =>
          (* ref_count.h:95-99; the reference is one that take() gave *)
          match remove_one o (raw st), value st h with
          | Some raw', None =>
              if can_write st h
              then Next (State (objects st) (slots (set_value st h (Some o))) (threads st) raw' (destroyed st))
              else Race
          | _, _ => Race
          end
      end
  end.

Fixpoint run (st : state) (l : list (nat * op)) : outcome :=
  match l with
  | [] => Next st
  | (t, a) :: l' => match step st t a with Next st' => run st' l' | r => r end
  end.
