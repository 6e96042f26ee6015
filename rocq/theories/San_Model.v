(** Model of the sanitizer of the user's expressions (slinky/builder/pipeline.cc:256-316).

    Conventions and simplifications.
    - [std::map<expr, var, node_less>] is the list of its entries in the order of insertion; two expressions are the same key if match()
      says that they are equal (node_less is a total order, see C15).
    - [ctx.insert_unique] is given by the number of the next symbol: its names have never been used before.
    - Asserts that fail are [UB].
    - Only expressions are modelled: the builder mutates the bounds, crops and steps of loops, and the coordinates and scalars in the
      statements of functions, one after the other, with one sanitizer. *)
From Coq Require Import ZArith List Bool Arith.
From Verif Require Import Arith_Model Buf_Model Expr_Model Rewrite_Model Const_Model Stmt_Model.
Import ListNotations.
Open Scope Z_scope.

Definition entries := list (expr * nat).
Definition san_state := (entries * nat)%type.

(** pipeline.cc:288-292 and 307-311: [replacements.insert], [ctx.insert_unique("g")] *)
Definition find_entry (r : entries) (e : expr) : option nat := option_map snd (find (fun p => same (fst p) e) r).
Definition replace (e : expr) (st : san_state) : expr * san_state :=
  match find_entry (fst st) e with
  | Some g => (EVar g f_none (-1), st)
  | None => (EVar (snd st) f_none (-1), (fst st ++ [(e, snd st)], S (snd st)))
  end.

Section Lists.
  Variable f : expr -> san_state -> res (expr * san_state).
  (** node_mutator.cc:185-189: the arguments of a call *)
  Fixpoint san_list (l : list expr) (st : san_state) {struct l} : res (list expr * san_state) :=
    match l with
    | [] => Val ([], st)
    | x :: l' => a <- f x st ;; b <- san_list l' (snd a) ;; Val (fst a :: fst b, snd b)
    end.
  (** node_mutator.cc:12-35: the values of lets *)
  Fixpoint san_lets (l : list (nat * expr)) (st : san_state) {struct l} : res (list (nat * expr) * san_state) :=
    match l with
    | [] => Val ([], st)
    | (s, x) :: l' => a <- f x st ;; b <- san_lets l' (snd a) ;; Val ((s, fst a) :: fst b, snd b)
    end.
End Lists.

(** pipeline.cc:278-315, sanitize_user_exprs::visit, and node_mutator.cc:12-35, 48-60 and 145-195 *)
Fixpoint sanitize (external : list nat) (e : expr) (st : san_state) {struct e} : res (expr * san_state) :=
  match e with
  | EUndef | EConst _ => Val (e, st)
  | EVar s f d => match f with
                  | f_none => Val (e, st)
                  | _ => if existsb (Nat.eqb s) external then Val (replace e st) else UB
                  end
  | ELet l b => l' <- san_lets (sanitize external) l st ;; b' <- sanitize external b (snd l') ;; Val (ELet (fst l') (fst b'), snd b')
  | EBin o a b => a' <- sanitize external a st ;; b' <- sanitize external b (snd a') ;; Val (EBin o (fst a') (fst b'), snd b')
  | ENot a => a' <- sanitize external a st ;; Val (ENot (fst a'), snd a')
  | ESelect c t f =>
      c' <- sanitize external c st ;; t' <- sanitize external t (snd c') ;; f' <- sanitize external f (snd t') ;;
      Val (ESelect (fst c') (fst t') (fst f'), snd f')
  | ECall fn target args =>
      match fn with
      | i_buffer_at => match args with
                       | EVar s f_none _ :: _ => if existsb (Nat.eqb s) external then Val (replace e st) else UB
                       | _ => UB
                       end
      | _ => l <- san_list (sanitize external) args st ;; Val (ECall fn target (fst l), snd l)
      end
  end.

(** the expressions of a pipeline, in the order in which they are mutated *)
Definition sanitize_all (external : list nat) : list expr -> san_state -> res (list expr * san_state) := san_list (sanitize external).

(** pipeline.cc:270-277, define_replacements; the entries are in the order of the map *)
Definition define_replacements (r : entries) (s : stmt) : stmt := SLet (map (fun p => (snd p, fst p)) r) s false.
