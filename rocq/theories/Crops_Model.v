(** Model of the crops of a loop's body (slinky/builder/pipeline.cc:571-608, 1167-1210, 1245-1260, 731-743 and 1299-1389).

    Conventions and simplifications.
    - Sets and maps of symbols are lists and functions; the order of a set is that of its list.
    - The functions of the pipeline are lists of their outputs that have inferred bounds; outputs and inputs without bounds, for which
      the code does nothing, are left out, and so is the function of the loop, which the code skips.
    - The buffers allocated in the body, for which the code makes buffers without memory, are not modelled. *)
From Coq Require Import ZArith List Bool Arith.
From Verif Require Import Arith_Model Buf_Model Expr_Model Rewrite_Model Const_Model Concat_Model Stmt_Model.
Import ListNotations.
Open Scope Z_scope.

Definition has (l : list nat) (x : nat) : bool := existsb (Nat.eqb x) l.
(** std::map<var, std::vector<int>>; operator[] followed by push_back *)
Definition dim_map := nat -> list nat.
Definition push (m : dim_map) (s i : nat) : dim_map := fun y => if (y =? s)%nat then m s ++ [i] else m y.

(** pipeline.cc:571-593, dependent_dims_finder *)
Fixpoint finds (m : dim_map) (e : expr) : bool :=
  match e with
  | EUndef | EConst _ => false
  | EVar s f d => match f with f_min | f_max => existsb (fun k => d =? Z.of_nat k) (m s) | _ => false end
  | ELet l b => (fix go (l : list (nat * expr)) := match l with [] => finds m b | (_, v) :: l' => finds m v || go l' end) l
  | EBin _ a b => finds m a || finds m b
  | ENot a => finds m a
  | ESelect c t f => finds m c || finds m t || finds m f
  | ECall _ _ args => existsb (finds m) args
  end.

(** pipeline.cc:595-608, find_dependent_dims *)
Fixpoint find_dims_from (sym i : nat) (bounds : list interval) (m : dim_map) : dim_map :=
  match bounds with
  | [] => m
  | b :: l => find_dims_from sym (S i) l (if finds m (fst b) || finds m (snd b) then push m sym i else m)
  end.
Definition find_dims (sym : nat) (bounds : list interval) (m : dim_map) : dim_map := find_dims_from sym 0 bounds m.

(** pipeline.cc:1245-1260, add_crop *)
Definition add_crop (body : stmt) (sym : nat) (bounds : list interval) (ds : list nat) : stmt :=
  match ds with
  | [] => body
  | [d] => SCropDim sym sym d (nth d bounds undef_interval) body
  | _ => SCropBuffer sym sym (fold_left (fun needed d => set_nth needed d (nth d bounds undef_interval)) ds (repeat undef_interval (length bounds))) body
  end.

Definition item := (nat * list interval)%type.

(** pipeline.cc:1322-1332: the dimensions of the outputs of the loop's function *)
Definition loop_dims (outputs : list (nat * list nat)) (loop_sym : nat) : dim_map :=
  fold_left (fun m o => fold_left (fun m d => if (nth d (snd o) 0 =? loop_sym)%nat then push m (fst o) d else m) (seq 0 (length (snd o))) m) outputs (fun _ => []).

(** pipeline.cc:1334-1344 *)
Definition find_all (keep : nat -> bool) (l : list item) (m : dim_map) : dim_map :=
  fold_left (fun m i => if keep (fst i) then find_dims (fst i) (snd i) m else m) l m.

(** pipeline.cc:1346-1355: the inputs are the innermost *)
Fixpoint crop_inputs (keep : nat -> bool) (l : list item) (m : dim_map) (body : stmt) : dim_map * stmt :=
  match l with
  | [] => (m, body)
  | (s, bounds) :: l' =>
      if keep s then
        let m' := find_dims s bounds m in crop_inputs keep l' m' (add_crop body s bounds (m' s))
      else crop_inputs keep l' m body
  end.

(** pipeline.cc:1357-1387 *)
Definition crop_outputs (keep : nat -> bool) (m : dim_map) (f : list item) (body : stmt) : stmt :=
  fold_left (fun body i => if keep (fst i) then add_crop body (fst i) (snd i) (m (fst i)) else body) f body.
Definition crop_funcs (keep : nat -> bool) (m : dim_map) (order : list (list item)) (body : stmt) : stmt :=
  fold_left (fun body f => crop_outputs keep m f body) (rev order) body.

(** pipeline.cc:1322-1387, the body of a loop with its crops *)
Definition crop_body (keep : nat -> bool) (m : dim_map) (order : list (list item)) (inputs : list item) (body : stmt) : stmt :=
  let m1 := find_all keep (concat order) m in
  let r := crop_inputs keep inputs m1 body in
  crop_funcs keep (fst r) order (snd r).

(** ** pipeline.cc:1167-1210, find_transitive_deps.  [None]: there is not enough fuel. *)
Section Deps.
  Variable deps : nat -> list nat.
  Variable terminal : list nat.
  Fixpoint visit (fuel : nat) (v : nat) (visited result : list nat) {struct fuel} : option (bool * (list nat * list nat)) :=
    if has terminal v then Some (true, (visited, result))
    else
      match fuel with
      | O => None
      | S f =>
          let fix go (l : list nat) (can : bool) (visited result : list nat) : option (bool * (list nat * list nat)) :=
            match l with
            | [] => Some (can, (visited, result))
            | p :: l' =>
                if has visited p then go l' (can || has result p) visited result
                else match visit f p visited result with
                     | None => None
                     | Some (c, (visited', result')) => go l' (can || c) visited' result'
                     end
            end in
          match go (deps v) false (v :: visited) result with
          | None => None
          | Some (can, (visited', result')) => Some (can, (visited', if can then v :: result' else result'))
          end
      end.
  Fixpoint visit_all (fuel : nat) (constants : list nat) (buffers visited result : list nat) : option (list nat) :=
    match buffers with
    | [] => Some result
    | v :: l =>
        if has constants v then visit_all fuel constants l visited result
        else match visit fuel v visited result with
             | None => None
             | Some (_, (visited', result')) => visit_all fuel constants l visited' result'
             end
    end.
  Definition find_transitive_deps (fuel : nat) (constants buffers : list nat) : option (list nat) := visit_all fuel constants buffers [] [].
End Deps.
