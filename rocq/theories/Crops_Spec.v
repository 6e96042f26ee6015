(** What the crops of a loop's body should do. *)
From Coq Require Import ZArith List Bool Arith.
From Verif Require Import Arith_Model Buf_Model Buf_Spec ForEach_Spec Expr_Model Deps_Spec Subst_Spec VSem_Spec Stmt_Model.
Import ListNotations.
Open Scope Z_scope.

(** *** Which buffers matter *)
Section Graph.
  Variable deps : nat -> list nat.
  Variable terminal : nat -> Prop.
  (** a path of dependences from a node to a terminal *)
  Inductive leads : nat -> Prop :=
  | leads_end v : terminal v -> leads v
  | leads_step v p : In p (deps v) -> leads p -> leads v.
  (** a path of dependences to [x] that meets no terminal *)
  Inductive reaches : nat -> nat -> Prop :=
  | reaches_here v : ~ terminal v -> reaches v v
  | reaches_step v p x : ~ terminal v -> In p (deps v) -> reaches p x -> reaches v x.
  Definition acyclic : Prop := exists rk : nat -> nat, forall v p, In p (deps v) -> (rk p < rk v)%nat.
End Graph.

(** *** Expressions *)
(** the variables of an expression *)
Fixpoint vars (e : expr) : list (nat * field * Z) :=
  match e with
  | EUndef | EConst _ => []
  | EVar s f d => [(s, f, d)]
  | ELet l b => (fix go (l : list (nat * expr)) := match l with [] => vars b | (_, v) :: l' => vars v ++ go l' end) l
  | EBin _ a b => vars a ++ vars b
  | ENot a => vars a
  | ESelect c t f => vars c ++ vars t ++ vars f
  | ECall _ _ args => flat_map vars args
  end.
(** the bounds of dimension [d] of buffer [y] are used *)
Definition uses_bound (y : nat) (d : Z) (e : expr) : Prop := In (y, f_min, d) (vars e) \/ In (y, f_max, d) (vars e).
(** Neither the address nor the size of a buffer is used. *)
Definition only_metadata (e : expr) : Prop := ~ takes_address e /\ forall y d, ~ In (y, f_size_bytes, d) (vars e).
Definition bounds_use (y : nat) (d : Z) (l : list (expr * expr)) : Prop := exists i, In i l /\ (uses_bound y d (fst i) \/ uses_bound y d (snd i)).

(** *** Buffers *)
(** [b1] has at least the elements of [b2] *)
Definition includes (b1 b2 : buf) : Prop :=
  forall idx, in_bounds (dims b2) idx -> in_bounds (dims b1) idx /\ locate b1 (fun k => nth k idx 0) = locate b2 (fun k => nth k idx 0).
(** [b0] is the buffer outside of the loop, [b2] has all crops, and [b1] has the same bounds as [b2] in the dimensions [D] and is as outside
    of the loop in the others; if [exact], these are the same for [b2]. *)
Record well_cropped (D : nat -> Prop) (exact : Prop) (b0 b1 b2 : buf) : Prop := {
  wc_elem : elem_size b1 = elem_size b0;
  wc_strides : forall d, d_stride (nth d (dims b1) broadcast) = d_stride (nth d (dims b0) broadcast) /\ d_fold (nth d (dims b1) broadcast) = d_fold (nth d (dims b0) broadcast);
  wc_cropped : forall d, D d -> nth d (dims b1) broadcast = nth d (dims b2) broadcast;
  wc_others : forall d, ~ D d -> nth d (dims b1) broadcast = nth d (dims b0) broadcast;
  wc_exact : exact -> dims b1 = dims b2;
  wc_includes : includes b1 b2;
  wc_outside : includes b0 b1 }.

(** *** The dimensions that vary in the loop *)
Section Varies.
  (** the dimensions of the outputs of the loop's function, and the loop *)
  Variable outputs : list (nat * list nat).
  Variable loop_sym : nat.
  Variable items : list (nat * list (expr * expr)).
  Definition loop_dim (x d : nat) : Prop := exists l, In (x, l) outputs /\ nth_error l d = Some loop_sym.
  Inductive varies : nat -> nat -> Prop :=
  | varies_loop x d : loop_dim x d -> varies x d
  | varies_bounds s l j i y d : In (s, l) items -> nth_error l j = Some i -> uses_bound y (Z.of_nat d) (fst i) \/ uses_bound y (Z.of_nat d) (snd i) -> varies y d -> varies s j.
  (** [E] is [E0] with smaller buffers of the outputs of the loop's function. *)
  Definition in_loop (E0 E : venv) : Prop :=
    forall x, E x = E0 x \/ exists k b k0 b0, E x = Buffer k b /\ E0 x = Buffer k0 b0 /\ elem_size b = elem_size b0 /\ length (dims b) = length (dims b0) /\
      (forall d, d_stride (nth d (dims b) broadcast) = d_stride (nth d (dims b0) broadcast) /\ d_fold (nth d (dims b) broadcast) = d_fold (nth d (dims b0) broadcast)) /\
      (forall d, ~ loop_dim x d -> nth d (dims b) broadcast = nth d (dims b0) broadcast).
End Varies.
(** Functions come after the functions that use what they compute; inputs are not used by bounds. *)
Fixpoint ordered (groups : list (list (nat * list (expr * expr)))) : Prop :=
  match groups with
  | [] => True
  | g :: gs => (forall s l y d, In (s, l) g -> bounds_use y d l -> ~ In y (map fst (g ++ concat gs))) /\ ordered gs
  end.

(** *** The body of a loop whose crops crop all dimensions of all buffers; the first buffer's crop is the outermost. *)
Definition full_crops (l : list (nat * list interval)) (body : stmt) : stmt :=
  fold_right (fun i body => SCropBuffer (fst i) (fst i) (snd i) body) body l.

(** The functions in their order, the inputs are the innermost. *)
Definition all_crops (order : list (list (nat * list interval))) (inputs : list (nat * list interval)) : stmt -> stmt :=
  full_crops (concat (map (@rev _) (order ++ [inputs]))).

Section Bounds.
  Variable X : Type.
  Variable H : host X.
  (** The bounds of [b] are within those that the expressions have. *)
  Definition fits (E : venv) (bounds : list interval) (b : buf) : Prop :=
    forall d i, nth_error bounds d = Some i ->
      (forall z, veval X H E (fst i) = Val z -> z <= d_min (nth d (dims b) broadcast)) /\
      (forall z, veval X H E (snd i) = Val z -> d_max (nth d (dims b) broadcast) <= z).
End Bounds.

(** *** What is known of a loop's body *)
Record body_info := BodyInfo {
  bi_outputs : list (nat * list nat);              (* the outputs of the loop's function and their dimensions *)
  bi_loop : nat;
  bi_order : list (list (nat * list (expr * expr)));  (* the outputs of the other functions *)
  bi_inputs : list (nat * list (expr * expr));     (* the inputs of the pipeline *)
  bi_deps : nat -> list nat;                       (* the buffers that the bounds of a buffer depend on *)
  bi_constants : list nat;
  bi_roots : list nat;                             (* what the body computes *)
  bi_sources : list nat }.                         (* what the body copies *)
Section Info.
  Variable X : Type.
  Variable H : host X.
  Variable i : body_info.
  Definition bi_items := concat (bi_order i) ++ bi_inputs i.
  Definition bi_terminal (x : nat) : Prop := In x (map fst (bi_outputs i)).
  Definition computed (x : nat) : Prop := exists v, In v (bi_roots i) /\ ~ In v (bi_constants i) /\ reaches (bi_deps i) bi_terminal v x.
  Definition needed (x : nat) : Prop := In x (bi_sources i) \/ computed x.
  (** The pipeline is acyclic, its symbols are distinct, and the bounds use the declared buffers. *)
  Record is_pipeline : Prop := {
    ip_acyclic : acyclic (bi_deps i);
    ip_distinct : NoDup (map fst bi_items);
    ip_outputs : forall x, In x (map fst bi_items) -> ~ bi_terminal x;
    ip_ordered : ordered (bi_order i ++ [bi_inputs i]);
    ip_declared : forall s l y d, In (s, l) bi_items -> bounds_use y d l -> In y (map fst bi_items) \/ bi_terminal y -> In y (bi_deps i s);
    ip_metadata : forall s l b, In (s, l) bi_items -> In b l -> only_metadata (fst b) /\ only_metadata (snd b) }.
  (** Whatever else uses the sources of the body's copies is computed in the body, too. *)
  Definition sources_used_here : Prop := forall s p, In s (bi_sources i) -> In p (bi_deps i s) -> bi_terminal p \/ computed p.
  (** The buffers outside and inside of the loop: those of the pipeline are separate objects, and only the bounds of inputs may be larger
      than what is needed. *)
  Record buffers_ok (E0 E : venv) : Prop := {
    bo_loop : in_loop (bi_outputs i) (bi_loop i) E0 E;
    bo_items : forall s l, In (s, l) bi_items -> exists k b, E0 s = Buffer k b /\ E s = Buffer k b /\ alone k = true /\ (length l <= length (dims b))%nat /\ (In (s, l) (concat (bi_order i)) -> fits X H E0 l b) }.
End Info.
