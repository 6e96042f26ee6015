(** The meaning of statements in terms of values: a symbol stands for a number or for (a copy of) a buffer, not for the address
    of an object that statements may change in place.  There are no objects, no contexts that are changed and restored, and
    no copies of contexts for workers.

    A program that does something whose effect depends on the identity of objects is undefined here: it uses the address of a buffer as a
    number, changes an object in place that others can see (two workers, two names, or a constant), or uses a symbol that has no value. *)
From Coq Require Import ZArith List Bool.
From Verif Require Import Arith_Model Buf_Model Alloc_Model Expr_Model Expr_Proofs Stmt_Model Stmt_Spec Deps_Spec.
Import ListNotations.
Open Scope Z_scope.

(** What is known of the object of a buffer: whether only its symbol can see it, and whether it is the one of the enclosing allocation
    with the given number (the outermost is 0), whose memory can be freed. *)
Record kind := Kind { alone : bool; block : option nat }.
Definition Shared : kind := Kind false None.
Definition Own : kind := Kind true None.
Definition Owner (id : nat) : kind := Kind true (Some id).
Inductive value := Undef | Num (z : Z) | Buffer (k : kind) (b : buf).
Definition venv := nat -> value.
Definition vset (E : venv) (x : nat) (v : value) : venv := fun y => if (y =? x)%nat then v else E y.
Definition vforget (l : list nat) (E : venv) : venv := fun y => if existsb (Nat.eqb y) l then Undef else E y.
Definition share (v : value) : value := match v with Buffer k b => Buffer (Kind false (block k)) b | _ => v end.
Definition vshare (E : venv) : venv := fun y => share (E y).
Definition of_ {A} (o : option A) : res A := match o with Some a => Val a | None => UB end.

(** ** Expressions *)
Section Loops.
  Variable ev : venv -> expr -> res Z.
  Fixpoint veval_lets (l : list (nat * expr)) (E : venv) {struct l} : res venv :=
    match l with [] => Val E | (s, x) :: l' => v <- ev E x ;; veval_lets l' (vset E s (Num v)) end.
  Fixpoint veval_args (E : venv) (l : list expr) {struct l} : res (list (option Z)) :=
    match l with
    | [] => Val []
    | x :: l' => if defined x then v <- ev E x ;; vs <- veval_args E l' ;; Val (Some v :: vs) else vs <- veval_args E l' ;; Val (None :: vs)
    end.
  Fixpoint veval_at (E : venv) (n : nat) (l : list expr) {struct l} : res (list (option Z)) :=
    match l, n with
    | x :: l', S n' => if defined x then v <- ev E x ;; vs <- veval_at E n' l' ;; Val (Some v :: vs) else vs <- veval_at E n' l' ;; Val (None :: vs)
    | _, _ => Val []
    end.
  Fixpoint veval_short (E : venv) (stop : bool) (l : list expr) {struct l} : res Z :=
    match l with
    | [] => Val (of_bool (negb stop))
    | x :: l' => v <- ev E x ;; if Bool.eqb (truthy v) stop then Val (of_bool stop) else veval_short E stop l'
    end.
End Loops.

Section Value.
  Variable X : Type.
  Variable H : host X.
  (** What a call does: it is given the buffers of its inputs and outputs, and the values of its scalars. *)
  Variable call_v : nat -> list buf -> list buf -> list Z -> X -> Z * X.
  (** What a copy does: it is given the source, the destination, the padding and the coordinates in the source of an index of the destination. *)
  Variable copy_v : buf -> buf -> option buf -> (list Z -> option (list Z)) -> X -> X.
  (** The buffers of constant_buffer statements. *)
  Variable consts : Z -> option buf.

  Fixpoint veval (E : venv) (e : expr) {struct e} : res Z :=
    match e with
    | EUndef => UB
    | EConst v => Val v
    | EVar s f d =>
        match f, E s with
        | f_none, Num z => Val z
        | f_none, _ => UB
        | _, Buffer _ b => Val (field_value b f d 0)
        | _, _ => UB
        end
    | EBin o a b => va <- veval E a ;; vb <- veval E b ;; eval_bin o va vb
    | ENot a => va <- veval E a ;; Val (of_bool (va =? 0))
    | ESelect q t f => vq <- veval E q ;; if truthy vq then veval E t else veval E f
    | ELet lets body => E' <- veval_lets veval lets E ;; veval E' body
    | ECall fn target args =>
        match fn with
        | i_none => match target with
                    | None => UB
                    | Some n => vs <- veval_args veval E args ;; Val (h_user X H n vs)
                    end
        | i_positive_infinity | i_negative_infinity | i_indeterminate => UB
        | i_abs => match args with [x] => v <- veval E x ;; cabs 64 v | _ => UB end
        | i_and_then => veval_short veval E false args
        | i_or_else => veval_short veval E true args
        | i_buffer_at =>
            match args with
            | EVar s f_none _ :: at_ =>
                match E s with
                | Buffer _ b => vs <- veval_at veval E (rank b) at_ ;; Val (ptr_value (buffer_at b vs))
                | _ => UB
                end
            | _ => UB
            end
        | _ => vs <- veval_args veval E args ;; Val (h_intrinsic X H fn vs)
        end
    end.

  Definition veval_def (E : venv) (e : expr) (def : Z) : res Z := if defined e then veval E e else Val def.
  Definition vinterval (E : venv) (i : interval) : res (Z * Z) := lo <- veval E (fst i) ;; hi <- veval E (snd i) ;; Val (lo, hi).
  Definition vinterval_def (E : venv) (i : interval) (lo0 hi0 : Z) : res (Z * Z) :=
    lo <- veval_def E (fst i) lo0 ;; hi <- veval_def E (snd i) hi0 ;; Val (lo, hi).
  Definition vdim (E : venv) (auto : bool) (d : dim_expr) : res dim :=
    i <- vinterval E (de_bounds d) ;; s <- (if auto then veval_def E (de_stride d) auto_stride else veval E (de_stride d)) ;;
    f <- veval_def E (de_fold d) unfolded ;; Val (Dim (fst i) (snd i) s f).
  (** trailing broadcasts are dropped *)
  Fixpoint vdims (E : venv) (auto : bool) (l : list dim_expr) : res (list dim) :=
    match l with
    | [] => Val []
    | d :: l' => ds <- vdims E auto l' ;; x <- vdim E auto d ;; Val (match ds with [] => if is_broadcast x then [] else [x] | _ => x :: ds end)
    end.
  Fixpoint vlist (E : venv) (l : list expr) : res (list Z) :=
    match l with [] => Val [] | x :: l' => v <- veval E x ;; vs <- vlist E l' ;; Val (v :: vs) end.
  Definition vbuffer (E : venv) (x : nat) : res buf := match E x with Buffer _ b => Val b | _ => UB end.
  Fixpoint vbuffers (E : venv) (l : list nat) : res (list buf) :=
    match l with [] => Val [] | x :: l' => b <- vbuffer E x ;; bs <- vbuffers E l' ;; Val (b :: bs) end.

  (** The value of a let may be a buffer, which then has two names. *)
  Definition vlet (E : venv) (s : nat) (x : expr) : res venv :=
    match x with
    | EVar y f_none _ =>
        match E y with
        | Buffer k b => Val (vset (vset E y (Buffer (Kind false (block k)) b)) s (Buffer (Kind false (block k)) b))
        | a => Val (vset E s a)
        end
    | _ => v <- veval E x ;; Val (vset E s (Num v))
    end.
  Fixpoint vlets (l : list (nat * expr)) (E : venv) : res venv := match l with [] => Val E | (s, x) :: l' => E' <- vlet E s x ;; vlets l' E' end.
  (** what workers and tasks see of their parent *)
  Fixpoint vclosure (E : venv) (l : list (nat * expr)) (acc : venv) : res venv :=
    match l with
    | [] => Val acc
    | (s, EVar y f_none _) :: l' => vclosure E l' (vset acc s (share (E y)))
    | _ => UB
    end.
  Definition vparallel (E : venv) (closure : option (list (nat * expr))) : res venv :=
    match closure with Some l => vclosure E l (fun _ => Undef) | None => Val (vshare E) end.

  (** ** Statements *)
  (** [v_alloc]: the memory of the enclosing allocations, innermost first, 0 if there is none.  The names of buffers that cannot be made are
      not recorded in the log. *)
  Record vstate := VState { v_ext : X; v_alloc : list Z; v_log : list event }.
  Definition v_set_ext (v : vstate) (x : X) : vstate := VState x (v_alloc v) (v_log v).
  Definition v_set_alloc (v : vstate) (l : list Z) : vstate := VState (v_ext v) l (v_log v).
  Definition v_event (v : vstate) (e : event) : vstate := VState (v_ext v) (v_alloc v) (v_log v ++ [e]).
  Definition v_failed (v : vstate) : vstate := v_event v (EvFailed 0).
  Definition v_free (sym : nat) (b : buf) (p : Z) (v : vstate) : vstate := v_event (v_set_ext v (h_free X H sym b p (v_ext v))) (EvFree sym p).

  Definition vbody := vstate -> res (Z * vstate).

  (** the iterations of a loop, one after the other, until one fails *)
  Fixpoint vserial (body : Z -> vbody) (lo hi step : Z) (n : nat) (i : Z) (v : vstate) {struct n} : res (Z * vstate) :=
    if (lo <=? i) && (i <=? hi) then
      match n with
      | O => UB
      | S n' => r <- body i v ;; let '(z, v1) := r in i' <- cadd 64 i step ;; if z =? 0 then vserial body lo hi step n' i' v1 else Val (z, v1)
      end
    else Val (0, v).
  (** in the order of the schedule, also after failures *)
  Fixpoint vpar (body : Z -> vbody) (lo step : Z) (sched : list (nat * Z)) (result : Z) (v : vstate) {struct sched} : res (Z * vstate) :=
    match sched with
    | [] => Val (result, v)
    | (_, i) :: sched' =>
        t <- cmul 64 i step ;; y <- cadd 64 t lo ;;
        r <- body y v ;; let '(z, v1) := r in vpar body lo step sched' (if result =? 0 then z else result) v1
    end.

  Definition v_heap (sym : nat) (b : buf) (v : vstate) : buf * Z * vstate :=
    let '(b', p, x) := h_allocate X H sym b (v_ext v) in (b', p, v_event (v_set_ext v x) (EvAlloc sym p)).
  Definition vallocate (sym : nat) (where_ : storage) (es : Z) (dl : list dim) (body : value -> vbody) (v : vstate) : res (Z * vstate) :=
    let b := Buf None es dl in
    r <- match where_ with
         | heap => Val (Some (v_heap sym b v))
         | _ =>
             r <- init_strides b (h_stride_alignment X H) ;; let '(b', size) := r in
             match size with
             | None => Val None
             | Some n =>
                 if match where_ with stack => true | _ => n <=? h_auto_stack_threshold X H end
                 then Val (Some (Buf (Some (h_alloca X H b' n (v_ext v))) (elem_size b') (dims b'), 0, v))
                 else Val (Some (v_heap sym b' v))
             end
         end ;;
    match r with
    | None => Val (-1, v_failed v)
    | Some (b', p, v3) =>
        if alloc_fails b' then Val (-1, if p =? 0 then v_failed v3 else v_free sym b' p (v_failed v3))
        else
          r <- body (Buffer (Owner (length (v_alloc v3))) b') (v_set_alloc v3 (p :: v_alloc v3)) ;; let '(z, v4) := r in
          match v_alloc v4 with
          | p4 :: l => Val (z, v_set_alloc (if p4 =? 0 then v4 else v_free sym b' p4 v4) l)
          | [] => UB
          end
    end.

  (** the crop of all dimensions that exist *)
  Fixpoint vcrop (E : venv) (b : buf) (d : nat) (l : list interval) : res buf :=
    match l with
    | [] => Val b
    | i :: l' =>
        if (rank b <=? d)%nat then Val b
        else r <- vinterval_def E i (d_min (dim_at b d)) (d_max (dim_at b d)) ;; vcrop E (crop b d (fst r) (snd r)) (S d) l'
    end.
  (** the slice at the indices that are defined; once the base is null they are not evaluated *)
  Fixpoint vslice (E : venv) (p : ptr) (ds : list dim) (at_ : list expr) : res (ptr * list dim) :=
    match ds with
    | [] => Val (p, [])
    | d :: ds' =>
        match at_ with
        | x :: at' =>
            if defined x then
              match p with
              | None => vslice E None ds' at'
              | Some q => y <- veval E x ;; vslice E (if d_contains d y then Some (q + d_offset d y) else None) ds' at'
              end
            else r <- vslice E p ds' at' ;; Val (fst r, d :: snd r)
        | [] => Val (p, ds)
        end
    end.
  Definition vslice_dim (E : venv) (b : buf) (d : nat) (at_ : expr) : res buf :=
    if (rank b <=? d)%nat then Val b
    else
      p <- match base b with
           | None => Val None
           | Some q => y <- veval E at_ ;; Val (if d_contains (dim_at b d) y then Some (q + d_offset (dim_at b d) y) else None)
           end ;;
      Val (Buf p (elem_size b) (remove_nth (dims b) d)).
  (** Changing an object in place is defined only if nobody else sees it. *)
  Definition in_place (E : venv) (sym src : nat) : res unit :=
    if (sym =? src)%nat then match E src with Buffer (Kind false _) _ => UB | _ => Val tt end else Val tt.
  (** the coordinates of a copy *)
  Fixpoint at_values (E : venv) (xs : list nat) (idx : list Z) : venv :=
    match xs with
    | [] => E
    | x :: xs' => vset (at_values E xs' (tl idx)) x (match idx with i :: _ => Num i | [] => Undef end)
    end.
  Definition vcoords (E : venv) (dst_x : list nat) (src_x : list expr) (idx : list Z) : option (list Z) :=
    match vlist (at_values E dst_x idx) src_x with Val l => Some l | UB => None end.

  Fixpoint vexec (s : stmt) (E : venv) (v : vstate) {struct s} : res (Z * vstate) :=
    match s with
    | SUndef => UB
    | SCall t ins outs sc =>
        bi <- vbuffers E ins ;; bo <- vbuffers E outs ;; vs <- vlist E sc ;;
        let '(z, x) := call_v t bi bo vs (v_ext v) in Val (z, v_event (v_set_ext v x) (EvCall t z))
    | SCopy src src_x dst dst_x pad =>
        bs <- vbuffer E src ;; bd <- vbuffer E dst ;;
        bp <- match pad with Some p => b <- vbuffer E p ;; Val (Some b) | None => Val None end ;;
        Val (0, v_set_ext v (copy_v bs bd bp (vcoords E dst_x src_x) (v_ext v)))
    | SLet l body _ => E' <- vlets l E ;; vexec body E' v
    | SBlock l =>
        (fix go (l : list stmt) (E : venv) (v : vstate) {struct l} : res (Z * vstate) :=
           match l with
           | [] => Val (0, v)
           | x :: l' => r <- vexec x E v ;; let '(z, v1) := r in if z =? 0 then go l' (vforget (async_syms x) E) v1 else Val (z, v1)
           end) l E v
    | SLoop sym workers bounds step body =>
        k <- veval E workers ;; i <- vinterval E bounds ;; stp <- veval_def E step 1 ;;
        let '(lo, hi) := i in
        if stp =? 0 then UB
        else if 1 <? k then
          n <- par_count lo hi stp ;;
          if n =? 0 then Val (0, v)
          else
            E1 <- vparallel E (as_closure body) ;;
            let inner := match body with SLet _ b true => vexec b | _ => vexec body end in
            if n =? 1 then inner (vset (vforget (async_syms body) E1) sym (Num lo)) v
            else if h_pool X H then vpar (fun y => inner (vset (vforget (async_syms body) E1) sym (Num y))) lo stp (h_schedule X H n k (v_ext v)) 0 v
            else UB
        else vserial (fun y => vexec body (vset (vforget (async_syms body) E) sym (Num y))) lo hi stp (Z.to_nat (hi - lo + 1)) lo v
    | SAllocate sym w elem ds body =>
        es <- veval E elem ;; dl <- vdims E true ds ;; vallocate sym w es dl (fun b => vexec body (vset E sym b)) v
    | SMake sym b elem ds body =>
        es <- veval_def E elem 0 ;; p <- veval_def E b 0 ;; dl <- vdims E false ds ;;
        let b := Buf (ptr_of p) es dl in
        if validate_buffer b then vexec body (vset E sym (Buffer Own b)) v else Val (-1, v_failed v)
    | SConst sym p body => b <- of_ (consts p) ;; vexec body (vset E sym (Buffer Shared b)) v
    | SClone sym src body => b <- vbuffer E src ;; vexec body (vset E sym (Buffer Own b)) v
    | SCropBuffer sym src l body => b <- vbuffer E src ;; _ <- in_place E sym src ;; b' <- vcrop E b 0 l ;; vexec body (vset E sym (Buffer Own b')) v
    | SCropDim sym src d i body =>
        b <- vbuffer E src ;; _ <- in_place E sym src ;;
        r <- vinterval_def E i (d_min (dim_at b d)) (d_max (dim_at b d)) ;; vexec body (vset E sym (Buffer Own (crop b d (fst r) (snd r)))) v
    | SSliceBuffer sym src at_ body =>
        b <- vbuffer E src ;; r <- vslice E (base b) (dims b) at_ ;; vexec body (vset E sym (Buffer Own (Buf (fst r) (elem_size b) (snd r)))) v
    | SSliceDim sym src d at_ body => b <- vbuffer E src ;; b' <- vslice_dim E b d at_ ;; vexec body (vset E sym (Buffer Own b')) v
    | STranspose sym src p body =>
        b <- vbuffer E src ;;
        if (sym =? src)%nat && is_truncate p then
          if (rank b <? length p)%nat then UB
          else _ <- in_place E sym src ;; vexec body (vset E sym (Buffer Own (Buf (base b) (elem_size b) (firstn (length p) (dims b))))) v
        else vexec body (vset E sym (Buffer Own (transpose b p))) v
    | SAsync sym task body =>
        let gone := match sym with Some s => [s] | None => [] end in
        let run_task := match task with SLet _ b true => vexec b | _ => vexec task end in
        let run_body := match body with SLet _ b true => vexec b | _ => vexec body end in
        Et <- vparallel (vforget gone E) (as_closure task) ;;
        let body_env := fun h => vparallel (match sym with Some s => vset E s (Num h) | None => E end) (as_closure body) in
        if h_pool X H then
          Eb <- body_env (h_task_handle X H (v_ext v)) ;;
          if h_task_first X H (v_ext v) then
            r <- run_task Et v ;; let '(t, v1) := r in r <- run_body Eb v1 ;; let '(z, v2) := r in Val (if t =? 0 then z else t, v2)
          else
            r <- run_body Eb v ;; let '(z, v1) := r in r <- run_task Et v1 ;; let '(t, v2) := r in Val (if t =? 0 then z else t, v2)
        else
          Eb <- body_env 0 ;;
          r <- run_task Et v ;; let '(t, v1) := r in r <- run_body Eb v1 ;; let '(z, v2) := r in Val (if t =? 0 then z else t, v2)
    | SCheck c =>
        match c with
        | ECall i_free _ [EVar s f_none _] =>
            match E s with
            | Buffer (Kind _ (Some id)) b =>
                p <- of_ (nth_error (rev (v_alloc v)) id) ;;
                let v1 := v_free s b p v in
                Val (0, v_set_alloc v1 (rev (set_nth (rev (v_alloc v1)) id 0)))
            | _ => UB
            end
        | _ => y <- veval E c ;; if y =? 0 then Val (1, v_event v EvCheckFailed) else Val (0, v)
        end
    end.
End Value.

(** ** How the evaluator's state represents values *)
(** [c] and the objects [m] give the symbols their values. *)
Definition sees (E : venv) (m : Z -> option buf) (c : context) : Prop :=
  forall x, match E x with Undef => True | Num z => c x = z | Buffer _ b => m (c x) = Some b end.
(** the log without the names of the buffers that could not be made *)
Definition unnamed (e : event) : event := match e with EvFailed _ => EvFailed 0 | _ => e end.

Section Represents.
  Variable X : Type.
  Variable H : host X.
  Variable consts : Z -> option buf.
  Definition outside (v : vstate X) (st : state X) : Prop :=
    v_ext X v = s_ext X st /\ v_alloc X v = map snd (s_alloc X st) /\ v_log X v = map unnamed (s_log X st).
  Record represents (E : venv) (v : vstate X) (st : state X) : Prop := {
    rp_sees : sees E (s_buf X st) (s_ctx X st);
    (* an object that only its symbol can see has no other name, and is not a constant *)
    rp_own : forall x k b, E x = Buffer k b -> alone k = true ->
      consts (s_ctx X st x) = None /\ forall y k' b', E y = Buffer k' b' -> s_ctx X st y = s_ctx X st x -> y = x;
    rp_owner : forall x k id b, E x = Buffer k b -> block k = Some id -> nth_error (rev (map fst (s_alloc X st))) id = Some (s_ctx X st x);
    rp_consts : forall p b, consts p = Some b -> s_buf X st p = Some b;
    rp_keys : NoDup (map fst (s_alloc X st));
    rp_outside : outside v st }.

  (** The functions that calls call only look at the buffers and scalars that they are given, not at names and addresses. *)
  Definition calls_by_value (call_v : nat -> list buf -> list buf -> list Z -> X -> Z * X) : Prop :=
    forall t ins outs sc c m x bi bo vs,
      Forall2 (fun y b => m (c y) = Some b) ins bi -> Forall2 (fun y b => m (c y) = Some b) outs bo ->
      Forall2 (fun e z => exists c', eval (World m (h_user X H) (h_intrinsic X H)) c e = Val (z, c')) sc vs ->
      h_call X H t ins outs sc c m x = call_v t bi bo vs x.
End Represents.

(** The statements to which the value semantics applies: all scalars of calls bind distinct symbols, copies have been implemented, closures only hand on symbols under their own names, and the
    bounds of an in-place crop_buffer do not use the buffer (only the first dimension's may: the others see what was already changed). *)
Fixpoint by_value (s : stmt) : Prop :=
  match s with
  | SUndef | SCheck _ => True
  | SCopy _ _ _ _ _ => False
  | SCall _ _ _ sc => Forall lets_distinct sc
  | SLet l b c => (c = true -> plain_closure l) /\ by_value b
  | SLoop _ _ _ _ b | SAllocate _ _ _ _ b | SMake _ _ _ _ b | SConst _ _ b | SClone _ _ b
  | STranspose _ _ _ b | SCropDim _ _ _ _ b | SSliceBuffer _ _ _ b | SSliceDim _ _ _ _ b => by_value b
  | SCropBuffer sym src l b => (sym = src -> Forall (fun i => ~ free sym (fst i) /\ ~ free sym (snd i)) (tl l)) /\ by_value b
  | SBlock l => (fix go (l : list stmt) := match l with [] => True | x :: l' => by_value x /\ go l' end) l
  | SAsync _ t b => by_value t /\ by_value b
  end.
