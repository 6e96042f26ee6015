(** Statements (slinky/runtime/stmt.h) and their evaluation (slinky/runtime/evaluate.cc).

    Simplifications, beside those of Expr_Model:
    - The raw_buffer objects the evaluator puts on its stack get new addresses 1, 2, ...
      that are never reused; using an object after its statement ended is undefined
      behaviour.
    - The iterations of a parallel loop run one after the other, in an arbitrary order
      on arbitrary workers ([h_schedule]); the task of an async runs as a whole before
      or after its body ([h_task_first]).  The thread pool itself is Pool_Model.
    - A call may change anything outside the evaluator ([X]), but not the context and
      not the raw_buffer objects.
    - The free intrinsic has its effect when it is the condition of a check; elsewhere,
      like the other intrinsics with effects, it is an opaque value. *)
From Coq Require Import ZArith List Bool.
From Verif Require Import Arith_Model Buf_Model Alloc_Model Expr_Model.
Import ListNotations.
Open Scope Z_scope.

(** stmt.h:34-40 *)
Inductive storage := automatic | stack | heap.
(** expr.h:300-345, buffer.h dim_expr: bounds, stride, fold factor *)
Definition interval := (expr * expr)%type.
Record dim_expr := DimE { de_bounds : interval; de_stride : expr; de_fold : expr }.

(** stmt.h:120-430.  The target of a call_stmt is the identity of its std::function. *)
Inductive stmt :=
| SUndef
| SCall (target : nat) (inputs outputs : list nat) (scalars : list expr)
| SCopy (src : nat) (src_x : list expr) (dst : nat) (dst_x : list nat) (pad : option nat)
| SLet (lets : list (nat * expr)) (body : stmt) (is_closure : bool)
| SBlock (l : list stmt)
| SLoop (sym : nat) (max_workers : expr) (bounds : interval) (step : expr) (body : stmt)
| SAllocate (sym : nat) (where_ : storage) (elem : expr) (ds : list dim_expr) (body : stmt)
| SMake (sym : nat) (base_ elem : expr) (ds : list dim_expr) (body : stmt)
| SConst (sym : nat) (value : Z) (body : stmt)
| SClone (sym src : nat) (body : stmt)
| SCropBuffer (sym src : nat) (bounds : list interval) (body : stmt)
| SCropDim (sym src : nat) (d : nat) (bounds : interval) (body : stmt)
| SSliceBuffer (sym src : nat) (at_ : list expr) (body : stmt)
| SSliceDim (sym src : nat) (d : nat) (at_ : expr) (body : stmt)
| STranspose (sym src : nat) (p : list nat) (body : stmt)
| SAsync (sym : option nat) (task body : stmt)
| SCheck (condition : expr).

Definition sdefined (s : stmt) : bool := match s with SUndef => false | _ => true end.

(** ** block::make, expr_stmt.cc:463-519 *)
Fixpoint flatten_blocks (v : list stmt) : list stmt :=
  match v with
  | [] => []
  | SBlock l :: v' => l ++ flatten_blocks v'
  | s :: v' => s :: flatten_blocks v'
  end.
Definition erase_undefs (v : list stmt) : list stmt := filter sdefined v.
Definition block_make (v : list stmt) : stmt :=
  match erase_undefs (flatten_blocks v) with
  | [] => SUndef
  | [s] => s
  | l => SBlock l
  end.
Definition block_make2 (a b : stmt) : stmt :=
  if negb (sdefined a) then b else if negb (sdefined b) then a else block_make [a; b].
Definition block_make_tail (v : list stmt) (t : stmt) : stmt := block_make (v ++ [t]).

(** ** validate_buffer, buffer.cc:485-510; uintptr_t arithmetic *)
Definition validate_buffer (b : buf) : bool :=
  match calculate_flat_bounds (dims b) with
  | None => false
  | Some (lo, hi) =>
      match base b with
      | None => true
      | Some p =>
          let lo_abs := (- lo) mod 2 ^ 64 in
          if p mod 2 ^ 64 <? lo_abs then false
          else let '(o, m) := uadd_with_overflow (hi mod 2 ^ 64) (elem_size b mod 2 ^ 64) in
               if o then false
               else let '(o, _) := uadd_with_overflow (p mod 2 ^ 64) m in negb o
      end
  end.

(** What is observed from outside. *)
Inductive event :=
| EvCall (target : nat) (result : Z)     (* a call returned *)
| EvCheckFailed                          (* check_failed was called *)
| EvFailed (sym : nat)                   (* "allocate of ... failed", "make_buffer of ... failed" *)
| EvAlloc (sym : nat) (p : Z)            (* config->allocate returned p *)
| EvFree (sym : nat) (p : Z).            (* config->free was given p *)

Section Evaluate.
  (** everything outside the evaluator *)
  Variable X : Type.

  Record state := State {
    s_ctx : context;
    s_buf : Z -> option buf;         (* the raw_buffer objects *)
    s_next : Z;                      (* the next new address *)
    s_alloc : list (Z * Z);          (* allocated_buffer::allocation by address, 0 is null *)
    s_ext : X;
    s_log : list event }.

  (** evaluate.h:15-46 (eval_config) and the choices of the scheduler *)
  Record host := Host {
    h_user : nat -> list (option Z) -> Z;
    h_intrinsic : intrinsic -> list (option Z) -> Z;
    h_call : nat -> list nat -> list nat -> list expr -> context -> (Z -> option buf) -> X -> Z * X;   (* a callable is given the call_stmt, stmt.h:130 *)
    h_allocate : nat -> buf -> X -> buf * Z * X;
    h_free : nat -> buf -> Z -> X -> X;
    h_alloca : buf -> Z -> X -> Z;   (* where SLINKY_ALLOCA puts that many bytes *)
    h_pool : bool;                   (* config->thread_pool is not null *)
    h_schedule : Z -> Z -> X -> list (nat * Z);   (* (worker, i): the order of n iterations on at most k workers *)
    h_task_first : X -> bool;
    h_task_handle : X -> Z;
    h_junk : nat -> Z;               (* uninitialized memory *)
    h_base_alignment : Z;
    h_stride_alignment : Z;
    h_auto_stack_threshold : Z }.
  Variable H : host.

  Definition world_of (st : state) : world := World (s_buf st) (h_user H) (h_intrinsic H).
  Definition set_ctx (st : state) (c : context) : state := State c (s_buf st) (s_next st) (s_alloc st) (s_ext st) (s_log st).
  Definition set_buf (st : state) (a : Z) (b : option buf) : state :=
    State (s_ctx st) (fun p => if p =? a then b else s_buf st p) (s_next st) (s_alloc st) (s_ext st) (s_log st).
  Definition set_next (st : state) (n : Z) : state := State (s_ctx st) (s_buf st) n (s_alloc st) (s_ext st) (s_log st).
  Definition set_alloc (st : state) (l : list (Z * Z)) : state := State (s_ctx st) (s_buf st) (s_next st) l (s_ext st) (s_log st).
  Definition set_ext (st : state) (x : X) : state := State (s_ctx st) (s_buf st) (s_next st) (s_alloc st) x (s_log st).
  Definition log (st : state) (e : event) : state :=
    State (s_ctx st) (s_buf st) (s_next st) (s_alloc st) (s_ext st) (s_log st ++ [e]).

  Definition exec_t := state -> res (Z * state).

  (** expressions *)
  Definition ev (st : state) (e : expr) : res (Z * state) :=
    r <- eval (world_of st) (s_ctx st) e ;; let '(v, c) := r in Val (v, set_ctx st c).
  (** evaluate.cc:117-123 *)
  Definition ev_def (st : state) (e : expr) (def : Z) : res (Z * state) := if defined e then ev st e else Val (def, st).
  (** evaluate.cc:125-142.  If the interval is a point (the same node twice) the code
      evaluates it once. *)
  Definition ev_interval (st : state) (x : interval) : res (Z * Z * state) :=
    r <- ev st (fst x) ;; let '(lo, st1) := r in
    r <- ev st1 (snd x) ;; let '(hi, st2) := r in Val (lo, hi, st2).
  Definition ev_interval_def (st : state) (x : interval) (lo0 hi0 : Z) : res (Z * Z * state) :=
    r <- ev_def st (fst x) lo0 ;; let '(lo, st1) := r in
    r <- ev_def st1 (snd x) hi0 ;; let '(hi, st2) := r in Val (lo, hi, st2).

  (** evaluate.cc:363-370 *)
  Definition with_value (sym : nat) (v : Z) (body : exec_t) (st : state) : res (Z * state) :=
    let old := s_ctx st sym in
    r <- body (set_ctx st (ctx_set (s_ctx st) sym v)) ;;
    let '(z, st1) := r in Val (z, set_ctx st1 (ctx_set (s_ctx st1) sym old)).

  (** a raw_buffer on the evaluator's stack, named [sym] in the body *)
  Definition with_object (sym : nat) (b : buf) (body : exec_t) (st : state) : res (Z * state) :=
    let a := s_next st in
    r <- with_value sym a body (set_next (set_buf st a (Some b)) (a + 1)) ;;
    let '(z, st1) := r in Val (z, set_buf st1 a None).

  (** evaluate.cc:393-414 *)
  Fixpoint ev_lets (l : list (nat * expr)) (st : state) {struct l} : res (state * list (nat * Z)) :=
    match l with
    | [] => Val (st, [])
    | (s, x) :: l' =>
        rx <- ev st x ;; let '(v, st1) := rx in
        r <- ev_lets l' (set_ctx st1 (ctx_set (s_ctx st1) s v)) ;; let '(st2, old) := r in
        Val (st2, (s, s_ctx st1 s) :: old)
    end.
  Definition with_lets (l : list (nat * expr)) (body : exec_t) (st : state) : res (Z * state) :=
    r <- ev_lets l st ;; let '(st1, old) := r in
    r <- body st1 ;; let '(z, st2) := r in
    Val (z, set_ctx st2 (restore_all (s_ctx st2) old)).

  (** evaluate.cc:424-447 *)
  Fixpoint init_closure (parent : context) (exclude : option nat) (l : list (nat * expr)) (c : context) : res context :=
    match l with
    | [] => Val c
    | (s, x) :: l' =>
        if match exclude with Some e => Nat.eqb s e | None => false end then init_closure parent exclude l' c
        else match x with
             | EVar src f_none _ => init_closure parent exclude l' (ctx_set c s (parent src))
             | _ => UB
             end
    end.
  Definition init_context (parent : context) (closure : option (list (nat * expr))) (exclude : option nat) : res context :=
    match closure with
    | Some l => init_closure parent exclude l (h_junk H)
    | None => Val parent
    end.
  (** evaluate.cc:58-61 *)
  Definition as_closure (s : stmt) : option (list (nat * expr)) :=
    match s with SLet l _ true => Some l | _ => None end.

  (** evaluate.cc:501-521.  [n] is a bound on the number of iterations. *)
  Fixpoint serial_loop (sym : nat) (body : exec_t) (lo hi step : Z) (n : nat) (i : Z) (st : state) {struct n} : res (Z * state) :=
    if (lo <=? i) && (i <=? hi) then
      match n with
      | O => UB
      | S n' =>
          r <- body (set_ctx st (ctx_set (s_ctx st) sym i)) ;; let '(z, st1) := r in
          i' <- cadd 64 i step ;;
          if z =? 0 then serial_loop sym body lo hi step n' i' st1 else Val (z, st1)
      end
    else Val (0, st).
  (** evaluate.cc:449-453: the number of iterations, a size_t *)
  Definition par_count (lo hi step : Z) : res Z :=
    d <- csub 64 hi lo ;; e <- cadd 64 d 1 ;; n <- ceil_div 64 e step ;; Val (n mod 2 ^ 64).
  (** evaluate.cc:480-499; [wc] holds the contexts of the workers that have started *)
  Fixpoint par_loop (sym : nat) (body : exec_t) (parent : context) (closure : option (list (nat * expr))) (lo step : Z)
      (sched : list (nat * Z)) (wc : nat -> option context) (result : Z) (st : state) {struct sched} : res (Z * state) :=
    match sched with
    | [] => Val (result, st)
    | (w, i) :: sched' =>
        c <- match wc w with Some c => Val c | None => init_context parent closure (Some sym) end ;;
        t <- cmul 64 i step ;; v <- cadd 64 t lo ;;
        r <- body (set_ctx st (ctx_set c sym v)) ;; let '(z, st1) := r in
        par_loop sym body parent closure lo step sched' (fun k => if (k =? w)%nat then Some (s_ctx st1) else wc k)
          (if result =? 0 then z else result) st1
    end.

  (** evaluate.cc:533-541 *)
  Definition with_new_context (closure : option (list (nat * expr))) (body : exec_t) (st : state) : res (Z * state) :=
    c <- init_context (s_ctx st) closure None ;;
    r <- body (set_ctx st c) ;; let '(z, st1) := r in Val (z, set_ctx st1 (s_ctx st)).

  (** evaluate.cc:595-614 and 660-678: the dimensions, evaluated from the last; the
      trailing broadcasts are dropped *)
  Fixpoint ev_dims (auto : bool) (l : list dim_expr) (st : state) {struct l} : res (list dim * state) :=
    match l with
    | [] => Val ([], st)
    | d :: l' =>
        r <- ev_dims auto l' st ;; let '(ds, st1) := r in
        r <- ev_interval st1 (de_bounds d) ;; let '(lo, hi, st2) := r in
        r <- (if auto then ev_def st2 (de_stride d) auto_stride else ev st2 (de_stride d)) ;; let '(s, st3) := r in
        r <- ev_def st3 (de_fold d) unfolded ;; let '(f, st4) := r in
        let x := Dim lo hi s f in
        Val (match ds with [] => if is_broadcast x then [] else [x] | _ => x :: ds end, st4)
    end.

  (** evaluate.cc:586-645; the outcome before the body: the buffer and its allocation,
      or failure *)
  Definition alloc_fails (b : buf) : bool :=
    match base b with Some _ => false | None => 0 <? elem_count b end.
  Fixpoint lookup_alloc (l : list (Z * Z)) (a : Z) : option Z :=
    match l with [] => None | (k, p) :: l' => if k =? a then Some p else lookup_alloc l' a end.
  Fixpoint clear_alloc (l : list (Z * Z)) (a : Z) : list (Z * Z) :=
    match l with [] => [] | (k, p) :: l' => if k =? a then (k, 0) :: l' else (k, p) :: clear_alloc l' a end.
  Fixpoint remove_alloc (l : list (Z * Z)) (a : Z) : list (Z * Z) :=
    match l with [] => [] | (k, p) :: l' => if k =? a then l' else (k, p) :: remove_alloc l' a end.
  Definition free_buffer (sym : nat) (b : buf) (p : Z) (st : state) : state :=
    log (set_ext st (h_free H sym b p (s_ext st))) (EvFree sym p).
  Definition heap_allocate (sym : nat) (b : buf) (st : state) : buf * Z * state :=
    let '(b', p, x) := h_allocate H sym b (s_ext st) in (b', p, log (set_ext st x) (EvAlloc sym p)).
  Definition exec_allocate (sym : nat) (where_ : storage) (elem : expr) (ds : list dim_expr) (body : exec_t) (st : state) : res (Z * state) :=
    r <- ev st elem ;; let '(es, st1) := r in
    r <- ev_dims true ds st1 ;; let '(dl, st2) := r in
    let b := Buf None es dl in
    r <- match where_ with
         | heap => Val (Some (heap_allocate sym b st2))
         | _ =>
             r <- init_strides b (h_stride_alignment H) ;; let '(b', size) := r in
             match size with
             | None => Val None
             | Some n =>
                 if match where_ with stack => true | _ => n <=? h_auto_stack_threshold H end
                 then Val (Some (Buf (Some (h_alloca H b' n (s_ext st2))) (elem_size b') (dims b'), 0, st2))
                 else Val (Some (heap_allocate sym b' st2))
             end
         end ;;
    match r with
    | None => Val (-1, log st2 (EvFailed sym))
    | Some (b', p, st3) =>
        if alloc_fails b' then
          let st4 := log st3 (EvFailed sym) in
          Val (-1, if p =? 0 then st4 else free_buffer sym b' p st4)
        else
          let a := s_next st3 in
          r <- with_value sym a body (set_alloc (set_next (set_buf st3 a (Some b')) (a + 1)) ((a, p) :: s_alloc st3)) ;;
          let '(z, st4) := r in
          match s_buf st4 a, lookup_alloc (s_alloc st4) a with
          | Some b4, Some p4 =>
              let st5 := if p4 =? 0 then st4 else free_buffer sym b4 p4 st4 in
              Val (z, set_alloc (set_buf st5 a None) (remove_alloc (s_alloc st5) a))
          | _, _ => UB
          end
    end.

  Definition lookup_buffer (st : state) (s : nat) : res buf :=
    match s_buf st (s_ctx st s) with Some b => Val b | None => UB end.

  (** evaluate.cc:650-691 *)
  Definition ptr_of (z : Z) : ptr := if z =? 0 then None else Some z.
  Definition exec_make (sym : nat) (base_ elem : expr) (ds : list dim_expr) (body : exec_t) (st : state) : res (Z * state) :=
    r <- ev_def st elem 0 ;; let '(es, st1) := r in
    r <- ev_def st1 base_ 0 ;; let '(p, st2) := r in
    r <- ev_dims false ds st2 ;; let '(dl, st3) := r in
    let b := Buf (ptr_of p) es dl in
    if validate_buffer b then with_object sym b body st3 else Val (-1, log st3 (EvFailed sym)).

  (** evaluate.cc:718-730 and 749-757: crop the dimensions from [d] on; the buffer is
      the object at [a] *)
  Fixpoint crop_in_place (a : Z) (d : nat) (l : list interval) (st : state) {struct l} : res (list (Z * Z) * state) :=
    match l with
    | [] => Val ([], st)
    | x :: l' =>
        match s_buf st a with
        | None => UB
        | Some b =>
            if (rank b <=? d)%nat then Val ([], st)
            else
              let dd := dim_at b d in
              r <- ev_interval_def st x (d_min dd) (d_max dd) ;; let '(lo, hi, st1) := r in
              let st2 := set_buf st1 a (Some (crop b d lo hi)) in
              r <- crop_in_place a (S d) l' st2 ;; let '(old, st3) := r in
              Val ((d_min dd, d_max dd) :: old, st3)
        end
    end.
  (** the unshadowed crop works on a clone that no expression can see *)
  Fixpoint crop_clone (b : buf) (d : nat) (l : list interval) (st : state) {struct l} : res (buf * state) :=
    match l with
    | [] => Val (b, st)
    | x :: l' =>
        if (rank b <=? d)%nat then Val (b, st)
        else
          let dd := dim_at b d in
          r <- ev_interval_def st x (d_min dd) (d_max dd) ;; let '(lo, hi, st1) := r in
          crop_clone (crop b d lo hi) (S d) l' st1
    end.
  Fixpoint restore_bounds (ds : list dim) (d : nat) (old : list (Z * Z)) : list dim :=
    match old with
    | [] => ds
    | (lo, hi) :: old' => restore_bounds (set_nth ds d (set_bounds (nth d ds broadcast) lo hi)) (S d) old'
    end.
  (** evaluate.cc:710-740 *)
  Definition exec_crop_shadowed (sym : nat) (bounds : list interval) (body : exec_t) (st : state) : res (Z * state) :=
    let a := s_ctx st sym in
    b0 <- lookup_buffer st sym ;;
    r <- crop_in_place a 0 bounds st ;; let '(old, st1) := r in
    r <- body st1 ;; let '(z, st2) := r in
    match s_buf st2 a with
    | None => UB
    | Some b2 => Val (z, set_buf st2 a (Some (Buf (base b0) (elem_size b2) (restore_bounds (dims b2) 0 old))))
    end.
  (** evaluate.cc:742-759 *)
  Definition exec_crop_unshadowed (sym src : nat) (bounds : list interval) (body : exec_t) (st : state) : res (Z * state) :=
    b <- lookup_buffer st src ;;
    r <- crop_clone b 0 bounds st ;; let '(b', st1) := r in
    with_object sym b' body st1.
  (** evaluate.cc:761-784 *)
  Definition exec_crop_dim_shadowed (sym d : nat) (x : interval) (body : exec_t) (st : state) : res (Z * state) :=
    let a := s_ctx st sym in
    b0 <- lookup_buffer st sym ;;
    if (rank b0 <=? d)%nat then body st
    else
      let dd := dim_at b0 d in
      r <- ev_interval_def st x (d_min dd) (d_max dd) ;; let '(lo, hi, st1) := r in
      r <- body (set_buf st1 a (Some (crop b0 d lo hi))) ;; let '(z, st2) := r in
      match s_buf st2 a with
      | None => UB
      | Some b2 => Val (z, set_buf st2 a (Some (Buf (base b0) (elem_size b2)
                                    (set_nth (dims b2) d (set_bounds (nth d (dims b2) broadcast) (d_min dd) (d_max dd))))))
      end.
  (** evaluate.cc:786-802 *)
  Definition exec_crop_dim_unshadowed (sym src d : nat) (x : interval) (body : exec_t) (st : state) : res (Z * state) :=
    b <- lookup_buffer st src ;;
    let dd := dim_at b d in
    r <- ev_interval_def st x (d_min dd) (d_max dd) ;; let '(lo, hi, st1) := r in
    with_object sym (crop b d lo hi) body st1.

  (** evaluate.cc:812-840: an index is evaluated only while the base is not null *)
  Fixpoint slice_loop (p : ptr) (ds : list dim) (at_ : list expr) (st : state) {struct ds} : res (ptr * list dim * state) :=
    match ds with
    | [] => Val (p, [], st)
    | d :: ds' =>
        match at_ with
        | x :: at' =>
            if defined x then
              match p with
              | None => slice_loop None ds' at' st
              | Some q =>
                  r <- ev st x ;; let '(v, st1) := r in
                  slice_loop (if d_contains d v then Some (q + d_offset d v) else None) ds' at' st1
              end
            else r <- slice_loop p ds' at' st ;; let '(q, l, st1) := r in Val (q, d :: l, st1)
        | [] => Val (p, ds, st)
        end
    end.
  Definition exec_slice (sym src : nat) (at_ : list expr) (body : exec_t) (st : state) : res (Z * state) :=
    b <- lookup_buffer st src ;;
    r <- slice_loop (base b) (dims b) at_ st ;; let '(p, ds, st1) := r in
    with_object sym (Buf p (elem_size b) ds) body st1.
  (** evaluate.cc:842-875 *)
  Definition exec_slice_dim (sym src d : nat) (at_ : expr) (body : exec_t) (st : state) : res (Z * state) :=
    b <- lookup_buffer st src ;;
    if (rank b <=? d)%nat then with_object sym b body st
    else
      r <- match base b with
           | None => Val (None, st)
           | Some q => r <- ev st at_ ;; let '(v, st1) := r in
                       Val (if d_contains (dim_at b d) v then Some (q + d_offset (dim_at b d) v) else None, st1)
           end ;; let '(p, st1) := r in
      with_object sym (Buf p (elem_size b) (remove_nth (dims b) d)) body st1.

  (** expr_stmt.cc:620-625 *)
  Definition is_truncate (p : list nat) : bool := forallb (fun x => Nat.eqb (fst x) (snd x)) (combine p (seq 0 (length p))).
  (** evaluate.cc:877-911.  UB: the in-place truncation of a buffer of a smaller rank
      uses dimensions that do not exist. *)
  Definition exec_transpose (sym src : nat) (p : list nat) (body : exec_t) (st : state) : res (Z * state) :=
    let a := s_ctx st src in
    b <- lookup_buffer st src ;;
    if (sym =? src)%nat && is_truncate p then
      if (rank b <? length p)%nat then UB
      else
        r <- body (set_buf st a (Some (Buf (base b) (elem_size b) (firstn (length p) (dims b))))) ;; let '(z, st1) := r in
        match s_buf st1 a with
        | None => UB
        | Some b1 => Val (z, set_buf st1 a (Some (Buf (base b1) (elem_size b1) (dims b1 ++ skipn (length p) (dims b)))))
        end
    else with_object sym (transpose b p) body st.

  (** evaluate.cc:289-296, 905-919; [EVar s] is the argument of free *)
  Definition exec_check (c : expr) (st : state) : res (Z * state) :=
    match c with
    | ECall i_free _ [EVar s f_none _] =>
        let a := s_ctx st s in
        match s_buf st a, lookup_alloc (s_alloc st) a with
        | Some b, Some p => let st1 := free_buffer s b p st in Val (0, set_alloc st1 (clear_alloc (s_alloc st1) a))
        | _, _ => UB
        end
    | _ => r <- ev st c ;; let '(v, st1) := r in
           if v =? 0 then Val (1, log st1 EvCheckFailed) else Val (0, st1)
    end.

  (** evaluate.cc:353-391, 416-422, 523-531, 543-584 *)
  Fixpoint exec (s : stmt) (st : state) {struct s} : res (Z * state) :=
    match s with
    | SUndef => UB
    | SCall t ins outs sc =>
        let '(z, x) := h_call H t ins outs sc (s_ctx st) (s_buf st) (s_ext st) in
        Val (z, log (set_ext st x) (EvCall t z))
    | SCopy _ _ _ _ _ => UB
    | SLet l body _ => with_lets l (exec body) st
    | SBlock l =>
        (fix go (l : list stmt) (st : state) {struct l} : res (Z * state) :=
           match l with
           | [] => Val (0, st)
           | x :: l' => r <- exec x st ;; let '(z, st1) := r in if z =? 0 then go l' st1 else Val (z, st1)
           end) l st
    | SLoop sym workers bounds step body =>
        r <- ev st workers ;; let '(k, st0) := r in
        r <- ev_interval st0 bounds ;; let '(lo, hi, st1) := r in
        r <- ev_def st1 step 1 ;; let '(stp, st2) := r in
        if stp =? 0 then UB
        else if 1 <? k then
          n <- par_count lo hi stp ;;
          if n =? 0 then Val (0, st2)
          else if n =? 1 then with_value sym lo (exec body) st2
          else if h_pool H then
            let inner := match body with SLet _ b true => exec b | _ => exec body end in
            r <- par_loop sym inner (s_ctx st2) (as_closure body) lo stp (h_schedule H n k (s_ext st2)) (fun _ => None) 0 st2 ;;
            let '(z, st3) := r in Val (z, set_ctx st3 (s_ctx st2))
          else UB
        else
          let old := s_ctx st2 sym in
          r <- serial_loop sym (exec body) lo hi stp (Z.to_nat (hi - lo + 1)) lo (set_ctx st2 (ctx_set (s_ctx st2) sym 0)) ;;
          let '(z, st3) := r in Val (z, set_ctx st3 (ctx_set (s_ctx st3) sym old))
    | SAllocate sym w elem ds body => exec_allocate sym w elem ds (exec body) st
    | SMake sym b elem ds body => exec_make sym b elem ds (exec body) st
    | SConst sym v body => with_value sym v (exec body) st
    | SClone sym src body => b <- lookup_buffer st src ;; with_object sym b (exec body) st
    | SCropBuffer sym src l body =>
        if (sym =? src)%nat then exec_crop_shadowed sym l (exec body) st else exec_crop_unshadowed sym src l (exec body) st
    | SCropDim sym src d x body =>
        if (sym =? src)%nat then exec_crop_dim_shadowed sym d x (exec body) st else exec_crop_dim_unshadowed sym src d x (exec body) st
    | SSliceBuffer sym src at_ body => exec_slice sym src at_ (exec body) st
    | SSliceDim sym src d at_ body => exec_slice_dim sym src d at_ (exec body) st
    | STranspose sym src p body => exec_transpose sym src p (exec body) st
    | SAsync sym task body =>
        let run_task := match task with SLet _ b true => exec b | _ => exec task end in
        let run_body := match body with SLet _ b true => exec b | _ => exec body end in
        let set_sym := fun st v => match sym with Some s => set_ctx st (ctx_set (s_ctx st) s v) | None => st end in
        if h_pool H then
          let hd := h_task_handle H (s_ext st) in
          if h_task_first H (s_ext st) then
            r <- with_new_context (as_closure task) run_task st ;; let '(t, st1) := r in
            r <- with_new_context (as_closure body) run_body (set_sym st1 hd) ;; let '(z, st2) := r in
            Val (if t =? 0 then z else t, set_sym st2 0)
          else
            r <- with_new_context (as_closure body) run_body (set_sym st hd) ;; let '(z, st1) := r in
            r <- with_new_context (as_closure task) run_task (set_sym st1 0) ;; let '(t, st2) := r in
            Val (if t =? 0 then z else t, st2)
        else
          r <- with_new_context (as_closure task) run_task st ;; let '(t, st1) := r in
          r <- with_new_context (as_closure body) run_body (set_sym st1 0) ;; let '(z, st2) := r in
          Val (if t =? 0 then z else t, set_sym st2 0)
    | SCheck c => exec_check c st
    end.
End Evaluate.
