(** The rewrite engine of the simplifier (slinky/builder/rewrite.h).

    In C++ patterns are types and everything about their shape is resolved by templates;
    here a pattern is a tree and the same decisions are functions of the tree.  Only
    the printing functions are left out. *)
From Coq Require Import ZArith List Bool.
From Verif Require Import Arith_Model Expr_Model Match_Model.
Import ListNotations.
Open Scope Z_scope.

(** rewrite.h:756-767: the predicates on a matched wildcard *)
Inductive predk := k_finite | k_constant | k_zero | k_non_negative | k_non_positive | k_boolean.

(** Patterns and replacements: pattern_wildcard, pattern_constant, index_t,
    pattern_optional (may_be), pattern_binary, pattern_unary, pattern_select,
    pattern_call with 0, 1 or 2 arguments, pattern_staircase, replacement_eval,
    replacement_boolean, replacement_predicate, replacement_staircase_sum_bound. *)
Inductive pat :=
| PWild (n : nat)
| PConst (n : nat)
| PLit (z : Z)
| POpt (p : pat) (d : Z)
| PBin (o : binop) (a b : pat)
| PNot (a : pat)
| PSel (c t f : pat)
| PCall0 (fn : intrinsic)
| PCall1 (fn : intrinsic) (a : pat)
| PCall2 (fn : intrinsic) (a b : pat)
| PStair (x a b c : pat)
| REval (p : pat)
| RBool (p : pat)
| RPred (k : predk) (n : nat)
| RSum (is_max : bool) (a1 b1 c1 a2 b2 c2 : pat).

(** pattern_info<>::type, with 0 for expr_node_type::none (rewrite.h:53-215, 516-521) *)
Fixpoint ptype (p : pat) : Z :=
  match p with
  | PWild _ => 0
  | PConst _ | PLit _ | REval _ | RPred _ _ | RSum _ _ _ _ _ _ _ => 19
  | POpt p _ => ptype p
  | PBin o _ _ => binop_type o
  | PNot _ => 16
  | PSel _ _ _ => 17
  | PCall0 _ | PCall1 _ _ | PCall2 _ _ _ => 18
  | PStair _ _ _ _ | RBool _ => 0
  end.
(** rewrite.h:217-219 *)
Definition could_commute (o : binop) (a b : pat) : bool :=
  commutative o && ((ptype a =? 0) || (ptype b =? 0) || (ptype a =? ptype b)).

(** rewrite.h:29-42 match_context.  Unset entries are [None]: a wildcard is set exactly
    when its bit is in the static "matched" set, because both follow the same fixed
    order of traversal. *)
Record binds := Binds { b_var : nat -> option expr; b_const : nat -> option Z }.
Definition no_binds : binds := Binds (fun _ => None) (fun _ => None).
Definition set_var (m : binds) (n : nat) (e : expr) : binds :=
  Binds (fun k => if (k =? n)%nat then Some e else b_var m k) (b_const m).
Definition set_const (m : binds) (n : nat) (z : Z) : binds :=
  Binds (b_var m) (fun k => if (k =? n)%nat then Some z else b_const m k).

(** rewrite.h:44-47, 143-151, 183-186: matching an index_t *)
Fixpoint match_index (p : pat) (x : Z) (m : binds) : option binds :=
  match p with
  | PLit z => if z =? x then Some m else None
  | PConst n => match b_const m n with
                | Some z => if z =? x then Some m else None
                | None => Some (set_const m n x)
                end
  | POpt p _ => match_index p x m
  | _ => None
  end.

Definition binop_eqb (a b : binop) : bool := binop_type a =? binop_type b.

(** [match_pat variant p e m bits] is match<matched>(p, e, ctx) with ctx.variant_bits =
    [bits]; the result is the bindings, if it matched, and the new variant_bits. *)
Section Match.
  Variable variant : Z.

  (** rewrite.h:554-566: the end of matching a staircase, after peeling *c and /b *)
  Fixpoint match_pat (p : pat) (e : expr) (m : binds) (bits : Z) {struct p} : res (option binds * Z) :=
    match p with
    (* 116-125 *)
    | PWild n => match b_var m n with
                 | Some x => Val (if match_expr e x then Some m else None, bits)
                 | None => Val (Some (set_var m n e), bits)
                 end
    (* 48-51 *)
    | PLit z => Val (if is_const e z then Some m else None, bits)
    (* 153-159 *)
    | PConst n => Val (match e with EConst z => match_index p z m | _ => None end, bits)
    (* 188-191 *)
    | POpt q _ => match_pat q e m bits
    (* 222-260 *)
    | PBin o a b =>
        let both (ea eb : expr) (bits : Z) :=
          r <- match_pat a ea m bits ;;
          match r with
          | (Some m', bits') => match_pat b eb m' bits'
          | (None, bits') => Val (None, bits')
          end in
        match e with
        | EBin o' ea eb =>
            if binop_eqb o o' then
              if could_commute o a b
              then if Z.testbit variant bits then both eb ea (bits + 1) else both ea eb (bits + 1)
              else both ea eb bits
            else match a, b with
                 | POpt _ d, _ => both (EConst d) e bits
                 | _, POpt _ d => both e (EConst d) bits
                 | _, _ => Val (None, bits)
                 end
        | _ => match a, b with
               | POpt _ d, _ => both (EConst d) e bits
               | _, POpt _ d => both e (EConst d) bits
               | _, _ => Val (None, bits)
               end
        end
    (* 355-362 *)
    | PNot a => match e with ENot x => match_pat a x m bits | _ => Val (None, bits) end
    (* 408-417 *)
    | PSel c t f =>
        match e with
        | ESelect ec et ef =>
            r <- match_pat c ec m bits ;;
            match r with
            | (None, bits) => Val (None, bits)
            | (Some m, bits) =>
                r <- match_pat t et m bits ;;
                match r with
                | (None, bits) => Val (None, bits)
                | (Some m, bits) => match_pat f ef m bits
                end
            end
        | _ => Val (None, bits)
        end
    (* 455-479: the number of arguments is asserted *)
    | PCall0 fn => match e with
                   | ECall g _ args => if intrinsic_eqb g fn then match args with [] => Val (Some m, bits) | _ => UB end
                                       else Val (None, bits)
                   | _ => Val (None, bits)
                   end
    | PCall1 fn a => match e with
                     | ECall g _ args => if intrinsic_eqb g fn
                                         then match args with [x] => match_pat a x m bits | _ => UB end
                                         else Val (None, bits)
                     | _ => Val (None, bits)
                     end
    | PCall2 fn a b => match e with
                       | ECall g _ args =>
                           if intrinsic_eqb g fn
                           then match args with
                                | [x; y] => r <- match_pat a x m bits ;;
                                            match r with
                                            | (Some m, bits) => match_pat b y m bits
                                            | (None, bits) => Val (None, bits)
                                            end
                                | _ => UB
                                end
                           else Val (None, bits)
                       | _ => Val (None, bits)
                       end
    (* 524-569 *)
    | PStair x a b c =>
        (* peel off the multiply *)
        r <- (match e with
              | EBin Mul ea eb => r <- match_pat c eb m bits ;; let '(om, bits) := r in Val (om, ea, bits)
              | _ => Val (match_index c 1 m, e, bits)
              end) ;;
        match r with
        | (None, _, bits) => Val (None, bits)
        | (Some m, e, bits) =>
            (* peel off the divide *)
            match (match e with
                   | EBin Div ea eb => match as_constant eb with Some z => Some (ea, z) | None => None end
                   | _ => Some (e, 1)
                   end) with
            | None => Val (None, bits)
            | Some (e, vb) =>
                let fin (bv : Z) (ex : expr) (ma : binds -> Z -> res (option binds * Z)) :=
                  match match_index b bv m with
                  | None => Val (None, bits)
                  | Some m => r <- match_pat x ex m bits ;;
                              match r with
                              | (Some m, bits) => ma m bits
                              | (None, bits) => Val (None, bits)
                              end
                  end in
                match e with
                | EBin Add ea eb => fin vb ea (fun m bits => match_pat a eb m bits)
                | EBin Sub ea eb =>
                    match as_constant ea with
                    | Some ac =>
                        ab <- cabs 64 vb ;; t <- csub 64 ab 1 ;; va <- csub 64 t ac ;; nb <- cneg 64 vb ;;
                        fin nb eb (fun m bits => Val (match_index a va m, bits))
                    | None => Val (None, bits)
                    end
                | _ => fin vb e (fun m bits => Val (match_index a 0 m, bits))
                end
            end
        end
    | REval _ | RBool _ | RPred _ _ | RSum _ _ _ _ _ _ _ => UB
    end.
End Match.

(** the number of commutative nodes of a pattern *)
Fixpoint ncomm (p : pat) : nat :=
  match p with
  | PBin o a b => (if could_commute o a b then 1 else 0) + ncomm a + ncomm b
  | POpt p _ | PNot p | PCall1 _ p => ncomm p
  | PSel a b c => ncomm a + ncomm b + ncomm c
  | PCall2 _ a b => ncomm a + ncomm b
  | PStair x a b c => ncomm x + ncomm a + ncomm c
  | _ => 0
  end%nat.

(** rewrite.h:804-820 match_any_variant.  The loop is recursion on fuel; Rewrite_Proofs
    shows that [2 ^ ncomm p + 1] rounds are enough. *)
Fixpoint any_variant (fuel : nat) (p : pat) (e : expr) (variant count : Z) : res (option binds) :=
  match fuel with
  | O => Val None
  | S fuel' =>
      if variant <? count then
        r <- match_pat variant p e no_binds 0 ;;
        match r with
        | (Some m, _) => Val (Some m)
        | (None, bits) => any_variant fuel' p e (variant + 1) (Z.max count (2 ^ bits))
        end
      else Val None
  end.
Definition match_any_variant (p : pat) (e : expr) : res (option binds) :=
  any_variant (2 ^ ncomm p + 1) p e 0 1.

(** ** Substitution *)

(** Which overload of substitute returns index_t: the others return an expr. *)
Fixpoint is_index (p : pat) : bool :=
  match p with
  | PConst _ | PLit _ | REval _ | RPred _ _ | RSum _ _ _ _ _ _ _ => true
  | POpt p _ | PNot p => is_index p
  | PBin _ a b => is_index a && is_index b
  | _ => false
  end.

Section Subst.
  Variable pr : predk -> nat -> bool.     (* the value of a predicate on a matched wildcard *)
  Variable cs : nat -> Z.                 (* the matched constants *)
  Variable vs : nat -> expr.              (* the matched wildcards *)

  (** rewrite.h:52, 161-164, 193-196, 266-275, 323-326, 385-388, 596-599, 619-622, 664-682:
      substitute where it returns index_t.  The result is the overflow flag and the
      value; an overflow yields 0 and the rest is still computed. *)
  Fixpoint isub (p : pat) : res (bool * Z) :=
    match p with
    | PConst n => Val (false, cs n)
    | PLit z => Val (false, z)
    | POpt p _ | REval p => isub p
    | PBin o a b =>
        ra <- isub a ;; let '(fa, va) := ra in
        rb <- isub b ;; let '(fb, vb) := rb in
        if binary_overflows o va vb then Val (true, 0)
        else v <- eval_bin o va vb ;; Val (fa || fb, v)
    | PNot a => ra <- isub a ;; let '(fa, va) := ra in Val (fa, of_bool (va =? 0))
    | RPred k n => Val (false, of_bool (pr k n))
    | RSum is_max a1 b1 c1 a2 b2 c2 =>
        r1 <- isub a1 ;; let '(f1, v1) := r1 in
        r2 <- isub b1 ;; let '(f2, v2) := r2 in
        r3 <- isub c1 ;; let '(f3, v3) := r3 in
        r4 <- isub a2 ;; let '(f4, v4) := r4 in
        r5 <- isub b2 ;; let '(f5, v5) := r5 in
        r6 <- isub c2 ;; let '(f6, v6) := r6 in
        (* the parameters of staircase_sum_bounds are ints *)
        i <- staircase_sum_bounds (wrap 32 v1) (wrap 32 v2) (wrap 32 v3) (wrap 32 v4) (wrap 32 v5) (wrap 32 v6) ;;
        Val (f1 || f2 || f3 || f4 || f5 || f6,
             if is_max then match iv_max i with Some z => z | None => imax 64 end
             else match iv_min i with Some z => z | None => imin 64 end)
    | _ => UB
    end.

  (** rewrite.h:262-321: substitute_binary on exprs *)
  Definition sub_bin (o : binop) (a b : expr) : expr :=
    match o with
    | Add => if is_zero a then b else if is_zero b then a else make_bin Add a b
    | Sub => if is_zero b then a else make_bin Sub a b
    | Mul => if is_zero a || is_one b then a else if is_zero b || is_one a then b else make_bin Mul a b
    | Div => if is_zero a || is_one b then a else if is_zero b then EConst 0 else make_bin Div a b
    | Mod => if is_zero a then a else if is_one b then EConst 0 else make_bin Mod a b
    | And => if is_true a || is_false b then boolean b
             else if is_true b || is_false a then boolean a else make_bin And a b
    | Or => if is_true a || is_false b then boolean a
            else if is_true b || is_false a then boolean b else make_bin Or a b
    | _ => make_bin o a b
    end.

  (** substitute where it returns an expr (index_t results are converted to constants):
      rewrite.h:127-130, 323-326, 385-388, 426-430, 481-490, 571-583, 641-644 *)
  Fixpoint esub (p : pat) : res (bool * expr) :=
    match p with
    | PWild n => Val (false, vs n)
    | POpt p _ => esub p
    | PBin o a b =>
        if is_index a && is_index b then r <- isub (PBin o a b) ;; let '(f, v) := r in Val (f, EConst v)
        else ra <- esub a ;; let '(fa, ea) := ra in
             rb <- esub b ;; let '(fb, eb) := rb in
             Val (fa || fb, sub_bin o ea eb)
    | PNot a =>
        if is_index a then r <- isub (PNot a) ;; let '(f, v) := r in Val (f, EConst v)
        else ra <- esub a ;; let '(fa, ea) := ra in Val (fa, ENot ea)
    | PSel c t f =>
        rc <- esub c ;; let '(fc, ec) := rc in
        rt <- esub t ;; let '(ft, et) := rt in
        rf <- esub f ;; let '(ff, ef) := rf in
        Val (fc || ft || ff, ESelect ec et ef)
    | PCall0 fn => Val (false, ECall fn None [])
    | PCall1 fn a => ra <- esub a ;; let '(fa, ea) := ra in Val (fa, ECall fn None [ea])
    | PCall2 fn a b =>
        ra <- esub a ;; let '(fa, ea) := ra in
        rb <- esub b ;; let '(fb, eb) := rb in
        Val (fa || fb, ECall fn None [ea; eb])
    | PStair x a b c =>
        rx <- esub x ;; let '(fx, ex) := rx in
        ra <- isub a ;; let '(fa, va) := ra in
        rb <- isub b ;; let '(fb, vb) := rb in
        rc <- isub c ;; let '(fc, vc) := rc in
        let ex := if va =? 0 then ex else e_add ex (EConst va) in
        let ex := if vb =? 1 then ex else e_div ex (EConst vb) in
        let ex := if vc =? 1 then ex else e_mul ex (EConst vc) in
        Val (fx || fa || fb || fc, ex)
    | RBool a => ra <- esub a ;; let '(fa, ea) := ra in Val (fa, boolean ea)
    | PConst _ | PLit _ | REval _ | RPred _ _ | RSum _ _ _ _ _ _ _ =>
        r <- isub p ;; let '(f, v) := r in Val (f, EConst v)
    end.

  (** rewrite.h:844-872 find_replacement: a replacement is rejected when its predicate
      is false or overflowed, or when substituting it overflowed.  A missing last
      predicate is written [PLit 1]. *)
  Fixpoint find_replacement (l : list (pat * pat)) : res (option expr) :=
    match l with
    | [] => Val None
    | (r, p) :: l' =>
        rp <- isub p ;; let '(fp, vp) := rp in
        if truthy vp && negb fp then
          rr <- esub r ;; let '(fr, er) := rr in
          if fr then find_replacement l' else Val (Some er)
        else find_replacement l'
    end.
End Subst.

(** rewrite.h:756-767 *)
Definition test_pred (k : predk) (e : expr) : bool :=
  match k with
  | k_finite => is_finite e
  | k_constant => match e with EConst _ => true | _ => false end
  | k_zero => is_zero e
  | k_non_negative => is_non_negative e
  | k_non_positive => is_non_positive e
  | k_boolean => is_boolean e
  end.

(** A call apply(lhs, r0, p0, r1, p1, ...) of simplify_rules.h *)
Record rule := Rule { r_line : Z; r_lhs : pat; r_alts : list (pat * pat) }.

Definition bound_var (m : binds) (n : nat) : expr := match b_var m n with Some e => e | None => EUndef end.
Definition bound_const (m : binds) (n : nat) : Z := match b_const m n with Some z => z | None => 0 end.

(** rewrite.h:884-892 *)
Definition apply_rule (r : rule) (e : expr) : res (option expr) :=
  om <- match_any_variant (r_lhs r) e ;;
  match om with
  | None => Val None
  | Some m => find_replacement (fun k n => test_pred k (bound_var m n)) (bound_const m) (bound_var m) (r_alts r)
  end.

(** simplify_rules.h: apply(...) || apply(...) || ... || false *)
Fixpoint apply_rules (l : list rule) (e : expr) : res (option expr) :=
  match l with
  | [] => Val None
  | r :: l' => o <- apply_rule r e ;;
               match o with Some e' => Val (Some e') | None => apply_rules l' e end
  end.
