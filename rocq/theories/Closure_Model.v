(** Closures of parallel loops and async tasks (slinky/builder/optimizations.cc). *)
From Coq Require Import ZArith List Bool.
From Verif Require Import Arith_Model Buf_Model Expr_Model Stmt_Model Deps_Model.
Import ListNotations.
Open Scope Z_scope.

(** optimizations.cc:1797-1810.  The mutation of the statement before (reuse_shadows) is not
    modelled; [s] is its result. *)
Definition make_closure (s : stmt) : stmt :=
  SLet (map (fun y => (y, EVar y f_none 0)) (find_dependencies_stmt s)) s true.
