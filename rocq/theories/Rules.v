(** The rewrite rules of the simplifier (slinky/builder/simplify_rules.h).  GENERATED by
    tools/gen_rules.py from that file; every rule cites its lines and its C++ text.
    x y z w u v t are wildcards 0 to 6; c0 to c6 are constants 0 to 6; a > b is b < a;
    a missing last predicate is [PLit 1]. *)
From Coq Require Import ZArith List.
From Verif Require Import Expr_Model Rewrite_Model.
Import ListNotations.
Open Scope nat_scope.
Open Scope Z_scope.
Arguments PWild n%nat_scope.
Arguments PConst n%nat_scope.
Arguments RPred k n%nat_scope.

(** apply_min_rules *)
(** simplify_rules.h:36  apply(min(x, std::numeric_limits<index_t>::max()), x) *)
Definition r_min_36 : rule := Rule 36
  (PBin Min (PWild 0) (PLit 9223372036854775807))
  [((PWild 0), (PLit 1))].
(** simplify_rules.h:37  apply(min(x, rewrite::positive_infinity()), x) *)
Definition r_min_37 : rule := Rule 37
  (PBin Min (PWild 0) (PCall0 i_positive_infinity))
  [((PWild 0), (PLit 1))].
(** simplify_rules.h:38  apply(min(x, std::numeric_limits<index_t>::min()), std::numeric_limits<index_t>::min()) *)
Definition r_min_38 : rule := Rule 38
  (PBin Min (PWild 0) (PLit (-9223372036854775808)))
  [((PLit (-9223372036854775808)), (PLit 1))].
(** simplify_rules.h:39  apply(min(x, rewrite::negative_infinity()), rewrite::negative_infinity()) *)
Definition r_min_39 : rule := Rule 39
  (PBin Min (PWild 0) (PCall0 i_negative_infinity))
  [((PCall0 i_negative_infinity), (PLit 1))].
(** simplify_rules.h:40-42  apply(min(x, x + may_be<0>(c0)), x, c0 >= 0, x + c0) *)
Definition r_min_40 : rule := Rule 40
  (PBin Min (PWild 0) (PBin Add (PWild 0) (POpt (PConst 0) 0)))
  [((PWild 0), (PBin LessEqual (PLit 0) (PConst 0)));
   ((PBin Add (PWild 0) (PConst 0)), (PLit 1))].
(** simplify_rules.h:43  apply(min(x, y), x && y, is_boolean(x) && is_boolean(y)) *)
Definition r_min_43 : rule := Rule 43
  (PBin Min (PWild 0) (PWild 1))
  [((PBin And (PWild 0) (PWild 1)), (PBin And (RPred k_boolean 0) (RPred k_boolean 1)))].
(** simplify_rules.h:46-48  apply(min(max(x, c0)/may_be<1>(c1), c2), c2, c1 > 1 && c0/c1 == c2, max(min(x/c1, c2), eval(c0/c1)), c1 > 1 && c0/c1 < c2) *)
Definition r_min_46 : rule := Rule 46
  (PBin Min (PBin Div (PBin Max (PWild 0) (PConst 0)) (POpt (PConst 1) 1)) (PConst 2))
  [((PConst 2), (PBin And (PBin Less (PLit 1) (PConst 1)) (PBin Equal (PBin Div (PConst 0) (PConst 1)) (PConst 2))));
   ((PBin Max (PBin Min (PBin Div (PWild 0) (PConst 1)) (PConst 2)) (REval (PBin Div (PConst 0) (PConst 1)))), (PBin And (PBin Less (PLit 1) (PConst 1)) (PBin Less (PBin Div (PConst 0) (PConst 1)) (PConst 2))))].
(** simplify_rules.h:49-51  apply(min(min(y, max(x, c0)/may_be<1>(c1)), c2), min(y, c2), c1 > 1 && c0/c1 == c2, min(y, max(min(x/c1, c2), eval(c0/c1))), c1 > 1 && c0/c1 < c2) *)
Definition r_min_49 : rule := Rule 49
  (PBin Min (PBin Min (PWild 1) (PBin Div (PBin Max (PWild 0) (PConst 0)) (POpt (PConst 1) 1))) (PConst 2))
  [((PBin Min (PWild 1) (PConst 2)), (PBin And (PBin Less (PLit 1) (PConst 1)) (PBin Equal (PBin Div (PConst 0) (PConst 1)) (PConst 2))));
   ((PBin Min (PWild 1) (PBin Max (PBin Min (PBin Div (PWild 0) (PConst 1)) (PConst 2)) (REval (PBin Div (PConst 0) (PConst 1))))), (PBin And (PBin Less (PLit 1) (PConst 1)) (PBin Less (PBin Div (PConst 0) (PConst 1)) (PConst 2))))].
(** simplify_rules.h:54  apply(min(min(x, y), min(x, z)), min(x, min(y, z))) *)
Definition r_min_54 : rule := Rule 54
  (PBin Min (PBin Min (PWild 0) (PWild 1)) (PBin Min (PWild 0) (PWild 2)))
  [((PBin Min (PWild 0) (PBin Min (PWild 1) (PWild 2))), (PLit 1))].
(** simplify_rules.h:55  apply(min(min(x, y), min(z, w)), min(x, min(y, min(z, w)))) *)
Definition r_min_55 : rule := Rule 55
  (PBin Min (PBin Min (PWild 0) (PWild 1)) (PBin Min (PWild 2) (PWild 3)))
  [((PBin Min (PWild 0) (PBin Min (PWild 1) (PBin Min (PWild 2) (PWild 3)))), (PLit 1))].
(** simplify_rules.h:56  apply(min(x, min(x, y)), min(x, y)) *)
Definition r_min_56 : rule := Rule 56
  (PBin Min (PWild 0) (PBin Min (PWild 0) (PWild 1)))
  [((PBin Min (PWild 0) (PWild 1)), (PLit 1))].
(** simplify_rules.h:57  apply(min(x, min(y, min(x, z))), min(x, min(y, z))) *)
Definition r_min_57 : rule := Rule 57
  (PBin Min (PWild 0) (PBin Min (PWild 1) (PBin Min (PWild 0) (PWild 2))))
  [((PBin Min (PWild 0) (PBin Min (PWild 1) (PWild 2))), (PLit 1))].
(** simplify_rules.h:58  apply(min(x, min(y, min(z, min(x, w)))), min(x, min(y, min(z, w)))) *)
Definition r_min_58 : rule := Rule 58
  (PBin Min (PWild 0) (PBin Min (PWild 1) (PBin Min (PWild 2) (PBin Min (PWild 0) (PWild 3)))))
  [((PBin Min (PWild 0) (PBin Min (PWild 1) (PBin Min (PWild 2) (PWild 3)))), (PLit 1))].
(** simplify_rules.h:59  apply(min(x, min(y, min(z, min(w, min(x, u))))), min(x, min(y, min(z, min(w, u))))) *)
Definition r_min_59 : rule := Rule 59
  (PBin Min (PWild 0) (PBin Min (PWild 1) (PBin Min (PWild 2) (PBin Min (PWild 3) (PBin Min (PWild 0) (PWild 4))))))
  [((PBin Min (PWild 0) (PBin Min (PWild 1) (PBin Min (PWild 2) (PBin Min (PWild 3) (PWild 4))))), (PLit 1))].
(** simplify_rules.h:60  apply(min(x, min(y, min(z, min(w, min(u, min(x, v)))))), min(x, min(y, min(z, min(w, min(u, v)))))) *)
Definition r_min_60 : rule := Rule 60
  (PBin Min (PWild 0) (PBin Min (PWild 1) (PBin Min (PWild 2) (PBin Min (PWild 3) (PBin Min (PWild 4) (PBin Min (PWild 0) (PWild 5)))))))
  [((PBin Min (PWild 0) (PBin Min (PWild 1) (PBin Min (PWild 2) (PBin Min (PWild 3) (PBin Min (PWild 4) (PWild 5)))))), (PLit 1))].
(** simplify_rules.h:63-64  apply(min(max(y, x + may_be<0>(c0)) + may_be<0>(c1), max(z, x + may_be<0>(c2))), max(x + c2, min(z, y + c1)), eval(c0 + c1 == c2)) *)
Definition r_min_63 : rule := Rule 63
  (PBin Min (PBin Add (PBin Max (PWild 1) (PBin Add (PWild 0) (POpt (PConst 0) 0))) (POpt (PConst 1) 0)) (PBin Max (PWild 2) (PBin Add (PWild 0) (POpt (PConst 2) 0))))
  [((PBin Max (PBin Add (PWild 0) (PConst 2)) (PBin Min (PWild 2) (PBin Add (PWild 1) (PConst 1)))), (REval (PBin Equal (PBin Add (PConst 0) (PConst 1)) (PConst 2))))].
(** simplify_rules.h:65-67  apply(min(x, min(y, x + may_be<0>(c0)) + may_be<0>(c1)), min(x, y + c1), c0 + c1 >= 0, min(y, x + c0) + c1) *)
Definition r_min_65 : rule := Rule 65
  (PBin Min (PWild 0) (PBin Add (PBin Min (PWild 1) (PBin Add (PWild 0) (POpt (PConst 0) 0))) (POpt (PConst 1) 0)))
  [((PBin Min (PWild 0) (PBin Add (PWild 1) (PConst 1))), (PBin LessEqual (PLit 0) (PBin Add (PConst 0) (PConst 1))));
   ((PBin Add (PBin Min (PWild 1) (PBin Add (PWild 0) (PConst 0))) (PConst 1)), (PLit 1))].
(** simplify_rules.h:68  apply(min(x + may_be<0>(c0), max(y, min(x, z) + may_be<0>(c1))), min(x + c0, max(y, z + c1)), c1 >= c0) *)
Definition r_min_68 : rule := Rule 68
  (PBin Min (PBin Add (PWild 0) (POpt (PConst 0) 0)) (PBin Max (PWild 1) (PBin Add (PBin Min (PWild 0) (PWild 2)) (POpt (PConst 1) 0))))
  [((PBin Min (PBin Add (PWild 0) (PConst 0)) (PBin Max (PWild 1) (PBin Add (PWild 2) (PConst 1)))), (PBin LessEqual (PConst 0) (PConst 1)))].
(** simplify_rules.h:69  apply(min(max(x, min(y, c0)), c1), min(max(x, y), c1), c0 >= c1) *)
Definition r_min_69 : rule := Rule 69
  (PBin Min (PBin Max (PWild 0) (PBin Min (PWild 1) (PConst 0))) (PConst 1))
  [((PBin Min (PBin Max (PWild 0) (PWild 1)) (PConst 1)), (PBin LessEqual (PConst 1) (PConst 0)))].
(** simplify_rules.h:70  apply(min(min(x, y), max(x, z)), min(x, y)) *)
Definition r_min_70 : rule := Rule 70
  (PBin Min (PBin Min (PWild 0) (PWild 1)) (PBin Max (PWild 0) (PWild 2)))
  [((PBin Min (PWild 0) (PWild 1)), (PLit 1))].
(** simplify_rules.h:71  apply(min(x, min(y, max(x, z))), min(x, y)) *)
Definition r_min_71 : rule := Rule 71
  (PBin Min (PWild 0) (PBin Min (PWild 1) (PBin Max (PWild 0) (PWild 2))))
  [((PBin Min (PWild 0) (PWild 1)), (PLit 1))].
(** simplify_rules.h:72  apply(min(x, max(y, min(x, z))), min(x, max(y, z))) *)
Definition r_min_72 : rule := Rule 72
  (PBin Min (PWild 0) (PBin Max (PWild 1) (PBin Min (PWild 0) (PWild 2))))
  [((PBin Min (PWild 0) (PBin Max (PWild 1) (PWild 2))), (PLit 1))].
(** simplify_rules.h:73  apply(min(min(y, max(x, z)), max(w, z)), min(y, max(min(w, x), z))) *)
Definition r_min_73 : rule := Rule 73
  (PBin Min (PBin Min (PWild 1) (PBin Max (PWild 0) (PWild 2))) (PBin Max (PWild 3) (PWild 2)))
  [((PBin Min (PWild 1) (PBin Max (PBin Min (PWild 3) (PWild 0)) (PWild 2))), (PLit 1))].
(** simplify_rules.h:74  apply(min(x, max(x, y) + may_be<0>(c1)), x, c1 >= 0) *)
Definition r_min_74 : rule := Rule 74
  (PBin Min (PWild 0) (PBin Add (PBin Max (PWild 0) (PWild 1)) (POpt (PConst 1) 0)))
  [((PWild 0), (PBin LessEqual (PLit 0) (PConst 1)))].
(** simplify_rules.h:75  apply(min(x, max(y, x + may_be<0>(c0))), x, c0 >= 0) *)
Definition r_min_75 : rule := Rule 75
  (PBin Min (PWild 0) (PBin Max (PWild 1) (PBin Add (PWild 0) (POpt (PConst 0) 0))))
  [((PWild 0), (PBin LessEqual (PLit 0) (PConst 0)))].
(** simplify_rules.h:78  apply(min(x + may_be<0>(z), min(y, x + may_be<0>(w))), min(y, x + min(z, w))) *)
Definition r_min_78 : rule := Rule 78
  (PBin Min (PBin Add (PWild 0) (POpt (PWild 2) 0)) (PBin Min (PWild 1) (PBin Add (PWild 0) (POpt (PWild 3) 0))))
  [((PBin Min (PWild 1) (PBin Add (PWild 0) (PBin Min (PWild 2) (PWild 3)))), (PLit 1))].
(** simplify_rules.h:79  apply(min(x + may_be<0>(y), x + z), x + min(y, z)) *)
Definition r_min_79 : rule := Rule 79
  (PBin Min (PBin Add (PWild 0) (POpt (PWild 1) 0)) (PBin Add (PWild 0) (PWild 2)))
  [((PBin Add (PWild 0) (PBin Min (PWild 1) (PWild 2))), (PLit 1))].
(** simplify_rules.h:80-82  apply(min(x + may_be<0>(y), x - z), x - max(-y, z), is_non_positive(y), x + min(y, -z)) *)
Definition r_min_80 : rule := Rule 80
  (PBin Min (PBin Add (PWild 0) (POpt (PWild 1) 0)) (PBin Sub (PWild 0) (PWild 2)))
  [((PBin Sub (PWild 0) (PBin Max (PBin Sub (PLit 0) (PWild 1)) (PWild 2))), (RPred k_non_positive 1));
   ((PBin Add (PWild 0) (PBin Min (PWild 1) (PBin Sub (PLit 0) (PWild 2)))), (PLit 1))].
(** simplify_rules.h:83  apply(min(y - x, z - x), min(y, z) - x) *)
Definition r_min_83 : rule := Rule 83
  (PBin Min (PBin Sub (PWild 1) (PWild 0)) (PBin Sub (PWild 2) (PWild 0)))
  [((PBin Sub (PBin Min (PWild 1) (PWild 2)) (PWild 0)), (PLit 1))].
(** simplify_rules.h:84  apply(min(x - y, x - z), x - max(y, z)) *)
Definition r_min_84 : rule := Rule 84
  (PBin Min (PBin Sub (PWild 0) (PWild 1)) (PBin Sub (PWild 0) (PWild 2)))
  [((PBin Sub (PWild 0) (PBin Max (PWild 1) (PWild 2))), (PLit 1))].
(** simplify_rules.h:85  apply(min(x, -x), -abs(x)) *)
Definition r_min_85 : rule := Rule 85
  (PBin Min (PWild 0) (PBin Sub (PLit 0) (PWild 0)))
  [((PBin Sub (PLit 0) (PCall1 i_abs (PWild 0))), (PLit 1))].
(** simplify_rules.h:88  apply(min(x, select(y, max(z, min(x, u)), w)), select(y, min(x, max(z, u)), min(x, w))) *)
Definition r_min_88 : rule := Rule 88
  (PBin Min (PWild 0) (PSel (PWild 1) (PBin Max (PWild 2) (PBin Min (PWild 0) (PWild 4))) (PWild 3)))
  [((PSel (PWild 1) (PBin Min (PWild 0) (PBin Max (PWild 2) (PWild 4))) (PBin Min (PWild 0) (PWild 3))), (PLit 1))].
(** simplify_rules.h:89  apply(min(x, select(y, z, max(w, min(x, u)))), select(y, min(x, z), min(x, max(w, u)))) *)
Definition r_min_89 : rule := Rule 89
  (PBin Min (PWild 0) (PSel (PWild 1) (PWild 2) (PBin Max (PWild 3) (PBin Min (PWild 0) (PWild 4)))))
  [((PSel (PWild 1) (PBin Min (PWild 0) (PWild 2)) (PBin Min (PWild 0) (PBin Max (PWild 3) (PWild 4)))), (PLit 1))].
(** simplify_rules.h:90  apply(min(x, select(y, min(x, z), w)), min(x, select(y, z, w))) *)
Definition r_min_90 : rule := Rule 90
  (PBin Min (PWild 0) (PSel (PWild 1) (PBin Min (PWild 0) (PWild 2)) (PWild 3)))
  [((PBin Min (PWild 0) (PSel (PWild 1) (PWild 2) (PWild 3))), (PLit 1))].
(** simplify_rules.h:91  apply(min(x, select(y, z, min(x, w))), min(x, select(y, z, w))) *)
Definition r_min_91 : rule := Rule 91
  (PBin Min (PWild 0) (PSel (PWild 1) (PWild 2) (PBin Min (PWild 0) (PWild 3))))
  [((PBin Min (PWild 0) (PSel (PWild 1) (PWild 2) (PWild 3))), (PLit 1))].
(** simplify_rules.h:92  apply(min(x, select(y, max(x, z), w)), select(y, x, min(x, w))) *)
Definition r_min_92 : rule := Rule 92
  (PBin Min (PWild 0) (PSel (PWild 1) (PBin Max (PWild 0) (PWild 2)) (PWild 3)))
  [((PSel (PWild 1) (PWild 0) (PBin Min (PWild 0) (PWild 3))), (PLit 1))].
(** simplify_rules.h:93  apply(min(x, select(y, z, max(x, w))), select(y, min(x, z), x)) *)
Definition r_min_93 : rule := Rule 93
  (PBin Min (PWild 0) (PSel (PWild 1) (PWild 2) (PBin Max (PWild 0) (PWild 3))))
  [((PSel (PWild 1) (PBin Min (PWild 0) (PWild 2)) (PWild 0)), (PLit 1))].
(** simplify_rules.h:94  apply(min(y, select(x, y, w)), select(x, y, min(y, w))) *)
Definition r_min_94 : rule := Rule 94
  (PBin Min (PWild 1) (PSel (PWild 0) (PWild 1) (PWild 3)))
  [((PSel (PWild 0) (PWild 1) (PBin Min (PWild 1) (PWild 3))), (PLit 1))].
(** simplify_rules.h:95  apply(min(z, select(x, w, z)), select(x, min(z, w), z)) *)
Definition r_min_95 : rule := Rule 95
  (PBin Min (PWild 2) (PSel (PWild 0) (PWild 3) (PWild 2)))
  [((PSel (PWild 0) (PBin Min (PWild 2) (PWild 3)) (PWild 2)), (PLit 1))].
(** simplify_rules.h:96  apply(min(may_be<0>(w) + select(x, y, z), select(x, u, v)), select(x, min(u, w + y), min(v, w + z))) *)
Definition r_min_96 : rule := Rule 96
  (PBin Min (PBin Add (POpt (PWild 3) 0) (PSel (PWild 0) (PWild 1) (PWild 2))) (PSel (PWild 0) (PWild 4) (PWild 5)))
  [((PSel (PWild 0) (PBin Min (PWild 4) (PBin Add (PWild 3) (PWild 1))) (PBin Min (PWild 5) (PBin Add (PWild 3) (PWild 2)))), (PLit 1))].
(** simplify_rules.h:97  apply(min(min(v, select(x, y, z)), select(x, w, u)), min(v, select(x, min(y, w), min(z, u)))) *)
Definition r_min_97 : rule := Rule 97
  (PBin Min (PBin Min (PWild 5) (PSel (PWild 0) (PWild 1) (PWild 2))) (PSel (PWild 0) (PWild 3) (PWild 4)))
  [((PBin Min (PWild 5) (PSel (PWild 0) (PBin Min (PWild 1) (PWild 3)) (PBin Min (PWild 2) (PWild 4)))), (PLit 1))].
(** simplify_rules.h:98  apply(min(max(v, select(x, y, z)), select(x, w, u)), select(x, min(w, max(v, y)), min(u, max(v, z)))) *)
Definition r_min_98 : rule := Rule 98
  (PBin Min (PBin Max (PWild 5) (PSel (PWild 0) (PWild 1) (PWild 2))) (PSel (PWild 0) (PWild 3) (PWild 4)))
  [((PSel (PWild 0) (PBin Min (PWild 3) (PBin Max (PWild 5) (PWild 1))) (PBin Min (PWild 4) (PBin Max (PWild 5) (PWild 2)))), (PLit 1))].
(** simplify_rules.h:99  apply(min(w - select(x, y, z), select(x, u, v)), select(x, min(u, w - y), min(v, w - z))) *)
Definition r_min_99 : rule := Rule 99
  (PBin Min (PBin Sub (PWild 3) (PSel (PWild 0) (PWild 1) (PWild 2))) (PSel (PWild 0) (PWild 4) (PWild 5)))
  [((PSel (PWild 0) (PBin Min (PWild 4) (PBin Sub (PWild 3) (PWild 1))) (PBin Min (PWild 5) (PBin Sub (PWild 3) (PWild 2)))), (PLit 1))].
(** simplify_rules.h:100  apply(min(select(x, y, z) - w, select(x, u, v)), select(x, min(u, y - w), min(v, z - w))) *)
Definition r_min_100 : rule := Rule 100
  (PBin Min (PBin Sub (PSel (PWild 0) (PWild 1) (PWild 2)) (PWild 3)) (PSel (PWild 0) (PWild 4) (PWild 5)))
  [((PSel (PWild 0) (PBin Min (PWild 4) (PBin Sub (PWild 1) (PWild 3))) (PBin Min (PWild 5) (PBin Sub (PWild 2) (PWild 3)))), (PLit 1))].
(** simplify_rules.h:102  apply(min(select(x, y, select(z, w, u)), select(z, v, t)), select(z, min(v, select(x, y, w)), min(t, select(x, y, u)))) *)
Definition r_min_102 : rule := Rule 102
  (PBin Min (PSel (PWild 0) (PWild 1) (PSel (PWild 2) (PWild 3) (PWild 4))) (PSel (PWild 2) (PWild 5) (PWild 6)))
  [((PSel (PWild 2) (PBin Min (PWild 5) (PSel (PWild 0) (PWild 1) (PWild 3))) (PBin Min (PWild 6) (PSel (PWild 0) (PWild 1) (PWild 4)))), (PLit 1))].
(** simplify_rules.h:103  apply(min(select(x, select(z, w, u), y), select(z, v, t)), select(z, min(v, select(x, w, y)), min(t, select(x, u, y)))) *)
Definition r_min_103 : rule := Rule 103
  (PBin Min (PSel (PWild 0) (PSel (PWild 2) (PWild 3) (PWild 4)) (PWild 1)) (PSel (PWild 2) (PWild 5) (PWild 6)))
  [((PSel (PWild 2) (PBin Min (PWild 5) (PSel (PWild 0) (PWild 3) (PWild 1))) (PBin Min (PWild 6) (PSel (PWild 0) (PWild 4) (PWild 1)))), (PLit 1))].
(** simplify_rules.h:105  apply(min(x + may_be<0>(c2), select(c0 < x, y, c1)), select(c0 < x, min(x, y - c2), x) + c2, c1 >= c0 + c2) *)
Definition r_min_105 : rule := Rule 105
  (PBin Min (PBin Add (PWild 0) (POpt (PConst 2) 0)) (PSel (PBin Less (PConst 0) (PWild 0)) (PWild 1) (PConst 1)))
  [((PBin Add (PSel (PBin Less (PConst 0) (PWild 0)) (PBin Min (PWild 0) (PBin Sub (PWild 1) (PConst 2))) (PWild 0)) (PConst 2)), (PBin LessEqual (PBin Add (PConst 0) (PConst 2)) (PConst 1)))].
(** simplify_rules.h:106  apply(min(x + may_be<0>(c2), select(c0 < x, c1, y)), select(c0 < x, c1, min(y, x + c2)), c1 <= c0 + c2) *)
Definition r_min_106 : rule := Rule 106
  (PBin Min (PBin Add (PWild 0) (POpt (PConst 2) 0)) (PSel (PBin Less (PConst 0) (PWild 0)) (PConst 1) (PWild 1)))
  [((PSel (PBin Less (PConst 0) (PWild 0)) (PConst 1) (PBin Min (PWild 1) (PBin Add (PWild 0) (PConst 2)))), (PBin LessEqual (PConst 1) (PBin Add (PConst 0) (PConst 2))))].
(** simplify_rules.h:107  apply(min(x + may_be<0>(c2), select(x < c0, y, c1)), select(x < c0, min(y, x + c2), c1), c1 <= c0 + c2) *)
Definition r_min_107 : rule := Rule 107
  (PBin Min (PBin Add (PWild 0) (POpt (PConst 2) 0)) (PSel (PBin Less (PWild 0) (PConst 0)) (PWild 1) (PConst 1)))
  [((PSel (PBin Less (PWild 0) (PConst 0)) (PBin Min (PWild 1) (PBin Add (PWild 0) (PConst 2))) (PConst 1)), (PBin LessEqual (PConst 1) (PBin Add (PConst 0) (PConst 2))))].
(** simplify_rules.h:108  apply(min(x + may_be<0>(c2), select(x < c0, c1, y)), select(x < c0, x, min(x, y - c2)) + c2, c1 >= c0 + c2) *)
Definition r_min_108 : rule := Rule 108
  (PBin Min (PBin Add (PWild 0) (POpt (PConst 2) 0)) (PSel (PBin Less (PWild 0) (PConst 0)) (PConst 1) (PWild 1)))
  [((PBin Add (PSel (PBin Less (PWild 0) (PConst 0)) (PWild 0) (PBin Min (PWild 0) (PBin Sub (PWild 1) (PConst 2)))) (PConst 2)), (PBin LessEqual (PBin Add (PConst 0) (PConst 2)) (PConst 1)))].
(** simplify_rules.h:111  apply(min(min(x, c0), c1), min(x, eval(min(c0, c1)))) *)
Definition r_min_111 : rule := Rule 111
  (PBin Min (PBin Min (PWild 0) (PConst 0)) (PConst 1))
  [((PBin Min (PWild 0) (REval (PBin Min (PConst 0) (PConst 1)))), (PLit 1))].
(** simplify_rules.h:112  apply(min(x, min(y, c0)), min(min(x, y), c0)) *)
Definition r_min_112 : rule := Rule 112
  (PBin Min (PWild 0) (PBin Min (PWild 1) (PConst 0)))
  [((PBin Min (PBin Min (PWild 0) (PWild 1)) (PConst 0)), (PLit 1))].
(** simplify_rules.h:113  apply(min(x + c0, (y + c1)/c2), min(x, (y + eval(c1 - c0*c2))/c2) + c0, c2 != 0) *)
Definition r_min_113 : rule := Rule 113
  (PBin Min (PBin Add (PWild 0) (PConst 0)) (PBin Div (PBin Add (PWild 1) (PConst 1)) (PConst 2)))
  [((PBin Add (PBin Min (PWild 0) (PBin Div (PBin Add (PWild 1) (REval (PBin Sub (PConst 1) (PBin Mul (PConst 0) (PConst 2))))) (PConst 2))) (PConst 0)), (PBin NotEqual (PConst 2) (PLit 0)))].
(** simplify_rules.h:114-116  apply(min(x + c0, y + c1), min(x, y + eval(c1 - c0)) + c0, c0 >= c1, min(y, x + eval(c0 - c1)) + c1) *)
Definition r_min_114 : rule := Rule 114
  (PBin Min (PBin Add (PWild 0) (PConst 0)) (PBin Add (PWild 1) (PConst 1)))
  [((PBin Add (PBin Min (PWild 0) (PBin Add (PWild 1) (REval (PBin Sub (PConst 1) (PConst 0))))) (PConst 0)), (PBin LessEqual (PConst 1) (PConst 0)));
   ((PBin Add (PBin Min (PWild 1) (PBin Add (PWild 0) (REval (PBin Sub (PConst 0) (PConst 1))))) (PConst 1)), (PLit 1))].
(** simplify_rules.h:117-119  apply(min(x + c0, c1 - may_be<0>(y)), min(x, eval(c1 - c0)) + c0, is_zero(y), c1 - max(y, eval(c1 - c0) - x)) *)
Definition r_min_117 : rule := Rule 117
  (PBin Min (PBin Add (PWild 0) (PConst 0)) (PBin Sub (PConst 1) (POpt (PWild 1) 0)))
  [((PBin Add (PBin Min (PWild 0) (REval (PBin Sub (PConst 1) (PConst 0)))) (PConst 0)), (RPred k_zero 1));
   ((PBin Sub (PConst 1) (PBin Max (PWild 1) (PBin Sub (REval (PBin Sub (PConst 1) (PConst 0))) (PWild 0)))), (PLit 1))].
(** simplify_rules.h:120  apply(min(c0 - x, c1 - may_be<0>(y)), c0 - max(x, y + eval(c0 - c1))) *)
Definition r_min_120 : rule := Rule 120
  (PBin Min (PBin Sub (PConst 0) (PWild 0)) (PBin Sub (PConst 1) (POpt (PWild 1) 0)))
  [((PBin Sub (PConst 0) (PBin Max (PWild 0) (PBin Add (PWild 1) (REval (PBin Sub (PConst 0) (PConst 1)))))), (PLit 1))].
(** simplify_rules.h:121  apply(min(min(x, c0) + may_be<0>(c1), min(y, c2)), min(min(y, x + c1), eval(min(c0 + c1, c2)))) *)
Definition r_min_121 : rule := Rule 121
  (PBin Min (PBin Add (PBin Min (PWild 0) (PConst 0)) (POpt (PConst 1) 0)) (PBin Min (PWild 1) (PConst 2)))
  [((PBin Min (PBin Min (PWild 1) (PBin Add (PWild 0) (PConst 1))) (REval (PBin Min (PBin Add (PConst 0) (PConst 1)) (PConst 2)))), (PLit 1))].
(** simplify_rules.h:122-124  apply(min(max(x, c0) + may_be<0>(c1), max(y, c2)), max(min(y, max(x, c0) + c1), c2), c2 < c0 + c1, max(min(x + c1, max(y, c2)), eval(c0 + c1))) *)
Definition r_min_122 : rule := Rule 122
  (PBin Min (PBin Add (PBin Max (PWild 0) (PConst 0)) (POpt (PConst 1) 0)) (PBin Max (PWild 1) (PConst 2)))
  [((PBin Max (PBin Min (PWild 1) (PBin Add (PBin Max (PWild 0) (PConst 0)) (PConst 1))) (PConst 2)), (PBin Less (PConst 2) (PBin Add (PConst 0) (PConst 1))));
   ((PBin Max (PBin Min (PBin Add (PWild 0) (PConst 1)) (PBin Max (PWild 1) (PConst 2))) (REval (PBin Add (PConst 0) (PConst 1)))), (PLit 1))].
(** simplify_rules.h:125  apply(min(x + c0, select(y, may_be<0>(z) + c1, may_be<0>(w) + c2)), min(x, select(y, z + eval(c1 - c0), w + eval(c2 - c0))) + c0) *)
Definition r_min_125 : rule := Rule 125
  (PBin Min (PBin Add (PWild 0) (PConst 0)) (PSel (PWild 1) (PBin Add (POpt (PWild 2) 0) (PConst 1)) (PBin Add (POpt (PWild 3) 0) (PConst 2))))
  [((PBin Add (PBin Min (PWild 0) (PSel (PWild 1) (PBin Add (PWild 2) (REval (PBin Sub (PConst 1) (PConst 0)))) (PBin Add (PWild 3) (REval (PBin Sub (PConst 2) (PConst 0)))))) (PConst 0)), (PLit 1))].
(** simplify_rules.h:126  apply(min(select(y, c1, c2), c0), select(y, eval(min(c0, c1)), eval(min(c0, c2)))) *)
Definition r_min_126 : rule := Rule 126
  (PBin Min (PSel (PWild 1) (PConst 1) (PConst 2)) (PConst 0))
  [((PSel (PWild 1) (REval (PBin Min (PConst 0) (PConst 1))) (REval (PBin Min (PConst 0) (PConst 2)))), (PLit 1))].
(** simplify_rules.h:129-131  apply(min(x*c0, c1), min(x, eval(c1/c0))*c0, c0 > 0 && c1%c0 == 0, max(x, eval(c1/c0))*c0, c0 < 0 && c1%c0 == 0) *)
Definition r_min_129 : rule := Rule 129
  (PBin Min (PBin Mul (PWild 0) (PConst 0)) (PConst 1))
  [((PBin Mul (PBin Min (PWild 0) (REval (PBin Div (PConst 1) (PConst 0)))) (PConst 0)), (PBin And (PBin Less (PLit 0) (PConst 0)) (PBin Equal (PBin Mod (PConst 1) (PConst 0)) (PLit 0))));
   ((PBin Mul (PBin Max (PWild 0) (REval (PBin Div (PConst 1) (PConst 0)))) (PConst 0)), (PBin And (PBin Less (PConst 0) (PLit 0)) (PBin Equal (PBin Mod (PConst 1) (PConst 0)) (PLit 0))))].
(** simplify_rules.h:133-137  apply(min(x*c0, y*c1), min(x, y*eval(c1/c0))*c0, c0 > 0 && c1%c0 == 0, max(x, y*eval(c1/c0))*c0, c0 < 0 && c1%c0 == 0, min(y, x*eval(c0/c1))*c1, c1 > 0 && c0%c1 == 0, max(y, x*eval(c0/c1))*c1, c1 < 0 && c0%c1 == 0) *)
Definition r_min_133 : rule := Rule 133
  (PBin Min (PBin Mul (PWild 0) (PConst 0)) (PBin Mul (PWild 1) (PConst 1)))
  [((PBin Mul (PBin Min (PWild 0) (PBin Mul (PWild 1) (REval (PBin Div (PConst 1) (PConst 0))))) (PConst 0)), (PBin And (PBin Less (PLit 0) (PConst 0)) (PBin Equal (PBin Mod (PConst 1) (PConst 0)) (PLit 0))));
   ((PBin Mul (PBin Max (PWild 0) (PBin Mul (PWild 1) (REval (PBin Div (PConst 1) (PConst 0))))) (PConst 0)), (PBin And (PBin Less (PConst 0) (PLit 0)) (PBin Equal (PBin Mod (PConst 1) (PConst 0)) (PLit 0))));
   ((PBin Mul (PBin Min (PWild 1) (PBin Mul (PWild 0) (REval (PBin Div (PConst 0) (PConst 1))))) (PConst 1)), (PBin And (PBin Less (PLit 0) (PConst 1)) (PBin Equal (PBin Mod (PConst 0) (PConst 1)) (PLit 0))));
   ((PBin Mul (PBin Max (PWild 1) (PBin Mul (PWild 0) (REval (PBin Div (PConst 0) (PConst 1))))) (PConst 1)), (PBin And (PBin Less (PConst 1) (PLit 0)) (PBin Equal (PBin Mod (PConst 0) (PConst 1)) (PLit 0))))].
(** simplify_rules.h:138-140  apply(min(y*c0 + c1, x*c0), min(x, y + eval(c1/c0))*c0, c0 > 0 && c1%c0 == 0, max(x, y + eval(c1/c0))*c0, c0 < 0 && c1%c0 == 0) *)
Definition r_min_138 : rule := Rule 138
  (PBin Min (PBin Add (PBin Mul (PWild 1) (PConst 0)) (PConst 1)) (PBin Mul (PWild 0) (PConst 0)))
  [((PBin Mul (PBin Min (PWild 0) (PBin Add (PWild 1) (REval (PBin Div (PConst 1) (PConst 0))))) (PConst 0)), (PBin And (PBin Less (PLit 0) (PConst 0)) (PBin Equal (PBin Mod (PConst 1) (PConst 0)) (PLit 0))));
   ((PBin Mul (PBin Max (PWild 0) (PBin Add (PWild 1) (REval (PBin Div (PConst 1) (PConst 0))))) (PConst 0)), (PBin And (PBin Less (PConst 0) (PLit 0)) (PBin Equal (PBin Mod (PConst 1) (PConst 0)) (PLit 0))))].
(** simplify_rules.h:142-144  apply(min(y/c0 + may_be<0>(c1), x/c0), min(x, y + eval(c1*c0))/c0, c0 > 0, max(x, y + eval(c1*c0))/c0, c0 < 0) *)
Definition r_min_142 : rule := Rule 142
  (PBin Min (PBin Add (PBin Div (PWild 1) (PConst 0)) (POpt (PConst 1) 0)) (PBin Div (PWild 0) (PConst 0)))
  [((PBin Div (PBin Min (PWild 0) (PBin Add (PWild 1) (REval (PBin Mul (PConst 1) (PConst 0))))) (PConst 0)), (PBin Less (PLit 0) (PConst 0)));
   ((PBin Div (PBin Max (PWild 0) (PBin Add (PWild 1) (REval (PBin Mul (PConst 1) (PConst 0))))) (PConst 0)), (PBin Less (PConst 0) (PLit 0)))].
(** simplify_rules.h:146-148  apply(min(x/c0, c1), min(x, eval(c1*c0))/c0, c0 > 0, max(x, eval(c1*c0))/c0, c0 < 0) *)
Definition r_min_146 : rule := Rule 146
  (PBin Min (PBin Div (PWild 0) (PConst 0)) (PConst 1))
  [((PBin Div (PBin Min (PWild 0) (REval (PBin Mul (PConst 1) (PConst 0)))) (PConst 0)), (PBin Less (PLit 0) (PConst 0)));
   ((PBin Div (PBin Max (PWild 0) (REval (PBin Mul (PConst 1) (PConst 0)))) (PConst 0)), (PBin Less (PConst 0) (PLit 0)))].
(** simplify_rules.h:150-152  apply(min(staircase(x, c0, c1, c2), staircase(x, c3, c4, c5) + may_be<0>(c6)), staircase(x, c0, c1, c2), 0 <= staircase_sum_min(c0, c1, -c2, c3, c4, c5) + c6, staircase(x, c3, c4, c5) + c6, 0 >= staircase_sum_max(c0, c1, -c2, c3, c4, c5) + c6) *)
Definition r_min_150 : rule := Rule 150
  (PBin Min (PStair (PWild 0) (PConst 0) (PConst 1) (PConst 2)) (PBin Add (PStair (PWild 0) (PConst 3) (PConst 4) (PConst 5)) (POpt (PConst 6) 0)))
  [((PStair (PWild 0) (PConst 0) (PConst 1) (PConst 2)), (PBin LessEqual (PLit 0) (PBin Add (RSum false (PConst 0) (PConst 1) (PBin Sub (PLit 0) (PConst 2)) (PConst 3) (PConst 4) (PConst 5)) (PConst 6))));
   ((PBin Add (PStair (PWild 0) (PConst 3) (PConst 4) (PConst 5)) (PConst 6)), (PBin LessEqual (PBin Add (RSum true (PConst 0) (PConst 1) (PBin Sub (PLit 0) (PConst 2)) (PConst 3) (PConst 4) (PConst 5)) (PConst 6)) (PLit 0)))].
(** simplify_rules.h:154  apply(min(x, abs(x)), x) *)
Definition r_min_154 : rule := Rule 154
  (PBin Min (PWild 0) (PCall1 i_abs (PWild 0)))
  [((PWild 0), (PLit 1))].
Definition min_rules : list rule :=
  [r_min_36;
   r_min_37;
   r_min_38;
   r_min_39;
   r_min_40;
   r_min_43;
   r_min_46;
   r_min_49;
   r_min_54;
   r_min_55;
   r_min_56;
   r_min_57;
   r_min_58;
   r_min_59;
   r_min_60;
   r_min_63;
   r_min_65;
   r_min_68;
   r_min_69;
   r_min_70;
   r_min_71;
   r_min_72;
   r_min_73;
   r_min_74;
   r_min_75;
   r_min_78;
   r_min_79;
   r_min_80;
   r_min_83;
   r_min_84;
   r_min_85;
   r_min_88;
   r_min_89;
   r_min_90;
   r_min_91;
   r_min_92;
   r_min_93;
   r_min_94;
   r_min_95;
   r_min_96;
   r_min_97;
   r_min_98;
   r_min_99;
   r_min_100;
   r_min_102;
   r_min_103;
   r_min_105;
   r_min_106;
   r_min_107;
   r_min_108;
   r_min_111;
   r_min_112;
   r_min_113;
   r_min_114;
   r_min_117;
   r_min_120;
   r_min_121;
   r_min_122;
   r_min_125;
   r_min_126;
   r_min_129;
   r_min_133;
   r_min_138;
   r_min_142;
   r_min_146;
   r_min_150;
   r_min_154].

(** apply_max_rules *)
(** simplify_rules.h:163  apply(max(x, std::numeric_limits<index_t>::min()), x) *)
Definition r_max_163 : rule := Rule 163
  (PBin Max (PWild 0) (PLit (-9223372036854775808)))
  [((PWild 0), (PLit 1))].
(** simplify_rules.h:164  apply(max(x, rewrite::negative_infinity()), x) *)
Definition r_max_164 : rule := Rule 164
  (PBin Max (PWild 0) (PCall0 i_negative_infinity))
  [((PWild 0), (PLit 1))].
(** simplify_rules.h:165  apply(max(x, std::numeric_limits<index_t>::max()), std::numeric_limits<index_t>::max()) *)
Definition r_max_165 : rule := Rule 165
  (PBin Max (PWild 0) (PLit 9223372036854775807))
  [((PLit 9223372036854775807), (PLit 1))].
(** simplify_rules.h:166  apply(max(x, rewrite::positive_infinity()), rewrite::positive_infinity()) *)
Definition r_max_166 : rule := Rule 166
  (PBin Max (PWild 0) (PCall0 i_positive_infinity))
  [((PCall0 i_positive_infinity), (PLit 1))].
(** simplify_rules.h:167-169  apply(max(x, x + may_be<0>(c0)), x + c0, c0 > 0, x) *)
Definition r_max_167 : rule := Rule 167
  (PBin Max (PWild 0) (PBin Add (PWild 0) (POpt (PConst 0) 0)))
  [((PBin Add (PWild 0) (PConst 0)), (PBin Less (PLit 0) (PConst 0)));
   ((PWild 0), (PLit 1))].
(** simplify_rules.h:170  apply(max(x, y), x || y, is_boolean(x) && is_boolean(y)) *)
Definition r_max_170 : rule := Rule 170
  (PBin Max (PWild 0) (PWild 1))
  [((PBin Or (PWild 0) (PWild 1)), (PBin And (RPred k_boolean 0) (RPred k_boolean 1)))].
(** simplify_rules.h:173  apply(max(max(x, y), max(x, z)), max(x, max(y, z))) *)
Definition r_max_173 : rule := Rule 173
  (PBin Max (PBin Max (PWild 0) (PWild 1)) (PBin Max (PWild 0) (PWild 2)))
  [((PBin Max (PWild 0) (PBin Max (PWild 1) (PWild 2))), (PLit 1))].
(** simplify_rules.h:174  apply(max(max(x, y), max(z, w)), max(x, max(y, max(z, w)))) *)
Definition r_max_174 : rule := Rule 174
  (PBin Max (PBin Max (PWild 0) (PWild 1)) (PBin Max (PWild 2) (PWild 3)))
  [((PBin Max (PWild 0) (PBin Max (PWild 1) (PBin Max (PWild 2) (PWild 3)))), (PLit 1))].
(** simplify_rules.h:175  apply(max(x, max(x, y)), max(x, y)) *)
Definition r_max_175 : rule := Rule 175
  (PBin Max (PWild 0) (PBin Max (PWild 0) (PWild 1)))
  [((PBin Max (PWild 0) (PWild 1)), (PLit 1))].
(** simplify_rules.h:176  apply(max(x, max(y, max(x, z))), max(x, max(y, z))) *)
Definition r_max_176 : rule := Rule 176
  (PBin Max (PWild 0) (PBin Max (PWild 1) (PBin Max (PWild 0) (PWild 2))))
  [((PBin Max (PWild 0) (PBin Max (PWild 1) (PWild 2))), (PLit 1))].
(** simplify_rules.h:177  apply(max(x, max(y, max(z, max(x, w)))), max(x, max(y, max(z, w)))) *)
Definition r_max_177 : rule := Rule 177
  (PBin Max (PWild 0) (PBin Max (PWild 1) (PBin Max (PWild 2) (PBin Max (PWild 0) (PWild 3)))))
  [((PBin Max (PWild 0) (PBin Max (PWild 1) (PBin Max (PWild 2) (PWild 3)))), (PLit 1))].
(** simplify_rules.h:178  apply(max(x, max(y, max(z, max(w, max(x, u))))), max(x, max(y, max(z, max(w, u))))) *)
Definition r_max_178 : rule := Rule 178
  (PBin Max (PWild 0) (PBin Max (PWild 1) (PBin Max (PWild 2) (PBin Max (PWild 3) (PBin Max (PWild 0) (PWild 4))))))
  [((PBin Max (PWild 0) (PBin Max (PWild 1) (PBin Max (PWild 2) (PBin Max (PWild 3) (PWild 4))))), (PLit 1))].
(** simplify_rules.h:179  apply(max(x, max(y, max(z, max(w, max(u, max(x, v)))))), max(x, max(y, max(z, max(w, max(u, v)))))) *)
Definition r_max_179 : rule := Rule 179
  (PBin Max (PWild 0) (PBin Max (PWild 1) (PBin Max (PWild 2) (PBin Max (PWild 3) (PBin Max (PWild 4) (PBin Max (PWild 0) (PWild 5)))))))
  [((PBin Max (PWild 0) (PBin Max (PWild 1) (PBin Max (PWild 2) (PBin Max (PWild 3) (PBin Max (PWild 4) (PWild 5)))))), (PLit 1))].
(** simplify_rules.h:182-183  apply(max(min(y, x + may_be<0>(c0)) + may_be<0>(c1), min(z, x + may_be<0>(c2))), min(x + c2, max(z, y + c1)), eval(c0 + c1 == c2)) *)
Definition r_max_182 : rule := Rule 182
  (PBin Max (PBin Add (PBin Min (PWild 1) (PBin Add (PWild 0) (POpt (PConst 0) 0))) (POpt (PConst 1) 0)) (PBin Min (PWild 2) (PBin Add (PWild 0) (POpt (PConst 2) 0))))
  [((PBin Min (PBin Add (PWild 0) (PConst 2)) (PBin Max (PWild 2) (PBin Add (PWild 1) (PConst 1)))), (REval (PBin Equal (PBin Add (PConst 0) (PConst 1)) (PConst 2))))].
(** simplify_rules.h:184-186  apply(max(x, max(y, x + may_be<0>(c0)) + may_be<0>(c1)), max(x, y + c1), c0 + c1 <= 0, max(y, x + c0) + c1) *)
Definition r_max_184 : rule := Rule 184
  (PBin Max (PWild 0) (PBin Add (PBin Max (PWild 1) (PBin Add (PWild 0) (POpt (PConst 0) 0))) (POpt (PConst 1) 0)))
  [((PBin Max (PWild 0) (PBin Add (PWild 1) (PConst 1))), (PBin LessEqual (PBin Add (PConst 0) (PConst 1)) (PLit 0)));
   ((PBin Add (PBin Max (PWild 1) (PBin Add (PWild 0) (PConst 0))) (PConst 1)), (PLit 1))].
(** simplify_rules.h:187  apply(max(x + may_be<0>(c0), min(y, max(x, z) + may_be<0>(c1))), max(x + c0, min(y, z + c1)), c1 < c0) *)
Definition r_max_187 : rule := Rule 187
  (PBin Max (PBin Add (PWild 0) (POpt (PConst 0) 0)) (PBin Min (PWild 1) (PBin Add (PBin Max (PWild 0) (PWild 2)) (POpt (PConst 1) 0))))
  [((PBin Max (PBin Add (PWild 0) (PConst 0)) (PBin Min (PWild 1) (PBin Add (PWild 2) (PConst 1)))), (PBin Less (PConst 1) (PConst 0)))].
(** simplify_rules.h:188  apply(max(min(x, max(y, c0)), c1), max(min(x, y), c1), c0 <= c1) *)
Definition r_max_188 : rule := Rule 188
  (PBin Max (PBin Min (PWild 0) (PBin Max (PWild 1) (PConst 0))) (PConst 1))
  [((PBin Max (PBin Min (PWild 0) (PWild 1)) (PConst 1)), (PBin LessEqual (PConst 0) (PConst 1)))].
(** simplify_rules.h:189  apply(max(min(x, y), max(x, z)), max(x, z)) *)
Definition r_max_189 : rule := Rule 189
  (PBin Max (PBin Min (PWild 0) (PWild 1)) (PBin Max (PWild 0) (PWild 2)))
  [((PBin Max (PWild 0) (PWild 2)), (PLit 1))].
(** simplify_rules.h:190  apply(max(x, max(y, min(x, z))), max(x, y)) *)
Definition r_max_190 : rule := Rule 190
  (PBin Max (PWild 0) (PBin Max (PWild 1) (PBin Min (PWild 0) (PWild 2))))
  [((PBin Max (PWild 0) (PWild 1)), (PLit 1))].
(** simplify_rules.h:191  apply(max(x, min(y, max(x, z))), max(x, min(y, z))) *)
Definition r_max_191 : rule := Rule 191
  (PBin Max (PWild 0) (PBin Min (PWild 1) (PBin Max (PWild 0) (PWild 2))))
  [((PBin Max (PWild 0) (PBin Min (PWild 1) (PWild 2))), (PLit 1))].
(** simplify_rules.h:192  apply(max(min(w, z), max(y, min(x, z))), max(y, min(max(w, x), z))) *)
Definition r_max_192 : rule := Rule 192
  (PBin Max (PBin Min (PWild 3) (PWild 2)) (PBin Max (PWild 1) (PBin Min (PWild 0) (PWild 2))))
  [((PBin Max (PWild 1) (PBin Min (PBin Max (PWild 3) (PWild 0)) (PWild 2))), (PLit 1))].
(** simplify_rules.h:193  apply(max(x, min(y, x + may_be<0>(c0))), x, c0 <= 0) *)
Definition r_max_193 : rule := Rule 193
  (PBin Max (PWild 0) (PBin Min (PWild 1) (PBin Add (PWild 0) (POpt (PConst 0) 0))))
  [((PWild 0), (PBin LessEqual (PConst 0) (PLit 0)))].
(** simplify_rules.h:194  apply(max(x, min(x, y) + may_be<0>(c1)), x, c1 <= 0) *)
Definition r_max_194 : rule := Rule 194
  (PBin Max (PWild 0) (PBin Add (PBin Min (PWild 0) (PWild 1)) (POpt (PConst 1) 0)))
  [((PWild 0), (PBin LessEqual (PConst 1) (PLit 0)))].
(** simplify_rules.h:197  apply(max(x + may_be<0>(z), max(y, x + may_be<0>(w))), max(y, x + max(z, w))) *)
Definition r_max_197 : rule := Rule 197
  (PBin Max (PBin Add (PWild 0) (POpt (PWild 2) 0)) (PBin Max (PWild 1) (PBin Add (PWild 0) (POpt (PWild 3) 0))))
  [((PBin Max (PWild 1) (PBin Add (PWild 0) (PBin Max (PWild 2) (PWild 3)))), (PLit 1))].
(** simplify_rules.h:198  apply(max(x + may_be<0>(y), x + z), x + max(y, z)) *)
Definition r_max_198 : rule := Rule 198
  (PBin Max (PBin Add (PWild 0) (POpt (PWild 1) 0)) (PBin Add (PWild 0) (PWild 2)))
  [((PBin Add (PWild 0) (PBin Max (PWild 1) (PWild 2))), (PLit 1))].
(** simplify_rules.h:199-201  apply(max(x + may_be<0>(y), x - z), x - min(-y, z), is_non_positive(y), x + max(y, -z)) *)
Definition r_max_199 : rule := Rule 199
  (PBin Max (PBin Add (PWild 0) (POpt (PWild 1) 0)) (PBin Sub (PWild 0) (PWild 2)))
  [((PBin Sub (PWild 0) (PBin Min (PBin Sub (PLit 0) (PWild 1)) (PWild 2))), (RPred k_non_positive 1));
   ((PBin Add (PWild 0) (PBin Max (PWild 1) (PBin Sub (PLit 0) (PWild 2)))), (PLit 1))].
(** simplify_rules.h:202  apply(max(y - x, z - x), max(y, z) - x) *)
Definition r_max_202 : rule := Rule 202
  (PBin Max (PBin Sub (PWild 1) (PWild 0)) (PBin Sub (PWild 2) (PWild 0)))
  [((PBin Sub (PBin Max (PWild 1) (PWild 2)) (PWild 0)), (PLit 1))].
(** simplify_rules.h:203  apply(max(x - y, x - z), x - min(y, z)) *)
Definition r_max_203 : rule := Rule 203
  (PBin Max (PBin Sub (PWild 0) (PWild 1)) (PBin Sub (PWild 0) (PWild 2)))
  [((PBin Sub (PWild 0) (PBin Min (PWild 1) (PWild 2))), (PLit 1))].
(** simplify_rules.h:204  apply(max(x, -x), abs(x)) *)
Definition r_max_204 : rule := Rule 204
  (PBin Max (PWild 0) (PBin Sub (PLit 0) (PWild 0)))
  [((PCall1 i_abs (PWild 0)), (PLit 1))].
(** simplify_rules.h:207  apply(max(x, select(y, max(z, min(x, u)), w)), select(y, max(z, x), max(x, w))) *)
Definition r_max_207 : rule := Rule 207
  (PBin Max (PWild 0) (PSel (PWild 1) (PBin Max (PWild 2) (PBin Min (PWild 0) (PWild 4))) (PWild 3)))
  [((PSel (PWild 1) (PBin Max (PWild 2) (PWild 0)) (PBin Max (PWild 0) (PWild 3))), (PLit 1))].
(** simplify_rules.h:208  apply(max(x, select(y, z, max(w, min(x, u)))), select(y, max(x, z), max(x, w))) *)
Definition r_max_208 : rule := Rule 208
  (PBin Max (PWild 0) (PSel (PWild 1) (PWild 2) (PBin Max (PWild 3) (PBin Min (PWild 0) (PWild 4)))))
  [((PSel (PWild 1) (PBin Max (PWild 0) (PWild 2)) (PBin Max (PWild 0) (PWild 3))), (PLit 1))].
(** simplify_rules.h:209  apply(max(x, select(y, max(x, z), w)), max(x, select(y, z, w))) *)
Definition r_max_209 : rule := Rule 209
  (PBin Max (PWild 0) (PSel (PWild 1) (PBin Max (PWild 0) (PWild 2)) (PWild 3)))
  [((PBin Max (PWild 0) (PSel (PWild 1) (PWild 2) (PWild 3))), (PLit 1))].
(** simplify_rules.h:210  apply(max(x, select(y, z, max(x, w))), max(x, select(y, z, w))) *)
Definition r_max_210 : rule := Rule 210
  (PBin Max (PWild 0) (PSel (PWild 1) (PWild 2) (PBin Max (PWild 0) (PWild 3))))
  [((PBin Max (PWild 0) (PSel (PWild 1) (PWild 2) (PWild 3))), (PLit 1))].
(** simplify_rules.h:211  apply(max(x, select(y, min(x, z), w)), select(y, x, max(x, w))) *)
Definition r_max_211 : rule := Rule 211
  (PBin Max (PWild 0) (PSel (PWild 1) (PBin Min (PWild 0) (PWild 2)) (PWild 3)))
  [((PSel (PWild 1) (PWild 0) (PBin Max (PWild 0) (PWild 3))), (PLit 1))].
(** simplify_rules.h:212  apply(max(x, select(y, z, min(x, w))), select(y, max(x, z), x)) *)
Definition r_max_212 : rule := Rule 212
  (PBin Max (PWild 0) (PSel (PWild 1) (PWild 2) (PBin Min (PWild 0) (PWild 3))))
  [((PSel (PWild 1) (PBin Max (PWild 0) (PWild 2)) (PWild 0)), (PLit 1))].
(** simplify_rules.h:213  apply(max(y, select(x, y, w)), select(x, y, max(y, w))) *)
Definition r_max_213 : rule := Rule 213
  (PBin Max (PWild 1) (PSel (PWild 0) (PWild 1) (PWild 3)))
  [((PSel (PWild 0) (PWild 1) (PBin Max (PWild 1) (PWild 3))), (PLit 1))].
(** simplify_rules.h:214  apply(max(z, select(x, w, z)), select(x, max(z, w), z)) *)
Definition r_max_214 : rule := Rule 214
  (PBin Max (PWild 2) (PSel (PWild 0) (PWild 3) (PWild 2)))
  [((PSel (PWild 0) (PBin Max (PWild 2) (PWild 3)) (PWild 2)), (PLit 1))].
(** simplify_rules.h:215  apply(max(may_be<0>(w) + select(x, y, z), select(x, u, v)), select(x, max(u, w + y), max(v, w + z))) *)
Definition r_max_215 : rule := Rule 215
  (PBin Max (PBin Add (POpt (PWild 3) 0) (PSel (PWild 0) (PWild 1) (PWild 2))) (PSel (PWild 0) (PWild 4) (PWild 5)))
  [((PSel (PWild 0) (PBin Max (PWild 4) (PBin Add (PWild 3) (PWild 1))) (PBin Max (PWild 5) (PBin Add (PWild 3) (PWild 2)))), (PLit 1))].
(** simplify_rules.h:216  apply(max(max(v, select(x, y, z)), select(x, w, u)), max(v, select(x, max(y, w), max(z, u)))) *)
Definition r_max_216 : rule := Rule 216
  (PBin Max (PBin Max (PWild 5) (PSel (PWild 0) (PWild 1) (PWild 2))) (PSel (PWild 0) (PWild 3) (PWild 4)))
  [((PBin Max (PWild 5) (PSel (PWild 0) (PBin Max (PWild 1) (PWild 3)) (PBin Max (PWild 2) (PWild 4)))), (PLit 1))].
(** simplify_rules.h:217  apply(max(min(v, select(x, y, z)), select(x, w, u)), select(x, max(w, min(v, y)), max(u, min(v, z)))) *)
Definition r_max_217 : rule := Rule 217
  (PBin Max (PBin Min (PWild 5) (PSel (PWild 0) (PWild 1) (PWild 2))) (PSel (PWild 0) (PWild 3) (PWild 4)))
  [((PSel (PWild 0) (PBin Max (PWild 3) (PBin Min (PWild 5) (PWild 1))) (PBin Max (PWild 4) (PBin Min (PWild 5) (PWild 2)))), (PLit 1))].
(** simplify_rules.h:218  apply(max(w - select(x, y, z), select(x, u, v)), select(x, max(u, w - y), max(v, w - z))) *)
Definition r_max_218 : rule := Rule 218
  (PBin Max (PBin Sub (PWild 3) (PSel (PWild 0) (PWild 1) (PWild 2))) (PSel (PWild 0) (PWild 4) (PWild 5)))
  [((PSel (PWild 0) (PBin Max (PWild 4) (PBin Sub (PWild 3) (PWild 1))) (PBin Max (PWild 5) (PBin Sub (PWild 3) (PWild 2)))), (PLit 1))].
(** simplify_rules.h:219  apply(max(select(x, y, z) - w, select(x, u, v)), select(x, max(u, y - w), max(v, z - w))) *)
Definition r_max_219 : rule := Rule 219
  (PBin Max (PBin Sub (PSel (PWild 0) (PWild 1) (PWild 2)) (PWild 3)) (PSel (PWild 0) (PWild 4) (PWild 5)))
  [((PSel (PWild 0) (PBin Max (PWild 4) (PBin Sub (PWild 1) (PWild 3))) (PBin Max (PWild 5) (PBin Sub (PWild 2) (PWild 3)))), (PLit 1))].
(** simplify_rules.h:221  apply(max(select(x, y, select(z, w, u)), select(z, v, t)), select(z, max(v, select(x, y, w)), max(t, select(x, y, u)))) *)
Definition r_max_221 : rule := Rule 221
  (PBin Max (PSel (PWild 0) (PWild 1) (PSel (PWild 2) (PWild 3) (PWild 4))) (PSel (PWild 2) (PWild 5) (PWild 6)))
  [((PSel (PWild 2) (PBin Max (PWild 5) (PSel (PWild 0) (PWild 1) (PWild 3))) (PBin Max (PWild 6) (PSel (PWild 0) (PWild 1) (PWild 4)))), (PLit 1))].
(** simplify_rules.h:222  apply(max(select(x, select(z, w, u), y), select(z, v, t)), select(z, max(v, select(x, w, y)), max(t, select(x, u, y)))) *)
Definition r_max_222 : rule := Rule 222
  (PBin Max (PSel (PWild 0) (PSel (PWild 2) (PWild 3) (PWild 4)) (PWild 1)) (PSel (PWild 2) (PWild 5) (PWild 6)))
  [((PSel (PWild 2) (PBin Max (PWild 5) (PSel (PWild 0) (PWild 3) (PWild 1))) (PBin Max (PWild 6) (PSel (PWild 0) (PWild 4) (PWild 1)))), (PLit 1))].
(** simplify_rules.h:224  apply(max(x + may_be<0>(c2), select(c0 < x, y, c1)), select(c0 < x, max(y, x + c2), c1), c1 >= c0 + c2) *)
Definition r_max_224 : rule := Rule 224
  (PBin Max (PBin Add (PWild 0) (POpt (PConst 2) 0)) (PSel (PBin Less (PConst 0) (PWild 0)) (PWild 1) (PConst 1)))
  [((PSel (PBin Less (PConst 0) (PWild 0)) (PBin Max (PWild 1) (PBin Add (PWild 0) (PConst 2))) (PConst 1)), (PBin LessEqual (PBin Add (PConst 0) (PConst 2)) (PConst 1)))].
(** simplify_rules.h:225  apply(max(x + may_be<0>(c2), select(c0 < x, c1, y)), select(c0 < x, x, max(x, y - c2)) + c2, c1 <= c0 + c2) *)
Definition r_max_225 : rule := Rule 225
  (PBin Max (PBin Add (PWild 0) (POpt (PConst 2) 0)) (PSel (PBin Less (PConst 0) (PWild 0)) (PConst 1) (PWild 1)))
  [((PBin Add (PSel (PBin Less (PConst 0) (PWild 0)) (PWild 0) (PBin Max (PWild 0) (PBin Sub (PWild 1) (PConst 2)))) (PConst 2)), (PBin LessEqual (PConst 1) (PBin Add (PConst 0) (PConst 2))))].
(** simplify_rules.h:226  apply(max(x + may_be<0>(c2), select(x < c0, y, c1)), select(x < c0, max(x, y - c2), x) + c2, c1 <= c0 + c2) *)
Definition r_max_226 : rule := Rule 226
  (PBin Max (PBin Add (PWild 0) (POpt (PConst 2) 0)) (PSel (PBin Less (PWild 0) (PConst 0)) (PWild 1) (PConst 1)))
  [((PBin Add (PSel (PBin Less (PWild 0) (PConst 0)) (PBin Max (PWild 0) (PBin Sub (PWild 1) (PConst 2))) (PWild 0)) (PConst 2)), (PBin LessEqual (PConst 1) (PBin Add (PConst 0) (PConst 2))))].
(** simplify_rules.h:227  apply(max(x + may_be<0>(c2), select(x < c0, c1, y)), select(x < c0, c1, max(y, x + c2)), c1 >= c0 + c2) *)
Definition r_max_227 : rule := Rule 227
  (PBin Max (PBin Add (PWild 0) (POpt (PConst 2) 0)) (PSel (PBin Less (PWild 0) (PConst 0)) (PConst 1) (PWild 1)))
  [((PSel (PBin Less (PWild 0) (PConst 0)) (PConst 1) (PBin Max (PWild 1) (PBin Add (PWild 0) (PConst 2)))), (PBin LessEqual (PBin Add (PConst 0) (PConst 2)) (PConst 1)))].
(** simplify_rules.h:230  apply(max(max(x, c0), c1), max(x, eval(max(c0, c1)))) *)
Definition r_max_230 : rule := Rule 230
  (PBin Max (PBin Max (PWild 0) (PConst 0)) (PConst 1))
  [((PBin Max (PWild 0) (REval (PBin Max (PConst 0) (PConst 1)))), (PLit 1))].
(** simplify_rules.h:231  apply(max(x, max(y, c0)), max(max(x, y), c0)) *)
Definition r_max_231 : rule := Rule 231
  (PBin Max (PWild 0) (PBin Max (PWild 1) (PConst 0)))
  [((PBin Max (PBin Max (PWild 0) (PWild 1)) (PConst 0)), (PLit 1))].
(** simplify_rules.h:232  apply(max(x + c0, (y + c1)/c2), max(x, (y + eval(c1 - c0*c2))/c2) + c0, c2 != 0) *)
Definition r_max_232 : rule := Rule 232
  (PBin Max (PBin Add (PWild 0) (PConst 0)) (PBin Div (PBin Add (PWild 1) (PConst 1)) (PConst 2)))
  [((PBin Add (PBin Max (PWild 0) (PBin Div (PBin Add (PWild 1) (REval (PBin Sub (PConst 1) (PBin Mul (PConst 0) (PConst 2))))) (PConst 2))) (PConst 0)), (PBin NotEqual (PConst 2) (PLit 0)))].
(** simplify_rules.h:233-235  apply(max(x + c0, y + c1), max(x, y + eval(c1 - c0)) + c0, c0 >= c1, max(y, x + eval(c0 - c1)) + c1) *)
Definition r_max_233 : rule := Rule 233
  (PBin Max (PBin Add (PWild 0) (PConst 0)) (PBin Add (PWild 1) (PConst 1)))
  [((PBin Add (PBin Max (PWild 0) (PBin Add (PWild 1) (REval (PBin Sub (PConst 1) (PConst 0))))) (PConst 0)), (PBin LessEqual (PConst 1) (PConst 0)));
   ((PBin Add (PBin Max (PWild 1) (PBin Add (PWild 0) (REval (PBin Sub (PConst 0) (PConst 1))))) (PConst 1)), (PLit 1))].
(** simplify_rules.h:236-238  apply(max(x + c0, c1 - may_be<0>(y)), max(x, eval(c1 - c0)) + c0, is_zero(y), c1 - min(y, eval(c1 - c0) - x)) *)
Definition r_max_236 : rule := Rule 236
  (PBin Max (PBin Add (PWild 0) (PConst 0)) (PBin Sub (PConst 1) (POpt (PWild 1) 0)))
  [((PBin Add (PBin Max (PWild 0) (REval (PBin Sub (PConst 1) (PConst 0)))) (PConst 0)), (RPred k_zero 1));
   ((PBin Sub (PConst 1) (PBin Min (PWild 1) (PBin Sub (REval (PBin Sub (PConst 1) (PConst 0))) (PWild 0)))), (PLit 1))].
(** simplify_rules.h:239  apply(max(c0 - x, c1 - may_be<0>(y)), c0 - min(x, y + eval(c0 - c1))) *)
Definition r_max_239 : rule := Rule 239
  (PBin Max (PBin Sub (PConst 0) (PWild 0)) (PBin Sub (PConst 1) (POpt (PWild 1) 0)))
  [((PBin Sub (PConst 0) (PBin Min (PWild 0) (PBin Add (PWild 1) (REval (PBin Sub (PConst 0) (PConst 1)))))), (PLit 1))].
(** simplify_rules.h:240  apply(max(max(x, c0) + may_be<0>(c1), max(y, c2)), max(max(y, x + c1), eval(max(c0 + c1, c2)))) *)
Definition r_max_240 : rule := Rule 240
  (PBin Max (PBin Add (PBin Max (PWild 0) (PConst 0)) (POpt (PConst 1) 0)) (PBin Max (PWild 1) (PConst 2)))
  [((PBin Max (PBin Max (PWild 1) (PBin Add (PWild 0) (PConst 1))) (REval (PBin Max (PBin Add (PConst 0) (PConst 1)) (PConst 2)))), (PLit 1))].
(** simplify_rules.h:241-243  apply(max(min(x, c0) + may_be<0>(c1), min(y, c2)), min(max(y, min(x, c0) + c1), c2), c2 > c0 + c1, min(max(x + c1, min(y, c2)), eval(c0 + c1))) *)
Definition r_max_241 : rule := Rule 241
  (PBin Max (PBin Add (PBin Min (PWild 0) (PConst 0)) (POpt (PConst 1) 0)) (PBin Min (PWild 1) (PConst 2)))
  [((PBin Min (PBin Max (PWild 1) (PBin Add (PBin Min (PWild 0) (PConst 0)) (PConst 1))) (PConst 2)), (PBin Less (PBin Add (PConst 0) (PConst 1)) (PConst 2)));
   ((PBin Min (PBin Max (PBin Add (PWild 0) (PConst 1)) (PBin Min (PWild 1) (PConst 2))) (REval (PBin Add (PConst 0) (PConst 1)))), (PLit 1))].
(** simplify_rules.h:244  apply(max(x + c0, select(y, may_be<0>(z) + c1, may_be<0>(w) + c2)), max(x, select(y, z + eval(c1 - c0), w + eval(c2 - c0))) + c0) *)
Definition r_max_244 : rule := Rule 244
  (PBin Max (PBin Add (PWild 0) (PConst 0)) (PSel (PWild 1) (PBin Add (POpt (PWild 2) 0) (PConst 1)) (PBin Add (POpt (PWild 3) 0) (PConst 2))))
  [((PBin Add (PBin Max (PWild 0) (PSel (PWild 1) (PBin Add (PWild 2) (REval (PBin Sub (PConst 1) (PConst 0)))) (PBin Add (PWild 3) (REval (PBin Sub (PConst 2) (PConst 0)))))) (PConst 0)), (PLit 1))].
(** simplify_rules.h:245  apply(max(select(y, c1, c2), c0), select(y, eval(max(c0, c1)), eval(max(c0, c2)))) *)
Definition r_max_245 : rule := Rule 245
  (PBin Max (PSel (PWild 1) (PConst 1) (PConst 2)) (PConst 0))
  [((PSel (PWild 1) (REval (PBin Max (PConst 0) (PConst 1))) (REval (PBin Max (PConst 0) (PConst 2)))), (PLit 1))].
(** simplify_rules.h:248-250  apply(max(x*c0, c1), max(x, eval(c1/c0))*c0, c0 > 0 && c1%c0 == 0, min(x, eval(c1/c0))*c0, c0 < 0 && c1%c0 == 0) *)
Definition r_max_248 : rule := Rule 248
  (PBin Max (PBin Mul (PWild 0) (PConst 0)) (PConst 1))
  [((PBin Mul (PBin Max (PWild 0) (REval (PBin Div (PConst 1) (PConst 0)))) (PConst 0)), (PBin And (PBin Less (PLit 0) (PConst 0)) (PBin Equal (PBin Mod (PConst 1) (PConst 0)) (PLit 0))));
   ((PBin Mul (PBin Min (PWild 0) (REval (PBin Div (PConst 1) (PConst 0)))) (PConst 0)), (PBin And (PBin Less (PConst 0) (PLit 0)) (PBin Equal (PBin Mod (PConst 1) (PConst 0)) (PLit 0))))].
(** simplify_rules.h:252-256  apply(max(x*c0, y*c1), max(x, y*eval(c1/c0))*c0, c0 > 0 && c1%c0 == 0, min(x, y*eval(c1/c0))*c0, c0 < 0 && c1%c0 == 0, max(y, x*eval(c0/c1))*c1, c1 > 0 && c0%c1 == 0, min(y, x*eval(c0/c1))*c1, c1 < 0 && c0%c1 == 0) *)
Definition r_max_252 : rule := Rule 252
  (PBin Max (PBin Mul (PWild 0) (PConst 0)) (PBin Mul (PWild 1) (PConst 1)))
  [((PBin Mul (PBin Max (PWild 0) (PBin Mul (PWild 1) (REval (PBin Div (PConst 1) (PConst 0))))) (PConst 0)), (PBin And (PBin Less (PLit 0) (PConst 0)) (PBin Equal (PBin Mod (PConst 1) (PConst 0)) (PLit 0))));
   ((PBin Mul (PBin Min (PWild 0) (PBin Mul (PWild 1) (REval (PBin Div (PConst 1) (PConst 0))))) (PConst 0)), (PBin And (PBin Less (PConst 0) (PLit 0)) (PBin Equal (PBin Mod (PConst 1) (PConst 0)) (PLit 0))));
   ((PBin Mul (PBin Max (PWild 1) (PBin Mul (PWild 0) (REval (PBin Div (PConst 0) (PConst 1))))) (PConst 1)), (PBin And (PBin Less (PLit 0) (PConst 1)) (PBin Equal (PBin Mod (PConst 0) (PConst 1)) (PLit 0))));
   ((PBin Mul (PBin Min (PWild 1) (PBin Mul (PWild 0) (REval (PBin Div (PConst 0) (PConst 1))))) (PConst 1)), (PBin And (PBin Less (PConst 1) (PLit 0)) (PBin Equal (PBin Mod (PConst 0) (PConst 1)) (PLit 0))))].
(** simplify_rules.h:257-259  apply(max(y*c0 + c1, x*c0), max(x, y + eval(c1/c0))*c0, c0 > 0 && c1%c0 == 0, min(x, y + eval(c1/c0))*c0, c0 < 0 && c1%c0 == 0) *)
Definition r_max_257 : rule := Rule 257
  (PBin Max (PBin Add (PBin Mul (PWild 1) (PConst 0)) (PConst 1)) (PBin Mul (PWild 0) (PConst 0)))
  [((PBin Mul (PBin Max (PWild 0) (PBin Add (PWild 1) (REval (PBin Div (PConst 1) (PConst 0))))) (PConst 0)), (PBin And (PBin Less (PLit 0) (PConst 0)) (PBin Equal (PBin Mod (PConst 1) (PConst 0)) (PLit 0))));
   ((PBin Mul (PBin Min (PWild 0) (PBin Add (PWild 1) (REval (PBin Div (PConst 1) (PConst 0))))) (PConst 0)), (PBin And (PBin Less (PConst 0) (PLit 0)) (PBin Equal (PBin Mod (PConst 1) (PConst 0)) (PLit 0))))].
(** simplify_rules.h:261-263  apply(max(y/c0 + may_be<0>(c1), x/c0), max(x, y + eval(c1*c0))/c0, c0 > 0, min(x, y + eval(c1*c0))/c0, c0 < 0) *)
Definition r_max_261 : rule := Rule 261
  (PBin Max (PBin Add (PBin Div (PWild 1) (PConst 0)) (POpt (PConst 1) 0)) (PBin Div (PWild 0) (PConst 0)))
  [((PBin Div (PBin Max (PWild 0) (PBin Add (PWild 1) (REval (PBin Mul (PConst 1) (PConst 0))))) (PConst 0)), (PBin Less (PLit 0) (PConst 0)));
   ((PBin Div (PBin Min (PWild 0) (PBin Add (PWild 1) (REval (PBin Mul (PConst 1) (PConst 0))))) (PConst 0)), (PBin Less (PConst 0) (PLit 0)))].
(** simplify_rules.h:265-267  apply(max(x/c0, c1), max(x, eval(c1*c0))/c0, c0 > 0, min(x, eval(c1*c0))/c0, c0 < 0) *)
Definition r_max_265 : rule := Rule 265
  (PBin Max (PBin Div (PWild 0) (PConst 0)) (PConst 1))
  [((PBin Div (PBin Max (PWild 0) (REval (PBin Mul (PConst 1) (PConst 0)))) (PConst 0)), (PBin Less (PLit 0) (PConst 0)));
   ((PBin Div (PBin Min (PWild 0) (REval (PBin Mul (PConst 1) (PConst 0)))) (PConst 0)), (PBin Less (PConst 0) (PLit 0)))].
(** simplify_rules.h:269-271  apply(max(staircase(x, c0, c1, c2), staircase(x, c3, c4, c5) + may_be<0>(c6)), staircase(x, c0, c1, c2), 0 >= staircase_sum_max(c0, c1, -c2, c3, c4, c5) + c6, staircase(x, c3, c4, c5) + c6, 0 <= staircase_sum_min(c0, c1, -c2, c3, c4, c5) + c6) *)
Definition r_max_269 : rule := Rule 269
  (PBin Max (PStair (PWild 0) (PConst 0) (PConst 1) (PConst 2)) (PBin Add (PStair (PWild 0) (PConst 3) (PConst 4) (PConst 5)) (POpt (PConst 6) 0)))
  [((PStair (PWild 0) (PConst 0) (PConst 1) (PConst 2)), (PBin LessEqual (PBin Add (RSum true (PConst 0) (PConst 1) (PBin Sub (PLit 0) (PConst 2)) (PConst 3) (PConst 4) (PConst 5)) (PConst 6)) (PLit 0)));
   ((PBin Add (PStair (PWild 0) (PConst 3) (PConst 4) (PConst 5)) (PConst 6)), (PBin LessEqual (PLit 0) (PBin Add (RSum false (PConst 0) (PConst 1) (PBin Sub (PLit 0) (PConst 2)) (PConst 3) (PConst 4) (PConst 5)) (PConst 6))))].
(** simplify_rules.h:273  apply(max(x, abs(x)), abs(x)) *)
Definition r_max_273 : rule := Rule 273
  (PBin Max (PWild 0) (PCall1 i_abs (PWild 0)))
  [((PCall1 i_abs (PWild 0)), (PLit 1))].
Definition max_rules : list rule :=
  [r_max_163;
   r_max_164;
   r_max_165;
   r_max_166;
   r_max_167;
   r_max_170;
   r_max_173;
   r_max_174;
   r_max_175;
   r_max_176;
   r_max_177;
   r_max_178;
   r_max_179;
   r_max_182;
   r_max_184;
   r_max_187;
   r_max_188;
   r_max_189;
   r_max_190;
   r_max_191;
   r_max_192;
   r_max_193;
   r_max_194;
   r_max_197;
   r_max_198;
   r_max_199;
   r_max_202;
   r_max_203;
   r_max_204;
   r_max_207;
   r_max_208;
   r_max_209;
   r_max_210;
   r_max_211;
   r_max_212;
   r_max_213;
   r_max_214;
   r_max_215;
   r_max_216;
   r_max_217;
   r_max_218;
   r_max_219;
   r_max_221;
   r_max_222;
   r_max_224;
   r_max_225;
   r_max_226;
   r_max_227;
   r_max_230;
   r_max_231;
   r_max_232;
   r_max_233;
   r_max_236;
   r_max_239;
   r_max_240;
   r_max_241;
   r_max_244;
   r_max_245;
   r_max_248;
   r_max_252;
   r_max_257;
   r_max_261;
   r_max_265;
   r_max_269;
   r_max_273].

(** apply_add_rules *)
(** simplify_rules.h:281  apply(x + rewrite::positive_infinity(), rewrite::positive_infinity(), is_finite(x)) *)
Definition r_add_281 : rule := Rule 281
  (PBin Add (PWild 0) (PCall0 i_positive_infinity))
  [((PCall0 i_positive_infinity), (RPred k_finite 0))].
(** simplify_rules.h:282  apply(x + rewrite::negative_infinity(), rewrite::negative_infinity(), is_finite(x)) *)
Definition r_add_282 : rule := Rule 282
  (PBin Add (PWild 0) (PCall0 i_negative_infinity))
  [((PCall0 i_negative_infinity), (RPred k_finite 0))].
(** simplify_rules.h:283  apply(x*may_be<1>(c0) + x*may_be<1>(c1), x*eval(c0 + c1)) *)
Definition r_add_283 : rule := Rule 283
  (PBin Add (PBin Mul (PWild 0) (POpt (PConst 0) 1)) (PBin Mul (PWild 0) (POpt (PConst 1) 1)))
  [((PBin Mul (PWild 0) (REval (PBin Add (PConst 0) (PConst 1)))), (PLit 1))].
(** simplify_rules.h:284  apply(x + 0, x) *)
Definition r_add_284 : rule := Rule 284
  (PBin Add (PWild 0) (PLit 0))
  [((PWild 0), (PLit 1))].
(** simplify_rules.h:285  apply(x + (x - y), x*2 - y) *)
Definition r_add_285 : rule := Rule 285
  (PBin Add (PWild 0) (PBin Sub (PWild 0) (PWild 1)))
  [((PBin Sub (PBin Mul (PWild 0) (PLit 2)) (PWild 1)), (PLit 1))].
(** simplify_rules.h:286  apply(x + (y - x), y) *)
Definition r_add_286 : rule := Rule 286
  (PBin Add (PWild 0) (PBin Sub (PWild 1) (PWild 0)))
  [((PWild 1), (PLit 1))].
(** simplify_rules.h:287  apply(x + x*y, x*(y + 1), !is_constant(x)) *)
Definition r_add_287 : rule := Rule 287
  (PBin Add (PWild 0) (PBin Mul (PWild 0) (PWild 1)))
  [((PBin Mul (PWild 0) (PBin Add (PWild 1) (PLit 1))), (PNot (RPred k_constant 0)))].
(** simplify_rules.h:288  apply(x*y + x*z, x*(y + z)) *)
Definition r_add_288 : rule := Rule 288
  (PBin Add (PBin Mul (PWild 0) (PWild 1)) (PBin Mul (PWild 0) (PWild 2)))
  [((PBin Mul (PWild 0) (PBin Add (PWild 1) (PWild 2))), (PLit 1))].
(** simplify_rules.h:289  apply((x + may_be<0>(y)) + (x + may_be<0>(z)), (y + z) + x*2) *)
Definition r_add_289 : rule := Rule 289
  (PBin Add (PBin Add (PWild 0) (POpt (PWild 1) 0)) (PBin Add (PWild 0) (POpt (PWild 2) 0)))
  [((PBin Add (PBin Add (PWild 1) (PWild 2)) (PBin Mul (PWild 0) (PLit 2))), (PLit 1))].
(** simplify_rules.h:290  apply((x + y) + (x - z), (y - z) + x*2) *)
Definition r_add_290 : rule := Rule 290
  (PBin Add (PBin Add (PWild 0) (PWild 1)) (PBin Sub (PWild 0) (PWild 2)))
  [((PBin Add (PBin Sub (PWild 1) (PWild 2)) (PBin Mul (PWild 0) (PLit 2))), (PLit 1))].
(** simplify_rules.h:291  apply((x + y) + (z - x), y + z) *)
Definition r_add_291 : rule := Rule 291
  (PBin Add (PBin Add (PWild 0) (PWild 1)) (PBin Sub (PWild 2) (PWild 0)))
  [((PBin Add (PWild 1) (PWild 2)), (PLit 1))].
(** simplify_rules.h:292  apply((x - y) + (z - x), z - y) *)
Definition r_add_292 : rule := Rule 292
  (PBin Add (PBin Sub (PWild 0) (PWild 1)) (PBin Sub (PWild 2) (PWild 0)))
  [((PBin Sub (PWild 2) (PWild 1)), (PLit 1))].
(** simplify_rules.h:293  apply((x - y) + (x - z), x*2 - (y + z)) *)
Definition r_add_293 : rule := Rule 293
  (PBin Add (PBin Sub (PWild 0) (PWild 1)) (PBin Sub (PWild 0) (PWild 2)))
  [((PBin Sub (PBin Mul (PWild 0) (PLit 2)) (PBin Add (PWild 1) (PWild 2))), (PLit 1))].
(** simplify_rules.h:294  apply((y - x) + (z - x), (y + z) + x*-2) *)
Definition r_add_294 : rule := Rule 294
  (PBin Add (PBin Sub (PWild 1) (PWild 0)) (PBin Sub (PWild 2) (PWild 0)))
  [((PBin Add (PBin Add (PWild 1) (PWild 2)) (PBin Mul (PWild 0) (PLit (-2)))), (PLit 1))].
(** simplify_rules.h:296  apply(x + (c0 - y), (x - y) + c0) *)
Definition r_add_296 : rule := Rule 296
  (PBin Add (PWild 0) (PBin Sub (PConst 0) (PWild 1)))
  [((PBin Add (PBin Sub (PWild 0) (PWild 1)) (PConst 0)), (PLit 1))].
(** simplify_rules.h:297  apply((x + may_be<0>(c0)) + (y + may_be<0>(c1)), (x + y) + eval(c0 + c1), c0 != 0 || c1 != 0) *)
Definition r_add_297 : rule := Rule 297
  (PBin Add (PBin Add (PWild 0) (POpt (PConst 0) 0)) (PBin Add (PWild 1) (POpt (PConst 1) 0)))
  [((PBin Add (PBin Add (PWild 0) (PWild 1)) (REval (PBin Add (PConst 0) (PConst 1)))), (PBin Or (PBin NotEqual (PConst 0) (PLit 0)) (PBin NotEqual (PConst 1) (PLit 0))))].
(** simplify_rules.h:299  apply(staircase(x, c0, c1, c2) + c3, ((x + eval((c3/c2)*c1 + c0))/c1)*c2, c0 != 0 && c1 != 0 && c2 != 0 && c3%c2 == 0) *)
Definition r_add_299 : rule := Rule 299
  (PBin Add (PStair (PWild 0) (PConst 0) (PConst 1) (PConst 2)) (PConst 3))
  [((PBin Mul (PBin Div (PBin Add (PWild 0) (REval (PBin Add (PBin Mul (PBin Div (PConst 3) (PConst 2)) (PConst 1)) (PConst 0)))) (PConst 1)) (PConst 2)), (PBin And (PBin And (PBin And (PBin NotEqual (PConst 0) (PLit 0)) (PBin NotEqual (PConst 1) (PLit 0))) (PBin NotEqual (PConst 2) (PLit 0))) (PBin Equal (PBin Mod (PConst 3) (PConst 2)) (PLit 0))))].
(** simplify_rules.h:300  apply(staircase(x, 0, c0, c0) + x%c0, x, c0 != 0) *)
Definition r_add_300 : rule := Rule 300
  (PBin Add (PStair (PWild 0) (PLit 0) (PConst 0) (PConst 0)) (PBin Mod (PWild 0) (PConst 0)))
  [((PWild 0), (PBin NotEqual (PConst 0) (PLit 0)))].
(** simplify_rules.h:302  apply(min(x, y + c1) + c2, min(y, x + c2), c1 == -c2) *)
Definition r_add_302 : rule := Rule 302
  (PBin Add (PBin Min (PWild 0) (PBin Add (PWild 1) (PConst 1))) (PConst 2))
  [((PBin Min (PWild 1) (PBin Add (PWild 0) (PConst 2))), (PBin Equal (PConst 1) (PBin Sub (PLit 0) (PConst 2))))].
(** simplify_rules.h:303  apply(max(x, y + c1) + c2, max(y, x + c2), c1 == -c2) *)
Definition r_add_303 : rule := Rule 303
  (PBin Add (PBin Max (PWild 0) (PBin Add (PWild 1) (PConst 1))) (PConst 2))
  [((PBin Max (PWild 1) (PBin Add (PWild 0) (PConst 2))), (PBin Equal (PConst 1) (PBin Sub (PLit 0) (PConst 2))))].
(** simplify_rules.h:304  apply(z + min(x, y - (z + may_be<0>(w))), min(x + z, y - w)) *)
Definition r_add_304 : rule := Rule 304
  (PBin Add (PWild 2) (PBin Min (PWild 0) (PBin Sub (PWild 1) (PBin Add (PWild 2) (POpt (PWild 3) 0)))))
  [((PBin Min (PBin Add (PWild 0) (PWild 2)) (PBin Sub (PWild 1) (PWild 3))), (PLit 1))].
(** simplify_rules.h:305  apply(z + max(x, y - (z + may_be<0>(w))), max(x + z, y - w)) *)
Definition r_add_305 : rule := Rule 305
  (PBin Add (PWild 2) (PBin Max (PWild 0) (PBin Sub (PWild 1) (PBin Add (PWild 2) (POpt (PWild 3) 0)))))
  [((PBin Max (PBin Add (PWild 0) (PWild 2)) (PBin Sub (PWild 1) (PWild 3))), (PLit 1))].
(** simplify_rules.h:306  apply(z + min(x, y - (z - w)), min(x + z, y + w)) *)
Definition r_add_306 : rule := Rule 306
  (PBin Add (PWild 2) (PBin Min (PWild 0) (PBin Sub (PWild 1) (PBin Sub (PWild 2) (PWild 3)))))
  [((PBin Min (PBin Add (PWild 0) (PWild 2)) (PBin Add (PWild 1) (PWild 3))), (PLit 1))].
(** simplify_rules.h:307  apply(z + max(x, y - (z - w)), max(x + z, y + w)) *)
Definition r_add_307 : rule := Rule 307
  (PBin Add (PWild 2) (PBin Max (PWild 0) (PBin Sub (PWild 1) (PBin Sub (PWild 2) (PWild 3)))))
  [((PBin Max (PBin Add (PWild 0) (PWild 2)) (PBin Add (PWild 1) (PWild 3))), (PLit 1))].
(** simplify_rules.h:309  apply(w + select(x, y, z - w), select(x, y + w, z)) *)
Definition r_add_309 : rule := Rule 309
  (PBin Add (PWild 3) (PSel (PWild 0) (PWild 1) (PBin Sub (PWild 2) (PWild 3))))
  [((PSel (PWild 0) (PBin Add (PWild 1) (PWild 3)) (PWild 2)), (PLit 1))].
(** simplify_rules.h:310  apply(w + select(x, y - w, z), select(x, y, z + w)) *)
Definition r_add_310 : rule := Rule 310
  (PBin Add (PWild 3) (PSel (PWild 0) (PBin Sub (PWild 1) (PWild 3)) (PWild 2)))
  [((PSel (PWild 0) (PWild 1) (PBin Add (PWild 2) (PWild 3))), (PLit 1))].
Definition add_rules : list rule :=
  [r_add_281;
   r_add_282;
   r_add_283;
   r_add_284;
   r_add_285;
   r_add_286;
   r_add_287;
   r_add_288;
   r_add_289;
   r_add_290;
   r_add_291;
   r_add_292;
   r_add_293;
   r_add_294;
   r_add_296;
   r_add_297;
   r_add_299;
   r_add_300;
   r_add_302;
   r_add_303;
   r_add_304;
   r_add_305;
   r_add_306;
   r_add_307;
   r_add_309;
   r_add_310].

(** apply_sub_rules *)
(** simplify_rules.h:318  apply(x - rewrite::positive_infinity(), rewrite::negative_infinity(), is_finite(x)) *)
Definition r_sub_318 : rule := Rule 318
  (PBin Sub (PWild 0) (PCall0 i_positive_infinity))
  [((PCall0 i_negative_infinity), (RPred k_finite 0))].
(** simplify_rules.h:319  apply(x - rewrite::negative_infinity(), rewrite::positive_infinity(), is_finite(x)) *)
Definition r_sub_319 : rule := Rule 319
  (PBin Sub (PWild 0) (PCall0 i_negative_infinity))
  [((PCall0 i_positive_infinity), (RPred k_finite 0))].
(** simplify_rules.h:320  apply(x - 0, x) *)
Definition r_sub_320 : rule := Rule 320
  (PBin Sub (PWild 0) (PLit 0))
  [((PWild 0), (PLit 1))].
(** simplify_rules.h:321  apply(x*may_be<1>(c0) - x*may_be<1>(c1), x*eval(c0 - c1)) *)
Definition r_sub_321 : rule := Rule 321
  (PBin Sub (PBin Mul (PWild 0) (POpt (PConst 0) 1)) (PBin Mul (PWild 0) (POpt (PConst 1) 1)))
  [((PBin Mul (PWild 0) (REval (PBin Sub (PConst 0) (PConst 1)))), (PLit 1))].
(** simplify_rules.h:322  apply(x - y*c0, x + y*eval(-c0)) *)
Definition r_sub_322 : rule := Rule 322
  (PBin Sub (PWild 0) (PBin Mul (PWild 1) (PConst 0)))
  [((PBin Add (PWild 0) (PBin Mul (PWild 1) (REval (PBin Sub (PLit 0) (PConst 0))))), (PLit 1))].
(** simplify_rules.h:323  apply(x - y/c0, x + y/eval(-c0), c0 <= 0) *)
Definition r_sub_323 : rule := Rule 323
  (PBin Sub (PWild 0) (PBin Div (PWild 1) (PConst 0)))
  [((PBin Add (PWild 0) (PBin Div (PWild 1) (REval (PBin Sub (PLit 0) (PConst 0))))), (PBin LessEqual (PConst 0) (PLit 0)))].
(** simplify_rules.h:324  apply(x - (c0 - y), (x + y) + eval(-c0)) *)
Definition r_sub_324 : rule := Rule 324
  (PBin Sub (PWild 0) (PBin Sub (PConst 0) (PWild 1)))
  [((PBin Add (PBin Add (PWild 0) (PWild 1)) (REval (PBin Sub (PLit 0) (PConst 0)))), (PLit 1))].
(** simplify_rules.h:325  apply(c0 - (x - y), (y - x) + c0) *)
Definition r_sub_325 : rule := Rule 325
  (PBin Sub (PConst 0) (PBin Sub (PWild 0) (PWild 1)))
  [((PBin Add (PBin Sub (PWild 1) (PWild 0)) (PConst 0)), (PLit 1))].
(** simplify_rules.h:326  apply((c0 - x) - (y - z), ((z - x) - y) + c0) *)
Definition r_sub_326 : rule := Rule 326
  (PBin Sub (PBin Sub (PConst 0) (PWild 0)) (PBin Sub (PWild 1) (PWild 2)))
  [((PBin Add (PBin Sub (PBin Sub (PWild 2) (PWild 0)) (PWild 1)) (PConst 0)), (PLit 1))].
(** simplify_rules.h:327  apply((c0 - x) - y, c0 - (x + y)) *)
Definition r_sub_327 : rule := Rule 327
  (PBin Sub (PBin Sub (PConst 0) (PWild 0)) (PWild 1))
  [((PBin Sub (PConst 0) (PBin Add (PWild 0) (PWild 1))), (PLit 1))].
(** simplify_rules.h:328  apply((x + may_be<0>(y)) - x, y) *)
Definition r_sub_328 : rule := Rule 328
  (PBin Sub (PBin Add (PWild 0) (POpt (PWild 1) 0)) (PWild 0))
  [((PWild 1), (PLit 1))].
(** simplify_rules.h:329  apply((x + may_be<0>(y)) - (x + z), y - z) *)
Definition r_sub_329 : rule := Rule 329
  (PBin Sub (PBin Add (PWild 0) (POpt (PWild 1) 0)) (PBin Add (PWild 0) (PWild 2)))
  [((PBin Sub (PWild 1) (PWild 2)), (PLit 1))].
(** simplify_rules.h:330  apply((x - y) - (z - y), x - z) *)
Definition r_sub_330 : rule := Rule 330
  (PBin Sub (PBin Sub (PWild 0) (PWild 1)) (PBin Sub (PWild 2) (PWild 1)))
  [((PBin Sub (PWild 0) (PWild 2)), (PLit 1))].
(** simplify_rules.h:331  apply((x - y) - (x - may_be<0>(z)), z - y) *)
Definition r_sub_331 : rule := Rule 331
  (PBin Sub (PBin Sub (PWild 0) (PWild 1)) (PBin Sub (PWild 0) (POpt (PWild 2) 0)))
  [((PBin Sub (PWild 2) (PWild 1)), (PLit 1))].
(** simplify_rules.h:332  apply((x + may_be<0>(c0)) - (y + may_be<0>(c1)), (x - y) + eval(c0 - c1), c0 != 0 || c1 != 0) *)
Definition r_sub_332 : rule := Rule 332
  (PBin Sub (PBin Add (PWild 0) (POpt (PConst 0) 0)) (PBin Add (PWild 1) (POpt (PConst 1) 0)))
  [((PBin Add (PBin Sub (PWild 0) (PWild 1)) (REval (PBin Sub (PConst 0) (PConst 1)))), (PBin Or (PBin NotEqual (PConst 0) (PLit 0)) (PBin NotEqual (PConst 1) (PLit 0))))].
(** simplify_rules.h:336  apply((x + y)/c0 - (x + may_be<0>(c1))/c0, ((y - c1) + ((x + eval(c1%c0))%c0))/c0, c0 > 0) *)
Definition r_sub_336 : rule := Rule 336
  (PBin Sub (PBin Div (PBin Add (PWild 0) (PWild 1)) (PConst 0)) (PBin Div (PBin Add (PWild 0) (POpt (PConst 1) 0)) (PConst 0)))
  [((PBin Div (PBin Add (PBin Sub (PWild 1) (PConst 1)) (PBin Mod (PBin Add (PWild 0) (REval (PBin Mod (PConst 1) (PConst 0)))) (PConst 0))) (PConst 0)), (PBin Less (PLit 0) (PConst 0)))].
(** simplify_rules.h:337  apply((x + may_be<0>(c1))/c0 - (x + y)/c0, ((eval(c0 + c1 - 1) - y) - ((x + eval(c1%c0))%c0))/c0, c0 > 0) *)
Definition r_sub_337 : rule := Rule 337
  (PBin Sub (PBin Div (PBin Add (PWild 0) (POpt (PConst 1) 0)) (PConst 0)) (PBin Div (PBin Add (PWild 0) (PWild 1)) (PConst 0)))
  [((PBin Div (PBin Sub (PBin Sub (REval (PBin Sub (PBin Add (PConst 0) (PConst 1)) (PLit 1))) (PWild 1)) (PBin Mod (PBin Add (PWild 0) (REval (PBin Mod (PConst 1) (PConst 0)))) (PConst 0))) (PConst 0)), (PBin Less (PLit 0) (PConst 0)))].
(** simplify_rules.h:338  apply((x - y)/c0 - (x + may_be<0>(c1))/c0, (((x + eval(c1%c0))%c0) - y - c1)/c0, c0 > 0) *)
Definition r_sub_338 : rule := Rule 338
  (PBin Sub (PBin Div (PBin Sub (PWild 0) (PWild 1)) (PConst 0)) (PBin Div (PBin Add (PWild 0) (POpt (PConst 1) 0)) (PConst 0)))
  [((PBin Div (PBin Sub (PBin Sub (PBin Mod (PBin Add (PWild 0) (REval (PBin Mod (PConst 1) (PConst 0)))) (PConst 0)) (PWild 1)) (PConst 1)) (PConst 0)), (PBin Less (PLit 0) (PConst 0)))].
(** simplify_rules.h:339  apply((x + may_be<0>(c1))/c0 - (x - y)/c0, ((y + eval(c0 + c1 - 1)) - ((x + eval(c1%c0))%c0))/c0, c0 > 0) *)
Definition r_sub_339 : rule := Rule 339
  (PBin Sub (PBin Div (PBin Add (PWild 0) (POpt (PConst 1) 0)) (PConst 0)) (PBin Div (PBin Sub (PWild 0) (PWild 1)) (PConst 0)))
  [((PBin Div (PBin Sub (PBin Add (PWild 1) (REval (PBin Sub (PBin Add (PConst 0) (PConst 1)) (PLit 1)))) (PBin Mod (PBin Add (PWild 0) (REval (PBin Mod (PConst 1) (PConst 0)))) (PConst 0))) (PConst 0)), (PBin Less (PLit 0) (PConst 0)))].
(** simplify_rules.h:340  apply(x - (x/c0)*c0, x%c0, c0 > 0) *)
Definition r_sub_340 : rule := Rule 340
  (PBin Sub (PWild 0) (PBin Mul (PBin Div (PWild 0) (PConst 0)) (PConst 0)))
  [((PBin Mod (PWild 0) (PConst 0)), (PBin Less (PLit 0) (PConst 0)))].
(** simplify_rules.h:341  apply((x/c0)*c0 - x, -(x%c0), c0 > 0) *)
Definition r_sub_341 : rule := Rule 341
  (PBin Sub (PBin Mul (PBin Div (PWild 0) (PConst 0)) (PConst 0)) (PWild 0))
  [((PBin Sub (PLit 0) (PBin Mod (PWild 0) (PConst 0))), (PBin Less (PLit 0) (PConst 0)))].
(** simplify_rules.h:343  apply(c2 - min(x + c0, y + c1), max(eval(c2 - c0) - x, eval(c2 - c1) - y)) *)
Definition r_sub_343 : rule := Rule 343
  (PBin Sub (PConst 2) (PBin Min (PBin Add (PWild 0) (PConst 0)) (PBin Add (PWild 1) (PConst 1))))
  [((PBin Max (PBin Sub (REval (PBin Sub (PConst 2) (PConst 0))) (PWild 0)) (PBin Sub (REval (PBin Sub (PConst 2) (PConst 1))) (PWild 1))), (PLit 1))].
(** simplify_rules.h:344  apply(c2 - max(x + c0, y + c1), min(eval(c2 - c0) - x, eval(c2 - c1) - y)) *)
Definition r_sub_344 : rule := Rule 344
  (PBin Sub (PConst 2) (PBin Max (PBin Add (PWild 0) (PConst 0)) (PBin Add (PWild 1) (PConst 1))))
  [((PBin Min (PBin Sub (REval (PBin Sub (PConst 2) (PConst 0))) (PWild 0)) (PBin Sub (REval (PBin Sub (PConst 2) (PConst 1))) (PWild 1))), (PLit 1))].
(** simplify_rules.h:345  apply(c2 - min(x + c0, c1 - y), max(y + eval(c2 - c1), eval(c2 - c0) - x)) *)
Definition r_sub_345 : rule := Rule 345
  (PBin Sub (PConst 2) (PBin Min (PBin Add (PWild 0) (PConst 0)) (PBin Sub (PConst 1) (PWild 1))))
  [((PBin Max (PBin Add (PWild 1) (REval (PBin Sub (PConst 2) (PConst 1)))) (PBin Sub (REval (PBin Sub (PConst 2) (PConst 0))) (PWild 0))), (PLit 1))].
(** simplify_rules.h:346  apply(c2 - max(x + c0, c1 - y), min(y + eval(c2 - c1), eval(c2 - c0) - x)) *)
Definition r_sub_346 : rule := Rule 346
  (PBin Sub (PConst 2) (PBin Max (PBin Add (PWild 0) (PConst 0)) (PBin Sub (PConst 1) (PWild 1))))
  [((PBin Min (PBin Add (PWild 1) (REval (PBin Sub (PConst 2) (PConst 1)))) (PBin Sub (REval (PBin Sub (PConst 2) (PConst 0))) (PWild 0))), (PLit 1))].
(** simplify_rules.h:347  apply(z - min(x, z - y), max(y, z - x)) *)
Definition r_sub_347 : rule := Rule 347
  (PBin Sub (PWild 2) (PBin Min (PWild 0) (PBin Sub (PWild 2) (PWild 1))))
  [((PBin Max (PWild 1) (PBin Sub (PWild 2) (PWild 0))), (PLit 1))].
(** simplify_rules.h:348  apply(z - max(x, z - y), min(y, z - x)) *)
Definition r_sub_348 : rule := Rule 348
  (PBin Sub (PWild 2) (PBin Max (PWild 0) (PBin Sub (PWild 2) (PWild 1))))
  [((PBin Min (PWild 1) (PBin Sub (PWild 2) (PWild 0))), (PLit 1))].
(** simplify_rules.h:350  apply(min(x, y + z) - z, min(y, x - z)) *)
Definition r_sub_350 : rule := Rule 350
  (PBin Sub (PBin Min (PWild 0) (PBin Add (PWild 1) (PWild 2))) (PWild 2))
  [((PBin Min (PWild 1) (PBin Sub (PWild 0) (PWild 2))), (PLit 1))].
(** simplify_rules.h:351  apply(max(x, y + z) - z, max(y, x - z)) *)
Definition r_sub_351 : rule := Rule 351
  (PBin Sub (PBin Max (PWild 0) (PBin Add (PWild 1) (PWild 2))) (PWild 2))
  [((PBin Max (PWild 1) (PBin Sub (PWild 0) (PWild 2))), (PLit 1))].
(** simplify_rules.h:352  apply(min(x, y) - x, min(y - x, 0), !is_constant(x)) *)
Definition r_sub_352 : rule := Rule 352
  (PBin Sub (PBin Min (PWild 0) (PWild 1)) (PWild 0))
  [((PBin Min (PBin Sub (PWild 1) (PWild 0)) (PLit 0)), (PNot (RPred k_constant 0)))].
(** simplify_rules.h:353  apply(max(x, y) - x, max(y - x, 0), !is_constant(x)) *)
Definition r_sub_353 : rule := Rule 353
  (PBin Sub (PBin Max (PWild 0) (PWild 1)) (PWild 0))
  [((PBin Max (PBin Sub (PWild 1) (PWild 0)) (PLit 0)), (PNot (RPred k_constant 0)))].
(** simplify_rules.h:354  apply(x - min(x, y), max(x - y, 0), !is_constant(x)) *)
Definition r_sub_354 : rule := Rule 354
  (PBin Sub (PWild 0) (PBin Min (PWild 0) (PWild 1)))
  [((PBin Max (PBin Sub (PWild 0) (PWild 1)) (PLit 0)), (PNot (RPred k_constant 0)))].
(** simplify_rules.h:355  apply(x - max(x, y), min(x - y, 0), !is_constant(x)) *)
Definition r_sub_355 : rule := Rule 355
  (PBin Sub (PWild 0) (PBin Max (PWild 0) (PWild 1)))
  [((PBin Min (PBin Sub (PWild 0) (PWild 1)) (PLit 0)), (PNot (RPred k_constant 0)))].
(** simplify_rules.h:357  apply(c2 - select(x, may_be<0>(y) + c0, may_be<0>(z) + c1), select(x, eval(c2 - c0) - y, eval(c2 - c1) - z)) *)
Definition r_sub_357 : rule := Rule 357
  (PBin Sub (PConst 2) (PSel (PWild 0) (PBin Add (POpt (PWild 1) 0) (PConst 0)) (PBin Add (POpt (PWild 2) 0) (PConst 1))))
  [((PSel (PWild 0) (PBin Sub (REval (PBin Sub (PConst 2) (PConst 0))) (PWild 1)) (PBin Sub (REval (PBin Sub (PConst 2) (PConst 1))) (PWild 2))), (PLit 1))].
(** simplify_rules.h:358  apply(c2 - select(x, may_be<0>(y) + c0, c1 - z), select(x, eval(c2 - c0) - y, z + eval(c2 - c1))) *)
Definition r_sub_358 : rule := Rule 358
  (PBin Sub (PConst 2) (PSel (PWild 0) (PBin Add (POpt (PWild 1) 0) (PConst 0)) (PBin Sub (PConst 1) (PWild 2))))
  [((PSel (PWild 0) (PBin Sub (REval (PBin Sub (PConst 2) (PConst 0))) (PWild 1)) (PBin Add (PWild 2) (REval (PBin Sub (PConst 2) (PConst 1))))), (PLit 1))].
(** simplify_rules.h:359  apply(c2 - select(x, c0 - y, may_be<0>(z) + c1), select(x, y + eval(c2 - c0), eval(c2 - c1) - z)) *)
Definition r_sub_359 : rule := Rule 359
  (PBin Sub (PConst 2) (PSel (PWild 0) (PBin Sub (PConst 0) (PWild 1)) (PBin Add (POpt (PWild 2) 0) (PConst 1))))
  [((PSel (PWild 0) (PBin Add (PWild 1) (REval (PBin Sub (PConst 2) (PConst 0)))) (PBin Sub (REval (PBin Sub (PConst 2) (PConst 1))) (PWild 2))), (PLit 1))].
(** simplify_rules.h:360  apply(c2 - select(x, c0 - y, c1 - z), select(x, y + eval(c2 - c0), z + eval(c2 - c1))) *)
Definition r_sub_360 : rule := Rule 360
  (PBin Sub (PConst 2) (PSel (PWild 0) (PBin Sub (PConst 0) (PWild 1)) (PBin Sub (PConst 1) (PWild 2))))
  [((PSel (PWild 0) (PBin Add (PWild 1) (REval (PBin Sub (PConst 2) (PConst 0)))) (PBin Add (PWild 2) (REval (PBin Sub (PConst 2) (PConst 1))))), (PLit 1))].
(** simplify_rules.h:362  apply(max(x, y)/c0 - min(x, y)/c0, abs(x/c0 - y/c0), c0 > 0) *)
Definition r_sub_362 : rule := Rule 362
  (PBin Sub (PBin Div (PBin Max (PWild 0) (PWild 1)) (PConst 0)) (PBin Div (PBin Min (PWild 0) (PWild 1)) (PConst 0)))
  [((PCall1 i_abs (PBin Sub (PBin Div (PWild 0) (PConst 0)) (PBin Div (PWild 1) (PConst 0)))), (PBin Less (PLit 0) (PConst 0)))].
(** simplify_rules.h:363  apply(min(x, y)/c0 - max(x, y)/c0, -abs(x/c0 - y/c0), c0 > 0) *)
Definition r_sub_363 : rule := Rule 363
  (PBin Sub (PBin Div (PBin Min (PWild 0) (PWild 1)) (PConst 0)) (PBin Div (PBin Max (PWild 0) (PWild 1)) (PConst 0)))
  [((PBin Sub (PLit 0) (PCall1 i_abs (PBin Sub (PBin Div (PWild 0) (PConst 0)) (PBin Div (PWild 1) (PConst 0))))), (PBin Less (PLit 0) (PConst 0)))].
(** simplify_rules.h:364  apply(max(x, y) - min(x, y), abs(x - y)) *)
Definition r_sub_364 : rule := Rule 364
  (PBin Sub (PBin Max (PWild 0) (PWild 1)) (PBin Min (PWild 0) (PWild 1)))
  [((PCall1 i_abs (PBin Sub (PWild 0) (PWild 1))), (PLit 1))].
(** simplify_rules.h:365  apply(min(x, y) - max(x, y), -abs(x - y)) *)
Definition r_sub_365 : rule := Rule 365
  (PBin Sub (PBin Min (PWild 0) (PWild 1)) (PBin Max (PWild 0) (PWild 1)))
  [((PBin Sub (PLit 0) (PCall1 i_abs (PBin Sub (PWild 0) (PWild 1)))), (PLit 1))].
(** simplify_rules.h:366  apply(select(x, y, z) - select(x, w, u), select(x, y - w, z - u)) *)
Definition r_sub_366 : rule := Rule 366
  (PBin Sub (PSel (PWild 0) (PWild 1) (PWild 2)) (PSel (PWild 0) (PWild 3) (PWild 4)))
  [((PSel (PWild 0) (PBin Sub (PWild 1) (PWild 3)) (PBin Sub (PWild 2) (PWild 4))), (PLit 1))].
(** simplify_rules.h:368  apply(select(x, y, may_be<0>(z) + w) - w, select(x, y - w, z)) *)
Definition r_sub_368 : rule := Rule 368
  (PBin Sub (PSel (PWild 0) (PWild 1) (PBin Add (POpt (PWild 2) 0) (PWild 3))) (PWild 3))
  [((PSel (PWild 0) (PBin Sub (PWild 1) (PWild 3)) (PWild 2)), (PLit 1))].
(** simplify_rules.h:369  apply(select(x, may_be<0>(y) + w, z) - w, select(x, y, z - w)) *)
Definition r_sub_369 : rule := Rule 369
  (PBin Sub (PSel (PWild 0) (PBin Add (POpt (PWild 1) 0) (PWild 3)) (PWild 2)) (PWild 3))
  [((PSel (PWild 0) (PWild 1) (PBin Sub (PWild 2) (PWild 3))), (PLit 1))].
(** simplify_rules.h:370  apply(select(x, y, w - z) - w, select(x, y - w, -z)) *)
Definition r_sub_370 : rule := Rule 370
  (PBin Sub (PSel (PWild 0) (PWild 1) (PBin Sub (PWild 3) (PWild 2))) (PWild 3))
  [((PSel (PWild 0) (PBin Sub (PWild 1) (PWild 3)) (PBin Sub (PLit 0) (PWild 2))), (PLit 1))].
(** simplify_rules.h:371  apply(select(x, w - y, z) - w, select(x, -y, z - w)) *)
Definition r_sub_371 : rule := Rule 371
  (PBin Sub (PSel (PWild 0) (PBin Sub (PWild 3) (PWild 1)) (PWild 2)) (PWild 3))
  [((PSel (PWild 0) (PBin Sub (PLit 0) (PWild 1)) (PBin Sub (PWild 2) (PWild 3))), (PLit 1))].
(** simplify_rules.h:372  apply(w - select(x, y, may_be<0>(z) + w), select(x, w - y, -z)) *)
Definition r_sub_372 : rule := Rule 372
  (PBin Sub (PWild 3) (PSel (PWild 0) (PWild 1) (PBin Add (POpt (PWild 2) 0) (PWild 3))))
  [((PSel (PWild 0) (PBin Sub (PWild 3) (PWild 1)) (PBin Sub (PLit 0) (PWild 2))), (PLit 1))].
(** simplify_rules.h:373  apply(w - select(x, may_be<0>(y) + w, z), select(x, -y, w - z)) *)
Definition r_sub_373 : rule := Rule 373
  (PBin Sub (PWild 3) (PSel (PWild 0) (PBin Add (POpt (PWild 1) 0) (PWild 3)) (PWild 2)))
  [((PSel (PWild 0) (PBin Sub (PLit 0) (PWild 1)) (PBin Sub (PWild 3) (PWild 2))), (PLit 1))].
(** simplify_rules.h:374  apply(w - select(x, y, w - z), select(x, w - y, z)) *)
Definition r_sub_374 : rule := Rule 374
  (PBin Sub (PWild 3) (PSel (PWild 0) (PWild 1) (PBin Sub (PWild 3) (PWild 2))))
  [((PSel (PWild 0) (PBin Sub (PWild 3) (PWild 1)) (PWild 2)), (PLit 1))].
(** simplify_rules.h:375  apply(w - select(x, w - y, z), select(x, y, w - z)) *)
Definition r_sub_375 : rule := Rule 375
  (PBin Sub (PWild 3) (PSel (PWild 0) (PBin Sub (PWild 3) (PWild 1)) (PWild 2)))
  [((PSel (PWild 0) (PWild 1) (PBin Sub (PWild 3) (PWild 2))), (PLit 1))].
Definition sub_rules : list rule :=
  [r_sub_318;
   r_sub_319;
   r_sub_320;
   r_sub_321;
   r_sub_322;
   r_sub_323;
   r_sub_324;
   r_sub_325;
   r_sub_326;
   r_sub_327;
   r_sub_328;
   r_sub_329;
   r_sub_330;
   r_sub_331;
   r_sub_332;
   r_sub_336;
   r_sub_337;
   r_sub_338;
   r_sub_339;
   r_sub_340;
   r_sub_341;
   r_sub_343;
   r_sub_344;
   r_sub_345;
   r_sub_346;
   r_sub_347;
   r_sub_348;
   r_sub_350;
   r_sub_351;
   r_sub_352;
   r_sub_353;
   r_sub_354;
   r_sub_355;
   r_sub_357;
   r_sub_358;
   r_sub_359;
   r_sub_360;
   r_sub_362;
   r_sub_363;
   r_sub_364;
   r_sub_365;
   r_sub_366;
   r_sub_368;
   r_sub_369;
   r_sub_370;
   r_sub_371;
   r_sub_372;
   r_sub_373;
   r_sub_374;
   r_sub_375].

(** apply_mul_rules *)
(** simplify_rules.h:383-385  apply(rewrite::positive_infinity()*c0, rewrite::positive_infinity(), c0 > 0, rewrite::negative_infinity(), c0 < 0) *)
Definition r_mul_383 : rule := Rule 383
  (PBin Mul (PCall0 i_positive_infinity) (PConst 0))
  [((PCall0 i_positive_infinity), (PBin Less (PLit 0) (PConst 0)));
   ((PCall0 i_negative_infinity), (PBin Less (PConst 0) (PLit 0)))].
(** simplify_rules.h:386-388  apply(rewrite::negative_infinity()*c0, rewrite::negative_infinity(), c0 > 0, rewrite::positive_infinity(), c0 < 0) *)
Definition r_mul_386 : rule := Rule 386
  (PBin Mul (PCall0 i_negative_infinity) (PConst 0))
  [((PCall0 i_negative_infinity), (PBin Less (PLit 0) (PConst 0)));
   ((PCall0 i_positive_infinity), (PBin Less (PConst 0) (PLit 0)))].
(** simplify_rules.h:389  apply(x*0, 0) *)
Definition r_mul_389 : rule := Rule 389
  (PBin Mul (PWild 0) (PLit 0))
  [((PLit 0), (PLit 1))].
(** simplify_rules.h:390  apply(x*1, x) *)
Definition r_mul_390 : rule := Rule 390
  (PBin Mul (PWild 0) (PLit 1))
  [((PWild 0), (PLit 1))].
(** simplify_rules.h:391  apply((x*c0)*c1, x*eval(c0*c1)) *)
Definition r_mul_391 : rule := Rule 391
  (PBin Mul (PBin Mul (PWild 0) (PConst 0)) (PConst 1))
  [((PBin Mul (PWild 0) (REval (PBin Mul (PConst 0) (PConst 1)))), (PLit 1))].
(** simplify_rules.h:392  apply((x + c0)*c1, x*c1 + eval(c0*c1)) *)
Definition r_mul_392 : rule := Rule 392
  (PBin Mul (PBin Add (PWild 0) (PConst 0)) (PConst 1))
  [((PBin Add (PBin Mul (PWild 0) (PConst 1)) (REval (PBin Mul (PConst 0) (PConst 1)))), (PLit 1))].
(** simplify_rules.h:393  apply((c0 - x)*c1, x*eval(-c1) + eval(c0*c1)) *)
Definition r_mul_393 : rule := Rule 393
  (PBin Mul (PBin Sub (PConst 0) (PWild 0)) (PConst 1))
  [((PBin Add (PBin Mul (PWild 0) (REval (PBin Sub (PLit 0) (PConst 1)))) (REval (PBin Mul (PConst 0) (PConst 1)))), (PLit 1))].
(** simplify_rules.h:394  apply(y*(x*c0), (x*y)*c0) *)
Definition r_mul_394 : rule := Rule 394
  (PBin Mul (PWild 1) (PBin Mul (PWild 0) (PConst 0)))
  [((PBin Mul (PBin Mul (PWild 0) (PWild 1)) (PConst 0)), (PLit 1))].
(** simplify_rules.h:396  apply(select(x, c0, c1)*c2, select(x, eval(c0*c2), eval(c1*c2))) *)
Definition r_mul_396 : rule := Rule 396
  (PBin Mul (PSel (PWild 0) (PConst 0) (PConst 1)) (PConst 2))
  [((PSel (PWild 0) (REval (PBin Mul (PConst 0) (PConst 2))) (REval (PBin Mul (PConst 1) (PConst 2)))), (PLit 1))].
(** simplify_rules.h:397  apply(select(x, y, c1)*c2, select(x, y*c2, eval(c1*c2))) *)
Definition r_mul_397 : rule := Rule 397
  (PBin Mul (PSel (PWild 0) (PWild 1) (PConst 1)) (PConst 2))
  [((PSel (PWild 0) (PBin Mul (PWild 1) (PConst 2)) (REval (PBin Mul (PConst 1) (PConst 2)))), (PLit 1))].
(** simplify_rules.h:398  apply(select(x, c0, y)*c2, select(x, eval(c0*c2), y*c2)) *)
Definition r_mul_398 : rule := Rule 398
  (PBin Mul (PSel (PWild 0) (PConst 0) (PWild 1)) (PConst 2))
  [((PSel (PWild 0) (REval (PBin Mul (PConst 0) (PConst 2))) (PBin Mul (PWild 1) (PConst 2))), (PLit 1))].
Definition mul_rules : list rule :=
  [r_mul_383;
   r_mul_386;
   r_mul_389;
   r_mul_390;
   r_mul_391;
   r_mul_392;
   r_mul_393;
   r_mul_394;
   r_mul_396;
   r_mul_397;
   r_mul_398].

(** apply_div_rules *)
(** simplify_rules.h:405  apply(x/rewrite::positive_infinity(), 0, is_finite(x)) *)
Definition r_div_405 : rule := Rule 405
  (PBin Div (PWild 0) (PCall0 i_positive_infinity))
  [((PLit 0), (RPred k_finite 0))].
(** simplify_rules.h:406  apply(x/rewrite::negative_infinity(), 0, is_finite(x)) *)
Definition r_div_406 : rule := Rule 406
  (PBin Div (PWild 0) (PCall0 i_negative_infinity))
  [((PLit 0), (RPred k_finite 0))].
(** simplify_rules.h:407-409  apply(rewrite::positive_infinity()/c0, rewrite::positive_infinity(), c0 > 0, rewrite::negative_infinity(), c0 < 0) *)
Definition r_div_407 : rule := Rule 407
  (PBin Div (PCall0 i_positive_infinity) (PConst 0))
  [((PCall0 i_positive_infinity), (PBin Less (PLit 0) (PConst 0)));
   ((PCall0 i_negative_infinity), (PBin Less (PConst 0) (PLit 0)))].
(** simplify_rules.h:410-412  apply(rewrite::negative_infinity()/c0, rewrite::negative_infinity(), c0 > 0, rewrite::positive_infinity(), c0 < 0) *)
Definition r_div_410 : rule := Rule 410
  (PBin Div (PCall0 i_negative_infinity) (PConst 0))
  [((PCall0 i_negative_infinity), (PBin Less (PLit 0) (PConst 0)));
   ((PCall0 i_positive_infinity), (PBin Less (PConst 0) (PLit 0)))].
(** simplify_rules.h:413  apply(x/0, 0) *)
Definition r_div_413 : rule := Rule 413
  (PBin Div (PWild 0) (PLit 0))
  [((PLit 0), (PLit 1))].
(** simplify_rules.h:414  apply(0/x, 0) *)
Definition r_div_414 : rule := Rule 414
  (PBin Div (PLit 0) (PWild 0))
  [((PLit 0), (PLit 1))].
(** simplify_rules.h:415  apply(x/1, x) *)
Definition r_div_415 : rule := Rule 415
  (PBin Div (PWild 0) (PLit 1))
  [((PWild 0), (PLit 1))].
(** simplify_rules.h:416  apply(x/-1, -x) *)
Definition r_div_416 : rule := Rule 416
  (PBin Div (PWild 0) (PLit (-1)))
  [((PBin Sub (PLit 0) (PWild 0)), (PLit 1))].
(** simplify_rules.h:417  apply(x/x, x != 0) *)
Definition r_div_417 : rule := Rule 417
  (PBin Div (PWild 0) (PWild 0))
  [((PBin NotEqual (PWild 0) (PLit 0)), (PLit 1))].
(** simplify_rules.h:419  apply((y + x/c0)/c1, (x + y*c0)/eval(c0*c1), c0 > 0) *)
Definition r_div_419 : rule := Rule 419
  (PBin Div (PBin Add (PWild 1) (PBin Div (PWild 0) (PConst 0))) (PConst 1))
  [((PBin Div (PBin Add (PWild 0) (PBin Mul (PWild 1) (PConst 0))) (REval (PBin Mul (PConst 0) (PConst 1)))), (PBin Less (PLit 0) (PConst 0)))].
(** simplify_rules.h:420  apply((y - x/c0)/c1, (y*c0 - x + eval(c0 - 1))/eval(c0*c1), c0 > 0) *)
Definition r_div_420 : rule := Rule 420
  (PBin Div (PBin Sub (PWild 1) (PBin Div (PWild 0) (PConst 0))) (PConst 1))
  [((PBin Div (PBin Add (PBin Sub (PBin Mul (PWild 1) (PConst 0)) (PWild 0)) (REval (PBin Sub (PConst 0) (PLit 1)))) (REval (PBin Mul (PConst 0) (PConst 1)))), (PBin Less (PLit 0) (PConst 0)))].
(** simplify_rules.h:421  apply((x*c0)/(y*c1), (x*eval(c0/c1))/y, c1 > 0 && c0%c1 == 0) *)
Definition r_div_421 : rule := Rule 421
  (PBin Div (PBin Mul (PWild 0) (PConst 0)) (PBin Mul (PWild 1) (PConst 1)))
  [((PBin Div (PBin Mul (PWild 0) (REval (PBin Div (PConst 0) (PConst 1)))) (PWild 1)), (PBin And (PBin Less (PLit 0) (PConst 1)) (PBin Equal (PBin Mod (PConst 0) (PConst 1)) (PLit 0))))].
(** simplify_rules.h:422  apply((x*c0)/(y*c1), x/(y*eval(c1/c0)), c0 > 0 && c1%c0 == 0) *)
Definition r_div_422 : rule := Rule 422
  (PBin Div (PBin Mul (PWild 0) (PConst 0)) (PBin Mul (PWild 1) (PConst 1)))
  [((PBin Div (PWild 0) (PBin Mul (PWild 1) (REval (PBin Div (PConst 1) (PConst 0))))), (PBin And (PBin Less (PLit 0) (PConst 0)) (PBin Equal (PBin Mod (PConst 1) (PConst 0)) (PLit 0))))].
(** simplify_rules.h:423  apply((x*c0)/c1, x*eval(c0/c1), c0%c1 == 0) *)
Definition r_div_423 : rule := Rule 423
  (PBin Div (PBin Mul (PWild 0) (PConst 0)) (PConst 1))
  [((PBin Mul (PWild 0) (REval (PBin Div (PConst 0) (PConst 1)))), (PBin Equal (PBin Mod (PConst 0) (PConst 1)) (PLit 0)))].
(** simplify_rules.h:424  apply((x*c0)/c1, x/eval(c1/c0), c0 > 0 && c1%c0 == 0) *)
Definition r_div_424 : rule := Rule 424
  (PBin Div (PBin Mul (PWild 0) (PConst 0)) (PConst 1))
  [((PBin Div (PWild 0) (REval (PBin Div (PConst 1) (PConst 0)))), (PBin And (PBin Less (PLit 0) (PConst 0)) (PBin Equal (PBin Mod (PConst 1) (PConst 0)) (PLit 0))))].
(** simplify_rules.h:425  apply(c0/(y*c1), eval(c0/c1)/y, c1 > 0 && c0%c1 == 0) *)
Definition r_div_425 : rule := Rule 425
  (PBin Div (PConst 0) (PBin Mul (PWild 1) (PConst 1)))
  [((PBin Div (REval (PBin Div (PConst 0) (PConst 1))) (PWild 1)), (PBin And (PBin Less (PLit 0) (PConst 1)) (PBin Equal (PBin Mod (PConst 0) (PConst 1)) (PLit 0))))].
(** simplify_rules.h:426  apply((x/c0)/c1, x/eval(c0*c1), c0 > 0) *)
Definition r_div_426 : rule := Rule 426
  (PBin Div (PBin Div (PWild 0) (PConst 0)) (PConst 1))
  [((PBin Div (PWild 0) (REval (PBin Mul (PConst 0) (PConst 1)))), (PBin Less (PLit 0) (PConst 0)))].
(** simplify_rules.h:427  apply((x*y)/x, y*(x != 0)) *)
Definition r_div_427 : rule := Rule 427
  (PBin Div (PBin Mul (PWild 0) (PWild 1)) (PWild 0))
  [((PBin Mul (PWild 1) (PBin NotEqual (PWild 0) (PLit 0))), (PLit 1))].
(** simplify_rules.h:429  apply((x + may_be<1>(y)*c0)/c1, y*eval(c0/c1) + x/c1, c0%c1 == 0) *)
Definition r_div_429 : rule := Rule 429
  (PBin Div (PBin Add (PWild 0) (PBin Mul (POpt (PWild 1) 1) (PConst 0))) (PConst 1))
  [((PBin Add (PBin Mul (PWild 1) (REval (PBin Div (PConst 0) (PConst 1)))) (PBin Div (PWild 0) (PConst 1))), (PBin Equal (PBin Mod (PConst 0) (PConst 1)) (PLit 0)))].
(** simplify_rules.h:430  apply((may_be<1>(y)*c0 - x)/c1, y*eval(c0/c1) + (-x)/c1, c0%c1 == 0 && c0 != 0) *)
Definition r_div_430 : rule := Rule 430
  (PBin Div (PBin Sub (PBin Mul (POpt (PWild 1) 1) (PConst 0)) (PWild 0)) (PConst 1))
  [((PBin Add (PBin Mul (PWild 1) (REval (PBin Div (PConst 0) (PConst 1)))) (PBin Div (PBin Sub (PLit 0) (PWild 0)) (PConst 1))), (PBin And (PBin Equal (PBin Mod (PConst 0) (PConst 1)) (PLit 0)) (PBin NotEqual (PConst 0) (PLit 0))))].
(** simplify_rules.h:432  apply(min(y, may_be<0>(z) + x*c0)/c1, min(x*eval(c0/c1) + z/c1, y/c1), c1 > 0 && c0%c1 == 0) *)
Definition r_div_432 : rule := Rule 432
  (PBin Div (PBin Min (PWild 1) (PBin Add (POpt (PWild 2) 0) (PBin Mul (PWild 0) (PConst 0)))) (PConst 1))
  [((PBin Min (PBin Add (PBin Mul (PWild 0) (REval (PBin Div (PConst 0) (PConst 1)))) (PBin Div (PWild 2) (PConst 1))) (PBin Div (PWild 1) (PConst 1))), (PBin And (PBin Less (PLit 0) (PConst 1)) (PBin Equal (PBin Mod (PConst 0) (PConst 1)) (PLit 0))))].
(** simplify_rules.h:433  apply(max(y, may_be<0>(z) + x*c0)/c1, max(x*eval(c0/c1) + z/c1, y/c1), c1 > 0 && c0%c1 == 0) *)
Definition r_div_433 : rule := Rule 433
  (PBin Div (PBin Max (PWild 1) (PBin Add (POpt (PWild 2) 0) (PBin Mul (PWild 0) (PConst 0)))) (PConst 1))
  [((PBin Max (PBin Add (PBin Mul (PWild 0) (REval (PBin Div (PConst 0) (PConst 1)))) (PBin Div (PWild 2) (PConst 1))) (PBin Div (PWild 1) (PConst 1))), (PBin And (PBin Less (PLit 0) (PConst 1)) (PBin Equal (PBin Mod (PConst 0) (PConst 1)) (PLit 0))))].
(** simplify_rules.h:434  apply(min(y, x*c0 - z)/c1, min(x*eval(c0/c1) + (-z)/c1, y/c1), c1 > 0 && c0%c1 == 0) *)
Definition r_div_434 : rule := Rule 434
  (PBin Div (PBin Min (PWild 1) (PBin Sub (PBin Mul (PWild 0) (PConst 0)) (PWild 2))) (PConst 1))
  [((PBin Min (PBin Add (PBin Mul (PWild 0) (REval (PBin Div (PConst 0) (PConst 1)))) (PBin Div (PBin Sub (PLit 0) (PWild 2)) (PConst 1))) (PBin Div (PWild 1) (PConst 1))), (PBin And (PBin Less (PLit 0) (PConst 1)) (PBin Equal (PBin Mod (PConst 0) (PConst 1)) (PLit 0))))].
(** simplify_rules.h:435  apply(max(y, x*c0 - z)/c1, max(x*eval(c0/c1) + (-z)/c1, y/c1), c1 > 0 && c0%c1 == 0) *)
Definition r_div_435 : rule := Rule 435
  (PBin Div (PBin Max (PWild 1) (PBin Sub (PBin Mul (PWild 0) (PConst 0)) (PWild 2))) (PConst 1))
  [((PBin Max (PBin Add (PBin Mul (PWild 0) (REval (PBin Div (PConst 0) (PConst 1)))) (PBin Div (PBin Sub (PLit 0) (PWild 2)) (PConst 1))) (PBin Div (PWild 1) (PConst 1))), (PBin And (PBin Less (PLit 0) (PConst 1)) (PBin Equal (PBin Mod (PConst 0) (PConst 1)) (PLit 0))))].
(** simplify_rules.h:437  apply(select(x, c0, c1)/c2, select(x, eval(c0/c2), eval(c1/c2))) *)
Definition r_div_437 : rule := Rule 437
  (PBin Div (PSel (PWild 0) (PConst 0) (PConst 1)) (PConst 2))
  [((PSel (PWild 0) (REval (PBin Div (PConst 0) (PConst 2))) (REval (PBin Div (PConst 1) (PConst 2)))), (PLit 1))].
(** simplify_rules.h:438  apply(select(x, y, c1)/c2, select(x, y/c2, eval(c1/c2))) *)
Definition r_div_438 : rule := Rule 438
  (PBin Div (PSel (PWild 0) (PWild 1) (PConst 1)) (PConst 2))
  [((PSel (PWild 0) (PBin Div (PWild 1) (PConst 2)) (REval (PBin Div (PConst 1) (PConst 2)))), (PLit 1))].
(** simplify_rules.h:439  apply(select(x, c0, y)/c2, select(x, eval(c0/c2), y/c2)) *)
Definition r_div_439 : rule := Rule 439
  (PBin Div (PSel (PWild 0) (PConst 0) (PWild 1)) (PConst 2))
  [((PSel (PWild 0) (REval (PBin Div (PConst 0) (PConst 2))) (PBin Div (PWild 1) (PConst 2))), (PLit 1))].
(** simplify_rules.h:442  apply(((x%2) + c0)/2, x%2 + eval(c0/2), c0%2 == 1) *)
Definition r_div_442 : rule := Rule 442
  (PBin Div (PBin Add (PBin Mod (PWild 0) (PLit 2)) (PConst 0)) (PLit 2))
  [((PBin Add (PBin Mod (PWild 0) (PLit 2)) (REval (PBin Div (PConst 0) (PLit 2)))), (PBin Equal (PBin Mod (PConst 0) (PLit 2)) (PLit 1)))].
Definition div_rules : list rule :=
  [r_div_405;
   r_div_406;
   r_div_407;
   r_div_410;
   r_div_413;
   r_div_414;
   r_div_415;
   r_div_416;
   r_div_417;
   r_div_419;
   r_div_420;
   r_div_421;
   r_div_422;
   r_div_423;
   r_div_424;
   r_div_425;
   r_div_426;
   r_div_427;
   r_div_429;
   r_div_430;
   r_div_432;
   r_div_433;
   r_div_434;
   r_div_435;
   r_div_437;
   r_div_438;
   r_div_439;
   r_div_442].

(** apply_mod_rules *)
(** simplify_rules.h:450  apply(x%1, 0) *)
Definition r_mod_450 : rule := Rule 450
  (PBin Mod (PWild 0) (PLit 1))
  [((PLit 0), (PLit 1))].
(** simplify_rules.h:451  apply(x%0, 0) *)
Definition r_mod_451 : rule := Rule 451
  (PBin Mod (PWild 0) (PLit 0))
  [((PLit 0), (PLit 1))].
(** simplify_rules.h:452  apply(x%x, 0) *)
Definition r_mod_452 : rule := Rule 452
  (PBin Mod (PWild 0) (PWild 0))
  [((PLit 0), (PLit 1))].
(** simplify_rules.h:454  apply((x + c0)%c1, (x + eval(c0%c1))%c1, c0%c1 != c0) *)
Definition r_mod_454 : rule := Rule 454
  (PBin Mod (PBin Add (PWild 0) (PConst 0)) (PConst 1))
  [((PBin Mod (PBin Add (PWild 0) (REval (PBin Mod (PConst 0) (PConst 1)))) (PConst 1)), (PBin NotEqual (PBin Mod (PConst 0) (PConst 1)) (PConst 0)))].
(** simplify_rules.h:456  apply(select(x, c0, c1)%c2, select(x, eval(c0%c2), eval(c1%c2))) *)
Definition r_mod_456 : rule := Rule 456
  (PBin Mod (PSel (PWild 0) (PConst 0) (PConst 1)) (PConst 2))
  [((PSel (PWild 0) (REval (PBin Mod (PConst 0) (PConst 2))) (REval (PBin Mod (PConst 1) (PConst 2)))), (PLit 1))].
(** simplify_rules.h:457  apply(select(x, y, c1)%c2, select(x, y%c2, eval(c1%c2))) *)
Definition r_mod_457 : rule := Rule 457
  (PBin Mod (PSel (PWild 0) (PWild 1) (PConst 1)) (PConst 2))
  [((PSel (PWild 0) (PBin Mod (PWild 1) (PConst 2)) (REval (PBin Mod (PConst 1) (PConst 2)))), (PLit 1))].
(** simplify_rules.h:458  apply(select(x, c0, y)%c2, select(x, eval(c0%c2), y%c2)) *)
Definition r_mod_458 : rule := Rule 458
  (PBin Mod (PSel (PWild 0) (PConst 0) (PWild 1)) (PConst 2))
  [((PSel (PWild 0) (REval (PBin Mod (PConst 0) (PConst 2))) (PBin Mod (PWild 1) (PConst 2))), (PLit 1))].
Definition mod_rules : list rule :=
  [r_mod_450;
   r_mod_451;
   r_mod_452;
   r_mod_454;
   r_mod_456;
   r_mod_457;
   r_mod_458].

(** apply_less_rules *)
(** simplify_rules.h:465  apply(rewrite::positive_infinity() < x, false, is_finite(x)) *)
Definition r_less_465 : rule := Rule 465
  (PBin Less (PCall0 i_positive_infinity) (PWild 0))
  [((PLit 0), (RPred k_finite 0))].
(** simplify_rules.h:466  apply(rewrite::negative_infinity() < x, true, is_finite(x)) *)
Definition r_less_466 : rule := Rule 466
  (PBin Less (PCall0 i_negative_infinity) (PWild 0))
  [((PLit 1), (RPred k_finite 0))].
(** simplify_rules.h:467  apply(x < rewrite::positive_infinity(), true, is_finite(x)) *)
Definition r_less_467 : rule := Rule 467
  (PBin Less (PWild 0) (PCall0 i_positive_infinity))
  [((PLit 1), (RPred k_finite 0))].
(** simplify_rules.h:468  apply(x < rewrite::negative_infinity(), false, is_finite(x)) *)
Definition r_less_468 : rule := Rule 468
  (PBin Less (PWild 0) (PCall0 i_negative_infinity))
  [((PLit 0), (RPred k_finite 0))].
(** simplify_rules.h:469  apply(x < x, false) *)
Definition r_less_469 : rule := Rule 469
  (PBin Less (PWild 0) (PWild 0))
  [((PLit 0), (PLit 1))].
(** simplify_rules.h:470  apply(x < y + 1, x <= y) *)
Definition r_less_470 : rule := Rule 470
  (PBin Less (PWild 0) (PBin Add (PWild 1) (PLit 1)))
  [((PBin LessEqual (PWild 0) (PWild 1)), (PLit 1))].
(** simplify_rules.h:471  apply(x + -1 < y, x <= y) *)
Definition r_less_471 : rule := Rule 471
  (PBin Less (PBin Add (PWild 0) (PLit (-1))) (PWild 1))
  [((PBin LessEqual (PWild 0) (PWild 1)), (PLit 1))].
(** simplify_rules.h:478  apply(may_be<0>(u) + (may_be<0>(z) + (x - y)) < w, x + (z + u) < w + y) *)
Definition r_less_478 : rule := Rule 478
  (PBin Less (PBin Add (POpt (PWild 4) 0) (PBin Add (POpt (PWild 2) 0) (PBin Sub (PWild 0) (PWild 1)))) (PWild 3))
  [((PBin Less (PBin Add (PWild 0) (PBin Add (PWild 2) (PWild 4))) (PBin Add (PWild 3) (PWild 1))), (PLit 1))].
(** simplify_rules.h:479  apply(w < may_be<0>(u) + (may_be<0>(z) + (x - y)), w + y < x + (z + u)) *)
Definition r_less_479 : rule := Rule 479
  (PBin Less (PWild 3) (PBin Add (POpt (PWild 4) 0) (PBin Add (POpt (PWild 2) 0) (PBin Sub (PWild 0) (PWild 1)))))
  [((PBin Less (PBin Add (PWild 3) (PWild 1)) (PBin Add (PWild 0) (PBin Add (PWild 2) (PWild 4)))), (PLit 1))].
(** simplify_rules.h:482  apply(may_be<0>(w) + (x + may_be<0>(y)) < may_be<0>(u) + (x + may_be<0>(z)), y + w < z + u) *)
Definition r_less_482 : rule := Rule 482
  (PBin Less (PBin Add (POpt (PWild 3) 0) (PBin Add (PWild 0) (POpt (PWild 1) 0))) (PBin Add (POpt (PWild 4) 0) (PBin Add (PWild 0) (POpt (PWild 2) 0))))
  [((PBin Less (PBin Add (PWild 1) (PWild 3)) (PBin Add (PWild 2) (PWild 4))), (PLit 1))].
(** simplify_rules.h:484  apply(x + c0 < may_be<0>(y) + c1, x < y + eval(c1 - c0)) *)
Definition r_less_484 : rule := Rule 484
  (PBin Less (PBin Add (PWild 0) (PConst 0)) (PBin Add (POpt (PWild 1) 0) (PConst 1)))
  [((PBin Less (PWild 0) (PBin Add (PWild 1) (REval (PBin Sub (PConst 1) (PConst 0))))), (PLit 1))].
(** simplify_rules.h:485  apply(x + c0 < y, x < y + eval(-c0)) *)
Definition r_less_485 : rule := Rule 485
  (PBin Less (PBin Add (PWild 0) (PConst 0)) (PWild 1))
  [((PBin Less (PWild 0) (PBin Add (PWild 1) (REval (PBin Sub (PLit 0) (PConst 0))))), (PLit 1))].
(** simplify_rules.h:486  apply(c0 < x + c1, eval(c0 - c1) < x) *)
Definition r_less_486 : rule := Rule 486
  (PBin Less (PConst 0) (PBin Add (PWild 0) (PConst 1)))
  [((PBin Less (REval (PBin Sub (PConst 0) (PConst 1))) (PWild 0)), (PLit 1))].
(** simplify_rules.h:490  apply(may_be<0>(w) + staircase(x, c0, c1, c1) < x + may_be<0>(z), w + c0 < z + (x + c0)%c1, c1 > 1) *)
Definition r_less_490 : rule := Rule 490
  (PBin Less (PBin Add (POpt (PWild 3) 0) (PStair (PWild 0) (PConst 0) (PConst 1) (PConst 1))) (PBin Add (PWild 0) (POpt (PWild 2) 0)))
  [((PBin Less (PBin Add (PWild 3) (PConst 0)) (PBin Add (PWild 2) (PBin Mod (PBin Add (PWild 0) (PConst 0)) (PConst 1)))), (PBin Less (PLit 1) (PConst 1)))].
(** simplify_rules.h:491  apply(x + may_be<0>(z) < may_be<0>(w) + staircase(x, c0, c1, c1), z + (x + c0)%c1 < w + c0, c1 > 1) *)
Definition r_less_491 : rule := Rule 491
  (PBin Less (PBin Add (PWild 0) (POpt (PWild 2) 0)) (PBin Add (POpt (PWild 3) 0) (PStair (PWild 0) (PConst 0) (PConst 1) (PConst 1))))
  [((PBin Less (PBin Add (PWild 2) (PBin Mod (PBin Add (PWild 0) (PConst 0)) (PConst 1))) (PBin Add (PWild 3) (PConst 0))), (PBin Less (PLit 1) (PConst 1)))].
(** simplify_rules.h:492-494  apply(staircase(x, c0, c1, c1) < x, c0 < (x + c0)%c1, c1 > 1 && c0 != 0, x%c1 != 0, c1 > 0 && c0 == 0) *)
Definition r_less_492 : rule := Rule 492
  (PBin Less (PStair (PWild 0) (PConst 0) (PConst 1) (PConst 1)) (PWild 0))
  [((PBin Less (PConst 0) (PBin Mod (PBin Add (PWild 0) (PConst 0)) (PConst 1))), (PBin And (PBin Less (PLit 1) (PConst 1)) (PBin NotEqual (PConst 0) (PLit 0))));
   ((PBin NotEqual (PBin Mod (PWild 0) (PConst 1)) (PLit 0)), (PBin And (PBin Less (PLit 0) (PConst 1)) (PBin Equal (PConst 0) (PLit 0))))].
(** simplify_rules.h:495-497  apply(x < staircase(x, c0, c1, c1), (x + c0)%c1 < c0, c1 > 1 && c0 != 0, false, c1 > 0 && c0 == 0) *)
Definition r_less_495 : rule := Rule 495
  (PBin Less (PWild 0) (PStair (PWild 0) (PConst 0) (PConst 1) (PConst 1)))
  [((PBin Less (PBin Mod (PBin Add (PWild 0) (PConst 0)) (PConst 1)) (PConst 0)), (PBin And (PBin Less (PLit 1) (PConst 1)) (PBin NotEqual (PConst 0) (PLit 0))));
   ((PLit 0), (PBin And (PBin Less (PLit 0) (PConst 1)) (PBin Equal (PConst 0) (PLit 0))))].
(** simplify_rules.h:499-501  apply(x%c0 < c1, true, c0 > 0 && c0 <= c1, false, c0 > 0 && c1 <= 0) *)
Definition r_less_499 : rule := Rule 499
  (PBin Less (PBin Mod (PWild 0) (PConst 0)) (PConst 1))
  [((PLit 1), (PBin And (PBin Less (PLit 0) (PConst 0)) (PBin LessEqual (PConst 0) (PConst 1))));
   ((PLit 0), (PBin And (PBin Less (PLit 0) (PConst 0)) (PBin LessEqual (PConst 1) (PLit 0))))].
(** simplify_rules.h:502-505  apply(c0 < x%c1, true, c1 > 0 && c0 < 0, false, c1 > 0 && c0 >= c1 - 1, boolean(x%c1), c1 > 0 && c0 == 0) *)
Definition r_less_502 : rule := Rule 502
  (PBin Less (PConst 0) (PBin Mod (PWild 0) (PConst 1)))
  [((PLit 1), (PBin And (PBin Less (PLit 0) (PConst 1)) (PBin Less (PConst 0) (PLit 0))));
   ((PLit 0), (PBin And (PBin Less (PLit 0) (PConst 1)) (PBin LessEqual (PBin Sub (PConst 1) (PLit 1)) (PConst 0))));
   ((RBool (PBin Mod (PWild 0) (PConst 1))), (PBin And (PBin Less (PLit 0) (PConst 1)) (PBin Equal (PConst 0) (PLit 0))))].
(** simplify_rules.h:507-509  apply(staircase(x, c0, c1, c2) < staircase(x, c3, c4, c5) + may_be<0>(c6), true, 0 < staircase_sum_min(c0, c1, -c2, c3, c4, c5) + c6, false, 0 >= staircase_sum_max(c0, c1, -c2, c3, c4, c5) + c6) *)
Definition r_less_507 : rule := Rule 507
  (PBin Less (PStair (PWild 0) (PConst 0) (PConst 1) (PConst 2)) (PBin Add (PStair (PWild 0) (PConst 3) (PConst 4) (PConst 5)) (POpt (PConst 6) 0)))
  [((PLit 1), (PBin Less (PLit 0) (PBin Add (RSum false (PConst 0) (PConst 1) (PBin Sub (PLit 0) (PConst 2)) (PConst 3) (PConst 4) (PConst 5)) (PConst 6))));
   ((PLit 0), (PBin LessEqual (PBin Add (RSum true (PConst 0) (PConst 1) (PBin Sub (PLit 0) (PConst 2)) (PConst 3) (PConst 4) (PConst 5)) (PConst 6)) (PLit 0)))].
(** simplify_rules.h:511-513  apply(x*c0 < y*c0, x < y, c0 > 0, y < x, c0 < 0) *)
Definition r_less_511 : rule := Rule 511
  (PBin Less (PBin Mul (PWild 0) (PConst 0)) (PBin Mul (PWild 1) (PConst 0)))
  [((PBin Less (PWild 0) (PWild 1)), (PBin Less (PLit 0) (PConst 0)));
   ((PBin Less (PWild 1) (PWild 0)), (PBin Less (PConst 0) (PLit 0)))].
(** simplify_rules.h:514-516  apply(x/c0 < c1, x < c0*c1, c0 > 0, x >= c0*(c1 - 1), c0 < 0) *)
Definition r_less_514 : rule := Rule 514
  (PBin Less (PBin Div (PWild 0) (PConst 0)) (PConst 1))
  [((PBin Less (PWild 0) (PBin Mul (PConst 0) (PConst 1))), (PBin Less (PLit 0) (PConst 0)));
   ((PBin LessEqual (PBin Mul (PConst 0) (PBin Sub (PConst 1) (PLit 1))) (PWild 0)), (PBin Less (PConst 0) (PLit 0)))].
(** simplify_rules.h:517-519  apply(c0 < x/c1, (c0 + 1)*c1 <= x, c1 > 0, c0*c1 > x, c1 < 0) *)
Definition r_less_517 : rule := Rule 517
  (PBin Less (PConst 0) (PBin Div (PWild 0) (PConst 1)))
  [((PBin LessEqual (PBin Mul (PBin Add (PConst 0) (PLit 1)) (PConst 1)) (PWild 0)), (PBin Less (PLit 0) (PConst 1)));
   ((PBin Less (PWild 0) (PBin Mul (PConst 0) (PConst 1))), (PBin Less (PConst 1) (PLit 0)))].
(** simplify_rules.h:521-523  apply((max(x, c0)/may_be<1>(c3)) < max(x, c1)/may_be<1>(c3) + c2, true, c2 > 0 && c3 > 0 && c1/c3 + c2 > c0/c3, false, c2 < 0 && c3 > 0 && c1/c3 + c2 <= c0/c3) *)
Definition r_less_521 : rule := Rule 521
  (PBin Less (PBin Div (PBin Max (PWild 0) (PConst 0)) (POpt (PConst 3) 1)) (PBin Add (PBin Div (PBin Max (PWild 0) (PConst 1)) (POpt (PConst 3) 1)) (PConst 2)))
  [((PLit 1), (PBin And (PBin And (PBin Less (PLit 0) (PConst 2)) (PBin Less (PLit 0) (PConst 3))) (PBin Less (PBin Div (PConst 0) (PConst 3)) (PBin Add (PBin Div (PConst 1) (PConst 3)) (PConst 2)))));
   ((PLit 0), (PBin And (PBin And (PBin Less (PConst 2) (PLit 0)) (PBin Less (PLit 0) (PConst 3))) (PBin LessEqual (PBin Add (PBin Div (PConst 1) (PConst 3)) (PConst 2)) (PBin Div (PConst 0) (PConst 3)))))].
(** simplify_rules.h:524-526  apply((min(x, c0)/may_be<1>(c3)) < min(x, c1)/may_be<1>(c3) + c2, true, c2 > 0 && c3 > 0 && c1/c3 + c2 > c0/c3, false, c2 < 0 && c3 > 0 && c1/c3 + c2 <= c0/c3) *)
Definition r_less_524 : rule := Rule 524
  (PBin Less (PBin Div (PBin Min (PWild 0) (PConst 0)) (POpt (PConst 3) 1)) (PBin Add (PBin Div (PBin Min (PWild 0) (PConst 1)) (POpt (PConst 3) 1)) (PConst 2)))
  [((PLit 1), (PBin And (PBin And (PBin Less (PLit 0) (PConst 2)) (PBin Less (PLit 0) (PConst 3))) (PBin Less (PBin Div (PConst 0) (PConst 3)) (PBin Add (PBin Div (PConst 1) (PConst 3)) (PConst 2)))));
   ((PLit 0), (PBin And (PBin And (PBin Less (PConst 2) (PLit 0)) (PBin Less (PLit 0) (PConst 3))) (PBin LessEqual (PBin Add (PBin Div (PConst 1) (PConst 3)) (PConst 2)) (PBin Div (PConst 0) (PConst 3)))))].
(** simplify_rules.h:535  apply(min(y, x + may_be<0>(c0)) < x + may_be<0>(c1), y < x + c1 || eval(c0 < c1)) *)
Definition r_less_535 : rule := Rule 535
  (PBin Less (PBin Min (PWild 1) (PBin Add (PWild 0) (POpt (PConst 0) 0))) (PBin Add (PWild 0) (POpt (PConst 1) 0)))
  [((PBin Or (PBin Less (PWild 1) (PBin Add (PWild 0) (PConst 1))) (REval (PBin Less (PConst 0) (PConst 1)))), (PLit 1))].
(** simplify_rules.h:536  apply(max(y, x + may_be<0>(c0)) < x + may_be<0>(c1), y < x + c1 && eval(c0 < c1)) *)
Definition r_less_536 : rule := Rule 536
  (PBin Less (PBin Max (PWild 1) (PBin Add (PWild 0) (POpt (PConst 0) 0))) (PBin Add (PWild 0) (POpt (PConst 1) 0)))
  [((PBin And (PBin Less (PWild 1) (PBin Add (PWild 0) (PConst 1))) (REval (PBin Less (PConst 0) (PConst 1)))), (PLit 1))].
(** simplify_rules.h:537  apply(x < min(y, x + may_be<0>(c0)) + may_be<0>(c1), x < y + c1 && eval(0 < c0 + c1)) *)
Definition r_less_537 : rule := Rule 537
  (PBin Less (PWild 0) (PBin Add (PBin Min (PWild 1) (PBin Add (PWild 0) (POpt (PConst 0) 0))) (POpt (PConst 1) 0)))
  [((PBin And (PBin Less (PWild 0) (PBin Add (PWild 1) (PConst 1))) (REval (PBin Less (PLit 0) (PBin Add (PConst 0) (PConst 1))))), (PLit 1))].
(** simplify_rules.h:538  apply(x < max(y, x + may_be<0>(c0)) + may_be<0>(c1), x < y + c1 || eval(0 < c0 + c1)) *)
Definition r_less_538 : rule := Rule 538
  (PBin Less (PWild 0) (PBin Add (PBin Max (PWild 1) (PBin Add (PWild 0) (POpt (PConst 0) 0))) (POpt (PConst 1) 0)))
  [((PBin Or (PBin Less (PWild 0) (PBin Add (PWild 1) (PConst 1))) (REval (PBin Less (PLit 0) (PBin Add (PConst 0) (PConst 1))))), (PLit 1))].
(** simplify_rules.h:541  apply(min(y, c0) < c1, y < c1 || eval(c0 < c1)) *)
Definition r_less_541 : rule := Rule 541
  (PBin Less (PBin Min (PWild 1) (PConst 0)) (PConst 1))
  [((PBin Or (PBin Less (PWild 1) (PConst 1)) (REval (PBin Less (PConst 0) (PConst 1)))), (PLit 1))].
(** simplify_rules.h:542  apply(max(y, c0) < c1, y < c1 && eval(c0 < c1)) *)
Definition r_less_542 : rule := Rule 542
  (PBin Less (PBin Max (PWild 1) (PConst 0)) (PConst 1))
  [((PBin And (PBin Less (PWild 1) (PConst 1)) (REval (PBin Less (PConst 0) (PConst 1)))), (PLit 1))].
(** simplify_rules.h:543  apply(c1 < min(y, c0), c1 < y && eval(c1 < c0)) *)
Definition r_less_543 : rule := Rule 543
  (PBin Less (PConst 1) (PBin Min (PWild 1) (PConst 0)))
  [((PBin And (PBin Less (PConst 1) (PWild 1)) (REval (PBin Less (PConst 1) (PConst 0)))), (PLit 1))].
(** simplify_rules.h:544  apply(c1 < max(y, c0), c1 < y || eval(c1 < c0)) *)
Definition r_less_544 : rule := Rule 544
  (PBin Less (PConst 1) (PBin Max (PWild 1) (PConst 0)))
  [((PBin Or (PBin Less (PConst 1) (PWild 1)) (REval (PBin Less (PConst 1) (PConst 0)))), (PLit 1))].
(** simplify_rules.h:549  apply(min(z, y) < min(x, y), z < min(x, y)) *)
Definition r_less_549 : rule := Rule 549
  (PBin Less (PBin Min (PWild 2) (PWild 1)) (PBin Min (PWild 0) (PWild 1)))
  [((PBin Less (PWild 2) (PBin Min (PWild 0) (PWild 1))), (PLit 1))].
(** simplify_rules.h:550  apply(min(z, y) < min(x, y + c0), min(z, y) < x, c0 > 0) *)
Definition r_less_550 : rule := Rule 550
  (PBin Less (PBin Min (PWild 2) (PWild 1)) (PBin Min (PWild 0) (PBin Add (PWild 1) (PConst 0))))
  [((PBin Less (PBin Min (PWild 2) (PWild 1)) (PWild 0)), (PBin Less (PLit 0) (PConst 0)))].
(** simplify_rules.h:551  apply(min(z, y + c0) < min(x, y), min(z, y + c0) < x, c0 < 0) *)
Definition r_less_551 : rule := Rule 551
  (PBin Less (PBin Min (PWild 2) (PBin Add (PWild 1) (PConst 0))) (PBin Min (PWild 0) (PWild 1)))
  [((PBin Less (PBin Min (PWild 2) (PBin Add (PWild 1) (PConst 0))) (PWild 0)), (PBin Less (PConst 0) (PLit 0)))].
(** simplify_rules.h:554  apply(max(z, y) < max(x, y), max(z, y) < x) *)
Definition r_less_554 : rule := Rule 554
  (PBin Less (PBin Max (PWild 2) (PWild 1)) (PBin Max (PWild 0) (PWild 1)))
  [((PBin Less (PBin Max (PWild 2) (PWild 1)) (PWild 0)), (PLit 1))].
(** simplify_rules.h:555  apply(max(z, y) < max(x, y + c0), max(z, y) < x, c0 < 0) *)
Definition r_less_555 : rule := Rule 555
  (PBin Less (PBin Max (PWild 2) (PWild 1)) (PBin Max (PWild 0) (PBin Add (PWild 1) (PConst 0))))
  [((PBin Less (PBin Max (PWild 2) (PWild 1)) (PWild 0)), (PBin Less (PConst 0) (PLit 0)))].
(** simplify_rules.h:556  apply(max(z, y + c0) < max(x, y), max(z, y + c0) < x, c0 > 0) *)
Definition r_less_556 : rule := Rule 556
  (PBin Less (PBin Max (PWild 2) (PBin Add (PWild 1) (PConst 0))) (PBin Max (PWild 0) (PWild 1)))
  [((PBin Less (PBin Max (PWild 2) (PBin Add (PWild 1) (PConst 0))) (PWild 0)), (PBin Less (PLit 0) (PConst 0)))].
(** simplify_rules.h:558  apply(min(x, min(y, z)) < y, min(x, z) < y) *)
Definition r_less_558 : rule := Rule 558
  (PBin Less (PBin Min (PWild 0) (PBin Min (PWild 1) (PWild 2))) (PWild 1))
  [((PBin Less (PBin Min (PWild 0) (PWild 2)) (PWild 1)), (PLit 1))].
(** simplify_rules.h:559  apply(min(x, y) < max(x, y), x != y) *)
Definition r_less_559 : rule := Rule 559
  (PBin Less (PBin Min (PWild 0) (PWild 1)) (PBin Max (PWild 0) (PWild 1)))
  [((PBin NotEqual (PWild 0) (PWild 1)), (PLit 1))].
(** simplify_rules.h:560  apply(max(x, y) < min(x, y), false) *)
Definition r_less_560 : rule := Rule 560
  (PBin Less (PBin Max (PWild 0) (PWild 1)) (PBin Min (PWild 0) (PWild 1)))
  [((PLit 0), (PLit 1))].
(** simplify_rules.h:562  apply(min(x, y + may_be<0>(c0)) < max(z, y + may_be<0>(c1)), true, c0 < c1) *)
Definition r_less_562 : rule := Rule 562
  (PBin Less (PBin Min (PWild 0) (PBin Add (PWild 1) (POpt (PConst 0) 0))) (PBin Max (PWild 2) (PBin Add (PWild 1) (POpt (PConst 1) 0))))
  [((PLit 1), (PBin Less (PConst 0) (PConst 1)))].
(** simplify_rules.h:566  apply(may_be<0>(z) + min(y, x + may_be<0>(u)) < x + may_be<0>(w), min(y - x, u) + z < w, !is_constant(x)) *)
Definition r_less_566 : rule := Rule 566
  (PBin Less (PBin Add (POpt (PWild 2) 0) (PBin Min (PWild 1) (PBin Add (PWild 0) (POpt (PWild 4) 0)))) (PBin Add (PWild 0) (POpt (PWild 3) 0)))
  [((PBin Less (PBin Add (PBin Min (PBin Sub (PWild 1) (PWild 0)) (PWild 4)) (PWild 2)) (PWild 3)), (PNot (RPred k_constant 0)))].
(** simplify_rules.h:567  apply(may_be<0>(z) + max(y, x + may_be<0>(u)) < x + may_be<0>(w), max(y - x, u) + z < w, !is_constant(x)) *)
Definition r_less_567 : rule := Rule 567
  (PBin Less (PBin Add (POpt (PWild 2) 0) (PBin Max (PWild 1) (PBin Add (PWild 0) (POpt (PWild 4) 0)))) (PBin Add (PWild 0) (POpt (PWild 3) 0)))
  [((PBin Less (PBin Add (PBin Max (PBin Sub (PWild 1) (PWild 0)) (PWild 4)) (PWild 2)) (PWild 3)), (PNot (RPred k_constant 0)))].
(** simplify_rules.h:568  apply(may_be<0>(z) + min(y, x - u) < x + may_be<0>(w), z < w + max(x - y, u), !is_constant(x)) *)
Definition r_less_568 : rule := Rule 568
  (PBin Less (PBin Add (POpt (PWild 2) 0) (PBin Min (PWild 1) (PBin Sub (PWild 0) (PWild 4)))) (PBin Add (PWild 0) (POpt (PWild 3) 0)))
  [((PBin Less (PWild 2) (PBin Add (PWild 3) (PBin Max (PBin Sub (PWild 0) (PWild 1)) (PWild 4)))), (PNot (RPred k_constant 0)))].
(** simplify_rules.h:569  apply(may_be<0>(z) + max(y, x - u) < x + may_be<0>(w), z < w + min(x - y, u), !is_constant(x)) *)
Definition r_less_569 : rule := Rule 569
  (PBin Less (PBin Add (POpt (PWild 2) 0) (PBin Max (PWild 1) (PBin Sub (PWild 0) (PWild 4)))) (PBin Add (PWild 0) (POpt (PWild 3) 0)))
  [((PBin Less (PWild 2) (PBin Add (PWild 3) (PBin Min (PBin Sub (PWild 0) (PWild 1)) (PWild 4)))), (PNot (RPred k_constant 0)))].
(** simplify_rules.h:571  apply(x + may_be<0>(z) < may_be<0>(w) + min(y, x + may_be<0>(u)), z < min(y - x, u) + w, !is_constant(x)) *)
Definition r_less_571 : rule := Rule 571
  (PBin Less (PBin Add (PWild 0) (POpt (PWild 2) 0)) (PBin Add (POpt (PWild 3) 0) (PBin Min (PWild 1) (PBin Add (PWild 0) (POpt (PWild 4) 0)))))
  [((PBin Less (PWild 2) (PBin Add (PBin Min (PBin Sub (PWild 1) (PWild 0)) (PWild 4)) (PWild 3))), (PNot (RPred k_constant 0)))].
(** simplify_rules.h:572  apply(x + may_be<0>(z) < may_be<0>(w) + max(y, x + may_be<0>(u)), z < max(y - x, u) + w, !is_constant(x)) *)
Definition r_less_572 : rule := Rule 572
  (PBin Less (PBin Add (PWild 0) (POpt (PWild 2) 0)) (PBin Add (POpt (PWild 3) 0) (PBin Max (PWild 1) (PBin Add (PWild 0) (POpt (PWild 4) 0)))))
  [((PBin Less (PWild 2) (PBin Add (PBin Max (PBin Sub (PWild 1) (PWild 0)) (PWild 4)) (PWild 3))), (PNot (RPred k_constant 0)))].
(** simplify_rules.h:573  apply(x + may_be<0>(z) < may_be<0>(w) + min(y, x - u), z + max(x - y, u) < w, !is_constant(x)) *)
Definition r_less_573 : rule := Rule 573
  (PBin Less (PBin Add (PWild 0) (POpt (PWild 2) 0)) (PBin Add (POpt (PWild 3) 0) (PBin Min (PWild 1) (PBin Sub (PWild 0) (PWild 4)))))
  [((PBin Less (PBin Add (PWild 2) (PBin Max (PBin Sub (PWild 0) (PWild 1)) (PWild 4))) (PWild 3)), (PNot (RPred k_constant 0)))].
(** simplify_rules.h:574  apply(x + may_be<0>(z) < may_be<0>(w) + max(y, x - u), z + min(x - y, u) < w, !is_constant(x)) *)
Definition r_less_574 : rule := Rule 574
  (PBin Less (PBin Add (PWild 0) (POpt (PWild 2) 0)) (PBin Add (POpt (PWild 3) 0) (PBin Max (PWild 1) (PBin Sub (PWild 0) (PWild 4)))))
  [((PBin Less (PBin Add (PWild 2) (PBin Min (PBin Sub (PWild 0) (PWild 1)) (PWild 4))) (PWild 3)), (PNot (RPred k_constant 0)))].
(** simplify_rules.h:577  apply(select(x, c0, y) < c1, select(x, eval(c0 < c1), y < c1)) *)
Definition r_less_577 : rule := Rule 577
  (PBin Less (PSel (PWild 0) (PConst 0) (PWild 1)) (PConst 1))
  [((PSel (PWild 0) (REval (PBin Less (PConst 0) (PConst 1))) (PBin Less (PWild 1) (PConst 1))), (PLit 1))].
(** simplify_rules.h:578  apply(select(x, y, c0) < c1, select(x, y < c1, eval(c0 < c1))) *)
Definition r_less_578 : rule := Rule 578
  (PBin Less (PSel (PWild 0) (PWild 1) (PConst 0)) (PConst 1))
  [((PSel (PWild 0) (PBin Less (PWild 1) (PConst 1)) (REval (PBin Less (PConst 0) (PConst 1)))), (PLit 1))].
(** simplify_rules.h:579  apply(c1 < select(x, c0, y), select(x, eval(c1 < c0), c1 < y)) *)
Definition r_less_579 : rule := Rule 579
  (PBin Less (PConst 1) (PSel (PWild 0) (PConst 0) (PWild 1)))
  [((PSel (PWild 0) (REval (PBin Less (PConst 1) (PConst 0))) (PBin Less (PConst 1) (PWild 1))), (PLit 1))].
(** simplify_rules.h:580  apply(c1 < select(x, y, c0), select(x, c1 < y, eval(c1 < c0))) *)
Definition r_less_580 : rule := Rule 580
  (PBin Less (PConst 1) (PSel (PWild 0) (PWild 1) (PConst 0)))
  [((PSel (PWild 0) (PBin Less (PConst 1) (PWild 1)) (REval (PBin Less (PConst 1) (PConst 0)))), (PLit 1))].
(** simplify_rules.h:582  apply(select(x, y, z) < y, select(x, false, z < y)) *)
Definition r_less_582 : rule := Rule 582
  (PBin Less (PSel (PWild 0) (PWild 1) (PWild 2)) (PWild 1))
  [((PSel (PWild 0) (PLit 0) (PBin Less (PWild 2) (PWild 1))), (PLit 1))].
(** simplify_rules.h:583  apply(select(x, y, z) < z, select(x, y < z, false)) *)
Definition r_less_583 : rule := Rule 583
  (PBin Less (PSel (PWild 0) (PWild 1) (PWild 2)) (PWild 2))
  [((PSel (PWild 0) (PBin Less (PWild 1) (PWild 2)) (PLit 0)), (PLit 1))].
(** simplify_rules.h:584  apply(y < select(x, y, w), select(x, false, y < w)) *)
Definition r_less_584 : rule := Rule 584
  (PBin Less (PWild 1) (PSel (PWild 0) (PWild 1) (PWild 3)))
  [((PSel (PWild 0) (PLit 0) (PBin Less (PWild 1) (PWild 3))), (PLit 1))].
(** simplify_rules.h:585  apply(w < select(x, y, w), select(x, w < y, false)) *)
Definition r_less_585 : rule := Rule 585
  (PBin Less (PWild 3) (PSel (PWild 0) (PWild 1) (PWild 3)))
  [((PSel (PWild 0) (PBin Less (PWild 3) (PWild 1)) (PLit 0)), (PLit 1))].
(** simplify_rules.h:586  apply(may_be<0>(t) + select(x, y, z) < may_be<0>(v) + select(x, w, u), select(x, y + t < v + w, z + t < v + u)) *)
Definition r_less_586 : rule := Rule 586
  (PBin Less (PBin Add (POpt (PWild 6) 0) (PSel (PWild 0) (PWild 1) (PWild 2))) (PBin Add (POpt (PWild 5) 0) (PSel (PWild 0) (PWild 3) (PWild 4))))
  [((PSel (PWild 0) (PBin Less (PBin Add (PWild 1) (PWild 6)) (PBin Add (PWild 5) (PWild 3))) (PBin Less (PBin Add (PWild 2) (PWild 6)) (PBin Add (PWild 5) (PWild 4)))), (PLit 1))].
(** simplify_rules.h:589  apply(x < y, y && !x, is_boolean(x) && is_boolean(y)) *)
Definition r_less_589 : rule := Rule 589
  (PBin Less (PWild 0) (PWild 1))
  [((PBin And (PWild 1) (PNot (PWild 0))), (PBin And (RPred k_boolean 0) (RPred k_boolean 1)))].
(** simplify_rules.h:590  apply(x < 1, !x, is_boolean(x)) *)
Definition r_less_590 : rule := Rule 590
  (PBin Less (PWild 0) (PLit 1))
  [((PNot (PWild 0)), (RPred k_boolean 0))].
(** simplify_rules.h:591  apply(0 < x, boolean(x), is_boolean(x)) *)
Definition r_less_591 : rule := Rule 591
  (PBin Less (PLit 0) (PWild 0))
  [((RBool (PWild 0)), (RPred k_boolean 0))].
Definition less_rules : list rule :=
  [r_less_465;
   r_less_466;
   r_less_467;
   r_less_468;
   r_less_469;
   r_less_470;
   r_less_471;
   r_less_478;
   r_less_479;
   r_less_482;
   r_less_484;
   r_less_485;
   r_less_486;
   r_less_490;
   r_less_491;
   r_less_492;
   r_less_495;
   r_less_499;
   r_less_502;
   r_less_507;
   r_less_511;
   r_less_514;
   r_less_517;
   r_less_521;
   r_less_524;
   r_less_535;
   r_less_536;
   r_less_537;
   r_less_538;
   r_less_541;
   r_less_542;
   r_less_543;
   r_less_544;
   r_less_549;
   r_less_550;
   r_less_551;
   r_less_554;
   r_less_555;
   r_less_556;
   r_less_558;
   r_less_559;
   r_less_560;
   r_less_562;
   r_less_566;
   r_less_567;
   r_less_568;
   r_less_569;
   r_less_571;
   r_less_572;
   r_less_573;
   r_less_574;
   r_less_577;
   r_less_578;
   r_less_579;
   r_less_580;
   r_less_582;
   r_less_583;
   r_less_584;
   r_less_585;
   r_less_586;
   r_less_589;
   r_less_590;
   r_less_591].

(** apply_equal_rules *)
(** simplify_rules.h:599  apply(x == x, true) *)
Definition r_equal_599 : rule := Rule 599
  (PBin Equal (PWild 0) (PWild 0))
  [((PLit 1), (PLit 1))].
(** simplify_rules.h:600  apply(x*y == x*z, y == z || x == 0) *)
Definition r_equal_600 : rule := Rule 600
  (PBin Equal (PBin Mul (PWild 0) (PWild 1)) (PBin Mul (PWild 0) (PWild 2)))
  [((PBin Or (PBin Equal (PWild 1) (PWild 2)) (PBin Equal (PWild 0) (PLit 0))), (PLit 1))].
(** simplify_rules.h:601  apply(x == x*y, y == 1 || x == 0) *)
Definition r_equal_601 : rule := Rule 601
  (PBin Equal (PWild 0) (PBin Mul (PWild 0) (PWild 1)))
  [((PBin Or (PBin Equal (PWild 1) (PLit 1)) (PBin Equal (PWild 0) (PLit 0))), (PLit 1))].
(** simplify_rules.h:604  apply(w == may_be<0>(u) + (may_be<0>(z) + (x - y)), w + y == x + (z + u)) *)
Definition r_equal_604 : rule := Rule 604
  (PBin Equal (PWild 3) (PBin Add (POpt (PWild 4) 0) (PBin Add (POpt (PWild 2) 0) (PBin Sub (PWild 0) (PWild 1)))))
  [((PBin Equal (PBin Add (PWild 3) (PWild 1)) (PBin Add (PWild 0) (PBin Add (PWild 2) (PWild 4)))), (PLit 1))].
(** simplify_rules.h:607  apply(may_be<0>(w) + (x + may_be<0>(y)) == may_be<0>(u) + (x + may_be<0>(z)), y + w == z + u) *)
Definition r_equal_607 : rule := Rule 607
  (PBin Equal (PBin Add (POpt (PWild 3) 0) (PBin Add (PWild 0) (POpt (PWild 1) 0))) (PBin Add (POpt (PWild 4) 0) (PBin Add (PWild 0) (POpt (PWild 2) 0))))
  [((PBin Equal (PBin Add (PWild 1) (PWild 3)) (PBin Add (PWild 2) (PWild 4))), (PLit 1))].
(** simplify_rules.h:609-611  apply(x*c0 == y*c1, x == y*eval(c1/c0), c0 != 0 && c1%c0 == 0, y == x*eval(c0/c1), c1 != 0 && c0%c1 == 0) *)
Definition r_equal_609 : rule := Rule 609
  (PBin Equal (PBin Mul (PWild 0) (PConst 0)) (PBin Mul (PWild 1) (PConst 1)))
  [((PBin Equal (PWild 0) (PBin Mul (PWild 1) (REval (PBin Div (PConst 1) (PConst 0))))), (PBin And (PBin NotEqual (PConst 0) (PLit 0)) (PBin Equal (PBin Mod (PConst 1) (PConst 0)) (PLit 0))));
   ((PBin Equal (PWild 1) (PBin Mul (PWild 0) (REval (PBin Div (PConst 0) (PConst 1))))), (PBin And (PBin NotEqual (PConst 1) (PLit 0)) (PBin Equal (PBin Mod (PConst 0) (PConst 1)) (PLit 0))))].
(** simplify_rules.h:612  apply(x*c0 == c1, x == eval(c1/c0), c0 != 0 && c1%c0 == 0) *)
Definition r_equal_612 : rule := Rule 612
  (PBin Equal (PBin Mul (PWild 0) (PConst 0)) (PConst 1))
  [((PBin Equal (PWild 0) (REval (PBin Div (PConst 1) (PConst 0)))), (PBin And (PBin NotEqual (PConst 0) (PLit 0)) (PBin Equal (PBin Mod (PConst 1) (PConst 0)) (PLit 0))))].
(** simplify_rules.h:613  apply(x + c0 == may_be<0>(y) + c1, x == y + eval(c1 - c0)) *)
Definition r_equal_613 : rule := Rule 613
  (PBin Equal (PBin Add (PWild 0) (PConst 0)) (PBin Add (POpt (PWild 1) 0) (PConst 1)))
  [((PBin Equal (PWild 0) (PBin Add (PWild 1) (REval (PBin Sub (PConst 1) (PConst 0))))), (PLit 1))].
(** simplify_rules.h:614  apply(may_be<0>(x) + c0 == c1 - y, x + y == eval(c1 - c0)) *)
Definition r_equal_614 : rule := Rule 614
  (PBin Equal (PBin Add (POpt (PWild 0) 0) (PConst 0)) (PBin Sub (PConst 1) (PWild 1)))
  [((PBin Equal (PBin Add (PWild 0) (PWild 1)) (REval (PBin Sub (PConst 1) (PConst 0)))), (PLit 1))].
(** simplify_rules.h:615  apply(x == 0, !x, is_boolean(x)) *)
Definition r_equal_615 : rule := Rule 615
  (PBin Equal (PWild 0) (PLit 0))
  [((PNot (PWild 0)), (RPred k_boolean 0))].
(** simplify_rules.h:616  apply(x == 1, boolean(x), is_boolean(x)) *)
Definition r_equal_616 : rule := Rule 616
  (PBin Equal (PWild 0) (PLit 1))
  [((RBool (PWild 0)), (RPred k_boolean 0))].
(** simplify_rules.h:618  apply(x + may_be<0>(y) == may_be<0>(z) + (x/c0)*c0, z == y + x%c0, c0 > 0) *)
Definition r_equal_618 : rule := Rule 618
  (PBin Equal (PBin Add (PWild 0) (POpt (PWild 1) 0)) (PBin Add (POpt (PWild 2) 0) (PBin Mul (PBin Div (PWild 0) (PConst 0)) (PConst 0))))
  [((PBin Equal (PWild 2) (PBin Add (PWild 1) (PBin Mod (PWild 0) (PConst 0)))), (PBin Less (PLit 0) (PConst 0)))].
(** simplify_rules.h:620  apply(x%c0 == c1, false, c0 > 0 && (c1 >= c0 || c1 < 0)) *)
Definition r_equal_620 : rule := Rule 620
  (PBin Equal (PBin Mod (PWild 0) (PConst 0)) (PConst 1))
  [((PLit 0), (PBin And (PBin Less (PLit 0) (PConst 0)) (PBin Or (PBin LessEqual (PConst 0) (PConst 1)) (PBin Less (PConst 1) (PLit 0)))))].
(** simplify_rules.h:622  apply(may_be<0>(v) + select(x, y, z) == select(x, w, u), select(x, w == v + y, u == v + z)) *)
Definition r_equal_622 : rule := Rule 622
  (PBin Equal (PBin Add (POpt (PWild 5) 0) (PSel (PWild 0) (PWild 1) (PWild 2))) (PSel (PWild 0) (PWild 3) (PWild 4)))
  [((PSel (PWild 0) (PBin Equal (PWild 3) (PBin Add (PWild 5) (PWild 1))) (PBin Equal (PWild 4) (PBin Add (PWild 5) (PWild 2)))), (PLit 1))].
(** simplify_rules.h:623  apply(select(x, c0, y) == c1, select(x, eval(c0 == c1), y == c1)) *)
Definition r_equal_623 : rule := Rule 623
  (PBin Equal (PSel (PWild 0) (PConst 0) (PWild 1)) (PConst 1))
  [((PSel (PWild 0) (REval (PBin Equal (PConst 0) (PConst 1))) (PBin Equal (PWild 1) (PConst 1))), (PLit 1))].
(** simplify_rules.h:624  apply(select(x, y, c0) == c1, select(x, y == c1, eval(c0 == c1))) *)
Definition r_equal_624 : rule := Rule 624
  (PBin Equal (PSel (PWild 0) (PWild 1) (PConst 0)) (PConst 1))
  [((PSel (PWild 0) (PBin Equal (PWild 1) (PConst 1)) (REval (PBin Equal (PConst 0) (PConst 1)))), (PLit 1))].
(** simplify_rules.h:625  apply(y == select(x == y, x, z), x == y || y == z) *)
Definition r_equal_625 : rule := Rule 625
  (PBin Equal (PWild 1) (PSel (PBin Equal (PWild 0) (PWild 1)) (PWild 0) (PWild 2)))
  [((PBin Or (PBin Equal (PWild 0) (PWild 1)) (PBin Equal (PWild 1) (PWild 2))), (PLit 1))].
(** simplify_rules.h:626  apply(y == select(x == y, z, x), x == y && y == z) *)
Definition r_equal_626 : rule := Rule 626
  (PBin Equal (PWild 1) (PSel (PBin Equal (PWild 0) (PWild 1)) (PWild 2) (PWild 0)))
  [((PBin And (PBin Equal (PWild 0) (PWild 1)) (PBin Equal (PWild 1) (PWild 2))), (PLit 1))].
(** simplify_rules.h:627  apply(y == select(x, y, z), select(x, true, y == z)) *)
Definition r_equal_627 : rule := Rule 627
  (PBin Equal (PWild 1) (PSel (PWild 0) (PWild 1) (PWild 2)))
  [((PSel (PWild 0) (PLit 1) (PBin Equal (PWild 1) (PWild 2))), (PLit 1))].
(** simplify_rules.h:628  apply(z == select(x, y, z), select(x, z == y, true)) *)
Definition r_equal_628 : rule := Rule 628
  (PBin Equal (PWild 2) (PSel (PWild 0) (PWild 1) (PWild 2)))
  [((PSel (PWild 0) (PBin Equal (PWild 2) (PWild 1)) (PLit 1)), (PLit 1))].
(** simplify_rules.h:630  apply(y == max(x, y), x <= y) *)
Definition r_equal_630 : rule := Rule 630
  (PBin Equal (PWild 1) (PBin Max (PWild 0) (PWild 1)))
  [((PBin LessEqual (PWild 0) (PWild 1)), (PLit 1))].
(** simplify_rules.h:631  apply(y == min(x, y), y <= x) *)
Definition r_equal_631 : rule := Rule 631
  (PBin Equal (PWild 1) (PBin Min (PWild 0) (PWild 1)))
  [((PBin LessEqual (PWild 1) (PWild 0)), (PLit 1))].
(** simplify_rules.h:633-636  apply(max(x, c0)/c1 == c2, x/c1 == c2, c1 > 0 && c0/c1 < c2, x < (c2 + 1)*c1, c1 > 0 && c0/c1 == c2, false, c1 > 0) *)
Definition r_equal_633 : rule := Rule 633
  (PBin Equal (PBin Div (PBin Max (PWild 0) (PConst 0)) (PConst 1)) (PConst 2))
  [((PBin Equal (PBin Div (PWild 0) (PConst 1)) (PConst 2)), (PBin And (PBin Less (PLit 0) (PConst 1)) (PBin Less (PBin Div (PConst 0) (PConst 1)) (PConst 2))));
   ((PBin Less (PWild 0) (PBin Mul (PBin Add (PConst 2) (PLit 1)) (PConst 1))), (PBin And (PBin Less (PLit 0) (PConst 1)) (PBin Equal (PBin Div (PConst 0) (PConst 1)) (PConst 2))));
   ((PLit 0), (PBin Less (PLit 0) (PConst 1)))].
(** simplify_rules.h:637-640  apply(min(x, c0)/c1 == c2, x/c1 == c2, c1 > 0 && c0/c1 > c2, x >= c2*c1, c1 > 0 && c0/c1 == c2, false, c1 > 0) *)
Definition r_equal_637 : rule := Rule 637
  (PBin Equal (PBin Div (PBin Min (PWild 0) (PConst 0)) (PConst 1)) (PConst 2))
  [((PBin Equal (PBin Div (PWild 0) (PConst 1)) (PConst 2)), (PBin And (PBin Less (PLit 0) (PConst 1)) (PBin Less (PConst 2) (PBin Div (PConst 0) (PConst 1)))));
   ((PBin LessEqual (PBin Mul (PConst 2) (PConst 1)) (PWild 0)), (PBin And (PBin Less (PLit 0) (PConst 1)) (PBin Equal (PBin Div (PConst 0) (PConst 1)) (PConst 2))));
   ((PLit 0), (PBin Less (PLit 0) (PConst 1)))].
(** simplify_rules.h:642  apply(max(x, c0) == max(x, c1), x >= eval(max(c0, c1)), c0 != c1) *)
Definition r_equal_642 : rule := Rule 642
  (PBin Equal (PBin Max (PWild 0) (PConst 0)) (PBin Max (PWild 0) (PConst 1)))
  [((PBin LessEqual (REval (PBin Max (PConst 0) (PConst 1))) (PWild 0)), (PBin NotEqual (PConst 0) (PConst 1)))].
(** simplify_rules.h:643  apply(min(x, c0) == min(x, c1), x <= eval(min(c0, c1)), c0 != c1) *)
Definition r_equal_643 : rule := Rule 643
  (PBin Equal (PBin Min (PWild 0) (PConst 0)) (PBin Min (PWild 0) (PConst 1)))
  [((PBin LessEqual (PWild 0) (REval (PBin Min (PConst 0) (PConst 1)))), (PBin NotEqual (PConst 0) (PConst 1)))].
(** simplify_rules.h:645-647  apply(max(x, c0) == c1, false, c0 > c1, x == c1, c0 < c1) *)
Definition r_equal_645 : rule := Rule 645
  (PBin Equal (PBin Max (PWild 0) (PConst 0)) (PConst 1))
  [((PLit 0), (PBin Less (PConst 1) (PConst 0)));
   ((PBin Equal (PWild 0) (PConst 1)), (PBin Less (PConst 0) (PConst 1)))].
(** simplify_rules.h:648-650  apply(min(x, c0) == c1, false, c0 < c1, x == c1, c0 > c1) *)
Definition r_equal_648 : rule := Rule 648
  (PBin Equal (PBin Min (PWild 0) (PConst 0)) (PConst 1))
  [((PLit 0), (PBin Less (PConst 0) (PConst 1)));
   ((PBin Equal (PWild 0) (PConst 1)), (PBin Less (PConst 1) (PConst 0)))].
Definition equal_rules : list rule :=
  [r_equal_599;
   r_equal_600;
   r_equal_601;
   r_equal_604;
   r_equal_607;
   r_equal_609;
   r_equal_612;
   r_equal_613;
   r_equal_614;
   r_equal_615;
   r_equal_616;
   r_equal_618;
   r_equal_620;
   r_equal_622;
   r_equal_623;
   r_equal_624;
   r_equal_625;
   r_equal_626;
   r_equal_627;
   r_equal_628;
   r_equal_630;
   r_equal_631;
   r_equal_633;
   r_equal_637;
   r_equal_642;
   r_equal_643;
   r_equal_645;
   r_equal_648].

(** apply_logical_and_rules *)
(** simplify_rules.h:658-660  apply(x && c0, boolean(x), c0 != 0, false) *)
Definition r_logical_and_658 : rule := Rule 658
  (PBin And (PWild 0) (PConst 0))
  [((RBool (PWild 0)), (PBin NotEqual (PConst 0) (PLit 0)));
   ((PLit 0), (PLit 1))].
(** simplify_rules.h:661  apply(x && x, boolean(x)) *)
Definition r_logical_and_661 : rule := Rule 661
  (PBin And (PWild 0) (PWild 0))
  [((RBool (PWild 0)), (PLit 1))].
(** simplify_rules.h:664  apply((x && y) && (z && w), x && (y && (z && w))) *)
Definition r_logical_and_664 : rule := Rule 664
  (PBin And (PBin And (PWild 0) (PWild 1)) (PBin And (PWild 2) (PWild 3)))
  [((PBin And (PWild 0) (PBin And (PWild 1) (PBin And (PWild 2) (PWild 3)))), (PLit 1))].
(** simplify_rules.h:665  apply(x && (may_be<true>(y) && (may_be<true>(z) && (may_be<true>(w) && x))), x && (y && (z && w))) *)
Definition r_logical_and_665 : rule := Rule 665
  (PBin And (PWild 0) (PBin And (POpt (PWild 1) 1) (PBin And (POpt (PWild 2) 1) (PBin And (POpt (PWild 3) 1) (PWild 0)))))
  [((PBin And (PWild 0) (PBin And (PWild 1) (PBin And (PWild 2) (PWild 3)))), (PLit 1))].
(** simplify_rules.h:667  apply(x && (x || y), boolean(x)) *)
Definition r_logical_and_667 : rule := Rule 667
  (PBin And (PWild 0) (PBin Or (PWild 0) (PWild 1)))
  [((RBool (PWild 0)), (PLit 1))].
(** simplify_rules.h:668  apply(x && (y || (x && z)), x && (y || z)) *)
Definition r_logical_and_668 : rule := Rule 668
  (PBin And (PWild 0) (PBin Or (PWild 1) (PBin And (PWild 0) (PWild 2))))
  [((PBin And (PWild 0) (PBin Or (PWild 1) (PWild 2))), (PLit 1))].
(** simplify_rules.h:669  apply(x && (y && (x || z)), x && y) *)
Definition r_logical_and_669 : rule := Rule 669
  (PBin And (PWild 0) (PBin And (PWild 1) (PBin Or (PWild 0) (PWild 2))))
  [((PBin And (PWild 0) (PWild 1)), (PLit 1))].
(** simplify_rules.h:670  apply((x || y) && (x || z), x || (y && z)) *)
Definition r_logical_and_670 : rule := Rule 670
  (PBin And (PBin Or (PWild 0) (PWild 1)) (PBin Or (PWild 0) (PWild 2)))
  [((PBin Or (PWild 0) (PBin And (PWild 1) (PWild 2))), (PLit 1))].
(** simplify_rules.h:672  apply(x && !x, false) *)
Definition r_logical_and_672 : rule := Rule 672
  (PBin And (PWild 0) (PNot (PWild 0)))
  [((PLit 0), (PLit 1))].
(** simplify_rules.h:673  apply(x == y && x != y, false) *)
Definition r_logical_and_673 : rule := Rule 673
  (PBin And (PBin Equal (PWild 0) (PWild 1)) (PBin NotEqual (PWild 0) (PWild 1)))
  [((PLit 0), (PLit 1))].
(** simplify_rules.h:674  apply(x == y && x < y, false) *)
Definition r_logical_and_674 : rule := Rule 674
  (PBin And (PBin Equal (PWild 0) (PWild 1)) (PBin Less (PWild 0) (PWild 1)))
  [((PLit 0), (PLit 1))].
(** simplify_rules.h:675  apply(x == y && x <= y, x == y) *)
Definition r_logical_and_675 : rule := Rule 675
  (PBin And (PBin Equal (PWild 0) (PWild 1)) (PBin LessEqual (PWild 0) (PWild 1)))
  [((PBin Equal (PWild 0) (PWild 1)), (PLit 1))].
(** simplify_rules.h:676  apply(x == y && (z && x != y), false) *)
Definition r_logical_and_676 : rule := Rule 676
  (PBin And (PBin Equal (PWild 0) (PWild 1)) (PBin And (PWild 2) (PBin NotEqual (PWild 0) (PWild 1))))
  [((PLit 0), (PLit 1))].
(** simplify_rules.h:677  apply(x != y && x < y, x < y) *)
Definition r_logical_and_677 : rule := Rule 677
  (PBin And (PBin NotEqual (PWild 0) (PWild 1)) (PBin Less (PWild 0) (PWild 1)))
  [((PBin Less (PWild 0) (PWild 1)), (PLit 1))].
(** simplify_rules.h:678  apply(x != y && x <= y, x < y) *)
Definition r_logical_and_678 : rule := Rule 678
  (PBin And (PBin NotEqual (PWild 0) (PWild 1)) (PBin LessEqual (PWild 0) (PWild 1)))
  [((PBin Less (PWild 0) (PWild 1)), (PLit 1))].
(** simplify_rules.h:679  apply(x != y && (z && x == y), false) *)
Definition r_logical_and_679 : rule := Rule 679
  (PBin And (PBin NotEqual (PWild 0) (PWild 1)) (PBin And (PWild 2) (PBin Equal (PWild 0) (PWild 1))))
  [((PLit 0), (PLit 1))].
(** simplify_rules.h:680  apply(x == c1 && x != c0, x == c1, c0 != c1) *)
Definition r_logical_and_680 : rule := Rule 680
  (PBin And (PBin Equal (PWild 0) (PConst 1)) (PBin NotEqual (PWild 0) (PConst 0)))
  [((PBin Equal (PWild 0) (PConst 1)), (PBin NotEqual (PConst 0) (PConst 1)))].
(** simplify_rules.h:681  apply(x == c0 && x == c1, false, c0 != c1) *)
Definition r_logical_and_681 : rule := Rule 681
  (PBin And (PBin Equal (PWild 0) (PConst 0)) (PBin Equal (PWild 0) (PConst 1)))
  [((PLit 0), (PBin NotEqual (PConst 0) (PConst 1)))].
(** simplify_rules.h:685  apply(c0 <= x && x <= c1, false, c1 < c0) *)
Definition r_logical_and_685 : rule := Rule 685
  (PBin And (PBin LessEqual (PConst 0) (PWild 0)) (PBin LessEqual (PWild 0) (PConst 1)))
  [((PLit 0), (PBin Less (PConst 1) (PConst 0)))].
(** simplify_rules.h:686  apply(c0 <= x && c1 <= x, eval(max(c0, c1)) <= x) *)
Definition r_logical_and_686 : rule := Rule 686
  (PBin And (PBin LessEqual (PConst 0) (PWild 0)) (PBin LessEqual (PConst 1) (PWild 0)))
  [((PBin LessEqual (REval (PBin Max (PConst 0) (PConst 1))) (PWild 0)), (PLit 1))].
(** simplify_rules.h:687  apply(c0 < x && x < c1, false, c1 <= c0 + 1) *)
Definition r_logical_and_687 : rule := Rule 687
  (PBin And (PBin Less (PConst 0) (PWild 0)) (PBin Less (PWild 0) (PConst 1)))
  [((PLit 0), (PBin LessEqual (PConst 1) (PBin Add (PConst 0) (PLit 1))))].
(** simplify_rules.h:688  apply(c0 < x && x <= c1, false, c1 <= c0) *)
Definition r_logical_and_688 : rule := Rule 688
  (PBin And (PBin Less (PConst 0) (PWild 0)) (PBin LessEqual (PWild 0) (PConst 1)))
  [((PLit 0), (PBin LessEqual (PConst 1) (PConst 0)))].
(** simplify_rules.h:689  apply(c0 < x && c1 < x, eval(max(c0, c1)) < x) *)
Definition r_logical_and_689 : rule := Rule 689
  (PBin And (PBin Less (PConst 0) (PWild 0)) (PBin Less (PConst 1) (PWild 0)))
  [((PBin Less (REval (PBin Max (PConst 0) (PConst 1))) (PWild 0)), (PLit 1))].
(** simplify_rules.h:690  apply(x < c1 && c0 <= x, false, c1 <= c0) *)
Definition r_logical_and_690 : rule := Rule 690
  (PBin And (PBin Less (PWild 0) (PConst 1)) (PBin LessEqual (PConst 0) (PWild 0)))
  [((PLit 0), (PBin LessEqual (PConst 1) (PConst 0)))].
(** simplify_rules.h:691  apply(x < c0 && x < c1, x < eval(min(c0, c1))) *)
Definition r_logical_and_691 : rule := Rule 691
  (PBin And (PBin Less (PWild 0) (PConst 0)) (PBin Less (PWild 0) (PConst 1)))
  [((PBin Less (PWild 0) (REval (PBin Min (PConst 0) (PConst 1)))), (PLit 1))].
(** simplify_rules.h:692  apply(x <= c0 && x <= c1, x <= eval(min(c0, c1))) *)
Definition r_logical_and_692 : rule := Rule 692
  (PBin And (PBin LessEqual (PWild 0) (PConst 0)) (PBin LessEqual (PWild 0) (PConst 1)))
  [((PBin LessEqual (PWild 0) (REval (PBin Min (PConst 0) (PConst 1)))), (PLit 1))].
(** simplify_rules.h:695  apply(x <= y && y <= x, x == y) *)
Definition r_logical_and_695 : rule := Rule 695
  (PBin And (PBin LessEqual (PWild 0) (PWild 1)) (PBin LessEqual (PWild 1) (PWild 0)))
  [((PBin Equal (PWild 0) (PWild 1)), (PLit 1))].
(** simplify_rules.h:696  apply(x + may_be<0>(c0) <= y && y + may_be<0>(c1) <= x, false, -c1 < c0) *)
Definition r_logical_and_696 : rule := Rule 696
  (PBin And (PBin LessEqual (PBin Add (PWild 0) (POpt (PConst 0) 0)) (PWild 1)) (PBin LessEqual (PBin Add (PWild 1) (POpt (PConst 1) 0)) (PWild 0)))
  [((PLit 0), (PBin Less (PBin Sub (PLit 0) (PConst 1)) (PConst 0)))].
(** simplify_rules.h:697  apply(x < y + may_be<0>(c0) && y + may_be<0>(c1) <= x, false, c0 < c1 + 1) *)
Definition r_logical_and_697 : rule := Rule 697
  (PBin And (PBin Less (PWild 0) (PBin Add (PWild 1) (POpt (PConst 0) 0))) (PBin LessEqual (PBin Add (PWild 1) (POpt (PConst 1) 0)) (PWild 0)))
  [((PLit 0), (PBin Less (PConst 0) (PBin Add (PConst 1) (PLit 1))))].
(** simplify_rules.h:698  apply(x < y + may_be<0>(c0) && y < x + may_be<0>(c1), false, c1 + c0 < 2) *)
Definition r_logical_and_698 : rule := Rule 698
  (PBin And (PBin Less (PWild 0) (PBin Add (PWild 1) (POpt (PConst 0) 0))) (PBin Less (PWild 1) (PBin Add (PWild 0) (POpt (PConst 1) 0))))
  [((PLit 0), (PBin Less (PBin Add (PConst 1) (PConst 0)) (PLit 2)))].
(** simplify_rules.h:701  apply(x != c0 && x <= c1, x <= c1, c0 > c1) *)
Definition r_logical_and_701 : rule := Rule 701
  (PBin And (PBin NotEqual (PWild 0) (PConst 0)) (PBin LessEqual (PWild 0) (PConst 1)))
  [((PBin LessEqual (PWild 0) (PConst 1)), (PBin Less (PConst 1) (PConst 0)))].
(** simplify_rules.h:702  apply(x != c0 && x < c1, x < c1, c0 > c1) *)
Definition r_logical_and_702 : rule := Rule 702
  (PBin And (PBin NotEqual (PWild 0) (PConst 0)) (PBin Less (PWild 0) (PConst 1)))
  [((PBin Less (PWild 0) (PConst 1)), (PBin Less (PConst 1) (PConst 0)))].
(** simplify_rules.h:703-705  apply(x == c0 && x <= c1, x == c0, c0 <= c1, false) *)
Definition r_logical_and_703 : rule := Rule 703
  (PBin And (PBin Equal (PWild 0) (PConst 0)) (PBin LessEqual (PWild 0) (PConst 1)))
  [((PBin Equal (PWild 0) (PConst 0)), (PBin LessEqual (PConst 0) (PConst 1)));
   ((PLit 0), (PLit 1))].
(** simplify_rules.h:706-708  apply(x == c0 && x < c1, x == c0, c0 < c1, false) *)
Definition r_logical_and_706 : rule := Rule 706
  (PBin And (PBin Equal (PWild 0) (PConst 0)) (PBin Less (PWild 0) (PConst 1)))
  [((PBin Equal (PWild 0) (PConst 0)), (PBin Less (PConst 0) (PConst 1)));
   ((PLit 0), (PLit 1))].
(** simplify_rules.h:710  apply(x != c0 && c1 <= x, c1 <= x, c0 < c1) *)
Definition r_logical_and_710 : rule := Rule 710
  (PBin And (PBin NotEqual (PWild 0) (PConst 0)) (PBin LessEqual (PConst 1) (PWild 0)))
  [((PBin LessEqual (PConst 1) (PWild 0)), (PBin Less (PConst 0) (PConst 1)))].
(** simplify_rules.h:711  apply(x != c0 && c1 < x, c1 < x, c0 < c1) *)
Definition r_logical_and_711 : rule := Rule 711
  (PBin And (PBin NotEqual (PWild 0) (PConst 0)) (PBin Less (PConst 1) (PWild 0)))
  [((PBin Less (PConst 1) (PWild 0)), (PBin Less (PConst 0) (PConst 1)))].
(** simplify_rules.h:712-714  apply(x == c0 && c1 <= x, x == c0, c0 >= c1, false) *)
Definition r_logical_and_712 : rule := Rule 712
  (PBin And (PBin Equal (PWild 0) (PConst 0)) (PBin LessEqual (PConst 1) (PWild 0)))
  [((PBin Equal (PWild 0) (PConst 0)), (PBin LessEqual (PConst 1) (PConst 0)));
   ((PLit 0), (PLit 1))].
(** simplify_rules.h:715-717  apply(x == c0 && c1 < x, x == c0, c0 > c1, false) *)
Definition r_logical_and_715 : rule := Rule 715
  (PBin And (PBin Equal (PWild 0) (PConst 0)) (PBin Less (PConst 1) (PWild 0)))
  [((PBin Equal (PWild 0) (PConst 0)), (PBin Less (PConst 1) (PConst 0)));
   ((PLit 0), (PLit 1))].
Definition logical_and_rules : list rule :=
  [r_logical_and_658;
   r_logical_and_661;
   r_logical_and_664;
   r_logical_and_665;
   r_logical_and_667;
   r_logical_and_668;
   r_logical_and_669;
   r_logical_and_670;
   r_logical_and_672;
   r_logical_and_673;
   r_logical_and_674;
   r_logical_and_675;
   r_logical_and_676;
   r_logical_and_677;
   r_logical_and_678;
   r_logical_and_679;
   r_logical_and_680;
   r_logical_and_681;
   r_logical_and_685;
   r_logical_and_686;
   r_logical_and_687;
   r_logical_and_688;
   r_logical_and_689;
   r_logical_and_690;
   r_logical_and_691;
   r_logical_and_692;
   r_logical_and_695;
   r_logical_and_696;
   r_logical_and_697;
   r_logical_and_698;
   r_logical_and_701;
   r_logical_and_702;
   r_logical_and_703;
   r_logical_and_706;
   r_logical_and_710;
   r_logical_and_711;
   r_logical_and_712;
   r_logical_and_715].

(** apply_logical_or_rules *)
(** simplify_rules.h:726-728  apply(x || c0, boolean(x), c0 == 0, true) *)
Definition r_logical_or_726 : rule := Rule 726
  (PBin Or (PWild 0) (PConst 0))
  [((RBool (PWild 0)), (PBin Equal (PConst 0) (PLit 0)));
   ((PLit 1), (PLit 1))].
(** simplify_rules.h:729  apply(x || x, boolean(x)) *)
Definition r_logical_or_729 : rule := Rule 729
  (PBin Or (PWild 0) (PWild 0))
  [((RBool (PWild 0)), (PLit 1))].
(** simplify_rules.h:732  apply((x || y) || (z || w), x || (y || (z || w))) *)
Definition r_logical_or_732 : rule := Rule 732
  (PBin Or (PBin Or (PWild 0) (PWild 1)) (PBin Or (PWild 2) (PWild 3)))
  [((PBin Or (PWild 0) (PBin Or (PWild 1) (PBin Or (PWild 2) (PWild 3)))), (PLit 1))].
(** simplify_rules.h:733  apply(x || (may_be<false>(y) || (may_be<false>(z) || (may_be<false>(w) || x))), x || (y || (z || w))) *)
Definition r_logical_or_733 : rule := Rule 733
  (PBin Or (PWild 0) (PBin Or (POpt (PWild 1) 0) (PBin Or (POpt (PWild 2) 0) (PBin Or (POpt (PWild 3) 0) (PWild 0)))))
  [((PBin Or (PWild 0) (PBin Or (PWild 1) (PBin Or (PWild 2) (PWild 3)))), (PLit 1))].
(** simplify_rules.h:735  apply(x || (x && y), boolean(x)) *)
Definition r_logical_or_735 : rule := Rule 735
  (PBin Or (PWild 0) (PBin And (PWild 0) (PWild 1)))
  [((RBool (PWild 0)), (PLit 1))].
(** simplify_rules.h:736  apply(x || (y && (x || z)), x || (y && z)) *)
Definition r_logical_or_736 : rule := Rule 736
  (PBin Or (PWild 0) (PBin And (PWild 1) (PBin Or (PWild 0) (PWild 2))))
  [((PBin Or (PWild 0) (PBin And (PWild 1) (PWild 2))), (PLit 1))].
(** simplify_rules.h:737  apply(x || (y || (x && z)), x || y) *)
Definition r_logical_or_737 : rule := Rule 737
  (PBin Or (PWild 0) (PBin Or (PWild 1) (PBin And (PWild 0) (PWild 2))))
  [((PBin Or (PWild 0) (PWild 1)), (PLit 1))].
(** simplify_rules.h:738  apply((x && y) || (x && z), x && (y || z)) *)
Definition r_logical_or_738 : rule := Rule 738
  (PBin Or (PBin And (PWild 0) (PWild 1)) (PBin And (PWild 0) (PWild 2)))
  [((PBin And (PWild 0) (PBin Or (PWild 1) (PWild 2))), (PLit 1))].
(** simplify_rules.h:742  apply(x || !x, true) *)
Definition r_logical_or_742 : rule := Rule 742
  (PBin Or (PWild 0) (PNot (PWild 0)))
  [((PLit 1), (PLit 1))].
(** simplify_rules.h:743  apply(x == y || x != y, true) *)
Definition r_logical_or_743 : rule := Rule 743
  (PBin Or (PBin Equal (PWild 0) (PWild 1)) (PBin NotEqual (PWild 0) (PWild 1)))
  [((PLit 1), (PLit 1))].
(** simplify_rules.h:744  apply(x == y || x < y, x <= y) *)
Definition r_logical_or_744 : rule := Rule 744
  (PBin Or (PBin Equal (PWild 0) (PWild 1)) (PBin Less (PWild 0) (PWild 1)))
  [((PBin LessEqual (PWild 0) (PWild 1)), (PLit 1))].
(** simplify_rules.h:745  apply(x == y || x <= y, x <= y) *)
Definition r_logical_or_745 : rule := Rule 745
  (PBin Or (PBin Equal (PWild 0) (PWild 1)) (PBin LessEqual (PWild 0) (PWild 1)))
  [((PBin LessEqual (PWild 0) (PWild 1)), (PLit 1))].
(** simplify_rules.h:746  apply(x == y || (z || x != y), true) *)
Definition r_logical_or_746 : rule := Rule 746
  (PBin Or (PBin Equal (PWild 0) (PWild 1)) (PBin Or (PWild 2) (PBin NotEqual (PWild 0) (PWild 1))))
  [((PLit 1), (PLit 1))].
(** simplify_rules.h:747  apply(x != y || (z || x == y), true) *)
Definition r_logical_or_747 : rule := Rule 747
  (PBin Or (PBin NotEqual (PWild 0) (PWild 1)) (PBin Or (PWild 2) (PBin Equal (PWild 0) (PWild 1))))
  [((PLit 1), (PLit 1))].
(** simplify_rules.h:748  apply(x == c1 || x != c0, x != c0, c0 != c1) *)
Definition r_logical_or_748 : rule := Rule 748
  (PBin Or (PBin Equal (PWild 0) (PConst 1)) (PBin NotEqual (PWild 0) (PConst 0)))
  [((PBin NotEqual (PWild 0) (PConst 0)), (PBin NotEqual (PConst 0) (PConst 1)))].
(** simplify_rules.h:750  apply(x <= c0 || c1 <= x, true, c1 <= c0 + 1) *)
Definition r_logical_or_750 : rule := Rule 750
  (PBin Or (PBin LessEqual (PWild 0) (PConst 0)) (PBin LessEqual (PConst 1) (PWild 0)))
  [((PLit 1), (PBin LessEqual (PConst 1) (PBin Add (PConst 0) (PLit 1))))].
(** simplify_rules.h:751  apply(x <= c0 || x <= c1, x <= eval(max(c0, c1))) *)
Definition r_logical_or_751 : rule := Rule 751
  (PBin Or (PBin LessEqual (PWild 0) (PConst 0)) (PBin LessEqual (PWild 0) (PConst 1)))
  [((PBin LessEqual (PWild 0) (REval (PBin Max (PConst 0) (PConst 1)))), (PLit 1))].
(** simplify_rules.h:752  apply(x < c0 || x < c1, x < eval(max(c0, c1))) *)
Definition r_logical_or_752 : rule := Rule 752
  (PBin Or (PBin Less (PWild 0) (PConst 0)) (PBin Less (PWild 0) (PConst 1)))
  [((PBin Less (PWild 0) (REval (PBin Max (PConst 0) (PConst 1)))), (PLit 1))].
(** simplify_rules.h:753  apply(x < c0 || c1 <= x, true, c1 <= c0) *)
Definition r_logical_or_753 : rule := Rule 753
  (PBin Or (PBin Less (PWild 0) (PConst 0)) (PBin LessEqual (PConst 1) (PWild 0)))
  [((PLit 1), (PBin LessEqual (PConst 1) (PConst 0)))].
(** simplify_rules.h:754  apply(x < c0 || c1 < x, true, c1 < c0) *)
Definition r_logical_or_754 : rule := Rule 754
  (PBin Or (PBin Less (PWild 0) (PConst 0)) (PBin Less (PConst 1) (PWild 0)))
  [((PLit 1), (PBin Less (PConst 1) (PConst 0)))].
(** simplify_rules.h:755  apply(c0 < x || c1 < x, eval(min(c0, c1)) < x) *)
Definition r_logical_or_755 : rule := Rule 755
  (PBin Or (PBin Less (PConst 0) (PWild 0)) (PBin Less (PConst 1) (PWild 0)))
  [((PBin Less (REval (PBin Min (PConst 0) (PConst 1))) (PWild 0)), (PLit 1))].
(** simplify_rules.h:756  apply(c0 <= x || c1 <= x, eval(min(c0, c1)) <= x) *)
Definition r_logical_or_756 : rule := Rule 756
  (PBin Or (PBin LessEqual (PConst 0) (PWild 0)) (PBin LessEqual (PConst 1) (PWild 0)))
  [((PBin LessEqual (REval (PBin Min (PConst 0) (PConst 1))) (PWild 0)), (PLit 1))].
(** simplify_rules.h:757  apply(c1 < x || x <= c0, true, c1 <= c0) *)
Definition r_logical_or_757 : rule := Rule 757
  (PBin Or (PBin Less (PConst 1) (PWild 0)) (PBin LessEqual (PWild 0) (PConst 0)))
  [((PLit 1), (PBin LessEqual (PConst 1) (PConst 0)))].
(** simplify_rules.h:760  apply(x + may_be<0>(c0) <= y || y + may_be<0>(c1) <= x, true, c0 + c1 < 1) *)
Definition r_logical_or_760 : rule := Rule 760
  (PBin Or (PBin LessEqual (PBin Add (PWild 0) (POpt (PConst 0) 0)) (PWild 1)) (PBin LessEqual (PBin Add (PWild 1) (POpt (PConst 1) 0)) (PWild 0)))
  [((PLit 1), (PBin Less (PBin Add (PConst 0) (PConst 1)) (PLit 1)))].
(** simplify_rules.h:761  apply(x < y + may_be<0>(c0) || y + may_be<0>(c1) <= x, true, c1 < c0) *)
Definition r_logical_or_761 : rule := Rule 761
  (PBin Or (PBin Less (PWild 0) (PBin Add (PWild 1) (POpt (PConst 0) 0))) (PBin LessEqual (PBin Add (PWild 1) (POpt (PConst 1) 0)) (PWild 0)))
  [((PLit 1), (PBin Less (PConst 1) (PConst 0)))].
(** simplify_rules.h:762  apply(x < y + may_be<0>(c0) || y < x + may_be<0>(c1), true, 1 < c1 + c0) *)
Definition r_logical_or_762 : rule := Rule 762
  (PBin Or (PBin Less (PWild 0) (PBin Add (PWild 1) (POpt (PConst 0) 0))) (PBin Less (PWild 1) (PBin Add (PWild 0) (POpt (PConst 1) 0))))
  [((PLit 1), (PBin Less (PLit 1) (PBin Add (PConst 1) (PConst 0))))].
(** simplify_rules.h:763  apply(x < y || y < x, x != y) *)
Definition r_logical_or_763 : rule := Rule 763
  (PBin Or (PBin Less (PWild 0) (PWild 1)) (PBin Less (PWild 1) (PWild 0)))
  [((PBin NotEqual (PWild 0) (PWild 1)), (PLit 1))].
(** simplify_rules.h:766-768  apply(x != c0 || x <= c1, true, c0 <= c1, x != c0) *)
Definition r_logical_or_766 : rule := Rule 766
  (PBin Or (PBin NotEqual (PWild 0) (PConst 0)) (PBin LessEqual (PWild 0) (PConst 1)))
  [((PLit 1), (PBin LessEqual (PConst 0) (PConst 1)));
   ((PBin NotEqual (PWild 0) (PConst 0)), (PLit 1))].
(** simplify_rules.h:769-771  apply(x != c0 || x < c1, true, c0 < c1, x != c0) *)
Definition r_logical_or_769 : rule := Rule 769
  (PBin Or (PBin NotEqual (PWild 0) (PConst 0)) (PBin Less (PWild 0) (PConst 1)))
  [((PLit 1), (PBin Less (PConst 0) (PConst 1)));
   ((PBin NotEqual (PWild 0) (PConst 0)), (PLit 1))].
(** simplify_rules.h:772  apply(x == c0 || x <= c1, x <= c1, c0 <= c1) *)
Definition r_logical_or_772 : rule := Rule 772
  (PBin Or (PBin Equal (PWild 0) (PConst 0)) (PBin LessEqual (PWild 0) (PConst 1)))
  [((PBin LessEqual (PWild 0) (PConst 1)), (PBin LessEqual (PConst 0) (PConst 1)))].
(** simplify_rules.h:773  apply(x == c0 || x < c1, x < c1, c0 < c1) *)
Definition r_logical_or_773 : rule := Rule 773
  (PBin Or (PBin Equal (PWild 0) (PConst 0)) (PBin Less (PWild 0) (PConst 1)))
  [((PBin Less (PWild 0) (PConst 1)), (PBin Less (PConst 0) (PConst 1)))].
(** simplify_rules.h:775-777  apply(x != c0 || c1 <= x, true, c0 >= c1, x != c0) *)
Definition r_logical_or_775 : rule := Rule 775
  (PBin Or (PBin NotEqual (PWild 0) (PConst 0)) (PBin LessEqual (PConst 1) (PWild 0)))
  [((PLit 1), (PBin LessEqual (PConst 1) (PConst 0)));
   ((PBin NotEqual (PWild 0) (PConst 0)), (PLit 1))].
(** simplify_rules.h:778-780  apply(x != c0 || c1 < x, true, c0 > c1, x != c0) *)
Definition r_logical_or_778 : rule := Rule 778
  (PBin Or (PBin NotEqual (PWild 0) (PConst 0)) (PBin Less (PConst 1) (PWild 0)))
  [((PLit 1), (PBin Less (PConst 1) (PConst 0)));
   ((PBin NotEqual (PWild 0) (PConst 0)), (PLit 1))].
(** simplify_rules.h:781  apply(x == c0 || c1 <= x, c1 <= x, c0 >= c1) *)
Definition r_logical_or_781 : rule := Rule 781
  (PBin Or (PBin Equal (PWild 0) (PConst 0)) (PBin LessEqual (PConst 1) (PWild 0)))
  [((PBin LessEqual (PConst 1) (PWild 0)), (PBin LessEqual (PConst 1) (PConst 0)))].
(** simplify_rules.h:782  apply(x == c0 || c1 < x, c1 < x, c0 > c1) *)
Definition r_logical_or_782 : rule := Rule 782
  (PBin Or (PBin Equal (PWild 0) (PConst 0)) (PBin Less (PConst 1) (PWild 0)))
  [((PBin Less (PConst 1) (PWild 0)), (PBin Less (PConst 1) (PConst 0)))].
(** simplify_rules.h:786  apply(y || x < y, y || x < 0, is_boolean(y)) *)
Definition r_logical_or_786 : rule := Rule 786
  (PBin Or (PWild 1) (PBin Less (PWild 0) (PWild 1)))
  [((PBin Or (PWild 1) (PBin Less (PWild 0) (PLit 0))), (RPred k_boolean 1))].
(** simplify_rules.h:787  apply(y || y < x, y || 0 < x, is_boolean(y)) *)
Definition r_logical_or_787 : rule := Rule 787
  (PBin Or (PWild 1) (PBin Less (PWild 1) (PWild 0)))
  [((PBin Or (PWild 1) (PBin Less (PLit 0) (PWild 0))), (RPred k_boolean 1))].
Definition logical_or_rules : list rule :=
  [r_logical_or_726;
   r_logical_or_729;
   r_logical_or_732;
   r_logical_or_733;
   r_logical_or_735;
   r_logical_or_736;
   r_logical_or_737;
   r_logical_or_738;
   r_logical_or_742;
   r_logical_or_743;
   r_logical_or_744;
   r_logical_or_745;
   r_logical_or_746;
   r_logical_or_747;
   r_logical_or_748;
   r_logical_or_750;
   r_logical_or_751;
   r_logical_or_752;
   r_logical_or_753;
   r_logical_or_754;
   r_logical_or_755;
   r_logical_or_756;
   r_logical_or_757;
   r_logical_or_760;
   r_logical_or_761;
   r_logical_or_762;
   r_logical_or_763;
   r_logical_or_766;
   r_logical_or_769;
   r_logical_or_772;
   r_logical_or_773;
   r_logical_or_775;
   r_logical_or_778;
   r_logical_or_781;
   r_logical_or_782;
   r_logical_or_786;
   r_logical_or_787].

(** apply_logical_not_rules *)
(** simplify_rules.h:795  apply(!!x, boolean(x)) *)
Definition r_logical_not_795 : rule := Rule 795
  (PNot (PNot (PWild 0)))
  [((RBool (PWild 0)), (PLit 1))].
(** simplify_rules.h:796  apply(!(x == y), x != y) *)
Definition r_logical_not_796 : rule := Rule 796
  (PNot (PBin Equal (PWild 0) (PWild 1)))
  [((PBin NotEqual (PWild 0) (PWild 1)), (PLit 1))].
(** simplify_rules.h:797  apply(!(x != y), x == y) *)
Definition r_logical_not_797 : rule := Rule 797
  (PNot (PBin NotEqual (PWild 0) (PWild 1)))
  [((PBin Equal (PWild 0) (PWild 1)), (PLit 1))].
(** simplify_rules.h:798  apply(!(x < y), y <= x) *)
Definition r_logical_not_798 : rule := Rule 798
  (PNot (PBin Less (PWild 0) (PWild 1)))
  [((PBin LessEqual (PWild 1) (PWild 0)), (PLit 1))].
(** simplify_rules.h:799  apply(!(x <= y), y < x) *)
Definition r_logical_not_799 : rule := Rule 799
  (PNot (PBin LessEqual (PWild 0) (PWild 1)))
  [((PBin Less (PWild 1) (PWild 0)), (PLit 1))].
(** simplify_rules.h:801  apply(!(x && !y), y || !x) *)
Definition r_logical_not_801 : rule := Rule 801
  (PNot (PBin And (PWild 0) (PNot (PWild 1))))
  [((PBin Or (PWild 1) (PNot (PWild 0))), (PLit 1))].
(** simplify_rules.h:802  apply(!(x || !y), y && !x) *)
Definition r_logical_not_802 : rule := Rule 802
  (PNot (PBin Or (PWild 0) (PNot (PWild 1))))
  [((PBin And (PWild 1) (PNot (PWild 0))), (PLit 1))].
(** simplify_rules.h:803  apply(!select(x, y, c0), select(x, !y, eval(!c0))) *)
Definition r_logical_not_803 : rule := Rule 803
  (PNot (PSel (PWild 0) (PWild 1) (PConst 0)))
  [((PSel (PWild 0) (PNot (PWild 1)) (REval (PNot (PConst 0)))), (PLit 1))].
(** simplify_rules.h:804  apply(!select(x, c0, z), select(x, eval(!c0), !z)) *)
Definition r_logical_not_804 : rule := Rule 804
  (PNot (PSel (PWild 0) (PConst 0) (PWild 2)))
  [((PSel (PWild 0) (REval (PNot (PConst 0))) (PNot (PWild 2))), (PLit 1))].
Definition logical_not_rules : list rule :=
  [r_logical_not_795;
   r_logical_not_796;
   r_logical_not_797;
   r_logical_not_798;
   r_logical_not_799;
   r_logical_not_801;
   r_logical_not_802;
   r_logical_not_803;
   r_logical_not_804].

(** apply_select_rules *)
(** simplify_rules.h:811  apply(select(x, y, y), y) *)
Definition r_select_811 : rule := Rule 811
  (PSel (PWild 0) (PWild 1) (PWild 1))
  [((PWild 1), (PLit 1))].
(** simplify_rules.h:812  apply(select(!x, y, z), select(x, z, y)) *)
Definition r_select_812 : rule := Rule 812
  (PSel (PNot (PWild 0)) (PWild 1) (PWild 2))
  [((PSel (PWild 0) (PWild 2) (PWild 1)), (PLit 1))].
(** simplify_rules.h:815  apply(select(x, y + may_be<0>(z), y + may_be<0>(w)), y + select(x, z, w)) *)
Definition r_select_815 : rule := Rule 815
  (PSel (PWild 0) (PBin Add (PWild 1) (POpt (PWild 2) 0)) (PBin Add (PWild 1) (POpt (PWild 3) 0)))
  [((PBin Add (PWild 1) (PSel (PWild 0) (PWild 2) (PWild 3))), (PLit 1))].
(** simplify_rules.h:816  apply(select(x, z - y, w - y), select(x, z, w) - y) *)
Definition r_select_816 : rule := Rule 816
  (PSel (PWild 0) (PBin Sub (PWild 2) (PWild 1)) (PBin Sub (PWild 3) (PWild 1)))
  [((PBin Sub (PSel (PWild 0) (PWild 2) (PWild 3)) (PWild 1)), (PLit 1))].
(** simplify_rules.h:817  apply(select(x, w - y, w - z), w - select(x, y, z)) *)
Definition r_select_817 : rule := Rule 817
  (PSel (PWild 0) (PBin Sub (PWild 3) (PWild 1)) (PBin Sub (PWild 3) (PWild 2)))
  [((PBin Sub (PWild 3) (PSel (PWild 0) (PWild 1) (PWild 2))), (PLit 1))].
(** simplify_rules.h:818  apply(select(x, max(y, w), max(z, w)), max(w, select(x, y, z))) *)
Definition r_select_818 : rule := Rule 818
  (PSel (PWild 0) (PBin Max (PWild 1) (PWild 3)) (PBin Max (PWild 2) (PWild 3)))
  [((PBin Max (PWild 3) (PSel (PWild 0) (PWild 1) (PWild 2))), (PLit 1))].
(** simplify_rules.h:819  apply(select(x, min(y, w), min(z, w)), min(w, select(x, y, z))) *)
Definition r_select_819 : rule := Rule 819
  (PSel (PWild 0) (PBin Min (PWild 1) (PWild 3)) (PBin Min (PWild 2) (PWild 3)))
  [((PBin Min (PWild 3) (PSel (PWild 0) (PWild 1) (PWild 2))), (PLit 1))].
(** simplify_rules.h:820  apply(select(x, y + c0, c1), select(x, y, eval(c1 - c0)) + c0) *)
Definition r_select_820 : rule := Rule 820
  (PSel (PWild 0) (PBin Add (PWild 1) (PConst 0)) (PConst 1))
  [((PBin Add (PSel (PWild 0) (PWild 1) (REval (PBin Sub (PConst 1) (PConst 0)))) (PConst 0)), (PLit 1))].
(** simplify_rules.h:821  apply(select(x, c0, y + c1), select(x, eval(c0 - c1), y) + c1) *)
Definition r_select_821 : rule := Rule 821
  (PSel (PWild 0) (PConst 0) (PBin Add (PWild 1) (PConst 1)))
  [((PBin Add (PSel (PWild 0) (REval (PBin Sub (PConst 0) (PConst 1))) (PWild 1)) (PConst 1)), (PLit 1))].
(** simplify_rules.h:823  apply(select(x, select(y, z, w), select(y, u, w + may_be<0>(c0)) + may_be<0>(c1)), select(y, select(x, z, u + c1), w), c0 + c1 == 0) *)
Definition r_select_823 : rule := Rule 823
  (PSel (PWild 0) (PSel (PWild 1) (PWild 2) (PWild 3)) (PBin Add (PSel (PWild 1) (PWild 4) (PBin Add (PWild 3) (POpt (PConst 0) 0))) (POpt (PConst 1) 0)))
  [((PSel (PWild 1) (PSel (PWild 0) (PWild 2) (PBin Add (PWild 4) (PConst 1))) (PWild 3)), (PBin Equal (PBin Add (PConst 0) (PConst 1)) (PLit 0)))].
(** simplify_rules.h:824  apply(select(x, select(y, z, w), select(y, z + may_be<0>(c0), u) + may_be<0>(c1)), select(y, z, select(x, w, u + c1)), c0 + c1 == 0) *)
Definition r_select_824 : rule := Rule 824
  (PSel (PWild 0) (PSel (PWild 1) (PWild 2) (PWild 3)) (PBin Add (PSel (PWild 1) (PBin Add (PWild 2) (POpt (PConst 0) 0)) (PWild 4)) (POpt (PConst 1) 0)))
  [((PSel (PWild 1) (PWild 2) (PSel (PWild 0) (PWild 3) (PBin Add (PWild 4) (PConst 1)))), (PBin Equal (PBin Add (PConst 0) (PConst 1)) (PLit 0)))].
(** simplify_rules.h:825  apply(select(x, select(y, z, w + may_be<0>(c0)) + may_be<0>(c1), select(y, u, w)), select(y, select(x, z + c1, u), w), c0 + c1 == 0) *)
Definition r_select_825 : rule := Rule 825
  (PSel (PWild 0) (PBin Add (PSel (PWild 1) (PWild 2) (PBin Add (PWild 3) (POpt (PConst 0) 0))) (POpt (PConst 1) 0)) (PSel (PWild 1) (PWild 4) (PWild 3)))
  [((PSel (PWild 1) (PSel (PWild 0) (PBin Add (PWild 2) (PConst 1)) (PWild 4)) (PWild 3)), (PBin Equal (PBin Add (PConst 0) (PConst 1)) (PLit 0)))].
(** simplify_rules.h:826  apply(select(x, select(y, z + may_be<0>(c0), w) + may_be<0>(c1), select(y, z, u)), select(y, z, select(x, w + c1, u)), c0 + c1 == 0) *)
Definition r_select_826 : rule := Rule 826
  (PSel (PWild 0) (PBin Add (PSel (PWild 1) (PBin Add (PWild 2) (POpt (PConst 0) 0)) (PWild 3)) (POpt (PConst 1) 0)) (PSel (PWild 1) (PWild 2) (PWild 4)))
  [((PSel (PWild 1) (PWild 2) (PSel (PWild 0) (PBin Add (PWild 3) (PConst 1)) (PWild 4))), (PBin Equal (PBin Add (PConst 0) (PConst 1)) (PLit 0)))].
(** simplify_rules.h:827  apply(select(x, select(y, z, w), w), select(x && y, z, w)) *)
Definition r_select_827 : rule := Rule 827
  (PSel (PWild 0) (PSel (PWild 1) (PWild 2) (PWild 3)) (PWild 3))
  [((PSel (PBin And (PWild 0) (PWild 1)) (PWild 2) (PWild 3)), (PLit 1))].
(** simplify_rules.h:828  apply(select(x, select(y, z, w), z), select(x && !y, w, z)) *)
Definition r_select_828 : rule := Rule 828
  (PSel (PWild 0) (PSel (PWild 1) (PWild 2) (PWild 3)) (PWild 2))
  [((PSel (PBin And (PWild 0) (PNot (PWild 1))) (PWild 3) (PWild 2)), (PLit 1))].
(** simplify_rules.h:829  apply(select(x, z, select(y, z, w)), select(x || y, z, w)) *)
Definition r_select_829 : rule := Rule 829
  (PSel (PWild 0) (PWild 2) (PSel (PWild 1) (PWild 2) (PWild 3)))
  [((PSel (PBin Or (PWild 0) (PWild 1)) (PWild 2) (PWild 3)), (PLit 1))].
(** simplify_rules.h:830  apply(select(x, w, select(y, z, w)), select(y && !x, z, w)) *)
Definition r_select_830 : rule := Rule 830
  (PSel (PWild 0) (PWild 3) (PSel (PWild 1) (PWild 2) (PWild 3)))
  [((PSel (PBin And (PWild 1) (PNot (PWild 0))) (PWild 2) (PWild 3)), (PLit 1))].
(** simplify_rules.h:831  apply(select(x, false, true), !x) *)
Definition r_select_831 : rule := Rule 831
  (PSel (PWild 0) (PLit 0) (PLit 1))
  [((PNot (PWild 0)), (PLit 1))].
(** simplify_rules.h:832  apply(select(x, true, false), boolean(x)) *)
Definition r_select_832 : rule := Rule 832
  (PSel (PWild 0) (PLit 1) (PLit 0))
  [((RBool (PWild 0)), (PLit 1))].
(** simplify_rules.h:833  apply(select(x, y, true), y || !x, is_boolean(y)) *)
Definition r_select_833 : rule := Rule 833
  (PSel (PWild 0) (PWild 1) (PLit 1))
  [((PBin Or (PWild 1) (PNot (PWild 0))), (RPred k_boolean 1))].
(** simplify_rules.h:834  apply(select(x, y, false), x && y, is_boolean(y)) *)
Definition r_select_834 : rule := Rule 834
  (PSel (PWild 0) (PWild 1) (PLit 0))
  [((PBin And (PWild 0) (PWild 1)), (RPred k_boolean 1))].
(** simplify_rules.h:835  apply(select(x, true, y), x || y, is_boolean(y)) *)
Definition r_select_835 : rule := Rule 835
  (PSel (PWild 0) (PLit 1) (PWild 1))
  [((PBin Or (PWild 0) (PWild 1)), (RPred k_boolean 1))].
(** simplify_rules.h:836  apply(select(x, false, y), y && !x, is_boolean(y)) *)
Definition r_select_836 : rule := Rule 836
  (PSel (PWild 0) (PLit 0) (PWild 1))
  [((PBin And (PWild 1) (PNot (PWild 0))), (RPred k_boolean 1))].
(** simplify_rules.h:839  apply(select(x < y, min(x, y), z), select(x < y, x, z)) *)
Definition r_select_839 : rule := Rule 839
  (PSel (PBin Less (PWild 0) (PWild 1)) (PBin Min (PWild 0) (PWild 1)) (PWild 2))
  [((PSel (PBin Less (PWild 0) (PWild 1)) (PWild 0) (PWild 2)), (PLit 1))].
(** simplify_rules.h:840  apply(select(x < y, max(x, y), z), select(x < y, y, z)) *)
Definition r_select_840 : rule := Rule 840
  (PSel (PBin Less (PWild 0) (PWild 1)) (PBin Max (PWild 0) (PWild 1)) (PWild 2))
  [((PSel (PBin Less (PWild 0) (PWild 1)) (PWild 1) (PWild 2)), (PLit 1))].
(** simplify_rules.h:841  apply(select(x < y, z, min(x, y)), select(x < y, z, y)) *)
Definition r_select_841 : rule := Rule 841
  (PSel (PBin Less (PWild 0) (PWild 1)) (PWild 2) (PBin Min (PWild 0) (PWild 1)))
  [((PSel (PBin Less (PWild 0) (PWild 1)) (PWild 2) (PWild 1)), (PLit 1))].
(** simplify_rules.h:842  apply(select(x < y, z, max(x, y)), select(x < y, z, x)) *)
Definition r_select_842 : rule := Rule 842
  (PSel (PBin Less (PWild 0) (PWild 1)) (PWild 2) (PBin Max (PWild 0) (PWild 1)))
  [((PSel (PBin Less (PWild 0) (PWild 1)) (PWild 2) (PWild 0)), (PLit 1))].
(** simplify_rules.h:843  apply(select(x <= y, min(x, y), z), select(x <= y, x, z)) *)
Definition r_select_843 : rule := Rule 843
  (PSel (PBin LessEqual (PWild 0) (PWild 1)) (PBin Min (PWild 0) (PWild 1)) (PWild 2))
  [((PSel (PBin LessEqual (PWild 0) (PWild 1)) (PWild 0) (PWild 2)), (PLit 1))].
(** simplify_rules.h:844  apply(select(x <= y, max(x, y), z), select(x <= y, y, z)) *)
Definition r_select_844 : rule := Rule 844
  (PSel (PBin LessEqual (PWild 0) (PWild 1)) (PBin Max (PWild 0) (PWild 1)) (PWild 2))
  [((PSel (PBin LessEqual (PWild 0) (PWild 1)) (PWild 1) (PWild 2)), (PLit 1))].
(** simplify_rules.h:845  apply(select(x <= y, z, min(x, y)), select(x <= y, z, y)) *)
Definition r_select_845 : rule := Rule 845
  (PSel (PBin LessEqual (PWild 0) (PWild 1)) (PWild 2) (PBin Min (PWild 0) (PWild 1)))
  [((PSel (PBin LessEqual (PWild 0) (PWild 1)) (PWild 2) (PWild 1)), (PLit 1))].
(** simplify_rules.h:846  apply(select(x <= y, z, max(x, y)), select(x <= y, z, x)) *)
Definition r_select_846 : rule := Rule 846
  (PSel (PBin LessEqual (PWild 0) (PWild 1)) (PWild 2) (PBin Max (PWild 0) (PWild 1)))
  [((PSel (PBin LessEqual (PWild 0) (PWild 1)) (PWild 2) (PWild 0)), (PLit 1))].
(** simplify_rules.h:849  apply(select(x <= y, x, y), min(x, y)) *)
Definition r_select_849 : rule := Rule 849
  (PSel (PBin LessEqual (PWild 0) (PWild 1)) (PWild 0) (PWild 1))
  [((PBin Min (PWild 0) (PWild 1)), (PLit 1))].
(** simplify_rules.h:850  apply(select(x <= y, y, x), max(x, y)) *)
Definition r_select_850 : rule := Rule 850
  (PSel (PBin LessEqual (PWild 0) (PWild 1)) (PWild 1) (PWild 0))
  [((PBin Max (PWild 0) (PWild 1)), (PLit 1))].
(** simplify_rules.h:851  apply(select(x < y, x, y), min(x, y)) *)
Definition r_select_851 : rule := Rule 851
  (PSel (PBin Less (PWild 0) (PWild 1)) (PWild 0) (PWild 1))
  [((PBin Min (PWild 0) (PWild 1)), (PLit 1))].
(** simplify_rules.h:852  apply(select(x < y, y, x), max(x, y)) *)
Definition r_select_852 : rule := Rule 852
  (PSel (PBin Less (PWild 0) (PWild 1)) (PWild 1) (PWild 0))
  [((PBin Max (PWild 0) (PWild 1)), (PLit 1))].
(** simplify_rules.h:853  apply(select(x < c0, c1, x), max(x, c1), c0 == c1 + 1) *)
Definition r_select_853 : rule := Rule 853
  (PSel (PBin Less (PWild 0) (PConst 0)) (PConst 1) (PWild 0))
  [((PBin Max (PWild 0) (PConst 1)), (PBin Equal (PConst 0) (PBin Add (PConst 1) (PLit 1))))].
(** simplify_rules.h:854  apply(select(x < c0, x, c1), min(x, c1), c0 == c1 + 1) *)
Definition r_select_854 : rule := Rule 854
  (PSel (PBin Less (PWild 0) (PConst 0)) (PWild 0) (PConst 1))
  [((PBin Min (PWild 0) (PConst 1)), (PBin Equal (PConst 0) (PBin Add (PConst 1) (PLit 1))))].
(** simplify_rules.h:855  apply(select(c0 < x, x, c1), max(x, c1), c0 + 1 == c1) *)
Definition r_select_855 : rule := Rule 855
  (PSel (PBin Less (PConst 0) (PWild 0)) (PWild 0) (PConst 1))
  [((PBin Max (PWild 0) (PConst 1)), (PBin Equal (PBin Add (PConst 0) (PLit 1)) (PConst 1)))].
(** simplify_rules.h:856  apply(select(c0 < x, c1, x), min(x, c1), c0 + 1 == c1) *)
Definition r_select_856 : rule := Rule 856
  (PSel (PBin Less (PConst 0) (PWild 0)) (PConst 1) (PWild 0))
  [((PBin Min (PWild 0) (PConst 1)), (PBin Equal (PBin Add (PConst 0) (PLit 1)) (PConst 1)))].
Definition select_rules : list rule :=
  [r_select_811;
   r_select_812;
   r_select_815;
   r_select_816;
   r_select_817;
   r_select_818;
   r_select_819;
   r_select_820;
   r_select_821;
   r_select_823;
   r_select_824;
   r_select_825;
   r_select_826;
   r_select_827;
   r_select_828;
   r_select_829;
   r_select_830;
   r_select_831;
   r_select_832;
   r_select_833;
   r_select_834;
   r_select_835;
   r_select_836;
   r_select_839;
   r_select_840;
   r_select_841;
   r_select_842;
   r_select_843;
   r_select_844;
   r_select_845;
   r_select_846;
   r_select_849;
   r_select_850;
   r_select_851;
   r_select_852;
   r_select_853;
   r_select_854;
   r_select_855;
   r_select_856].

(** apply_call_rules *)
(** simplify_rules.h:864  apply(and_then(x, c0), boolean(x), c0 != 0) *)
Definition r_call_864 : rule := Rule 864
  (PCall2 i_and_then (PWild 0) (PConst 0))
  [((RBool (PWild 0)), (PBin NotEqual (PConst 0) (PLit 0)))].
(** simplify_rules.h:865  apply(and_then(c0, x), boolean(x), c0 != 0) *)
Definition r_call_865 : rule := Rule 865
  (PCall2 i_and_then (PConst 0) (PWild 0))
  [((RBool (PWild 0)), (PBin NotEqual (PConst 0) (PLit 0)))].
(** simplify_rules.h:866  apply(and_then(false, x), false) *)
Definition r_call_866 : rule := Rule 866
  (PCall2 i_and_then (PLit 0) (PWild 0))
  [((PLit 0), (PLit 1))].
(** simplify_rules.h:867  apply(or_else(x, false), boolean(x)) *)
Definition r_call_867 : rule := Rule 867
  (PCall2 i_or_else (PWild 0) (PLit 0))
  [((RBool (PWild 0)), (PLit 1))].
(** simplify_rules.h:868  apply(or_else(c0, x), true, c0 != 0) *)
Definition r_call_868 : rule := Rule 868
  (PCall2 i_or_else (PConst 0) (PWild 0))
  [((PLit 1), (PBin NotEqual (PConst 0) (PLit 0)))].
(** simplify_rules.h:869  apply(or_else(false, x), boolean(x)) *)
Definition r_call_869 : rule := Rule 869
  (PCall2 i_or_else (PLit 0) (PWild 0))
  [((RBool (PWild 0)), (PLit 1))].
(** simplify_rules.h:871  apply(abs(x*c0), abs(x)*c0, c0 > 0) *)
Definition r_call_871 : rule := Rule 871
  (PCall1 i_abs (PBin Mul (PWild 0) (PConst 0)))
  [((PBin Mul (PCall1 i_abs (PWild 0)) (PConst 0)), (PBin Less (PLit 0) (PConst 0)))].
(** simplify_rules.h:872  apply(abs(x*c0), abs(x)*eval(-c0), c0 < 0) *)
Definition r_call_872 : rule := Rule 872
  (PCall1 i_abs (PBin Mul (PWild 0) (PConst 0)))
  [((PBin Mul (PCall1 i_abs (PWild 0)) (REval (PBin Sub (PLit 0) (PConst 0)))), (PBin Less (PConst 0) (PLit 0)))].
(** simplify_rules.h:873  apply(abs(c0 - x), abs(x + eval(-c0))) *)
Definition r_call_873 : rule := Rule 873
  (PCall1 i_abs (PBin Sub (PConst 0) (PWild 0)))
  [((PCall1 i_abs (PBin Add (PWild 0) (REval (PBin Sub (PLit 0) (PConst 0))))), (PLit 1))].
(** simplify_rules.h:875  apply(abs(select(x, y, c1)), select(x, abs(y), abs(c1))) *)
Definition r_call_875 : rule := Rule 875
  (PCall1 i_abs (PSel (PWild 0) (PWild 1) (PConst 1)))
  [((PSel (PWild 0) (PCall1 i_abs (PWild 1)) (PCall1 i_abs (PConst 1))), (PLit 1))].
(** simplify_rules.h:876  apply(abs(select(x, c0, y)), select(x, abs(c0), abs(y))) *)
Definition r_call_876 : rule := Rule 876
  (PCall1 i_abs (PSel (PWild 0) (PConst 0) (PWild 1)))
  [((PSel (PWild 0) (PCall1 i_abs (PConst 0)) (PCall1 i_abs (PWild 1))), (PLit 1))].
Definition call_rules : list rule :=
  [r_call_864;
   r_call_865;
   r_call_866;
   r_call_867;
   r_call_868;
   r_call_869;
   r_call_871;
   r_call_872;
   r_call_873;
   r_call_875;
   r_call_876].

