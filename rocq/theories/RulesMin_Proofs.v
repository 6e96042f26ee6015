(** GENERATED by tools/gen_rule_proofs.py: the value of the replacement refines that of the
    left hand side, for each rewrite rule of simplify_rules.h (tables: min). *)
From Coq Require Import ZArith List Bool Lia.
From Verif Require Import Arith_Model Arith_Spec Arith_Proofs Expr_Model Expr_Spec Expr_Proofs Rewrite_Model Rewrite_Proofs RuleTac Rules.
Import ListNotations.
Open Scope Z_scope.

Lemma ok_min_36 : rule_ok in64 true r_min_36. Proof. ruleB. Qed.
Lemma ok_min_37 : rule_ok in64 false r_min_37. Proof. rule. Qed.
Lemma ok_min_38 : rule_ok in64 true r_min_38. Proof. ruleB. Qed.
Lemma ok_min_39 : rule_ok in64 false r_min_39. Proof. rule. Qed.
Lemma ok_min_40 : rule_ok in64 false r_min_40. Proof. rule. Qed.
Lemma ok_min_43 : rule_ok in64 false r_min_43. Proof. rule. Qed.
Lemma ok_min_46 : rule_ok in64 false r_min_46. Proof. rule2. Qed.
Lemma ok_min_49 : rule_ok in64 false r_min_49. Proof. rule2. Qed.
Lemma ok_min_54 : rule_ok in64 false r_min_54. Proof. rule. Qed.
Lemma ok_min_55 : rule_ok in64 false r_min_55. Proof. rule. Qed.
Lemma ok_min_56 : rule_ok in64 false r_min_56. Proof. rule. Qed.
Lemma ok_min_57 : rule_ok in64 false r_min_57. Proof. rule. Qed.
Lemma ok_min_58 : rule_ok in64 false r_min_58. Proof. rule. Qed.
Lemma ok_min_59 : rule_ok in64 false r_min_59. Proof. rule. Qed.
Lemma ok_min_60 : rule_ok in64 false r_min_60. Proof. rule. Qed.
Lemma ok_min_63 : rule_ok in64 false r_min_63. Proof. rule. Qed.
Lemma ok_min_65 : rule_ok small false r_min_65. Proof. ruleC. Qed.
Lemma ok_min_68 : rule_ok in64 false r_min_68. Proof. rule. Qed.
Lemma ok_min_69 : rule_ok in64 false r_min_69. Proof. rule. Qed.
Lemma ok_min_70 : rule_ok in64 false r_min_70. Proof. rule. Qed.
Lemma ok_min_71 : rule_ok in64 false r_min_71. Proof. rule. Qed.
Lemma ok_min_72 : rule_ok in64 false r_min_72. Proof. rule. Qed.
Lemma ok_min_73 : rule_ok in64 false r_min_73. Proof. rule. Qed.
Lemma ok_min_74 : rule_ok in64 false r_min_74. Proof. rule. Qed.
Lemma ok_min_75 : rule_ok in64 false r_min_75. Proof. rule. Qed.
Lemma ok_min_78 : rule_ok in64 false r_min_78. Proof. rule. Qed.
Lemma ok_min_79 : rule_ok in64 false r_min_79. Proof. rule. Qed.
Lemma ok_min_80 : rule_ok in64 false r_min_80. Proof. rule. Qed.
Lemma ok_min_83 : rule_ok in64 false r_min_83. Proof. rule. Qed.
Lemma ok_min_84 : rule_ok in64 false r_min_84. Proof. rule. Qed.
Lemma ok_min_85 : rule_ok in64 false r_min_85. Proof. rule. Qed.
Lemma ok_min_88 : rule_ok in64 false r_min_88. Proof. rule. Qed.
Lemma ok_min_89 : rule_ok in64 false r_min_89. Proof. rule. Qed.
Lemma ok_min_90 : rule_ok in64 false r_min_90. Proof. rule. Qed.
Lemma ok_min_91 : rule_ok in64 false r_min_91. Proof. rule. Qed.
Lemma ok_min_92 : rule_ok in64 false r_min_92. Proof. rule. Qed.
Lemma ok_min_93 : rule_ok in64 false r_min_93. Proof. rule. Qed.
Lemma ok_min_94 : rule_ok in64 false r_min_94. Proof. rule. Qed.
Lemma ok_min_95 : rule_ok in64 false r_min_95. Proof. rule. Qed.
Lemma ok_min_96 : rule_ok in64 false r_min_96. Proof. rule. Qed.
Lemma ok_min_97 : rule_ok in64 false r_min_97. Proof. rule. Qed.
Lemma ok_min_98 : rule_ok in64 false r_min_98. Proof. rule. Qed.
Lemma ok_min_99 : rule_ok in64 false r_min_99. Proof. rule. Qed.
Lemma ok_min_100 : rule_ok in64 false r_min_100. Proof. rule. Qed.
Lemma ok_min_102 : rule_ok in64 false r_min_102. Proof. rule. Qed.
Lemma ok_min_103 : rule_ok in64 false r_min_103. Proof. rule. Qed.
Lemma ok_min_105 : rule_ok in64 false r_min_105. Proof. rule. Qed.
Lemma ok_min_106 : rule_ok in64 false r_min_106. Proof. rule. Qed.
Lemma ok_min_107 : rule_ok in64 false r_min_107. Proof. rule. Qed.
Lemma ok_min_108 : rule_ok in64 false r_min_108. Proof. rule. Qed.
Lemma ok_min_111 : rule_ok in64 false r_min_111. Proof. rule. Qed.
Lemma ok_min_112 : rule_ok in64 false r_min_112. Proof. rule. Qed.
Lemma ok_min_113 : rule_ok in64 false r_min_113. Proof. rule2. Qed.
Lemma ok_min_114 : rule_ok in64 false r_min_114. Proof. rule. Qed.
Lemma ok_min_117 : rule_ok in64 false r_min_117. Proof. rule2. Qed.
Lemma ok_min_120 : rule_ok in64 false r_min_120. Proof. rule. Qed.
Lemma ok_min_121 : rule_ok in64 false r_min_121. Proof. rule. Qed.
Lemma ok_min_122 : rule_ok in64 false r_min_122. Proof. rule. Qed.
Lemma ok_min_125 : rule_ok in64 false r_min_125. Proof. rule. Qed.
Lemma ok_min_126 : rule_ok in64 false r_min_126. Proof. rule. Qed.
Lemma ok_min_129 : rule_ok in64 false r_min_129. Proof. rule2. Qed.
Lemma ok_min_133 : rule_ok in64 false r_min_133. Proof. rule2. Qed.
Lemma ok_min_138 : rule_ok in64 false r_min_138. Proof. rule2. Qed.
Lemma ok_min_142 : rule_ok in64 false r_min_142. Proof. rule2. Qed.
Lemma ok_min_146 : rule_ok in64 false r_min_146. Proof. rule2. Qed.
Lemma ok_min_150 : rule_ok small false r_min_150. Proof. ruleS. Qed.
Lemma ok_min_154 : rule_ok in64 false r_min_154. Proof. rule. Qed.