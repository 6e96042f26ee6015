(** GENERATED by tools/gen_rule_proofs.py: every rule of every table is valid. *)
From Coq Require Import ZArith List Bool.
From Verif Require Import Arith_Model Expr_Model Expr_Spec Expr_Proofs Rewrite_Model Rewrite_Proofs RuleTac Rules RulesMin_Proofs RulesMax_Proofs RulesLess_Proofs RulesDiv_Proofs RulesRest_Proofs.
Import ListNotations.

Lemma min_rules_ok : Forall rule_valid min_rules.
Proof.
  exact (Forall_cons (P := rule_valid) r_min_36 ok_min_36 (
    Forall_cons (P := rule_valid) r_min_37 ok_min_37 (
    Forall_cons (P := rule_valid) r_min_38 ok_min_38 (
    Forall_cons (P := rule_valid) r_min_39 ok_min_39 (
    Forall_cons (P := rule_valid) r_min_40 ok_min_40 (
    Forall_cons (P := rule_valid) r_min_43 ok_min_43 (
    Forall_cons (P := rule_valid) r_min_46 ok_min_46 (
    Forall_cons (P := rule_valid) r_min_49 ok_min_49 (
    Forall_cons (P := rule_valid) r_min_54 ok_min_54 (
    Forall_cons (P := rule_valid) r_min_55 ok_min_55 (
    Forall_cons (P := rule_valid) r_min_56 ok_min_56 (
    Forall_cons (P := rule_valid) r_min_57 ok_min_57 (
    Forall_cons (P := rule_valid) r_min_58 ok_min_58 (
    Forall_cons (P := rule_valid) r_min_59 ok_min_59 (
    Forall_cons (P := rule_valid) r_min_60 ok_min_60 (
    Forall_cons (P := rule_valid) r_min_63 ok_min_63 (
    Forall_cons (P := rule_valid) r_min_65 ok_min_65 (
    Forall_cons (P := rule_valid) r_min_68 ok_min_68 (
    Forall_cons (P := rule_valid) r_min_69 ok_min_69 (
    Forall_cons (P := rule_valid) r_min_70 ok_min_70 (
    Forall_cons (P := rule_valid) r_min_71 ok_min_71 (
    Forall_cons (P := rule_valid) r_min_72 ok_min_72 (
    Forall_cons (P := rule_valid) r_min_73 ok_min_73 (
    Forall_cons (P := rule_valid) r_min_74 ok_min_74 (
    Forall_cons (P := rule_valid) r_min_75 ok_min_75 (
    Forall_cons (P := rule_valid) r_min_78 ok_min_78 (
    Forall_cons (P := rule_valid) r_min_79 ok_min_79 (
    Forall_cons (P := rule_valid) r_min_80 ok_min_80 (
    Forall_cons (P := rule_valid) r_min_83 ok_min_83 (
    Forall_cons (P := rule_valid) r_min_84 ok_min_84 (
    Forall_cons (P := rule_valid) r_min_85 ok_min_85 (
    Forall_cons (P := rule_valid) r_min_88 ok_min_88 (
    Forall_cons (P := rule_valid) r_min_89 ok_min_89 (
    Forall_cons (P := rule_valid) r_min_90 ok_min_90 (
    Forall_cons (P := rule_valid) r_min_91 ok_min_91 (
    Forall_cons (P := rule_valid) r_min_92 ok_min_92 (
    Forall_cons (P := rule_valid) r_min_93 ok_min_93 (
    Forall_cons (P := rule_valid) r_min_94 ok_min_94 (
    Forall_cons (P := rule_valid) r_min_95 ok_min_95 (
    Forall_cons (P := rule_valid) r_min_96 ok_min_96 (
    Forall_cons (P := rule_valid) r_min_97 ok_min_97 (
    Forall_cons (P := rule_valid) r_min_98 ok_min_98 (
    Forall_cons (P := rule_valid) r_min_99 ok_min_99 (
    Forall_cons (P := rule_valid) r_min_100 ok_min_100 (
    Forall_cons (P := rule_valid) r_min_102 ok_min_102 (
    Forall_cons (P := rule_valid) r_min_103 ok_min_103 (
    Forall_cons (P := rule_valid) r_min_105 ok_min_105 (
    Forall_cons (P := rule_valid) r_min_106 ok_min_106 (
    Forall_cons (P := rule_valid) r_min_107 ok_min_107 (
    Forall_cons (P := rule_valid) r_min_108 ok_min_108 (
    Forall_cons (P := rule_valid) r_min_111 ok_min_111 (
    Forall_cons (P := rule_valid) r_min_112 ok_min_112 (
    Forall_cons (P := rule_valid) r_min_113 ok_min_113 (
    Forall_cons (P := rule_valid) r_min_114 ok_min_114 (
    Forall_cons (P := rule_valid) r_min_117 ok_min_117 (
    Forall_cons (P := rule_valid) r_min_120 ok_min_120 (
    Forall_cons (P := rule_valid) r_min_121 ok_min_121 (
    Forall_cons (P := rule_valid) r_min_122 ok_min_122 (
    Forall_cons (P := rule_valid) r_min_125 ok_min_125 (
    Forall_cons (P := rule_valid) r_min_126 ok_min_126 (
    Forall_cons (P := rule_valid) r_min_129 ok_min_129 (
    Forall_cons (P := rule_valid) r_min_133 ok_min_133 (
    Forall_cons (P := rule_valid) r_min_138 ok_min_138 (
    Forall_cons (P := rule_valid) r_min_142 ok_min_142 (
    Forall_cons (P := rule_valid) r_min_146 ok_min_146 (
    Forall_cons (P := rule_valid) r_min_150 ok_min_150 (
    Forall_cons (P := rule_valid) r_min_154 ok_min_154 (Forall_nil _)))))))))))))))))))))))))))))))))))))))))))))))))))))))))))))))))))).
Qed.

Lemma max_rules_ok : Forall rule_valid max_rules.
Proof.
  exact (Forall_cons (P := rule_valid) r_max_163 ok_max_163 (
    Forall_cons (P := rule_valid) r_max_164 ok_max_164 (
    Forall_cons (P := rule_valid) r_max_165 ok_max_165 (
    Forall_cons (P := rule_valid) r_max_166 ok_max_166 (
    Forall_cons (P := rule_valid) r_max_167 ok_max_167 (
    Forall_cons (P := rule_valid) r_max_170 ok_max_170 (
    Forall_cons (P := rule_valid) r_max_173 ok_max_173 (
    Forall_cons (P := rule_valid) r_max_174 ok_max_174 (
    Forall_cons (P := rule_valid) r_max_175 ok_max_175 (
    Forall_cons (P := rule_valid) r_max_176 ok_max_176 (
    Forall_cons (P := rule_valid) r_max_177 ok_max_177 (
    Forall_cons (P := rule_valid) r_max_178 ok_max_178 (
    Forall_cons (P := rule_valid) r_max_179 ok_max_179 (
    Forall_cons (P := rule_valid) r_max_182 ok_max_182 (
    Forall_cons (P := rule_valid) r_max_184 ok_max_184 (
    Forall_cons (P := rule_valid) r_max_187 ok_max_187 (
    Forall_cons (P := rule_valid) r_max_188 ok_max_188 (
    Forall_cons (P := rule_valid) r_max_189 ok_max_189 (
    Forall_cons (P := rule_valid) r_max_190 ok_max_190 (
    Forall_cons (P := rule_valid) r_max_191 ok_max_191 (
    Forall_cons (P := rule_valid) r_max_192 ok_max_192 (
    Forall_cons (P := rule_valid) r_max_193 ok_max_193 (
    Forall_cons (P := rule_valid) r_max_194 ok_max_194 (
    Forall_cons (P := rule_valid) r_max_197 ok_max_197 (
    Forall_cons (P := rule_valid) r_max_198 ok_max_198 (
    Forall_cons (P := rule_valid) r_max_199 ok_max_199 (
    Forall_cons (P := rule_valid) r_max_202 ok_max_202 (
    Forall_cons (P := rule_valid) r_max_203 ok_max_203 (
    Forall_cons (P := rule_valid) r_max_204 ok_max_204 (
    Forall_cons (P := rule_valid) r_max_207 ok_max_207 (
    Forall_cons (P := rule_valid) r_max_208 ok_max_208 (
    Forall_cons (P := rule_valid) r_max_209 ok_max_209 (
    Forall_cons (P := rule_valid) r_max_210 ok_max_210 (
    Forall_cons (P := rule_valid) r_max_211 ok_max_211 (
    Forall_cons (P := rule_valid) r_max_212 ok_max_212 (
    Forall_cons (P := rule_valid) r_max_213 ok_max_213 (
    Forall_cons (P := rule_valid) r_max_214 ok_max_214 (
    Forall_cons (P := rule_valid) r_max_215 ok_max_215 (
    Forall_cons (P := rule_valid) r_max_216 ok_max_216 (
    Forall_cons (P := rule_valid) r_max_217 ok_max_217 (
    Forall_cons (P := rule_valid) r_max_218 ok_max_218 (
    Forall_cons (P := rule_valid) r_max_219 ok_max_219 (
    Forall_cons (P := rule_valid) r_max_221 ok_max_221 (
    Forall_cons (P := rule_valid) r_max_222 ok_max_222 (
    Forall_cons (P := rule_valid) r_max_224 ok_max_224 (
    Forall_cons (P := rule_valid) r_max_225 ok_max_225 (
    Forall_cons (P := rule_valid) r_max_226 ok_max_226 (
    Forall_cons (P := rule_valid) r_max_227 ok_max_227 (
    Forall_cons (P := rule_valid) r_max_230 ok_max_230 (
    Forall_cons (P := rule_valid) r_max_231 ok_max_231 (
    Forall_cons (P := rule_valid) r_max_232 ok_max_232 (
    Forall_cons (P := rule_valid) r_max_233 ok_max_233 (
    Forall_cons (P := rule_valid) r_max_236 ok_max_236 (
    Forall_cons (P := rule_valid) r_max_239 ok_max_239 (
    Forall_cons (P := rule_valid) r_max_240 ok_max_240 (
    Forall_cons (P := rule_valid) r_max_241 ok_max_241 (
    Forall_cons (P := rule_valid) r_max_244 ok_max_244 (
    Forall_cons (P := rule_valid) r_max_245 ok_max_245 (
    Forall_cons (P := rule_valid) r_max_248 ok_max_248 (
    Forall_cons (P := rule_valid) r_max_252 ok_max_252 (
    Forall_cons (P := rule_valid) r_max_257 ok_max_257 (
    Forall_cons (P := rule_valid) r_max_261 ok_max_261 (
    Forall_cons (P := rule_valid) r_max_265 ok_max_265 (
    Forall_cons (P := rule_valid) r_max_269 ok_max_269 (
    Forall_cons (P := rule_valid) r_max_273 ok_max_273 (Forall_nil _)))))))))))))))))))))))))))))))))))))))))))))))))))))))))))))))))).
Qed.

Lemma less_rules_ok : Forall rule_valid less_rules.
Proof.
  exact (Forall_cons (P := rule_valid) r_less_465 ok_less_465 (
    Forall_cons (P := rule_valid) r_less_466 ok_less_466 (
    Forall_cons (P := rule_valid) r_less_467 ok_less_467 (
    Forall_cons (P := rule_valid) r_less_468 ok_less_468 (
    Forall_cons (P := rule_valid) r_less_469 ok_less_469 (
    Forall_cons (P := rule_valid) r_less_470 ok_less_470 (
    Forall_cons (P := rule_valid) r_less_471 ok_less_471 (
    Forall_cons (P := rule_valid) r_less_478 ok_less_478 (
    Forall_cons (P := rule_valid) r_less_479 ok_less_479 (
    Forall_cons (P := rule_valid) r_less_482 ok_less_482 (
    Forall_cons (P := rule_valid) r_less_484 ok_less_484 (
    Forall_cons (P := rule_valid) r_less_485 ok_less_485 (
    Forall_cons (P := rule_valid) r_less_486 ok_less_486 (
    Forall_cons (P := rule_valid) r_less_490 ok_less_490 (
    Forall_cons (P := rule_valid) r_less_491 ok_less_491 (
    Forall_cons (P := rule_valid) r_less_492 ok_less_492 (
    Forall_cons (P := rule_valid) r_less_495 ok_less_495 (
    Forall_cons (P := rule_valid) r_less_499 ok_less_499 (
    Forall_cons (P := rule_valid) r_less_502 ok_less_502 (
    Forall_cons (P := rule_valid) r_less_507 ok_less_507 (
    Forall_cons (P := rule_valid) r_less_511 ok_less_511 (
    Forall_cons (P := rule_valid) r_less_514 ok_less_514 (
    Forall_cons (P := rule_valid) r_less_517 ok_less_517 (
    Forall_cons (P := rule_valid) r_less_521 ok_less_521 (
    Forall_cons (P := rule_valid) r_less_524 ok_less_524 (
    Forall_cons (P := rule_valid) r_less_535 ok_less_535 (
    Forall_cons (P := rule_valid) r_less_536 ok_less_536 (
    Forall_cons (P := rule_valid) r_less_537 ok_less_537 (
    Forall_cons (P := rule_valid) r_less_538 ok_less_538 (
    Forall_cons (P := rule_valid) r_less_541 ok_less_541 (
    Forall_cons (P := rule_valid) r_less_542 ok_less_542 (
    Forall_cons (P := rule_valid) r_less_543 ok_less_543 (
    Forall_cons (P := rule_valid) r_less_544 ok_less_544 (
    Forall_cons (P := rule_valid) r_less_549 ok_less_549 (
    Forall_cons (P := rule_valid) r_less_550 ok_less_550 (
    Forall_cons (P := rule_valid) r_less_551 ok_less_551 (
    Forall_cons (P := rule_valid) r_less_554 ok_less_554 (
    Forall_cons (P := rule_valid) r_less_555 ok_less_555 (
    Forall_cons (P := rule_valid) r_less_556 ok_less_556 (
    Forall_cons (P := rule_valid) r_less_558 ok_less_558 (
    Forall_cons (P := rule_valid) r_less_559 ok_less_559 (
    Forall_cons (P := rule_valid) r_less_560 ok_less_560 (
    Forall_cons (P := rule_valid) r_less_562 ok_less_562 (
    Forall_cons (P := rule_valid) r_less_566 ok_less_566 (
    Forall_cons (P := rule_valid) r_less_567 ok_less_567 (
    Forall_cons (P := rule_valid) r_less_568 ok_less_568 (
    Forall_cons (P := rule_valid) r_less_569 ok_less_569 (
    Forall_cons (P := rule_valid) r_less_571 ok_less_571 (
    Forall_cons (P := rule_valid) r_less_572 ok_less_572 (
    Forall_cons (P := rule_valid) r_less_573 ok_less_573 (
    Forall_cons (P := rule_valid) r_less_574 ok_less_574 (
    Forall_cons (P := rule_valid) r_less_577 ok_less_577 (
    Forall_cons (P := rule_valid) r_less_578 ok_less_578 (
    Forall_cons (P := rule_valid) r_less_579 ok_less_579 (
    Forall_cons (P := rule_valid) r_less_580 ok_less_580 (
    Forall_cons (P := rule_valid) r_less_582 ok_less_582 (
    Forall_cons (P := rule_valid) r_less_583 ok_less_583 (
    Forall_cons (P := rule_valid) r_less_584 ok_less_584 (
    Forall_cons (P := rule_valid) r_less_585 ok_less_585 (
    Forall_cons (P := rule_valid) r_less_586 ok_less_586 (
    Forall_cons (P := rule_valid) r_less_589 ok_less_589 (
    Forall_cons (P := rule_valid) r_less_590 ok_less_590 (
    Forall_cons (P := rule_valid) r_less_591 ok_less_591 (Forall_nil _)))))))))))))))))))))))))))))))))))))))))))))))))))))))))))))))).
Qed.

Lemma div_rules_ok : Forall rule_valid div_rules.
Proof.
  exact (Forall_cons (P := rule_valid) r_div_405 ok_div_405 (
    Forall_cons (P := rule_valid) r_div_406 ok_div_406 (
    Forall_cons (P := rule_valid) r_div_407 ok_div_407 (
    Forall_cons (P := rule_valid) r_div_410 ok_div_410 (
    Forall_cons (P := rule_valid) r_div_413 ok_div_413 (
    Forall_cons (P := rule_valid) r_div_414 ok_div_414 (
    Forall_cons (P := rule_valid) r_div_415 ok_div_415 (
    Forall_cons (P := rule_valid) r_div_416 ok_div_416 (
    Forall_cons (P := rule_valid) r_div_417 ok_div_417 (
    Forall_cons (P := rule_valid) r_div_419 ok_div_419 (
    Forall_cons (P := rule_valid) r_div_420 ok_div_420 (
    Forall_cons (P := rule_valid) r_div_421 ok_div_421 (
    Forall_cons (P := rule_valid) r_div_422 ok_div_422 (
    Forall_cons (P := rule_valid) r_div_423 ok_div_423 (
    Forall_cons (P := rule_valid) r_div_424 ok_div_424 (
    Forall_cons (P := rule_valid) r_div_425 ok_div_425 (
    Forall_cons (P := rule_valid) r_div_426 ok_div_426 (
    Forall_cons (P := rule_valid) r_div_427 ok_div_427 (
    Forall_cons (P := rule_valid) r_div_429 ok_div_429 (
    Forall_cons (P := rule_valid) r_div_430 ok_div_430 (
    Forall_cons (P := rule_valid) r_div_432 ok_div_432 (
    Forall_cons (P := rule_valid) r_div_433 ok_div_433 (
    Forall_cons (P := rule_valid) r_div_434 ok_div_434 (
    Forall_cons (P := rule_valid) r_div_435 ok_div_435 (
    Forall_cons (P := rule_valid) r_div_437 ok_div_437 (
    Forall_cons (P := rule_valid) r_div_438 ok_div_438 (
    Forall_cons (P := rule_valid) r_div_439 ok_div_439 (
    Forall_cons (P := rule_valid) r_div_442 ok_div_442 (Forall_nil _))))))))))))))))))))))))))))).
Qed.

Lemma mod_rules_ok : Forall rule_valid mod_rules.
Proof.
  exact (Forall_cons (P := rule_valid) r_mod_450 ok_mod_450 (
    Forall_cons (P := rule_valid) r_mod_451 ok_mod_451 (
    Forall_cons (P := rule_valid) r_mod_452 ok_mod_452 (
    Forall_cons (P := rule_valid) r_mod_454 ok_mod_454 (
    Forall_cons (P := rule_valid) r_mod_456 ok_mod_456 (
    Forall_cons (P := rule_valid) r_mod_457 ok_mod_457 (
    Forall_cons (P := rule_valid) r_mod_458 ok_mod_458 (Forall_nil _)))))))).
Qed.

Lemma equal_rules_ok : Forall rule_valid equal_rules.
Proof.
  exact (Forall_cons (P := rule_valid) r_equal_599 ok_equal_599 (
    Forall_cons (P := rule_valid) r_equal_600 ok_equal_600 (
    Forall_cons (P := rule_valid) r_equal_601 ok_equal_601 (
    Forall_cons (P := rule_valid) r_equal_604 ok_equal_604 (
    Forall_cons (P := rule_valid) r_equal_607 ok_equal_607 (
    Forall_cons (P := rule_valid) r_equal_609 ok_equal_609 (
    Forall_cons (P := rule_valid) r_equal_612 ok_equal_612 (
    Forall_cons (P := rule_valid) r_equal_613 ok_equal_613 (
    Forall_cons (P := rule_valid) r_equal_614 ok_equal_614 (
    Forall_cons (P := rule_valid) r_equal_615 ok_equal_615 (
    Forall_cons (P := rule_valid) r_equal_616 ok_equal_616 (
    Forall_cons (P := rule_valid) r_equal_618 ok_equal_618 (
    Forall_cons (P := rule_valid) r_equal_620 ok_equal_620 (
    Forall_cons (P := rule_valid) r_equal_622 ok_equal_622 (
    Forall_cons (P := rule_valid) r_equal_623 ok_equal_623 (
    Forall_cons (P := rule_valid) r_equal_624 ok_equal_624 (
    Forall_cons (P := rule_valid) r_equal_625 ok_equal_625 (
    Forall_cons (P := rule_valid) r_equal_626 ok_equal_626 (
    Forall_cons (P := rule_valid) r_equal_627 ok_equal_627 (
    Forall_cons (P := rule_valid) r_equal_628 ok_equal_628 (
    Forall_cons (P := rule_valid) r_equal_630 ok_equal_630 (
    Forall_cons (P := rule_valid) r_equal_631 ok_equal_631 (
    Forall_cons (P := rule_valid) r_equal_633 ok_equal_633 (
    Forall_cons (P := rule_valid) r_equal_637 ok_equal_637 (
    Forall_cons (P := rule_valid) r_equal_642 ok_equal_642 (
    Forall_cons (P := rule_valid) r_equal_643 ok_equal_643 (
    Forall_cons (P := rule_valid) r_equal_645 ok_equal_645 (
    Forall_cons (P := rule_valid) r_equal_648 ok_equal_648 (Forall_nil _))))))))))))))))))))))))))))).
Qed.

Lemma add_rules_ok : Forall rule_valid add_rules.
Proof.
  exact (Forall_cons (P := rule_valid) r_add_281 ok_add_281 (
    Forall_cons (P := rule_valid) r_add_282 ok_add_282 (
    Forall_cons (P := rule_valid) r_add_283 ok_add_283 (
    Forall_cons (P := rule_valid) r_add_284 ok_add_284 (
    Forall_cons (P := rule_valid) r_add_285 ok_add_285 (
    Forall_cons (P := rule_valid) r_add_286 ok_add_286 (
    Forall_cons (P := rule_valid) r_add_287 ok_add_287 (
    Forall_cons (P := rule_valid) r_add_288 ok_add_288 (
    Forall_cons (P := rule_valid) r_add_289 ok_add_289 (
    Forall_cons (P := rule_valid) r_add_290 ok_add_290 (
    Forall_cons (P := rule_valid) r_add_291 ok_add_291 (
    Forall_cons (P := rule_valid) r_add_292 ok_add_292 (
    Forall_cons (P := rule_valid) r_add_293 ok_add_293 (
    Forall_cons (P := rule_valid) r_add_294 ok_add_294 (
    Forall_cons (P := rule_valid) r_add_296 ok_add_296 (
    Forall_cons (P := rule_valid) r_add_297 ok_add_297 (
    Forall_cons (P := rule_valid) r_add_299 ok_add_299 (
    Forall_cons (P := rule_valid) r_add_300 ok_add_300 (
    Forall_cons (P := rule_valid) r_add_302 ok_add_302 (
    Forall_cons (P := rule_valid) r_add_303 ok_add_303 (
    Forall_cons (P := rule_valid) r_add_304 ok_add_304 (
    Forall_cons (P := rule_valid) r_add_305 ok_add_305 (
    Forall_cons (P := rule_valid) r_add_306 ok_add_306 (
    Forall_cons (P := rule_valid) r_add_307 ok_add_307 (
    Forall_cons (P := rule_valid) r_add_309 ok_add_309 (
    Forall_cons (P := rule_valid) r_add_310 ok_add_310 (Forall_nil _))))))))))))))))))))))))))).
Qed.

Lemma sub_rules_ok : Forall rule_valid sub_rules.
Proof.
  exact (Forall_cons (P := rule_valid) r_sub_318 ok_sub_318 (
    Forall_cons (P := rule_valid) r_sub_319 ok_sub_319 (
    Forall_cons (P := rule_valid) r_sub_320 ok_sub_320 (
    Forall_cons (P := rule_valid) r_sub_321 ok_sub_321 (
    Forall_cons (P := rule_valid) r_sub_322 ok_sub_322 (
    Forall_cons (P := rule_valid) r_sub_323 ok_sub_323 (
    Forall_cons (P := rule_valid) r_sub_324 ok_sub_324 (
    Forall_cons (P := rule_valid) r_sub_325 ok_sub_325 (
    Forall_cons (P := rule_valid) r_sub_326 ok_sub_326 (
    Forall_cons (P := rule_valid) r_sub_327 ok_sub_327 (
    Forall_cons (P := rule_valid) r_sub_328 ok_sub_328 (
    Forall_cons (P := rule_valid) r_sub_329 ok_sub_329 (
    Forall_cons (P := rule_valid) r_sub_330 ok_sub_330 (
    Forall_cons (P := rule_valid) r_sub_331 ok_sub_331 (
    Forall_cons (P := rule_valid) r_sub_332 ok_sub_332 (
    Forall_cons (P := rule_valid) r_sub_336 ok_sub_336 (
    Forall_cons (P := rule_valid) r_sub_337 ok_sub_337 (
    Forall_cons (P := rule_valid) r_sub_338 ok_sub_338 (
    Forall_cons (P := rule_valid) r_sub_339 ok_sub_339 (
    Forall_cons (P := rule_valid) r_sub_340 ok_sub_340 (
    Forall_cons (P := rule_valid) r_sub_341 ok_sub_341 (
    Forall_cons (P := rule_valid) r_sub_343 ok_sub_343 (
    Forall_cons (P := rule_valid) r_sub_344 ok_sub_344 (
    Forall_cons (P := rule_valid) r_sub_345 ok_sub_345 (
    Forall_cons (P := rule_valid) r_sub_346 ok_sub_346 (
    Forall_cons (P := rule_valid) r_sub_347 ok_sub_347 (
    Forall_cons (P := rule_valid) r_sub_348 ok_sub_348 (
    Forall_cons (P := rule_valid) r_sub_350 ok_sub_350 (
    Forall_cons (P := rule_valid) r_sub_351 ok_sub_351 (
    Forall_cons (P := rule_valid) r_sub_352 ok_sub_352 (
    Forall_cons (P := rule_valid) r_sub_353 ok_sub_353 (
    Forall_cons (P := rule_valid) r_sub_354 ok_sub_354 (
    Forall_cons (P := rule_valid) r_sub_355 ok_sub_355 (
    Forall_cons (P := rule_valid) r_sub_357 ok_sub_357 (
    Forall_cons (P := rule_valid) r_sub_358 ok_sub_358 (
    Forall_cons (P := rule_valid) r_sub_359 ok_sub_359 (
    Forall_cons (P := rule_valid) r_sub_360 ok_sub_360 (
    Forall_cons (P := rule_valid) r_sub_362 ok_sub_362 (
    Forall_cons (P := rule_valid) r_sub_363 ok_sub_363 (
    Forall_cons (P := rule_valid) r_sub_364 ok_sub_364 (
    Forall_cons (P := rule_valid) r_sub_365 ok_sub_365 (
    Forall_cons (P := rule_valid) r_sub_366 ok_sub_366 (
    Forall_cons (P := rule_valid) r_sub_368 ok_sub_368 (
    Forall_cons (P := rule_valid) r_sub_369 ok_sub_369 (
    Forall_cons (P := rule_valid) r_sub_370 ok_sub_370 (
    Forall_cons (P := rule_valid) r_sub_371 ok_sub_371 (
    Forall_cons (P := rule_valid) r_sub_372 ok_sub_372 (
    Forall_cons (P := rule_valid) r_sub_373 ok_sub_373 (
    Forall_cons (P := rule_valid) r_sub_374 ok_sub_374 (
    Forall_cons (P := rule_valid) r_sub_375 ok_sub_375 (Forall_nil _))))))))))))))))))))))))))))))))))))))))))))))))))).
Qed.

Lemma mul_rules_ok : Forall rule_valid mul_rules.
Proof.
  exact (Forall_cons (P := rule_valid) r_mul_383 ok_mul_383 (
    Forall_cons (P := rule_valid) r_mul_386 ok_mul_386 (
    Forall_cons (P := rule_valid) r_mul_389 ok_mul_389 (
    Forall_cons (P := rule_valid) r_mul_390 ok_mul_390 (
    Forall_cons (P := rule_valid) r_mul_391 ok_mul_391 (
    Forall_cons (P := rule_valid) r_mul_392 ok_mul_392 (
    Forall_cons (P := rule_valid) r_mul_393 ok_mul_393 (
    Forall_cons (P := rule_valid) r_mul_394 ok_mul_394 (
    Forall_cons (P := rule_valid) r_mul_396 ok_mul_396 (
    Forall_cons (P := rule_valid) r_mul_397 ok_mul_397 (
    Forall_cons (P := rule_valid) r_mul_398 ok_mul_398 (Forall_nil _)))))))))))).
Qed.

Lemma logical_and_rules_ok : Forall rule_valid logical_and_rules.
Proof.
  exact (Forall_cons (P := rule_valid) r_logical_and_658 ok_logical_and_658 (
    Forall_cons (P := rule_valid) r_logical_and_661 ok_logical_and_661 (
    Forall_cons (P := rule_valid) r_logical_and_664 ok_logical_and_664 (
    Forall_cons (P := rule_valid) r_logical_and_665 ok_logical_and_665 (
    Forall_cons (P := rule_valid) r_logical_and_667 ok_logical_and_667 (
    Forall_cons (P := rule_valid) r_logical_and_668 ok_logical_and_668 (
    Forall_cons (P := rule_valid) r_logical_and_669 ok_logical_and_669 (
    Forall_cons (P := rule_valid) r_logical_and_670 ok_logical_and_670 (
    Forall_cons (P := rule_valid) r_logical_and_672 ok_logical_and_672 (
    Forall_cons (P := rule_valid) r_logical_and_673 ok_logical_and_673 (
    Forall_cons (P := rule_valid) r_logical_and_674 ok_logical_and_674 (
    Forall_cons (P := rule_valid) r_logical_and_675 ok_logical_and_675 (
    Forall_cons (P := rule_valid) r_logical_and_676 ok_logical_and_676 (
    Forall_cons (P := rule_valid) r_logical_and_677 ok_logical_and_677 (
    Forall_cons (P := rule_valid) r_logical_and_678 ok_logical_and_678 (
    Forall_cons (P := rule_valid) r_logical_and_679 ok_logical_and_679 (
    Forall_cons (P := rule_valid) r_logical_and_680 ok_logical_and_680 (
    Forall_cons (P := rule_valid) r_logical_and_681 ok_logical_and_681 (
    Forall_cons (P := rule_valid) r_logical_and_685 ok_logical_and_685 (
    Forall_cons (P := rule_valid) r_logical_and_686 ok_logical_and_686 (
    Forall_cons (P := rule_valid) r_logical_and_687 ok_logical_and_687 (
    Forall_cons (P := rule_valid) r_logical_and_688 ok_logical_and_688 (
    Forall_cons (P := rule_valid) r_logical_and_689 ok_logical_and_689 (
    Forall_cons (P := rule_valid) r_logical_and_690 ok_logical_and_690 (
    Forall_cons (P := rule_valid) r_logical_and_691 ok_logical_and_691 (
    Forall_cons (P := rule_valid) r_logical_and_692 ok_logical_and_692 (
    Forall_cons (P := rule_valid) r_logical_and_695 ok_logical_and_695 (
    Forall_cons (P := rule_valid) r_logical_and_696 ok_logical_and_696 (
    Forall_cons (P := rule_valid) r_logical_and_697 ok_logical_and_697 (
    Forall_cons (P := rule_valid) r_logical_and_698 ok_logical_and_698 (
    Forall_cons (P := rule_valid) r_logical_and_701 ok_logical_and_701 (
    Forall_cons (P := rule_valid) r_logical_and_702 ok_logical_and_702 (
    Forall_cons (P := rule_valid) r_logical_and_703 ok_logical_and_703 (
    Forall_cons (P := rule_valid) r_logical_and_706 ok_logical_and_706 (
    Forall_cons (P := rule_valid) r_logical_and_710 ok_logical_and_710 (
    Forall_cons (P := rule_valid) r_logical_and_711 ok_logical_and_711 (
    Forall_cons (P := rule_valid) r_logical_and_712 ok_logical_and_712 (
    Forall_cons (P := rule_valid) r_logical_and_715 ok_logical_and_715 (Forall_nil _))))))))))))))))))))))))))))))))))))))).
Qed.

Lemma logical_or_rules_ok : Forall rule_valid logical_or_rules.
Proof.
  exact (Forall_cons (P := rule_valid) r_logical_or_726 ok_logical_or_726 (
    Forall_cons (P := rule_valid) r_logical_or_729 ok_logical_or_729 (
    Forall_cons (P := rule_valid) r_logical_or_732 ok_logical_or_732 (
    Forall_cons (P := rule_valid) r_logical_or_733 ok_logical_or_733 (
    Forall_cons (P := rule_valid) r_logical_or_735 ok_logical_or_735 (
    Forall_cons (P := rule_valid) r_logical_or_736 ok_logical_or_736 (
    Forall_cons (P := rule_valid) r_logical_or_737 ok_logical_or_737 (
    Forall_cons (P := rule_valid) r_logical_or_738 ok_logical_or_738 (
    Forall_cons (P := rule_valid) r_logical_or_742 ok_logical_or_742 (
    Forall_cons (P := rule_valid) r_logical_or_743 ok_logical_or_743 (
    Forall_cons (P := rule_valid) r_logical_or_744 ok_logical_or_744 (
    Forall_cons (P := rule_valid) r_logical_or_745 ok_logical_or_745 (
    Forall_cons (P := rule_valid) r_logical_or_746 ok_logical_or_746 (
    Forall_cons (P := rule_valid) r_logical_or_747 ok_logical_or_747 (
    Forall_cons (P := rule_valid) r_logical_or_748 ok_logical_or_748 (
    Forall_cons (P := rule_valid) r_logical_or_750 ok_logical_or_750 (
    Forall_cons (P := rule_valid) r_logical_or_751 ok_logical_or_751 (
    Forall_cons (P := rule_valid) r_logical_or_752 ok_logical_or_752 (
    Forall_cons (P := rule_valid) r_logical_or_753 ok_logical_or_753 (
    Forall_cons (P := rule_valid) r_logical_or_754 ok_logical_or_754 (
    Forall_cons (P := rule_valid) r_logical_or_755 ok_logical_or_755 (
    Forall_cons (P := rule_valid) r_logical_or_756 ok_logical_or_756 (
    Forall_cons (P := rule_valid) r_logical_or_757 ok_logical_or_757 (
    Forall_cons (P := rule_valid) r_logical_or_760 ok_logical_or_760 (
    Forall_cons (P := rule_valid) r_logical_or_761 ok_logical_or_761 (
    Forall_cons (P := rule_valid) r_logical_or_762 ok_logical_or_762 (
    Forall_cons (P := rule_valid) r_logical_or_763 ok_logical_or_763 (
    Forall_cons (P := rule_valid) r_logical_or_766 ok_logical_or_766 (
    Forall_cons (P := rule_valid) r_logical_or_769 ok_logical_or_769 (
    Forall_cons (P := rule_valid) r_logical_or_772 ok_logical_or_772 (
    Forall_cons (P := rule_valid) r_logical_or_773 ok_logical_or_773 (
    Forall_cons (P := rule_valid) r_logical_or_775 ok_logical_or_775 (
    Forall_cons (P := rule_valid) r_logical_or_778 ok_logical_or_778 (
    Forall_cons (P := rule_valid) r_logical_or_781 ok_logical_or_781 (
    Forall_cons (P := rule_valid) r_logical_or_782 ok_logical_or_782 (
    Forall_cons (P := rule_valid) r_logical_or_786 ok_logical_or_786 (
    Forall_cons (P := rule_valid) r_logical_or_787 ok_logical_or_787 (Forall_nil _)))))))))))))))))))))))))))))))))))))).
Qed.

Lemma logical_not_rules_ok : Forall rule_valid logical_not_rules.
Proof.
  exact (Forall_cons (P := rule_valid) r_logical_not_795 ok_logical_not_795 (
    Forall_cons (P := rule_valid) r_logical_not_796 ok_logical_not_796 (
    Forall_cons (P := rule_valid) r_logical_not_797 ok_logical_not_797 (
    Forall_cons (P := rule_valid) r_logical_not_798 ok_logical_not_798 (
    Forall_cons (P := rule_valid) r_logical_not_799 ok_logical_not_799 (
    Forall_cons (P := rule_valid) r_logical_not_801 ok_logical_not_801 (
    Forall_cons (P := rule_valid) r_logical_not_802 ok_logical_not_802 (
    Forall_cons (P := rule_valid) r_logical_not_803 ok_logical_not_803 (
    Forall_cons (P := rule_valid) r_logical_not_804 ok_logical_not_804 (Forall_nil _)))))))))).
Qed.

Lemma select_rules_ok : Forall rule_valid select_rules.
Proof.
  exact (Forall_cons (P := rule_valid) r_select_811 ok_select_811 (
    Forall_cons (P := rule_valid) r_select_812 ok_select_812 (
    Forall_cons (P := rule_valid) r_select_815 ok_select_815 (
    Forall_cons (P := rule_valid) r_select_816 ok_select_816 (
    Forall_cons (P := rule_valid) r_select_817 ok_select_817 (
    Forall_cons (P := rule_valid) r_select_818 ok_select_818 (
    Forall_cons (P := rule_valid) r_select_819 ok_select_819 (
    Forall_cons (P := rule_valid) r_select_820 ok_select_820 (
    Forall_cons (P := rule_valid) r_select_821 ok_select_821 (
    Forall_cons (P := rule_valid) r_select_823 ok_select_823 (
    Forall_cons (P := rule_valid) r_select_824 ok_select_824 (
    Forall_cons (P := rule_valid) r_select_825 ok_select_825 (
    Forall_cons (P := rule_valid) r_select_826 ok_select_826 (
    Forall_cons (P := rule_valid) r_select_827 ok_select_827 (
    Forall_cons (P := rule_valid) r_select_828 ok_select_828 (
    Forall_cons (P := rule_valid) r_select_829 ok_select_829 (
    Forall_cons (P := rule_valid) r_select_830 ok_select_830 (
    Forall_cons (P := rule_valid) r_select_831 ok_select_831 (
    Forall_cons (P := rule_valid) r_select_832 ok_select_832 (
    Forall_cons (P := rule_valid) r_select_833 ok_select_833 (
    Forall_cons (P := rule_valid) r_select_834 ok_select_834 (
    Forall_cons (P := rule_valid) r_select_835 ok_select_835 (
    Forall_cons (P := rule_valid) r_select_836 ok_select_836 (
    Forall_cons (P := rule_valid) r_select_839 ok_select_839 (
    Forall_cons (P := rule_valid) r_select_840 ok_select_840 (
    Forall_cons (P := rule_valid) r_select_841 ok_select_841 (
    Forall_cons (P := rule_valid) r_select_842 ok_select_842 (
    Forall_cons (P := rule_valid) r_select_843 ok_select_843 (
    Forall_cons (P := rule_valid) r_select_844 ok_select_844 (
    Forall_cons (P := rule_valid) r_select_845 ok_select_845 (
    Forall_cons (P := rule_valid) r_select_846 ok_select_846 (
    Forall_cons (P := rule_valid) r_select_849 ok_select_849 (
    Forall_cons (P := rule_valid) r_select_850 ok_select_850 (
    Forall_cons (P := rule_valid) r_select_851 ok_select_851 (
    Forall_cons (P := rule_valid) r_select_852 ok_select_852 (
    Forall_cons (P := rule_valid) r_select_853 ok_select_853 (
    Forall_cons (P := rule_valid) r_select_854 ok_select_854 (
    Forall_cons (P := rule_valid) r_select_855 ok_select_855 (
    Forall_cons (P := rule_valid) r_select_856 ok_select_856 (Forall_nil _)))))))))))))))))))))))))))))))))))))))).
Qed.

Lemma call_rules_ok : Forall rule_valid call_rules.
Proof.
  exact (Forall_cons (P := rule_valid) r_call_864 ok_call_864 (
    Forall_cons (P := rule_valid) r_call_865 ok_call_865 (
    Forall_cons (P := rule_valid) r_call_866 ok_call_866 (
    Forall_cons (P := rule_valid) r_call_867 ok_call_867 (
    Forall_cons (P := rule_valid) r_call_868 ok_call_868 (
    Forall_cons (P := rule_valid) r_call_869 ok_call_869 (
    Forall_cons (P := rule_valid) r_call_871 ok_call_871 (
    Forall_cons (P := rule_valid) r_call_872 ok_call_872 (
    Forall_cons (P := rule_valid) r_call_873 ok_call_873 (
    Forall_cons (P := rule_valid) r_call_875 ok_call_875 (
    Forall_cons (P := rule_valid) r_call_876 ok_call_876 (Forall_nil _)))))))))))).
Qed.
