(** GENERATED by tools/gen_rule_proofs.py: the value of the replacement refines that of the
    left hand side, for each rewrite rule of simplify_rules.h (tables: div, mod, equal). *)
From Coq Require Import ZArith List Bool Lia.
From Verif Require Import Arith_Model Arith_Spec Arith_Proofs Expr_Model Expr_Spec Expr_Proofs Rewrite_Model Rewrite_Proofs RuleTac Rules.
Import ListNotations.
Open Scope Z_scope.

Lemma ok_div_405 : rule_ok in64 false r_div_405. Proof. rule. Qed.
Lemma ok_div_406 : rule_ok in64 false r_div_406. Proof. rule. Qed.
Lemma ok_div_407 : rule_ok in64 false r_div_407. Proof. rule. Qed.
Lemma ok_div_410 : rule_ok in64 false r_div_410. Proof. rule. Qed.
Lemma ok_div_413 : rule_ok in64 false r_div_413. Proof. rule. Qed.
Lemma ok_div_414 : rule_ok in64 false r_div_414. Proof. rule2. Qed.
Lemma ok_div_415 : rule_ok in64 false r_div_415. Proof. rule2. Qed.
Lemma ok_div_416 : rule_ok in64 false r_div_416. Proof. rule2. Qed.
Lemma ok_div_417 : rule_ok in64 false r_div_417. Proof. rule2. Qed.
Lemma ok_div_419 : rule_ok in64 false r_div_419. Proof. rule2. Qed.
Lemma ok_div_420 : rule_ok in64 false r_div_420. Proof. rule2. Qed.
Lemma ok_div_421 : rule_ok in64 false r_div_421. Proof. rule2. Qed.
Lemma ok_div_422 : rule_ok in64 false r_div_422. Proof. rule2. Qed.
Lemma ok_div_423 : rule_ok in64 false r_div_423. Proof. rule2. Qed.
Lemma ok_div_424 : rule_ok in64 false r_div_424. Proof. rule2. Qed.
Lemma ok_div_425 : rule_ok in64 false r_div_425. Proof. rule2. Qed.
Lemma ok_div_426 : rule_ok in64 false r_div_426. Proof. rule2. Qed.
Lemma ok_div_427 : rule_ok in64 false r_div_427. Proof. rule2. Qed.
Lemma ok_div_429 : rule_ok in64 false r_div_429. Proof. rule2. Qed.
Lemma ok_div_430 : rule_ok in64 false r_div_430. Proof. rule2. Qed.
Lemma ok_div_432 : rule_ok in64 false r_div_432. Proof. rule2. Qed.
Lemma ok_div_433 : rule_ok in64 false r_div_433. Proof. rule2. Qed.
Lemma ok_div_434 : rule_ok in64 false r_div_434. Proof. rule2. Qed.
Lemma ok_div_435 : rule_ok in64 false r_div_435. Proof. rule2. Qed.
Lemma ok_div_437 : rule_ok in64 false r_div_437. Proof. rule. Qed.
Lemma ok_div_438 : rule_ok in64 false r_div_438. Proof. rule. Qed.
Lemma ok_div_439 : rule_ok in64 false r_div_439. Proof. rule. Qed.
Lemma ok_div_442 : rule_ok in64 false r_div_442. Proof. rule2. Qed.
Lemma ok_mod_450 : rule_ok in64 false r_mod_450. Proof. rule2. Qed.
Lemma ok_mod_451 : rule_ok in64 false r_mod_451. Proof. rule. Qed.
Lemma ok_mod_452 : rule_ok in64 false r_mod_452. Proof. rule2. Qed.
Lemma ok_mod_454 : rule_ok in64 false r_mod_454. Proof. rule2. Qed.
Lemma ok_mod_456 : rule_ok in64 false r_mod_456. Proof. rule. Qed.
Lemma ok_mod_457 : rule_ok in64 false r_mod_457. Proof. rule. Qed.
Lemma ok_mod_458 : rule_ok in64 false r_mod_458. Proof. rule. Qed.
Lemma ok_equal_599 : rule_ok in64 false r_equal_599. Proof. rule. Qed.
Lemma ok_equal_600 : rule_ok in64 false r_equal_600. Proof. rule. Qed.
Lemma ok_equal_601 : rule_ok in64 false r_equal_601. Proof. rule. Qed.
Lemma ok_equal_604 : rule_ok in64 false r_equal_604. Proof. rule. Qed.
Lemma ok_equal_607 : rule_ok in64 false r_equal_607. Proof. rule. Qed.
Lemma ok_equal_609 : rule_ok in64 false r_equal_609. Proof. rule2. Qed.
Lemma ok_equal_612 : rule_ok in64 false r_equal_612. Proof. rule2. Qed.
Lemma ok_equal_613 : rule_ok in64 false r_equal_613. Proof. rule. Qed.
Lemma ok_equal_614 : rule_ok in64 false r_equal_614. Proof. rule. Qed.
Lemma ok_equal_615 : rule_ok in64 false r_equal_615. Proof. rule. Qed.
Lemma ok_equal_616 : rule_ok in64 false r_equal_616. Proof. rule. Qed.
Lemma ok_equal_618 : rule_ok in64 false r_equal_618. Proof. rule2. Qed.
Lemma ok_equal_620 : rule_ok in64 false r_equal_620. Proof. rule2. Qed.
Lemma ok_equal_622 : rule_ok in64 false r_equal_622. Proof. rule. Qed.
Lemma ok_equal_623 : rule_ok in64 false r_equal_623. Proof. rule. Qed.
Lemma ok_equal_624 : rule_ok in64 false r_equal_624. Proof. rule. Qed.
Lemma ok_equal_625 : rule_ok in64 true r_equal_625. Proof. rule. Qed.
Lemma ok_equal_626 : rule_ok in64 true r_equal_626. Proof. rule. Qed.
Lemma ok_equal_627 : rule_ok in64 false r_equal_627. Proof. rule. Qed.
Lemma ok_equal_628 : rule_ok in64 false r_equal_628. Proof. rule. Qed.
Lemma ok_equal_630 : rule_ok in64 false r_equal_630. Proof. rule. Qed.
Lemma ok_equal_631 : rule_ok in64 false r_equal_631. Proof. rule. Qed.
Lemma ok_equal_633 : rule_ok small false r_equal_633. Proof. ruleC. Qed.
Lemma ok_equal_637 : rule_ok small false r_equal_637. Proof. ruleC. Qed.
Lemma ok_equal_642 : rule_ok in64 false r_equal_642. Proof. rule. Qed.
Lemma ok_equal_643 : rule_ok in64 false r_equal_643. Proof. rule. Qed.
Lemma ok_equal_645 : rule_ok in64 false r_equal_645. Proof. rule. Qed.
Lemma ok_equal_648 : rule_ok in64 false r_equal_648. Proof. rule. Qed.