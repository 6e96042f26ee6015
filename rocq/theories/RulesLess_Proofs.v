(** GENERATED by tools/gen_rule_proofs.py: the value of the replacement refines that of the
    left hand side, for each rewrite rule of simplify_rules.h (tables: less). *)
From Coq Require Import ZArith List Bool Lia.
From Verif Require Import Arith_Model Arith_Spec Arith_Proofs Expr_Model Expr_Spec Expr_Proofs Rewrite_Model Rewrite_Proofs RuleTac Rules.
Import ListNotations.
Open Scope Z_scope.

Lemma ok_less_465 : rule_ok in64 false r_less_465. Proof. rule. Qed.
Lemma ok_less_466 : rule_ok in64 false r_less_466. Proof. rule. Qed.
Lemma ok_less_467 : rule_ok in64 false r_less_467. Proof. rule. Qed.
Lemma ok_less_468 : rule_ok in64 false r_less_468. Proof. rule. Qed.
Lemma ok_less_469 : rule_ok in64 false r_less_469. Proof. rule. Qed.
Lemma ok_less_470 : rule_ok in64 false r_less_470. Proof. rule. Qed.
Lemma ok_less_471 : rule_ok in64 false r_less_471. Proof. rule. Qed.
Lemma ok_less_478 : rule_ok in64 false r_less_478. Proof. rule. Qed.
Lemma ok_less_479 : rule_ok in64 false r_less_479. Proof. rule. Qed.
Lemma ok_less_482 : rule_ok in64 false r_less_482. Proof. rule. Qed.
Lemma ok_less_484 : rule_ok in64 false r_less_484. Proof. rule. Qed.
Lemma ok_less_485 : rule_ok in64 false r_less_485. Proof. rule. Qed.
Lemma ok_less_486 : rule_ok in64 false r_less_486. Proof. rule. Qed.
Lemma ok_less_490 : rule_ok in64 false r_less_490. Proof. rule2. Qed.
Lemma ok_less_491 : rule_ok in64 false r_less_491. Proof. rule2. Qed.
Lemma ok_less_492 : rule_ok in64 false r_less_492. Proof. rule2. Qed.
Lemma ok_less_495 : rule_ok in64 false r_less_495. Proof. rule2. Qed.
Lemma ok_less_499 : rule_ok in64 false r_less_499. Proof. rule2. Qed.
Lemma ok_less_502 : rule_ok in64 false r_less_502. Proof. rule2. Qed.
Lemma ok_less_507 : rule_ok small false r_less_507. Proof. ruleS. Qed.
Lemma ok_less_511 : rule_ok in64 false r_less_511. Proof. rule. Qed.
Lemma ok_less_514 : rule_ok in64 false r_less_514. Proof. rule2. Qed.
Lemma ok_less_517 : rule_ok in64 false r_less_517. Proof. rule2. Qed.
Lemma ok_less_521 : rule_ok in64 false r_less_521. Proof. rule2. Qed.
Lemma ok_less_524 : rule_ok in64 false r_less_524. Proof. rule2. Qed.
Lemma ok_less_535 : rule_ok in64 false r_less_535. Proof. rule. Qed.
Lemma ok_less_536 : rule_ok in64 false r_less_536. Proof. rule. Qed.
Lemma ok_less_537 : rule_ok in64 false r_less_537. Proof. rule. Qed.
Lemma ok_less_538 : rule_ok in64 false r_less_538. Proof. rule. Qed.
Lemma ok_less_541 : rule_ok in64 false r_less_541. Proof. rule. Qed.
Lemma ok_less_542 : rule_ok in64 false r_less_542. Proof. rule. Qed.
Lemma ok_less_543 : rule_ok in64 false r_less_543. Proof. rule. Qed.
Lemma ok_less_544 : rule_ok in64 false r_less_544. Proof. rule. Qed.
Lemma ok_less_549 : rule_ok in64 false r_less_549. Proof. rule. Qed.
Lemma ok_less_550 : rule_ok in64 false r_less_550. Proof. rule. Qed.
Lemma ok_less_551 : rule_ok in64 false r_less_551. Proof. rule. Qed.
Lemma ok_less_554 : rule_ok in64 false r_less_554. Proof. rule. Qed.
Lemma ok_less_555 : rule_ok in64 false r_less_555. Proof. rule. Qed.
Lemma ok_less_556 : rule_ok in64 false r_less_556. Proof. rule. Qed.
Lemma ok_less_558 : rule_ok in64 false r_less_558. Proof. rule. Qed.
Lemma ok_less_559 : rule_ok in64 false r_less_559. Proof. rule. Qed.
Lemma ok_less_560 : rule_ok in64 false r_less_560. Proof. rule. Qed.
Lemma ok_less_562 : rule_ok in64 false r_less_562. Proof. rule. Qed.
Lemma ok_less_566 : rule_ok in64 false r_less_566. Proof. rule. Qed.
Lemma ok_less_567 : rule_ok in64 false r_less_567. Proof. rule. Qed.
Lemma ok_less_568 : rule_ok in64 false r_less_568. Proof. rule. Qed.
Lemma ok_less_569 : rule_ok in64 false r_less_569. Proof. rule. Qed.
Lemma ok_less_571 : rule_ok in64 false r_less_571. Proof. rule. Qed.
Lemma ok_less_572 : rule_ok in64 false r_less_572. Proof. rule. Qed.
Lemma ok_less_573 : rule_ok in64 false r_less_573. Proof. rule. Qed.
Lemma ok_less_574 : rule_ok in64 false r_less_574. Proof. rule. Qed.
Lemma ok_less_577 : rule_ok in64 false r_less_577. Proof. rule. Qed.
Lemma ok_less_578 : rule_ok in64 false r_less_578. Proof. rule. Qed.
Lemma ok_less_579 : rule_ok in64 false r_less_579. Proof. rule. Qed.
Lemma ok_less_580 : rule_ok in64 false r_less_580. Proof. rule. Qed.
Lemma ok_less_582 : rule_ok in64 false r_less_582. Proof. rule. Qed.
Lemma ok_less_583 : rule_ok in64 false r_less_583. Proof. rule. Qed.
Lemma ok_less_584 : rule_ok in64 false r_less_584. Proof. rule. Qed.
Lemma ok_less_585 : rule_ok in64 false r_less_585. Proof. rule. Qed.
Lemma ok_less_586 : rule_ok in64 false r_less_586. Proof. rule2. Qed.
Lemma ok_less_589 : rule_ok in64 false r_less_589. Proof. rule. Qed.
Lemma ok_less_590 : rule_ok in64 false r_less_590. Proof. rule. Qed.
Lemma ok_less_591 : rule_ok in64 false r_less_591. Proof. rule. Qed.