(** GENERATED by tools/gen_rule_proofs.py: the value of the replacement refines that of the
    left hand side, for each rewrite rule of simplify_rules.h (tables: add, sub, mul, logical_and, logical_or, logical_not, select, call). *)
From Coq Require Import ZArith List Bool Lia.
From Verif Require Import Arith_Model Arith_Spec Arith_Proofs Expr_Model Expr_Spec Expr_Proofs Rewrite_Model Rewrite_Proofs RuleTac Rules.
Import ListNotations.
Open Scope Z_scope.

Lemma ok_add_281 : rule_ok in64 false r_add_281. Proof. rule. Qed.
Lemma ok_add_282 : rule_ok in64 false r_add_282. Proof. rule. Qed.
Lemma ok_add_283 : rule_ok in64 false r_add_283. Proof. rule. Qed.
Lemma ok_add_284 : rule_ok in64 false r_add_284. Proof. rule. Qed.
Lemma ok_add_285 : rule_ok in64 false r_add_285. Proof. rule. Qed.
Lemma ok_add_286 : rule_ok in64 false r_add_286. Proof. rule. Qed.
Lemma ok_add_287 : rule_ok in64 false r_add_287. Proof. rule. Qed.
Lemma ok_add_288 : rule_ok in64 false r_add_288. Proof. rule. Qed.
Lemma ok_add_289 : rule_ok in64 false r_add_289. Proof. rule. Qed.
Lemma ok_add_290 : rule_ok in64 false r_add_290. Proof. rule. Qed.
Lemma ok_add_291 : rule_ok in64 false r_add_291. Proof. rule. Qed.
Lemma ok_add_292 : rule_ok in64 false r_add_292. Proof. rule. Qed.
Lemma ok_add_293 : rule_ok in64 false r_add_293. Proof. rule. Qed.
Lemma ok_add_294 : rule_ok in64 false r_add_294. Proof. rule. Qed.
Lemma ok_add_296 : rule_ok in64 false r_add_296. Proof. rule. Qed.
Lemma ok_add_297 : rule_ok in64 false r_add_297. Proof. rule. Qed.
Lemma ok_add_299 : rule_ok in64 false r_add_299. Proof. rule2. right. f_equal. replace (z + (q * k0 + k)) with (z + k + k0 * q) by ring. rewrite ediv_shift by auto. ring. Qed.
Lemma ok_add_300 : rule_ok in64 false r_add_300. Proof. rule2. Qed.
Lemma ok_add_302 : rule_ok in64 false r_add_302. Proof. rule. Qed.
Lemma ok_add_303 : rule_ok in64 false r_add_303. Proof. rule. Qed.
Lemma ok_add_304 : rule_ok in64 false r_add_304. Proof. rule. Qed.
Lemma ok_add_305 : rule_ok in64 false r_add_305. Proof. rule. Qed.
Lemma ok_add_306 : rule_ok in64 false r_add_306. Proof. rule. Qed.
Lemma ok_add_307 : rule_ok in64 false r_add_307. Proof. rule. Qed.
Lemma ok_add_309 : rule_ok in64 false r_add_309. Proof. rule. Qed.
Lemma ok_add_310 : rule_ok in64 false r_add_310. Proof. rule. Qed.
Lemma ok_sub_318 : rule_ok in64 false r_sub_318. Proof. rule. Qed.
Lemma ok_sub_319 : rule_ok in64 false r_sub_319. Proof. rule. Qed.
Lemma ok_sub_320 : rule_ok in64 false r_sub_320. Proof. rule. Qed.
Lemma ok_sub_321 : rule_ok in64 false r_sub_321. Proof. rule. Qed.
Lemma ok_sub_322 : rule_ok in64 false r_sub_322. Proof. rule. Qed.
Lemma ok_sub_323 : rule_ok in64 false r_sub_323. Proof. rule2. Qed.
Lemma ok_sub_324 : rule_ok in64 false r_sub_324. Proof. rule. Qed.
Lemma ok_sub_325 : rule_ok in64 false r_sub_325. Proof. rule. Qed.
Lemma ok_sub_326 : rule_ok in64 false r_sub_326. Proof. rule. Qed.
Lemma ok_sub_327 : rule_ok in64 false r_sub_327. Proof. rule. Qed.
Lemma ok_sub_328 : rule_ok in64 false r_sub_328. Proof. rule. Qed.
Lemma ok_sub_329 : rule_ok in64 false r_sub_329. Proof. rule. Qed.
Lemma ok_sub_330 : rule_ok in64 false r_sub_330. Proof. rule. Qed.
Lemma ok_sub_331 : rule_ok in64 false r_sub_331. Proof. rule. Qed.
Lemma ok_sub_332 : rule_ok in64 false r_sub_332. Proof. rule. Qed.
Lemma ok_sub_336 : rule_ok in64 false r_sub_336. Proof. rule2. Qed.
Lemma ok_sub_337 : rule_ok in64 false r_sub_337. Proof. rule2. Qed.
Lemma ok_sub_338 : rule_ok in64 false r_sub_338. Proof. rule2. Qed.
Lemma ok_sub_339 : rule_ok in64 false r_sub_339. Proof. rule2. Qed.
Lemma ok_sub_340 : rule_ok in64 false r_sub_340. Proof. rule2. Qed.
Lemma ok_sub_341 : rule_ok in64 false r_sub_341. Proof. rule2. Qed.
Lemma ok_sub_343 : rule_ok in64 false r_sub_343. Proof. rule. Qed.
Lemma ok_sub_344 : rule_ok in64 false r_sub_344. Proof. rule. Qed.
Lemma ok_sub_345 : rule_ok in64 false r_sub_345. Proof. rule. Qed.
Lemma ok_sub_346 : rule_ok in64 false r_sub_346. Proof. rule. Qed.
Lemma ok_sub_347 : rule_ok in64 false r_sub_347. Proof. rule. Qed.
Lemma ok_sub_348 : rule_ok in64 false r_sub_348. Proof. rule. Qed.
Lemma ok_sub_350 : rule_ok in64 false r_sub_350. Proof. rule. Qed.
Lemma ok_sub_351 : rule_ok in64 false r_sub_351. Proof. rule. Qed.
Lemma ok_sub_352 : rule_ok in64 false r_sub_352. Proof. rule. Qed.
Lemma ok_sub_353 : rule_ok in64 false r_sub_353. Proof. rule. Qed.
Lemma ok_sub_354 : rule_ok in64 false r_sub_354. Proof. rule. Qed.
Lemma ok_sub_355 : rule_ok in64 false r_sub_355. Proof. rule. Qed.
Lemma ok_sub_357 : rule_ok in64 false r_sub_357. Proof. rule. Qed.
Lemma ok_sub_358 : rule_ok in64 false r_sub_358. Proof. rule. Qed.
Lemma ok_sub_359 : rule_ok in64 false r_sub_359. Proof. rule. Qed.
Lemma ok_sub_360 : rule_ok in64 false r_sub_360. Proof. rule. Qed.
Lemma ok_sub_362 : rule_ok in64 false r_sub_362. Proof. rule2. Qed.
Lemma ok_sub_363 : rule_ok in64 false r_sub_363. Proof. rule2. Qed.
Lemma ok_sub_364 : rule_ok in64 false r_sub_364. Proof. rule. Qed.
Lemma ok_sub_365 : rule_ok in64 false r_sub_365. Proof. rule. Qed.
Lemma ok_sub_366 : rule_ok in64 false r_sub_366. Proof. rule. Qed.
Lemma ok_sub_368 : rule_ok in64 false r_sub_368. Proof. rule. Qed.
Lemma ok_sub_369 : rule_ok in64 false r_sub_369. Proof. rule. Qed.
Lemma ok_sub_370 : rule_ok in64 false r_sub_370. Proof. rule. Qed.
Lemma ok_sub_371 : rule_ok in64 false r_sub_371. Proof. rule. Qed.
Lemma ok_sub_372 : rule_ok in64 false r_sub_372. Proof. rule. Qed.
Lemma ok_sub_373 : rule_ok in64 false r_sub_373. Proof. rule. Qed.
Lemma ok_sub_374 : rule_ok in64 false r_sub_374. Proof. rule. Qed.
Lemma ok_sub_375 : rule_ok in64 false r_sub_375. Proof. rule. Qed.
Lemma ok_mul_383 : rule_ok in64 false r_mul_383. Proof. rule. Qed.
Lemma ok_mul_386 : rule_ok in64 false r_mul_386. Proof. rule. Qed.
Lemma ok_mul_389 : rule_ok in64 false r_mul_389. Proof. rule. Qed.
Lemma ok_mul_390 : rule_ok in64 false r_mul_390. Proof. rule. Qed.
Lemma ok_mul_391 : rule_ok in64 false r_mul_391. Proof. rule. Qed.
Lemma ok_mul_392 : rule_ok in64 false r_mul_392. Proof. rule. Qed.
Lemma ok_mul_393 : rule_ok in64 false r_mul_393. Proof. rule. Qed.
Lemma ok_mul_394 : rule_ok in64 false r_mul_394. Proof. rule. Qed.
Lemma ok_mul_396 : rule_ok in64 false r_mul_396. Proof. rule. Qed.
Lemma ok_mul_397 : rule_ok in64 false r_mul_397. Proof. rule. Qed.
Lemma ok_mul_398 : rule_ok in64 false r_mul_398. Proof. rule. Qed.
Lemma ok_logical_and_658 : rule_ok in64 false r_logical_and_658. Proof. rule. Qed.
Lemma ok_logical_and_661 : rule_ok in64 false r_logical_and_661. Proof. rule. Qed.
Lemma ok_logical_and_664 : rule_ok in64 false r_logical_and_664. Proof. rule. Qed.
Lemma ok_logical_and_665 : rule_ok in64 false r_logical_and_665. Proof. rule. Qed.
Lemma ok_logical_and_667 : rule_ok in64 false r_logical_and_667. Proof. rule. Qed.
Lemma ok_logical_and_668 : rule_ok in64 false r_logical_and_668. Proof. rule. Qed.
Lemma ok_logical_and_669 : rule_ok in64 false r_logical_and_669. Proof. rule. Qed.
Lemma ok_logical_and_670 : rule_ok in64 false r_logical_and_670. Proof. rule. Qed.
Lemma ok_logical_and_672 : rule_ok in64 false r_logical_and_672. Proof. rule. Qed.
Lemma ok_logical_and_673 : rule_ok in64 false r_logical_and_673. Proof. rule. Qed.
Lemma ok_logical_and_674 : rule_ok in64 false r_logical_and_674. Proof. rule. Qed.
Lemma ok_logical_and_675 : rule_ok in64 false r_logical_and_675. Proof. rule. Qed.
Lemma ok_logical_and_676 : rule_ok in64 false r_logical_and_676. Proof. rule. Qed.
Lemma ok_logical_and_677 : rule_ok in64 false r_logical_and_677. Proof. rule. Qed.
Lemma ok_logical_and_678 : rule_ok in64 false r_logical_and_678. Proof. rule. Qed.
Lemma ok_logical_and_679 : rule_ok in64 false r_logical_and_679. Proof. rule. Qed.
Lemma ok_logical_and_680 : rule_ok in64 false r_logical_and_680. Proof. rule. Qed.
Lemma ok_logical_and_681 : rule_ok in64 false r_logical_and_681. Proof. rule. Qed.
Lemma ok_logical_and_685 : rule_ok in64 false r_logical_and_685. Proof. rule. Qed.
Lemma ok_logical_and_686 : rule_ok in64 false r_logical_and_686. Proof. rule. Qed.
Lemma ok_logical_and_687 : rule_ok in64 false r_logical_and_687. Proof. rule. Qed.
Lemma ok_logical_and_688 : rule_ok in64 false r_logical_and_688. Proof. rule. Qed.
Lemma ok_logical_and_689 : rule_ok in64 false r_logical_and_689. Proof. rule. Qed.
Lemma ok_logical_and_690 : rule_ok in64 false r_logical_and_690. Proof. rule. Qed.
Lemma ok_logical_and_691 : rule_ok in64 false r_logical_and_691. Proof. rule. Qed.
Lemma ok_logical_and_692 : rule_ok in64 false r_logical_and_692. Proof. rule. Qed.
Lemma ok_logical_and_695 : rule_ok in64 false r_logical_and_695. Proof. rule. Qed.
Lemma ok_logical_and_696 : rule_ok in64 false r_logical_and_696. Proof. rule. Qed.
Lemma ok_logical_and_697 : rule_ok in64 false r_logical_and_697. Proof. rule. Qed.
Lemma ok_logical_and_698 : rule_ok in64 false r_logical_and_698. Proof. rule. Qed.
Lemma ok_logical_and_701 : rule_ok in64 false r_logical_and_701. Proof. rule. Qed.
Lemma ok_logical_and_702 : rule_ok in64 false r_logical_and_702. Proof. rule. Qed.
Lemma ok_logical_and_703 : rule_ok in64 false r_logical_and_703. Proof. rule. Qed.
Lemma ok_logical_and_706 : rule_ok in64 false r_logical_and_706. Proof. rule. Qed.
Lemma ok_logical_and_710 : rule_ok in64 false r_logical_and_710. Proof. rule. Qed.
Lemma ok_logical_and_711 : rule_ok in64 false r_logical_and_711. Proof. rule. Qed.
Lemma ok_logical_and_712 : rule_ok in64 false r_logical_and_712. Proof. rule. Qed.
Lemma ok_logical_and_715 : rule_ok in64 false r_logical_and_715. Proof. rule. Qed.
Lemma ok_logical_or_726 : rule_ok in64 false r_logical_or_726. Proof. rule. Qed.
Lemma ok_logical_or_729 : rule_ok in64 false r_logical_or_729. Proof. rule. Qed.
Lemma ok_logical_or_732 : rule_ok in64 false r_logical_or_732. Proof. rule. Qed.
Lemma ok_logical_or_733 : rule_ok in64 false r_logical_or_733. Proof. rule. Qed.
Lemma ok_logical_or_735 : rule_ok in64 false r_logical_or_735. Proof. rule. Qed.
Lemma ok_logical_or_736 : rule_ok in64 false r_logical_or_736. Proof. rule. Qed.
Lemma ok_logical_or_737 : rule_ok in64 false r_logical_or_737. Proof. rule. Qed.
Lemma ok_logical_or_738 : rule_ok in64 false r_logical_or_738. Proof. rule. Qed.
Lemma ok_logical_or_742 : rule_ok in64 false r_logical_or_742. Proof. rule. Qed.
Lemma ok_logical_or_743 : rule_ok in64 false r_logical_or_743. Proof. rule. Qed.
Lemma ok_logical_or_744 : rule_ok in64 false r_logical_or_744. Proof. rule. Qed.
Lemma ok_logical_or_745 : rule_ok in64 false r_logical_or_745. Proof. rule. Qed.
Lemma ok_logical_or_746 : rule_ok in64 false r_logical_or_746. Proof. rule. Qed.
Lemma ok_logical_or_747 : rule_ok in64 false r_logical_or_747. Proof. rule. Qed.
Lemma ok_logical_or_748 : rule_ok in64 false r_logical_or_748. Proof. rule. Qed.
Lemma ok_logical_or_750 : rule_ok in64 false r_logical_or_750. Proof. rule. Qed.
Lemma ok_logical_or_751 : rule_ok in64 false r_logical_or_751. Proof. rule. Qed.
Lemma ok_logical_or_752 : rule_ok in64 false r_logical_or_752. Proof. rule. Qed.
Lemma ok_logical_or_753 : rule_ok in64 false r_logical_or_753. Proof. rule. Qed.
Lemma ok_logical_or_754 : rule_ok in64 false r_logical_or_754. Proof. rule. Qed.
Lemma ok_logical_or_755 : rule_ok in64 false r_logical_or_755. Proof. rule. Qed.
Lemma ok_logical_or_756 : rule_ok in64 false r_logical_or_756. Proof. rule. Qed.
Lemma ok_logical_or_757 : rule_ok in64 false r_logical_or_757. Proof. rule. Qed.
Lemma ok_logical_or_760 : rule_ok in64 false r_logical_or_760. Proof. rule. Qed.
Lemma ok_logical_or_761 : rule_ok in64 false r_logical_or_761. Proof. rule. Qed.
Lemma ok_logical_or_762 : rule_ok in64 false r_logical_or_762. Proof. rule. Qed.
Lemma ok_logical_or_763 : rule_ok in64 false r_logical_or_763. Proof. rule. Qed.
Lemma ok_logical_or_766 : rule_ok in64 false r_logical_or_766. Proof. rule. Qed.
Lemma ok_logical_or_769 : rule_ok in64 false r_logical_or_769. Proof. rule. Qed.
Lemma ok_logical_or_772 : rule_ok in64 false r_logical_or_772. Proof. rule. Qed.
Lemma ok_logical_or_773 : rule_ok in64 false r_logical_or_773. Proof. rule. Qed.
Lemma ok_logical_or_775 : rule_ok in64 false r_logical_or_775. Proof. rule. Qed.
Lemma ok_logical_or_778 : rule_ok in64 false r_logical_or_778. Proof. rule. Qed.
Lemma ok_logical_or_781 : rule_ok in64 false r_logical_or_781. Proof. rule. Qed.
Lemma ok_logical_or_782 : rule_ok in64 false r_logical_or_782. Proof. rule. Qed.
Lemma ok_logical_or_786 : rule_ok in64 false r_logical_or_786. Proof. rule. Qed.
Lemma ok_logical_or_787 : rule_ok in64 false r_logical_or_787. Proof. rule. Qed.
Lemma ok_logical_not_795 : rule_ok in64 false r_logical_not_795. Proof. rule. Qed.
Lemma ok_logical_not_796 : rule_ok in64 false r_logical_not_796. Proof. rule. Qed.
Lemma ok_logical_not_797 : rule_ok in64 false r_logical_not_797. Proof. rule. Qed.
Lemma ok_logical_not_798 : rule_ok in64 false r_logical_not_798. Proof. rule. Qed.
Lemma ok_logical_not_799 : rule_ok in64 false r_logical_not_799. Proof. rule. Qed.
Lemma ok_logical_not_801 : rule_ok in64 false r_logical_not_801. Proof. rule. Qed.
Lemma ok_logical_not_802 : rule_ok in64 false r_logical_not_802. Proof. rule. Qed.
Lemma ok_logical_not_803 : rule_ok in64 false r_logical_not_803. Proof. rule. Qed.
Lemma ok_logical_not_804 : rule_ok in64 false r_logical_not_804. Proof. rule. Qed.
Lemma ok_select_811 : rule_ok in64 false r_select_811. Proof. rule. Qed.
Lemma ok_select_812 : rule_ok in64 false r_select_812. Proof. rule. Qed.
Lemma ok_select_815 : rule_ok in64 false r_select_815. Proof. rule. Qed.
Lemma ok_select_816 : rule_ok in64 false r_select_816. Proof. rule. Qed.
Lemma ok_select_817 : rule_ok in64 false r_select_817. Proof. rule. Qed.
Lemma ok_select_818 : rule_ok in64 false r_select_818. Proof. rule. Qed.
Lemma ok_select_819 : rule_ok in64 false r_select_819. Proof. rule. Qed.
Lemma ok_select_820 : rule_ok in64 false r_select_820. Proof. rule. Qed.
Lemma ok_select_821 : rule_ok in64 false r_select_821. Proof. rule. Qed.
Lemma ok_select_823 : rule_ok in64 false r_select_823. Proof. rule. Qed.
Lemma ok_select_824 : rule_ok in64 false r_select_824. Proof. rule. Qed.
Lemma ok_select_825 : rule_ok in64 false r_select_825. Proof. rule. Qed.
Lemma ok_select_826 : rule_ok in64 false r_select_826. Proof. rule. Qed.
Lemma ok_select_827 : rule_ok in64 true r_select_827. Proof. rule. Qed.
Lemma ok_select_828 : rule_ok in64 true r_select_828. Proof. rule. Qed.
Lemma ok_select_829 : rule_ok in64 true r_select_829. Proof. rule. Qed.
Lemma ok_select_830 : rule_ok in64 true r_select_830. Proof. rule. Qed.
Lemma ok_select_831 : rule_ok in64 false r_select_831. Proof. rule. Qed.
Lemma ok_select_832 : rule_ok in64 false r_select_832. Proof. rule. Qed.
Lemma ok_select_833 : rule_ok in64 true r_select_833. Proof. rule. Qed.
Lemma ok_select_834 : rule_ok in64 true r_select_834. Proof. rule. Qed.
Lemma ok_select_835 : rule_ok in64 true r_select_835. Proof. rule. Qed.
Lemma ok_select_836 : rule_ok in64 true r_select_836. Proof. rule. Qed.
Lemma ok_select_839 : rule_ok in64 false r_select_839. Proof. rule. Qed.
Lemma ok_select_840 : rule_ok in64 false r_select_840. Proof. rule. Qed.
Lemma ok_select_841 : rule_ok in64 false r_select_841. Proof. rule. Qed.
Lemma ok_select_842 : rule_ok in64 false r_select_842. Proof. rule. Qed.
Lemma ok_select_843 : rule_ok in64 false r_select_843. Proof. rule. Qed.
Lemma ok_select_844 : rule_ok in64 false r_select_844. Proof. rule. Qed.
Lemma ok_select_845 : rule_ok in64 false r_select_845. Proof. rule. Qed.
Lemma ok_select_846 : rule_ok in64 false r_select_846. Proof. rule. Qed.
Lemma ok_select_849 : rule_ok in64 false r_select_849. Proof. rule. Qed.
Lemma ok_select_850 : rule_ok in64 false r_select_850. Proof. rule. Qed.
Lemma ok_select_851 : rule_ok in64 false r_select_851. Proof. rule. Qed.
Lemma ok_select_852 : rule_ok in64 false r_select_852. Proof. rule. Qed.
Lemma ok_select_853 : rule_ok in64 false r_select_853. Proof. rule. Qed.
Lemma ok_select_854 : rule_ok in64 false r_select_854. Proof. rule. Qed.
Lemma ok_select_855 : rule_ok in64 false r_select_855. Proof. rule. Qed.
Lemma ok_select_856 : rule_ok in64 false r_select_856. Proof. rule. Qed.
Lemma ok_call_864 : rule_ok in64 false r_call_864. Proof. rule. Qed.
Lemma ok_call_865 : rule_ok in64 false r_call_865. Proof. rule. Qed.
Lemma ok_call_866 : rule_ok in64 false r_call_866. Proof. rule. Qed.
Lemma ok_call_867 : rule_ok in64 false r_call_867. Proof. rule. Qed.
Lemma ok_call_868 : rule_ok in64 false r_call_868. Proof. rule. Qed.
Lemma ok_call_869 : rule_ok in64 false r_call_869. Proof. rule. Qed.
Lemma ok_call_871 : rule_ok in64 false r_call_871. Proof. rule. Qed.
Lemma ok_call_872 : rule_ok in64 false r_call_872. Proof. rule. Qed.
Lemma ok_call_873 : rule_ok in64 false r_call_873. Proof. rule. Qed.
Lemma ok_call_875 : rule_ok in64 false r_call_875. Proof. rule. Qed.
Lemma ok_call_876 : rule_ok in64 false r_call_876. Proof. rule. Qed.