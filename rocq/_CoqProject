-Q theories Verif
theories/Arith_Model.v
theories/Arith_Spec.v
theories/Arith_Proofs.v
theories/Arith_Props.v
theories/ModRem_Model.v
theories/ModRem_Proofs.v
theories/ModRem_Props.v
theories/Pool_Model.v
theories/Pool_Proofs.v
theories/Pool_Live.v
theories/Pool_Props.v
theories/Base_Model.v
theories/Base_Proofs.v
theories/Base_Props.v
theories/Buf_Model.v
theories/Buf_Spec.v
theories/Buf_Proofs.v
theories/BufSlice_Proofs.v
theories/Buf_Props.v
theories/Alloc_Model.v
theories/Alloc_Proofs.v
theories/Alloc_Props.v
theories/Expr_Model.v
theories/Expr_Spec.v
theories/Expr_Proofs.v
theories/Match_Model.v
theories/Match_Proofs.v
theories/Expr_Props.v
theories/Rewrite_Model.v
theories/Rewrite_Proofs.v
theories/RewriteMatch_Proofs.v
theories/RewriteApply_Proofs.v
theories/RuleTac.v
theories/Rules.v
theories/RulesMin_Proofs.v
theories/RulesMax_Proofs.v
theories/RulesLess_Proofs.v
theories/RulesDiv_Proofs.v
theories/RulesRest_Proofs.v
theories/RulesAll_Proofs.v
theories/Rewrite_Props.v
theories/Simplify_Model.v
theories/Simplify_Proofs.v
theories/Simplify_Props.v
theories/Const_Model.v
theories/Const_Proofs.v
theories/Const_Props.v
theories/Stmt_Model.v
theories/Stmt_Spec.v
theories/Stmt_Proofs.v
theories/StmtLoop_Proofs.v
theories/Stmt_Props.v
theories/ForEach_Model.v
theories/ForEach_Spec.v
theories/ForEach_Proofs.v
theories/ForEachPlan_Proofs.v
theories/ForEach_Props.v
theories/BufDims_Spec.v
theories/BufDims_Proofs.v
theories/BufDims_Props.v
theories/Copy_Model.v
theories/Copy_Spec.v
theories/Copy_Proofs.v
theories/CopyPad_Proofs.v
theories/Copy_Props.v
theories/RefCount_Model.v
theories/RefCount_Spec.v
theories/RefCount_Proofs.v
theories/RefCount_Props.v
theories/Interval_Model.v
theories/Interval_Spec.v
theories/Interval_Props.v
theories/BoundsOf_Model.v
theories/BoundsOf_Spec.v
theories/BoundsOf_Proofs.v
theories/BoundsOf_Props.v
theories/Deps_Model.v
theories/Deps_Spec.v
theories/Deps_Proofs.v
theories/DepsStmt_Proofs.v
theories/DepsExec_Proofs.v
theories/Deps_Props.v
theories/Closure_Model.v
theories/Closure_Props.v
theories/Subst_Model.v
theories/Subst_Spec.v
theories/SubstMean_Proofs.v
theories/SubstEval_Proofs.v
theories/Subst_Props.v
theories/SubstBuffer_Props.v
theories/Knowledge_Model.v
theories/Knowledge_Spec.v
theories/Knowledge_Proofs.v
theories/Knowledge_Props.v
theories/Simplifier_Model.v
theories/Simplifier_Spec.v
theories/Simplifier_Proofs.v
theories/SimplifierMono_Proofs.v
theories/SimplifierRules_Proofs.v
theories/SimplifierGuard_Model.v
theories/SimplifierGuard_Spec.v
theories/SimplifierGuard_Proofs.v
theories/SimplifierSound_Proofs.v
theories/SimplifierApi_Proofs.v
theories/SimplifierCheck_Model.v
theories/SimplifierCheck_Proofs.v
theories/Simplifier_Props.v
theories/AtomicWait_Model.v
theories/AtomicWait_Spec.v
theories/AtomicWait_Proofs.v
theories/AtomicWaitFutex_Model.v
theories/AtomicWaitFutex_Spec.v
theories/AtomicWaitFutex_Proofs.v
theories/AtomicWaitFutex_Props.v
theories/AtomicWaitCondvar_Model.v
theories/AtomicWaitCondvar_Spec.v
theories/AtomicWaitCondvar_Proofs.v
theories/AtomicWaitCondvar_Props.v
theories/StmtMatch_Model.v
theories/StmtMatch_Spec.v
theories/StmtMatch_Proofs.v
theories/StmtMatch_Props.v
theories/EarlyFree_Model.v
theories/EarlyFree_Spec.v
theories/EarlyFree_Proofs.v
theories/EarlyFree_Props.v
theories/CopyStmt_Model.v
theories/CopyStmt_Spec.v
theories/CopyStmt_Proofs.v
theories/EvalPart_Proofs.v
theories/CopyBox_Proofs.v
theories/CopyPass_Proofs.v
theories/CopyExec_Proofs.v
theories/CopyMem_Proofs.v
theories/CopyStmt_Props.v
theories/VSem_Spec.v
theories/VMono_Proofs.v
theories/VSem_Proofs.v
theories/VExec_Proofs.v
theories/VSem_Props.v
theories/VRef_Proofs.v
theories/StmtSubst_Model.v
theories/StmtSubst_Spec.v
theories/StmtSubst_Proofs.v
theories/StmtSubst2_Proofs.v
theories/StmtSubst3_Proofs.v
theories/StmtSubst_Props.v
theories/OptSym_Model.v
theories/OptSym_Spec.v
theories/OptSym_Proofs.v
theories/OptSym2_Proofs.v
theories/OptSym_Props.v
theories/Deshadow_Model.v
theories/Deshadow_Spec.v
theories/Deshadow_Proofs.v
theories/Deshadow2_Proofs.v
theories/Deshadow3_Proofs.v
theories/Deshadow4_Proofs.v
theories/Deshadow5_Proofs.v
theories/Deshadow_Props.v
theories/VFrame_Proofs.v
theories/FuseSib_Model.v
theories/FuseSib_Spec.v
theories/FuseSib_Proofs.v
theories/FuseSib2_Proofs.v
theories/FuseSib_Props.v
theories/PureDims_Model.v
theories/PureDims_Spec.v
theories/PureDims_Proofs.v
theories/PureDims2_Proofs.v
theories/PureDims_Props.v
theories/Sched_Model.v
theories/Sched_Spec.v
theories/Sched_Proofs.v
theories/Sched2_Proofs.v
theories/Sched3_Proofs.v
theories/Sched4_Proofs.v
theories/Sched_Props.v
theories/Layout_Model.v
theories/Layout_Spec.v
theories/Layout_Proofs.v
theories/Layout_Props.v
theories/Build_Model.v
theories/Build_Spec.v
theories/Build_Proofs.v
theories/Build2_Proofs.v
theories/Build_Props.v
theories/Infer_Model.v
theories/Infer_Spec.v
theories/Infer_Proofs.v
theories/Infer_Props.v
theories/Slide_Model.v
theories/Slide_Spec.v
theories/Slide_Proofs.v
theories/Slide_Props.v
theories/Tile_Model.v
theories/Tile_Spec.v
theories/Tile_Proofs.v
theories/Tile_Props.v
theories/Par_Model.v
theories/Par_Spec.v
theories/Par_Proofs.v
theories/Par2_Proofs.v
theories/Par3_Proofs.v
theories/Par_Props.v
theories/Sema_Model.v
theories/Sema_Spec.v
theories/Sema_Proofs.v
theories/Sema2_Proofs.v
theories/Sema3_Proofs.v
theories/Sema4_Proofs.v
theories/Sema5_Proofs.v
theories/Sema_Props.v
theories/Concat_Model.v
theories/Concat_Spec.v
theories/Concat_Proofs.v
theories/Concat2_Proofs.v
theories/Concat3_Proofs.v
theories/Concat4_Proofs.v
theories/Concat5_Proofs.v
theories/Concat_Props.v
theories/Crops_Model.v
theories/Crops_Spec.v
theories/Crops_Proofs.v
theories/Crops2_Proofs.v
theories/Crops3_Proofs.v
theories/Crops4_Proofs.v
theories/Crops_Props.v
theories/San_Model.v
theories/San_Spec.v
theories/San_Proofs.v
theories/San2_Proofs.v
theories/San_Props.v
theories/Uncrop_Model.v
theories/Uncrop_Spec.v
theories/Uncrop_Proofs.v
theories/Uncrop_Props.v
theories/Trace_Model.v
theories/Trace_Spec.v
theories/Trace_Proofs.v
theories/Trace_Props.v
