-Q theories Verif
theories/Base.v
theories/F64.v
theories/HistSpec.v
theories/OrderSpec.v
theories/RingModel.v
theories/MinMaxModel.v
theories/MinMaxProof.v
theories/PropsMinMax.v
theories/MultisetSpec.v
theories/SortLib.v
theories/AvlModel.v
theories/AvlProof.v
theories/RbModel.v
theories/RbProof.v
theories/PropsTree.v
theories/SkipModel.v
theories/SkipProof.v
theories/PropsSkip.v
theories/FloatR.v
theories/QuantileModel.v
theories/QuantileSpec.v
theories/QuantileProof.v
theories/PropsQuantile.v
theories/HeapModel.v
theories/HeapProof.v
theories/HeapMedProof.v
theories/HeapSpec.v
theories/HeapReach.v
theories/PropsHeap.v
theories/MathModel.v
theories/MathProof.v
theories/NumModel.v
theories/MomentModel.v
theories/MomentSpec.v
theories/RealLib.v
theories/MomentProof.v
theories/EwmProof.v
theories/MetricProof.v
theories/NumRel.v
theories/PropsMoment.v
theories/PowFloat.v
theories/StdFloat.v
theories/PropsStd.v
theories/JointModel.v
theories/JointSpec.v
theories/TupleProof.v
theories/JointProof.v
theories/JointHist.v
theories/JointMetric.v
theories/JointValue.v
theories/JointConf.v
theories/JointRel.v
theories/AliasModel.v
theories/AliasProof.v
theories/PropsJoint.v
theories/ReservoirModel.v
theories/ReservoirProof.v
theories/ReservoirMem.v
theories/PropsReservoir.v
theories/ConcModel.v
theories/ConcProof.v
theories/LockModel.v
theories/LockProof.v
theories/ConcRun.v
theories/PropsConc.v
theories/AggModel.v
theories/AggProof.v
theories/NameModel.v
theories/NameProof.v
theories/PropsAgg.v
theories/ClearProof.v
theories/HeapClear.v
theories/SkipClear.v
theories/SkipDup.v
theories/SkipQuant.v
theories/PropsSkipDup.v
theories/SkipReset.v
theories/PropsClear.v
theories/EffModel.v
theories/EffProof.v
theories/PropsEff.v
theories/CoreInv.v
theories/FloatMean.v
theories/FloatErr.v
theories/PropsFloat.v
theories/NanCore.v
theories/PropsNan.v
theories/TotalProof.v
theories/TotalQuant.v
theories/TotalHeap.v
theories/PropsTotal.v
theories/PropsMemory.v
theories/QuantOrder.v
theories/PropsQuantOrder.v
theories/LawProof.v
theories/OrderLaw.v
theories/PropsLaws.v
theories/ConstProof.v
theories/PropsConst.v
theories/ShareModel.v
theories/ShareProof.v
theories/JointShare.v
theories/PropsShare.v
theories/CostModel.v
theories/CostErase.v
theories/CostTree.v
theories/CostQuant.v
theories/CostHeap.v
theories/CostMinMax.v
theories/CostCore.v
theories/PropsCost.v
theories/LagProof.v
theories/IneqProof.v
theories/PropsCross.v
theories/SkipCost.v
theories/SkipCost2.v
theories/SkipProb.v
theories/SkipExp.v
theories/SkipGrid.v
theories/SkipQuantCost.v
theories/PropsSkipCost.v
theories/StrModel.v
theories/StrProof.v
theories/PropsString.v
theories/CfgModel.v
theories/CfgProof.v
theories/PropsCfg.v
theories/EwmErr.v
theories/PropsEwm.v
theories/JointErr.v
theories/JointRun.v
theories/JointVal.v
theories/JointAcc.v
theories/JointEwm.v
theories/PropsCovErr.v
theories/JointSym.v
theories/PropsSym.v
theories/SelfArith.v
theories/SelfCorr.v
theories/PropsSelf.v
theories/JointNan.v
theories/PropsJointNan.v
theories/NegArith.v
theories/NegCore.v
theories/NegJoint.v
theories/PropsNeg.v
theories/ScaleArith.v
theories/ScaleStep.v
theories/ScaleSum.v
theories/TwoCores.v
theories/ScaleRun.v
theories/PropsScale.v
theories/QuantAcc.v
theories/PropsQuantAcc.v
theories/RvLockModel.v
theories/PropsRvConc.v
theories/PropsMedianAcc.v
theories/PropsEwmNan.v
theories/PropsWindow.v
theories/PropsMono.v
theories/PropsRobust.v
theories/PropsStable.v
theories/PropsToward.v
theories/PropsStdStable.v
theories/PropsBest.v
theories/PropsStableLin.v
theories/PropsRange.v
theories/PropsBreak.v
theories/PropsEwmRange.v
theories/PropsParams.v
theories/PropsCovRange.v
theories/PropsDeque.v
