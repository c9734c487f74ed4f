-Q theories Verif
theories/ZifyAll.v
theories/Base.v
theories/F64.v
theories/ModelGraph.v
theories/ModelBuilders.v
theories/ModelPartition.v
theories/ModelConn.v
theories/ModelFM.v
theories/ModelAgg.v
theories/ModelMultilevel.v
theories/ModelBisect.v
theories/ModelRecursive.v
theories/ModelApi.v
theories/Spec.v
theories/Logic.v
theories/Sums.v
theories/GraphFacts.v
theories/PartFacts.v
theories/ConnFacts.v
theories/FloatOrder.v
theories/FMFacts.v
theories/HistFacts.v
theories/MiscFacts.v
theories/FloatFacts.v
theories/FloatUse.v
theories/Examples.v
theories/BucketFacts.v
theories/AggFacts.v
theories/BuilderFacts.v
theories/ContractFacts.v
theories/ProjectFacts.v
theories/TwoStepFacts.v
theories/OneStepFacts.v
theories/PropsData.v
theories/PropsCoarsen.v
theories/BisectFacts.v
theories/EvenFacts.v
theories/MultiFacts.v
theories/RandomFacts.v
theories/PropsBisect.v
theories/MultilevelFacts.v
theories/PropsMultilevel.v
theories/SubFacts.v
theories/RecFacts.v
theories/PropsRecursive.v
theories/TargetFacts.v
theories/PropsTarget.v
theories/LabelFacts.v
theories/ApiFacts.v
theories/PropsApi.v
theories/SafeFM.v
theories/SafeML.v
theories/SafeApi.v
theories/PropsSafe.v
theories/PropsValid.v
theories/ModelUtil.v
theories/GridFacts.v
theories/PropsUtil.v
theories/QualityFacts.v
theories/PropsQuality.v
theories/TreeFacts.v
theories/PropsTree.v
theories/NullFacts.v
theories/PropsNull.v
theories/BalanceFacts.v
theories/PropsBalance.v
theories/SmallFacts.v
theories/PropsSmall.v
theories/BoundFacts.v
theories/PowFacts.v
theories/AnyFacts.v
theories/PropsPow.v
theories/PropsAny.v
theories/PropsFour.v
theories/PropsBuild.v
theories/PropsDepth.v
theories/PropsEmpty.v
theories/ModelTimed.v
theories/TimedFacts.v
theories/PropsTimed.v
theories/PropsCuts.v
theories/ModelRandom.v
theories/PropsRandom.v
theories/PropsGrow.v
theories/LimitFacts.v
theories/PropsPass.v
theories/PropsMatch.v
theories/PropsVcycle.v
theories/PropsWhole.v
theories/PropsImb.v
theories/PropsLocal.v
theories/PropsDefault.v
theories/RelLogic.v
theories/ScaleFM.v
theories/ScaleRef.v
theories/ScaleBfs.v
theories/ScaleMl.v
theories/ScaleRec.v
theories/PropsScale.v
theories/PropsFrac.v
theories/PropsMore.v
theories/PropsGrid.v
theories/PropsThree.v
theories/PropsSwap.v
theories/SpreadFacts.v
theories/PropsEight.v
theories/PropsCalls.v
theories/PropsTwo.v
theories/PropsPlain.v
theories/PropsWeighted.v
