-Q theories Verif
theories/Base.v
theories/Num.v
theories/Functions.v
theories/Fcm.v
theories/Spec.v
theories/BaseFacts.v
theories/SortFacts.v
theories/RealFacts.v
theories/FunctionsFacts.v
theories/PropFunctions.v
theories/FcmSpec.v
theories/FcmBasics.v
theories/FcmInv.v
theories/FcmInv2.v
theories/FcmInv3.v
theories/FcmIter.v
theories/FcmRun.v
theories/FcmRun2.v
theories/FcmRun3.v
theories/FcmOrder.v
theories/QNum.v
theories/PropFcm.v
theories/PropConcept.v
theories/PropInference.v
theories/VecSpec.v
theories/FcmVec.v
theories/FcmVec2.v
theories/FcmVec3.v
theories/FcmVec4.v
theories/FcmVec5.v
theories/FcmVec6.v
theories/PropVec.v
theories/Loader.v
theories/LoaderSpec.v
theories/LoaderFacts.v
theories/JoinFacts.v
theories/JoinFacts2.v
theories/PropLoader.v
theories/LearnUtils.v
theories/Cmeans.v
theories/RlCmeans.v
theories/Discret.v
theories/LearnSpec.v
theories/LearnFacts.v
theories/CmeansFacts.v
theories/RlFacts.v
theories/DiscretFacts.v
theories/DiscretFacts2.v
theories/PropCluster.v
theories/Assoc.v
theories/Estimator.v
theories/EstInput.v
theories/AssocSpec.v
theories/AssocFacts.v
theories/AssocFacts2.v
theories/AssocFacts3.v
theories/AssocFacts4.v
theories/AssocFacts5.v
theories/FcmView.v
theories/EstFacts.v
theories/EstSpec.v
theories/EstFacts2.v
theories/EstFacts3.v
theories/AssocNames.v
theories/AssocNames2.v
theories/AssocGen.v
theories/AssocPredict.v
theories/AssocResult.v
theories/AssocOrder.v
theories/AssocRange.v
theories/AssocUnique.v
theories/EstFacts4.v
theories/AssocRow.v
theories/AssocLabel.v
theories/EstExamples.v
theories/PropAssoc.v
theories/PropEstimator.v
theories/EstFacts5.v
theories/EstFacts6.v
theories/EstFacts7.v
theories/EstFacts8.v
theories/EstFacts9.v
theories/PropEstimator2.v
theories/PropVec2.v
theories/PropEstimator3.v
theories/DynSpec.v
theories/FcmStop.v
theories/Dynamics.v
theories/Dynamics2.v
theories/Dynamics3.v
theories/FcmTotal.v
theories/FcmTwin.v
theories/Dynamics4.v
theories/PropDynamics.v
theories/Dataset.v
theories/DatasetSpec.v
theories/DatasetFacts.v
theories/DatasetFacts2.v
theories/DatasetFacts3.v
theories/DatasetFacts4.v
theories/PropDataset.v
theories/Plot.v
theories/PlotFacts.v
theories/FuzzyFacts.v
theories/ClusterNames.v
theories/PropPlot.v
theories/RowSpec.v
theories/RowFacts.v
theories/RowFacts2.v
theories/PropRows.v
theories/SepSpec.v
theories/SepFacts.v
theories/SepFacts2.v
theories/SepFacts3.v
theories/SepFacts4.v
theories/SepFacts5.v
theories/SepFacts6.v
theories/PropSeparated.v
theories/SepFacts7.v
theories/SepFacts8.v
theories/SepFacts9.v
theories/PropRectified.v
theories/ClusterSpec.v
theories/CmeansN.v
theories/CmeansNFacts.v
theories/CmeansNOne.v
theories/RlNFacts.v
theories/CmeansDescent.v
theories/CmeansDescent2.v
theories/CmeansDescent3.v
theories/CmeansIso.v
theories/PropClusterN.v
theories/VecDyn.v
theories/PropVec3.v
theories/Pipeline.v
theories/PipeFacts.v
theories/PropPipeline.v
theories/PipeFacts2.v
theories/PipeFacts3.v
theories/PropPipeline2.v
theories/FcmRename.v
theories/FcmRename2.v
theories/PropRename.v
theories/ShiftFacts.v
theories/ShiftFacts2.v
theories/PropShift.v
theories/ColOrder.v
theories/VecOrder.v
theories/ColOrder2.v
theories/ColOrder3.v
theories/PropColumns.v
theories/NameFacts.v
theories/NameFacts2.v
theories/PropNames.v
theories/ScaleFacts.v
theories/ScaleFacts2.v
theories/PropUnits.v
theories/CycleFacts.v
theories/OddFacts.v
theories/PropCycle.v
theories/UnknownFacts.v
theories/PropUnknown.v
theories/JoinFacts3.v
theories/PropJoin.v
theories/JoinFacts4.v
theories/PropJoin2.v
theories/SilFacts.v
theories/PropSilhouette.v
theories/VoteSpec.v
theories/VoteFacts.v
theories/VoteFacts2.v
theories/PropVote.v
theories/WeightSpec.v
theories/WeightFacts.v
theories/PropWeights.v
theories/CfeSpec.v
theories/CfeFacts.v
theories/PropCfe.v
theories/TwinFacts.v
theories/PropTwin.v
theories/PermFacts.v
theories/PropPerm.v
theories/PropJumps.v
theories/FloatNum.v
theories/ConfVectors.v
theories/Conformance.v
theories/ConfReadme.v
