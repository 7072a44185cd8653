-Q theories Verif
theories/ApplySpec.v
theories/BallotProofs.v
theories/BallotSpec.v
theories/BlindProofs.v
theories/BoostProofs.v
theories/CatSearchProofs.v
theories/Conc.v
theories/Dependable.v
theories/Exact.v
theories/F64.v
theories/F64Order.v
theories/F64Round.v
theories/FeatureProofs.v
theories/FeatureSpec.v
theories/FileProofs.v
theories/FileProofs2.v
theories/FileSpec.v
theories/FitSpec.v
theories/GaussProofs.v
theories/Go.v
theories/GoLemmas.v
theories/GrowProofs.v
theories/GrowSpec.v
theories/GrownSpec.v
theories/ImpurityProofs.v
theories/ImpuritySpec.v
theories/JungleProofs.v
theories/JungleShape.v
theories/JungleUsed.v
theories/Leftover.v
theories/LikeSpec.v
theories/Lockstep.v
theories/LockstepTargets.v
theories/MatrixProofs.v
theories/MatrixSpec.v
theories/ModelAlias.v
theories/ModelApply.v
theories/ModelBallot.v
theories/ModelBoost.v
theories/ModelCommands.v
theories/ModelCommands2.v
theories/ModelExport.v
theories/ModelFeature.v
theories/ModelFile.v
theories/ModelFold.v
theories/ModelForest.v
theories/ModelGrow.v
theories/ModelImpurity.v
theories/ModelJungle.v
theories/ModelJungleFile.v
theories/ModelJungleUsed.v
theories/ModelJungleVote.v
theories/ModelList.v
theories/ModelMain.v
theories/ModelMatrix.v
theories/ModelNfold.v
theories/ModelQuoted.v
theories/ModelSample.v
theories/ModelSearch.v
theories/ModelSort.v
theories/ModelSplit.v
theories/ModelSplits.v
theories/ModelStats.v
theories/ModelTargets.v
theories/ModelTargets2.v
theories/ModelTargets3.v
theories/ModelText.v
theories/ModelTree.v
theories/ModelWorkers.v
theories/OrderGrow.v
theories/OrderProofs.v
theories/OrderSearch.v
theories/OrderlessGrow.v
theories/OrderlessSearch.v
theories/OrderlessTargets.v
theories/PropARFF.v
theories/PropAce.v
theories/PropAda.v
theories/PropAdaBound.v
theories/PropAdaCost.v
theories/PropAlias.v
theories/PropApplied.v
theories/PropApply.v
theories/PropBallot.v
theories/PropBooks.v
theories/PropBoost.v
theories/PropByName.v
theories/PropCatSearch.v
theories/PropCommands.v
theories/PropCommands2.v
theories/PropCommands3.v
theories/PropCosts.v
theories/PropDensity.v
theories/PropDepth.v
theories/PropEncode.v
theories/PropFeature.v
theories/PropFeatureSearch.v
theories/PropFile.v
theories/PropFilter.v
theories/PropFit.v
theories/PropFold.v
theories/PropForce.v
theories/PropForests.v
theories/PropGrow.v
theories/PropGrow2.v
theories/PropImpFile.v
theories/PropImpurity.v
theories/PropImpurity2.v
theories/PropImpurity3.v
theories/PropJungle.v
theories/PropJungleFile.v
theories/PropJungleUsed.v
theories/PropJungleVote.v
theories/PropLeafcount.v
theories/PropLeak.v
theories/PropLeftover.v
theories/PropLibSVM.v
theories/PropLibSVM2.v
theories/PropLibSVM3.v
theories/PropLike.v
theories/PropLines.v
theories/PropList.v
theories/PropLoad.v
theories/PropLockstep.v
theories/PropMain.v
theories/PropMatrix.v
theories/PropNewton.v
theories/PropNfold.v
theories/PropNobag.v
theories/PropOob.v
theories/PropOrder.v
theories/PropOrderless.v
theories/PropOrderless2.v
theories/PropPrepare.v
theories/PropQuoted.v
theories/PropRational.v
theories/PropRename.v
theories/PropReport.v
theories/PropRows.v
theories/PropSample.v
theories/PropScore.v
theories/PropSearch.v
theories/PropSize.v
theories/PropSort.v
theories/PropSplit.v
theories/PropSplitMissing.v
theories/PropSplits.v
theories/PropSplitter.v
theories/PropStats.v
theories/PropStats2.v
theories/PropTargets2.v
theories/PropTargets3.v
theories/PropToafm.v
theories/PropTree.v
theories/PropTree2.v
theories/PropTreeCases.v
theories/PropUnlabelled.v
theories/PropVet.v
theories/PropWorkers.v
theories/PropWorkers2.v
theories/Rational.v
theories/RowsProofs.v
theories/SampleProofs.v
theories/SampleSpec.v
theories/SearchProofs.v
theories/SearchSpec.v
theories/SortProofs.v
theories/SortSpec.v
theories/SplitProofs.v
theories/SplitSpec.v
theories/SplitterProofs.v
theories/StatsSpec.v
theories/TargetProofs.v
theories/TextProofs.v
theories/TotalSearch.v
theories/TreeProofs.v
theories/TreeSpec.v
theories/WorkersProofs.v
