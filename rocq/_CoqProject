-Q theories Verif
theories/Base.v
theories/Spec.v
theories/StructNode.v
theories/LitFacts.v
theories/BinaryNode.v
theories/NaryNode.v
theories/Nav.v
theories/Policy.v
theories/Tree.v
theories/RoseFacts.v
theories/RowFacts.v
theories/NavFacts.v
theories/BranchFacts.v
theories/Orders.v
theories/PolicyFacts.v
theories/BinOrder.v
theories/Rep.v
theories/EditSpec.v
theories/BinRep.v
theories/BinOps.v
theories/BinLit.v
theories/BinEdit.v
theories/NaryRep.v
theories/NaryOps.v
theories/NaryOps2.v
theories/NaryEdit.v
theories/Arity.v
theories/User.v
theories/World.v
theories/Stand.v
theories/Kinds.v
theories/Iter.v
theories/IterTrees.v
theories/IterMain.v
theories/NodeFacts.v
theories/SibFacts.v
theories/TreeSpec.v
theories/TreeOps.v
theories/TreeOps2.v
theories/TreeOps3.v
theories/TreeOps4.v
theories/TreeBin.v
theories/TreeNary.v
theories/NaryLast.v
theories/Examples.v
theories/IterProofs.v
theories/PropIter.v
theories/LitList.v
theories/NodeProofs.v
theories/PropNode.v
theories/History.v
theories/TreeFacts.v
theories/Examples2.v
theories/PropTree.v
theories/EditFacts.v
theories/PropEdit.v
theories/PropEditLast.v
theories/PropHist.v
theories/ViewFacts.v
theories/PropView.v
theories/LeafBack.v
theories/LeafIter.v
theories/PropLeaf.v
theories/PruneSpec.v
theories/PredUser.v
theories/PredFacts.v
theories/PredIter.v
theories/PredBin.v
theories/PredProofs.v
theories/EarlySpec.v
theories/EarlyFacts.v
theories/PropPred.v
theories/PropCopy.v
theories/Matcher.v
theories/MatchSpec.v
theories/OptSpec.v
theories/MatchUser.v
theories/MatchFacts.v
theories/MatchWalk.v
theories/MatchResult.v
theories/MatchKinds.v
theories/MatchBin.v
theories/MatchCaps.v
theories/MatchMain.v
theories/WeakFacts.v
theories/PropOpt.v
theories/PropWeak.v
theories/PropMatch.v
theories/Gen.v
theories/GenFacts.v
theories/GenInv.v
theories/Tried.v
theories/GenRun.v
theories/GenNary.v
theories/GenBin.v
theories/GenUser.v
theories/PathSpec.v
theories/PathFacts.v
theories/PropGen.v
theories/Star.v
theories/StarSpec.v
theories/StarLemmas.v
theories/StarWalk.v
theories/StarFacts.v
theories/StarMain.v
theories/PropStar.v
theories/StarResultSpec.v
theories/GenSim.v
theories/StarFlat.v
theories/StarTarget.v
theories/StarResult.v
theories/StarKinds.v
theories/StarMarks.v
theories/StarUnique.v
theories/StarAlone.v
theories/PropStarResult.v
theories/StarPlain.v
theories/StarAloneUser.v
theories/PropStarAlone.v
theories/Print.v
theories/PrintSpec.v
theories/PrintFacts.v
theories/PrintUser.v
theories/PropPrint.v
theories/PropStay.v
theories/Fail.v
theories/FailSpec.v
theories/FailFacts.v
theories/FailUser.v
theories/PropFail.v
theories/Names.v
theories/NameSpec.v
theories/NameFacts.v
theories/PropName.v
theories/LeafSpec.v
theories/LeafStay.v
theories/PropLeafStay.v
theories/BfsStay.v
theories/PropSlots.v
theories/Moves.v
theories/PropMove.v
theories/Values.v
theories/PropValue.v
theories/PropThrow.v
theories/PropSize.v
theories/LeafLaw.v
theories/LeafLawFacts.v
theories/PropLeafLaw.v
theories/RootOver.v
theories/PropRoot.v
theories/PrintAt.v
theories/AddressSpec.v
theories/PrintAtFacts.v
theories/PropAddress.v
theories/Filter.v
theories/FilterFacts.v
theories/PropFilter.v
theories/RootIndex.v
theories/RootIndexFacts.v
theories/PropRootIndex.v
theories/Allocs.v
theories/AllocFacts.v
theories/PropAlloc.v
theories/Threads.v
theories/ThreadFacts.v
theories/PropThread.v
theories/Adopt.v
theories/AdoptFacts.v
theories/PropAdopt.v
theories/AdoptAlloc.v
theories/AdoptAllocFacts.v
theories/PropAdoptAlloc.v
theories/IterFail.v
theories/IterFailFacts.v
theories/PropIterFail.v
theories/QueueFail.v
theories/QueueFailFacts.v
theories/PropQueueFail.v
theories/GenStep.v
theories/PropGenStep.v
theories/ResultFail.v
theories/ResultFailFacts.v
theories/PropResultFail.v
theories/ConvFail.v
theories/PropConvFail.v
theories/StarFail.v
theories/StarFailFacts.v
theories/StarLeak.v
theories/StarTry.v
theories/StarTryKinds.v
theories/PropStarFail.v
theories/GenPre.v
theories/PropGenPre.v
theories/PropGenPreBin.v
theories/PropStarEmpty.v
