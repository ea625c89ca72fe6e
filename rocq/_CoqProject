-Q theories Verif
theories/PyBase.v
theories/Spec.v
theories/ListFacts.v
theories/PermFacts.v
theories/NumericsModel.v
theories/NumericsProofs.v
theories/PhononsModel.v
theories/GroupModel.v
theories/TreeModel.v
theories/HashProofs.v
theories/CanonProofs.v
theories/TreeSearch.v
theories/PermSpec.v
theories/BranchMachine.v
theories/BranchRun.v
theories/BranchTop.v
theories/ColorProofs.v
theories/ArrowProofs.v
theories/DecoFacts.v
theories/ArrowEnum.v
theories/DecoBij.v
theories/BranchProofs.v
theories/BranchTheorems.v
theories/SuperProofs.v
theories/Decide.v
theories/PropertiesTree.v
theories/MultiProofs.v
theories/PropertiesCount.v
theories/Mat3.v
theories/HNFModel.v
theories/TransFacts.v
theories/HNFProofs.v
theories/PropertiesLattice.v
theories/FixturesLattice.v
theories/ConcsModel.v
theories/ConcsProofs.v
theories/PropertiesConcs.v
theories/PolyaModel.v
theories/PolyaSpec.v
theories/Burnside.v
theories/CycleProofs.v
theories/PolyaCount.v
theories/FloatProofs.v
theories/ChooseProofs.v
theories/PolyaCoeff.v
theories/PolyaTerm.v
theories/PolyaSum.v
theories/PolyaMain.v
theories/PolyaThm.v
theories/PolyaUse.v
theories/PropertiesPolya.v
theories/GroupSpec.v
theories/GroupProofs.v
theories/LatGroupModel.v
theories/LatSpec.v
theories/LatFacts.v
theories/LatSites.v
theories/LatProofs.v
theories/LatMain.v
theories/LatTop.v
theories/LatGroupThm.v
theories/TransPerm.v
theories/LatNoDup.v
theories/LatBasis.v
theories/PropertiesGroup.v
theories/SNFModel.v
theories/SNFProofs.v
theories/SNFPass.v
theories/SNFMain.v
theories/SNFTop.v
theories/PropertiesSNF.v
theories/FixturesSNF.v
theories/EnumSysModel.v
theories/DecoProofs.v
theories/SmallProofs.v
theories/EnumSysProofs.v
theories/EnumSysFail.v
theories/EnumSysGuess.v
theories/EnumSysMore.v
theories/PropertiesEnumSys.v
theories/SampleSuper.v
theories/PropertiesSample.v
theories/SuperModel.v
theories/StructSpec.v
theories/StructProofs.v
theories/StructThm.v
theories/LatFirst.v
theories/StructMain.v
theories/StructAll.v
theories/PropertiesStruct.v
theories/DistModel.v
theories/DistSpec.v
theories/DistProofs.v
theories/DistSummary.v
theories/DistMain.v
theories/DistRandom.v
theories/PropertiesDist.v
theories/TextModel.v
theories/TextProofs.v
theories/EnumOutModel.v
theories/EnumOutSpec.v
theories/EnumOutProofs.v
theories/EnumOutRead.v
theories/EnumOutMain.v
theories/PropertiesEnumOut.v
theories/MapModel.v
theories/MapSpec.v
theories/MapProofs.v
theories/MapSites.v
theories/MapDoubles.v
theories/PoscarModel.v
theories/PoscarSpec.v
theories/PoscarProofs.v
theories/ElementProofs.v
theories/PoscarMain.v
theories/MakeStrModel.v
theories/MakeStrSpec.v
theories/MakeStrProofs.v
theories/ConfigProofs.v
theories/PropertiesMakeStr.v
theories/CellModel.v
theories/CellProofs.v
theories/ReduceModel.v
theories/ReduceSpec.v
theories/ReduceGauss.v
theories/ReduceC.v
theories/ReduceMink.v
theories/ReduceNorm.v
theories/PropertiesReduce.v
theories/PointGroupModel.v
theories/PointGroupSpec.v
theories/PointGroupProofs.v
theories/PointGroupMain.v
theories/PropertiesPoint.v
theories/FilesModel.v
theories/FilesProofs.v
theories/FilesMain.v
theories/PropertiesFiles.v
theories/BoxLattice.v
theories/RunModel.v
theories/RunProofs.v
theories/RunSystem.v
theories/RunSpec.v
theories/RunMain.v
theories/RunTop.v
theories/RunSample.v
theories/PropertiesRun.v
theories/LatticeInModel.v
theories/LatticeInSpec.v
theories/LatticeInProofs.v
theories/PropertiesLatticeIn.v
theories/RunText.v
theories/PropertiesRunText.v
theories/PropertiesSetup.v
theories/SetupBasis.v
theories/ScriptModel.v
theories/ScriptProofs.v
theories/ScriptMain.v
theories/PropertiesScript.v
theories/FixturesScript.v
theories/SpaceModel.v
theories/SpaceSpec.v
theories/SpaceProofs.v
theories/SpaceMain.v
theories/SpaceTop.v
theories/SpaceLink.v
theories/PropertiesSpace.v
theories/OrientSpec.v
theories/OrientProofs.v
theories/PropertiesOrient.v
theories/ArrowSuper.v
theories/PropertiesArrowSuper.v
theories/StructArrows.v
theories/PropertiesStructArrows.v
theories/RunArrowDeco.v
theories/RunArrowSystem.v
theories/RunArrowSpec.v
theories/RunArrowOne.v
theories/RunArrowMain.v
theories/RunArrowTop.v
theories/PropertiesRunArrows.v
theories/RunArrowText.v
theories/PropertiesRunArrowsText.v
theories/PropertiesBasisText.v
theories/PropertiesScriptBasis.v
theories/ScriptArrows.v
theories/PropertiesScriptArrows.v
theories/PropertiesDistCommand.v
theories/PropertiesWorkflow.v
theories/PropertiesWorkflowArrows.v
theories/PropertiesRecover.v
theories/ReproProofs.v
theories/PropertiesReproducible.v
theories/PropertiesSampleRun.v
theories/PoscarsModel.v
theories/PropertiesPoscars.v
theories/GroupFileModel.v
theories/GroupFileProofs.v
theories/PropertiesGroupFile.v
theories/StructEnumModel.v
theories/PropertiesStructEnum.v
theories/SurfaceModel.v
theories/PropertiesSurface.v
theories/PropertiesPacking.v
theories/VisualModel.v
theories/VisualProofs.v
theories/PropertiesVisual.v
theories/FixturesTree.v
