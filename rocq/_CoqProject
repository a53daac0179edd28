-Q theories Verif
theories/Err.v
theories/MarrayModel.v
theories/MarraySpec.v
theories/MarrayProofs.v
theories/MarrayEditProofs.v
theories/MarrayLoopProofs.v
theories/MarrayOpProofs.v
theories/MarrayExnModel.v
theories/MarrayExnProofs.v
theories/MarrayHeapModel.v
theories/MarrayHeapSpec.v
theories/MarrayHeapProofs.v
theories/MarrayScalarModel.v
theories/MarrayScalarProofs.v
theories/MarrayTotalProofs.v
theories/MarrayProps.v
theories/AllocModel.v
theories/AllocProofs.v
theories/AllocProps.v
theories/PoolModel.v
theories/PoolProofs.v
theories/PoolProps.v
theories/GridModel.v
theories/GridProofs.v
theories/TableModel.v
theories/TableProofs.v
theories/GridTableProps.v
theories/PiecewiseProofs.v
theories/AkimaModel.v
theories/AkimaProofs.v
theories/BicubicModel.v
theories/BicubicProofs.v
theories/AkimaBicubicProps.v
theories/TricubicModel.v
theories/TricubicProofs.v
theories/TricubicProps.v
theories/QuadModel.v
theories/QuadProofs.v
theories/QuadProps.v
theories/QuadTermProps.v
theories/QuadNanModel.v
theories/QuadNanProps.v
theories/QuadBoundProps.v
theories/H5Model.v
theories/H5Proofs.v
theories/H5Props.v
theories/BodyModel.v
theories/BodyProofs.v
theories/BodyProps.v
theories/IntegralProofs.v
theories/TauModel.v
theories/TauProofs.v
theories/TauProps.v
theories/XsModel.v
theories/XsProofs.v
theories/XsProps.v
theories/XsFileModel.v
theories/XsFileProofs.v
theories/XsFileProps.v
theories/IntModel.v
theories/IntProofs.v
theories/IntLayoutProofs.v
theories/IntProps.v
theories/StateModel.v
theories/StateProofs.v
theories/StateHistory.v
theories/StateLaws.v
theories/StateReady.v
theories/StateFrames.v
theories/StateProps.v
theories/StateRunProps.v
theories/StatePosProps.v
theories/StructModel.v
theories/StructProps.v
theories/CMatrix.v
theories/FlavorModel.v
theories/FlavorProofs.v
theories/FlavorProps.v
theories/FlavorEqn.v
theories/FlavorEqnProps.v
theories/FileModel.v
theories/FileProofs.v
theories/FileProps.v
theories/AtmParModel.v
theories/AtmParProofs.v
theories/AtmModel.v
theories/AtmProofs.v
theories/AtmProps.v
theories/AtmEvalModel.v
theories/AtmEvalProofs.v
theories/AtmEvalProps.v
theories/AtmFileModel.v
theories/AtmFileProofs.v
theories/AtmFileProps.v
theories/XsTabModel.v
theories/XsTabProofs.v
theories/XsTabProps.v
theories/PosModel.v
theories/FixProofs.v
theories/FixProps.v
theories/DecohModel.v
theories/DecohProofs.v
theories/DecohProps.v
theories/ExtModel.v
theories/ExtProofs.v
theories/ExtProps.v
theories/QueryModel.v
theories/QueryProps.v
theories/PyModel.v
theories/PyProofs.v
theories/PyProps.v
theories/AkimaAffineProps.v
theories/ExampleModel.v
theories/ExampleProps.v
theories/SourceModel.v
theories/SourceProps.v
theories/PyBindModel.v
theories/PyBindProps.v
theories/MatToolsModel.v
theories/MatToolsProps.v
theories/SolarModel.v
theories/SolarProofs.v
theories/SolarProps.v
theories/AvgModel.v
theories/AvgProofs.v
theories/AvgProps.v
theories/ToolsModel.v
theories/ToolsProofs.v
theories/ToolsProps.v
theories/LegacyModel.v
theories/LegacyProps.v
theories/SuperModel.v
theories/SuperProofs.v
theories/SuperProps.v
theories/PosProofs.v
theories/PosProps.v
theories/TransProofs.v
theories/TransProps.v
theories/LegModel.v
theories/LegProps.v
theories/EndModel.v
theories/EndProps.v
theories/ExpProofs.v
theories/FlowProofs.v
theories/ShortModel.v
theories/ShortProps.v
theories/FullModel.v
theories/FullSpec.v
theories/FullProofs.v
theories/FullProps.v
theories/FullExist.v
theories/FullExistProps.v
theories/AtmLifeModel.v
theories/AtmLifeSpec.v
theories/AtmLifeProofs.v
theories/AtmLifeProofs2.v
theories/AtmLifeProps.v
theories/AtmLifeCase.v
theories/ProgModel.v
theories/ProgSpec.v
theories/ProgProofs.v
theories/ProgProps.v
theories/HidModel.v
theories/HidSpec.v
theories/HidProofs.v
theories/HidProps.v
theories/DblModel.v
theories/DblSpec.v
theories/DblProofs.v
theories/DblProps.v
theories/DblGridModel.v
theories/DblGridProps.v
theories/DblReal.v
theories/DblGridRealProps.v
theories/DblLineProps.v
theories/DblMediaProps.v
theories/DblConstProps.v
theories/PosBudgetProps.v
theories/OldXsModel.v
theories/OldXsProps.v
theories/XsChooseModel.v
theories/XsChooseProps.v
theories/DisTabModel.v
theories/DisTabProofs.v
theories/DisTabProps.v
theories/AttenProps.v
theories/NcNumProps.v
