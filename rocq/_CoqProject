-Q theories Verif
theories/Base/MPIFacts.v
theories/Base/MPIModel.v
theories/Base/Prelude.v
theories/Base/PreludeFacts.v
theories/CFV/LimiterFinal.v
theories/CFV/LimiterModel.v
theories/CFV/LimiterNorm.v
theories/CFV/LimiterProofs.v
theories/CFV/LimiterProps.v
theories/CFV/LimiterRotate.v
theories/CFV/LimiterSpec.v
theories/CFV/RecBaseProofs.v
theories/CFV/RecCoefProofs.v
theories/CFV/RecDiffExample.v
theories/CFV/RecDiffModel.v
theories/CFV/RecDiffProofs.v
theories/CFV/RecDiffProps.v
theories/CFV/RecDiffSpec.v
theories/CFV/RecDiffThmProofs.v
theories/CFV/RecEnergyProofs.v
theories/CFV/RecExactProofs.v
theories/CFV/RecExample.v
theories/CFV/RecFixProofs.v
theories/CFV/RecFunProofs.v
theories/CFV/RecIterProofs.v
theories/CFV/RecMeanProofs.v
theories/CFV/RecModel.v
theories/CFV/RecPolyProofs.v
theories/CFV/RecProps.v
theories/CFV/RecRefuteProofs.v
theories/CFV/RecRefuteProps.v
theories/CFV/RecSpec.v
theories/DNDS/ArrayCases.v
theories/DNDS/ArrayModel.v
theories/DNDS/ArrayProofs.v
theories/DNDS/ArrayProps.v
theories/DNDS/ArraySpec.v
theories/DNDS/BatchModel.v
theories/DNDS/BatchProofs.v
theories/DNDS/BatchProps.v
theories/DNDS/BatchSpec.v
theories/DNDS/CreateLiveProofs.v
theories/DNDS/CreateProofs.v
theories/DNDS/CreateTypesProofs.v
theories/DNDS/DefinesModel.v
theories/DNDS/DefinesProofs.v
theories/DNDS/DefinesProps.v
theories/DNDS/DefinesSpec.v
theories/DNDS/ExchangeDemo.v
theories/DNDS/ExchangeFinalProofs.v
theories/DNDS/ExchangeModel.v
theories/DNDS/ExchangePlanProofs.v
theories/DNDS/ExchangeProofs.v
theories/DNDS/ExchangeProps.v
theories/DNDS/ExchangeSpec.v
theories/DNDS/GhostPullProofs.v
theories/DNDS/GhostPushProofs.v
theories/DNDS/GhostPushProps.v
theories/DNDS/GhostSearchProofs.v
theories/DNDS/H5Model.v
theories/DNDS/H5Proofs.v
theories/DNDS/H5Props.v
theories/DNDS/H5Spec.v
theories/DNDS/InSituFinalProofs.v
theories/DNDS/InSituProofs.v
theories/DNDS/IndexMappingModel.v
theories/DNDS/IndexMappingProofs.v
theories/DNDS/IndexMappingProps.v
theories/DNDS/IndexMappingSpec.v
theories/DNDS/JsonModel.v
theories/DNDS/JsonProofs.v
theories/DNDS/JsonProps.v
theories/DNDS/JsonRun.v
theories/DNDS/JsonSpec.v
theories/DNDS/LiveProofs.v
theories/DNDS/MatrixModel.v
theories/DNDS/MatrixProofs.v
theories/DNDS/MatrixProps.v
theories/DNDS/MatrixSpec.v
theories/DNDS/MessageProofs.v
theories/DNDS/PairModel.v
theories/DNDS/PairProofs.v
theories/DNDS/PairProps.v
theories/DNDS/PairSpec.v
theories/DNDS/PoolModel.v
theories/DNDS/PoolProofs.v
theories/DNDS/PoolProps.v
theories/DNDS/PoolSpec.v
theories/DNDS/RequestModel.v
theories/DNDS/RequestProofs.v
theories/DNDS/SerialModel.v
theories/DNDS/SerialProofs.v
theories/DNDS/SerialProps.v
theories/DNDS/SerialSpec.v
theories/DNDS/SharedModel.v
theories/DNDS/SharedProofs.v
theories/DNDS/SharedProps.v
theories/DNDS/SharedSpec.v
theories/DNDS/StrategyProofs.v
theories/DNDS/StrategyProps.v
theories/DNDS/TimerModel.v
theories/DNDS/TimerProofs.v
theories/DNDS/TimerProps.v
theories/DNDS/TimerSpec.v
theories/DNDS/TransferProofs.v
theories/Euler/BndCases.v
theories/Euler/BndEnd.v
theories/Euler/BndFar.v
theories/Euler/BndFlux.v
theories/Euler/BndInlet.v
theories/Euler/BndModel.v
theories/Euler/BndProofs.v
theories/Euler/BndProps.v
theories/Euler/BndSpec.v
theories/Euler/BndTight.v
theories/Euler/BndWall.v
theories/Euler/CompressModel.v
theories/Euler/CompressProofs.v
theories/Euler/ConfigBack.v
theories/Euler/ConfigExample.v
theories/Euler/ConfigModel.v
theories/Euler/ConfigProofs.v
theories/Euler/ConfigProps.v
theories/Euler/ConfigSpec.v
theories/Euler/DriverModel.v
theories/Euler/DriverProofs.v
theories/Euler/DriverProps.v
theories/Euler/DriverSpec.v
theories/Euler/DriverTight.v
theories/Euler/GasModel.v
theories/Euler/GasProofs.v
theories/Euler/GasProps.v
theories/Euler/GasSpec.v
theories/Euler/HandlerModel.v
theories/Euler/HandlerProofs.v
theories/Euler/HandlerProps.v
theories/Euler/HandlerSpec.v
theories/Euler/HandlerTight.v
theories/Euler/ImplicitAll.v
theories/Euler/ImplicitExample.v
theories/Euler/ImplicitLU.v
theories/Euler/ImplicitModel.v
theories/Euler/ImplicitMore.v
theories/Euler/ImplicitProofs.v
theories/Euler/ImplicitProps.v
theories/Euler/ImplicitRanks.v
theories/Euler/ImplicitRefute.v
theories/Euler/ImplicitSpec.v
theories/Euler/InnerExample.v
theories/Euler/InnerModel.v
theories/Euler/InnerProofs.v
theories/Euler/InnerProps.v
theories/Euler/InnerSpec.v
theories/Euler/JacobianAll.v
theories/Euler/JacobianModel.v
theories/Euler/JacobianMore.v
theories/Euler/JacobianProofs.v
theories/Euler/JacobianProps.v
theories/Euler/JacobianRows.v
theories/Euler/JacobianSpec.v
theories/Euler/JacobianTight.v
theories/Euler/LogBound.v
theories/Euler/LogExample.v
theories/Euler/LogModel.v
theories/Euler/LogProofs.v
theories/Euler/LogProps.v
theories/Euler/LogSpec.v
theories/Euler/LogText.v
theories/Euler/PositiveAllProofs.v
theories/Euler/PositiveBetaProofs.v
theories/Euler/PositiveExample.v
theories/Euler/PositiveFixProofs.v
theories/Euler/PositiveIncProofs.v
theories/Euler/PositiveModel.v
theories/Euler/PositiveProofs.v
theories/Euler/PositiveProps.v
theories/Euler/PositiveSpec.v
theories/Euler/PositiveTight.v
theories/Euler/RecorderModel.v
theories/Euler/RecorderMore.v
theories/Euler/RecorderProofs.v
theories/Euler/RecorderProps.v
theories/Euler/RecorderRadial.v
theories/Euler/RecorderSpec.v
theories/Euler/RestartDisk.v
theories/Euler/RestartExample.v
theories/Euler/RestartModel.v
theories/Euler/RestartOther.v
theories/Euler/RestartProofs.v
theories/Euler/RestartProps.v
theories/Euler/RestartSpec.v
theories/Euler/RhsExample.v
theories/Euler/RhsModel.v
theories/Euler/RhsMoreProofs.v
theories/Euler/RhsProofs.v
theories/Euler/RhsProps.v
theories/Euler/RhsSpec.v
theories/Euler/RiemannCases.v
theories/Euler/RiemannFinal.v
theories/Euler/RiemannFrame.v
theories/Euler/RiemannFrameProps.v
theories/Euler/RiemannFrameSpec.v
theories/Euler/RiemannModel.v
theories/Euler/RiemannProofs.v
theories/Euler/RiemannProps.v
theories/Euler/RiemannSpec.v
theories/Euler/RiemannUpwind.v
theories/Euler/TimeLoopExample.v
theories/Euler/TimeLoopFiles.v
theories/Euler/TimeLoopModel.v
theories/Euler/TimeLoopProofs.v
theories/Euler/TimeLoopProps.v
theories/Euler/TimeLoopQ.v
theories/Euler/TimeLoopRefute.v
theories/Euler/TimeLoopSpec.v
theories/Euler/TimeLoopTime.v
theories/Euler/TimeLoopTurn.v
theories/Geom/AdjModel.v
theories/Geom/AdjProofs.v
theories/Geom/AdjProps.v
theories/Geom/AdjSpec.v
theories/Geom/BaseFnModel.v
theories/Geom/BaseFnProofs.v
theories/Geom/BaseFnProps.v
theories/Geom/BaseFnSpec.v
theories/Geom/BaseFnTableProofs.v
theories/Geom/BisectDone.v
theories/Geom/BisectElev.v
theories/Geom/BisectExample.v
theories/Geom/BisectFaces.v
theories/Geom/BisectModel.v
theories/Geom/BisectMore.v
theories/Geom/BisectProofs.v
theories/Geom/BisectProps.v
theories/Geom/BisectSpec.v
theories/Geom/BoundaryModel.v
theories/Geom/BoundaryProofs.v
theories/Geom/BoundaryProps.v
theories/Geom/DedupBitProofs.v
theories/Geom/DedupExamples.v
theories/Geom/DedupModel.v
theories/Geom/DedupProofs.v
theories/Geom/DedupProps.v
theories/Geom/DedupSpec.v
theories/Geom/DiffTensorAnalysis.v
theories/Geom/DiffTensorChain.v
theories/Geom/DiffTensorExample.v
theories/Geom/DiffTensorInvProofs.v
theories/Geom/DiffTensorLinProofs.v
theories/Geom/DiffTensorMapProofs.v
theories/Geom/DiffTensorModel.v
theories/Geom/DiffTensorNormProofs.v
theories/Geom/DiffTensorProofs.v
theories/Geom/DiffTensorProps.v
theories/Geom/DiffTensorSpec.v
theories/Geom/ElemModel.v
theories/Geom/ElemProofs.v
theories/Geom/ElemProps.v
theories/Geom/ElemSpec.v
theories/Geom/ElevDone.v
theories/Geom/ElevExample.v
theories/Geom/ElevModel.v
theories/Geom/ElevMore.v
theories/Geom/ElevNumber.v
theories/Geom/ElevProofs.v
theories/Geom/ElevProps.v
theories/Geom/ElevShare.v
theories/Geom/ElevSmooth.v
theories/Geom/ElevSpec.v
theories/Geom/ElevTotal.v
theories/Geom/FaceModel.v
theories/Geom/FaceProofs.v
theories/Geom/FaceProps.v
theories/Geom/FaceSpec.v
theories/Geom/FoamExample.v
theories/Geom/FoamModel.v
theories/Geom/FoamMore.v
theories/Geom/FoamProofs.v
theories/Geom/FoamProps.v
theories/Geom/FoamSpec.v
theories/Geom/FoamTextBoundary.v
theories/Geom/FoamTextExample.v
theories/Geom/FoamTextModel.v
theories/Geom/FoamTextOver.v
theories/Geom/FoamTextProofs.v
theories/Geom/FoamTextProps.v
theories/Geom/FoamTextRefute.v
theories/Geom/FoamTextSpec.v
theories/Geom/NeighbourProofs.v
theories/Geom/NodeCellModel.v
theories/Geom/NodeCellProofs.v
theories/Geom/NodeCellProps.v
theories/Geom/NodeCellSpec.v
theories/Geom/NodeCellTotal.v
theories/Geom/OrderModel.v
theories/Geom/OrderProofs.v
theories/Geom/OrderProps.v
theories/Geom/PartModel.v
theories/Geom/PartProofs.v
theories/Geom/PartProps.v
theories/Geom/PartSpec.v
theories/Geom/PatchFaceProofs.v
theories/Geom/PatchModel.v
theories/Geom/PatchProofs.v
theories/Geom/PatchProps.v
theories/Geom/PatchSpec.v
theories/Geom/PeriodicModel.v
theories/Geom/PeriodicProofs.v
theories/Geom/PeriodicProps.v
theories/Geom/PeriodicSpec.v
theories/Geom/QuadratureFinalProofs.v
theories/Geom/QuadratureModel.v
theories/Geom/QuadratureProofs.v
theories/Geom/QuadratureProps.v
theories/Geom/QuadratureSpec.v
theories/Geom/QuadratureSumProofs.v
theories/Geom/RcmModel.v
theories/Geom/RcmProofs.v
theories/Geom/RcmProps.v
theories/Geom/RcmSpec.v
theories/Geom/ReorderModel.v
theories/Geom/ReorderProofs.v
theories/Geom/ReorderProps.v
theories/Geom/ReorderSpec.v
theories/Geom/RotationModel.v
theories/Geom/RotationProofs.v
theories/Geom/RotationProps.v
theories/Geom/RotationSpec.v
theories/Geom/ShapeAlg.v
theories/Geom/ShapeExpr.v
theories/Geom/ShapeModel.v
theories/Geom/ShapeProofs.v
theories/Geom/ShapeProps.v
theories/Geom/ShapeSpec.v
theories/Geom/ShapeTable.v
theories/Geom/VtkExample.v
theories/Geom/VtkFile.v
theories/Geom/VtkFlags.v
theories/Geom/VtkGrid.v
theories/Geom/VtkModel.v
theories/Geom/VtkNumber.v
theories/Geom/VtkProofs.v
theories/Geom/VtkProps.v
theories/Geom/VtkPut.v
theories/Geom/VtkRecreate.v
theories/Geom/VtkSpec.v
theories/Solver/DirectModel.v
theories/Solver/DirectMore.v
theories/Solver/DirectProofs.v
theories/Solver/DirectProps.v
theories/Solver/DirectSpec.v
theories/Solver/LDLTMul.v
theories/Solver/LDLTProofs.v
theories/Solver/LDLTProps.v
theories/Solver/LUElim.v
theories/Solver/LUExamples.v
theories/Solver/LUFinal.v
theories/Solver/LUMain.v
theories/Solver/LUModel.v
theories/Solver/LUProofs.v
theories/Solver/LUProps.v
theories/Solver/LUSolve.v
theories/Solver/LUSpec.v
theories/Solver/LinearExamples.v
theories/Solver/LinearModel.v
theories/Solver/LinearProofs.v
theories/Solver/LinearProps.v
theories/Solver/LinearSpec.v
theories/Solver/OdeModel.v
theories/Solver/OdePP.v
theories/Solver/OdePolyProofs.v
theories/Solver/OdeProofs.v
theories/Solver/OdeProps.v
theories/Solver/OdeSpec.v
theories/Solver/RkModel.v
theories/Solver/RkProofs.v
theories/Solver/RkProps.v
theories/Solver/RkSpec.v
theories/Solver/ScalarModel.v
theories/Solver/ScalarProofs.v
theories/Solver/ScalarProps.v
