-Q theories Verif

theories/F32.v
theories/F32Facts.v
theories/F32Real.v
theories/SchedModel.v
theories/SchedSpec.v
theories/SchedProofs.v
theories/SchedStep.v
theories/SchedHist.v
theories/SchedTime.v
theories/SimModel.v
theories/SimSpec.v
theories/SimProofs.v
theories/SchedCounter.v
theories/SchedExamples.v
theories/SchedProps.v
theories/SchedQuery.v
theories/Merge.v
theories/ParModel.v
theories/ParSpec.v
theories/ParProofs.v
theories/ParProps.v
theories/DashModel.v
theories/DashSpec.v
theories/DashProofs.v
theories/DashRun.v
theories/DashView.v
theories/PFieldModel.v
theories/PFieldSpec.v
theories/PFieldProofs.v
theories/PFieldConc.v
theories/PFieldProps.v
theories/PNetModel.v
theories/PNetSpec.v
theories/PNetProofs.v
theories/PNetFacts.v
theories/PNetProps.v
theories/DashConc.v
theories/DashConcRun.v
theories/DashProps.v
theories/Grid.v
theories/NumModel.v
theories/NumSpec.v
theories/NumProofs.v
theories/NumPar.v
theories/NumProps.v
theories/ObjModel.v
theories/ObjSpec.v
theories/ObjProofs.v
theories/ObjSparse.v
theories/ObjPar.v
theories/ObjParQ.v
theories/ObjProps.v
theories/NetModel.v
theories/NetSpec.v
theories/NetBASpec.v
theories/NetProofs.v
theories/NetRef.v
theories/NetRun.v
theories/NetBA.v
theories/NetIds.v
theories/NetFacts.v
theories/NetProps.v
theories/NetDisplay.v
theories/HNetModel.v
theories/HNetSpec.v
theories/HNetProofs.v
theories/HNetFacts.v
theories/HNetProps.v
theories/ExpModel.v
theories/ExpSpec.v
theories/ExpProofs.v
theories/ExpMpi.v
theories/ExpProps.v
theories/FOrder.v
theories/GaModel.v
theories/GaSpec.v
theories/GaProofs.v
theories/GaMpi.v
theories/GaProps.v
theories/OptModel.v
theories/OptSpec.v
theories/OptProofs.v
theories/OptProps.v
theories/F32Ops.v
theories/FieldModel.v
theories/FieldSpec.v
theories/FieldProofs.v
theories/FieldReal.v
theories/FieldF32.v
theories/FieldProps.v
theories/KdModel.v
theories/KdSpec.v
theories/KdProofs.v
theories/KdReal.v
theories/KdF32.v
theories/KdStore.v
theories/KdProps.v
theories/MpiModel.v
theories/MpiSpec.v
theories/MpiProofs.v
theories/MpiProps.v
theories/F64.v
theories/F64Real.v
theories/F64Ops.v
theories/PlotModel.v
theories/PlotSpec.v
theories/PlotProofs.v
theories/PlotCsv.v
theories/PlotProps.v
theories/UiModel.v
theories/UiSpec.v
theories/UiProofs.v
theories/UiAxes.v
theories/UiProps.v
theories/TermModel.v
theories/TermSpec.v
theories/TermProofs.v
theories/TermProps.v
theories/LogModel.v
theories/LogSpec.v
theories/LogProps.v
theories/ReproModel.v
theories/ReproProps.v
theories/AwsModel.v
theories/AwsSpec.v
theories/AwsJson.v
theories/AwsProofs.v
theories/AwsProps.v
theories/VisModel.v
theories/VisSpec.v
theories/VisProofs.v
theories/VisProps.v
theories/CsvModel.v
theories/CsvSpec.v
theories/CsvProofs.v
theories/CsvProps.v
theories/OldModel.v
theories/OldProps.v
theories/OrderSpec.v
theories/OrderProofs.v
theories/OrderModels.v
theories/OrderInst.v
theories/OrderProps.v
theories/ReModel.v
theories/ReSpec.v
theories/ReProofs.v
theories/ReInst.v
theories/ReProps.v
theories/ReMore.v
theories/FlockModel.v
theories/FlockSpec.v
theories/FlockProofs.v
theories/FlockDemo.v
theories/FlockProps.v
theories/FairSpec.v
theories/FairProofs.v
theories/FairProps.v
theories/StageModel.v
theories/StageSpec.v
theories/StageProofs.v
theories/StageGrid.v
theories/StageProps.v
theories/LockModel.v
theories/LockSpec.v
theories/LockProofs.v
theories/LockProps.v
theories/DistModel.v
theories/DistSpec.v
theories/DistTree.v
theories/DistProofs.v
theories/DistAll.v
theories/DistProps.v
theories/PStageModel.v
theories/PStageSpec.v
theories/PStageProofs.v
theories/PStageSpace.v
theories/PStageSame.v
theories/PStageLoop.v
theories/PStageFlock.v
theories/PStageProps.v
theories/CountSpec.v
theories/CountProofs.v
theories/CountProps.v
theories/JsonSpec.v
theories/JsonProofs.v
theories/FairBirth.v
theories/FaultModel.v
theories/FaultSpec.v
theories/FaultProofs.v
theories/FaultProps.v
theories/CamModel.v
theories/CamSpec.v
theories/CamProps.v
theories/ThreadModel.v
theories/ThreadSpec.v
theories/ThreadProps.v
theories/NumText.v
theories/NumTextFacts.v
theories/BookSpec.v
theories/BookProofs.v
theories/ParHistModel.v
theories/BookProps.v
theories/NumCellSpec.v
theories/NumCellProps.v
theories/ObjBagSpec.v
theories/ObjBagProps.v
theories/PBagSpec.v
theories/PBagProps.v
theories/FieldNearSpec.v
theories/FieldNear.v
theories/FieldNearProps.v
theories/PNumSpec.v
theories/PNumProps.v
theories/PFieldNear.v
theories/SpeedModel.v
theories/SpeedProps.v
theories/HookModel.v
theories/HookSpec.v
theories/HookProps.v
theories/PanelModel.v
theories/PanelSpec.v
theories/PanelProps.v
theories/EdgeSpec.v
theories/EdgeProps.v
theories/HookHistModel.v
theories/HookHistProps.v
theories/BirthModel.v
theories/BirthSpec.v
theories/BirthProofs.v
theories/BirthProps.v
theories/BirthField.v
theories/PBirthModel.v
theories/PBirthSpec.v
theories/PBirthProofs.v
theories/PBirthProps.v
theories/DispatchModel.v
theories/DispatchSpec.v
theories/DispatchProps.v
theories/ArrowModel.v
theories/ArrowSpec.v
theories/ArrowProps.v
