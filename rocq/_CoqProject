-Q theories Verif
theories/Base.v
theories/BaseFacts.v
theories/QueueModel.v
theories/QueueSpec.v
theories/QueueProofs.v
theories/QueueProps.v
theories/DateModel.v
theories/DateSpec.v
theories/DateProofs.v
theories/DateProps.v
theories/CStr.v
theories/CStrFacts.v
theories/DateTextModel.v
theories/DateTextSpec.v
theories/DateTextProofs.v
theories/DateTextProps.v
theories/QaiModel.v
theories/QaiSpec.v
theories/QaiProofs.v
theories/QaiProps.v
theories/AllocModel.v
theories/AllocSpec.v
theories/AllocProofs.v
theories/AllocProps.v
theories/StringModel.v
theories/StringSpec.v
theories/StringProofs.v
theories/StringProps.v
theories/Loops.v
theories/LoopsFacts.v
theories/TileModel.v
theories/TileSpec.v
theories/TileProofs.v
theories/TileProps.v
theories/CubeModel.v
theories/CubeSpec.v
theories/CubeProofs.v
theories/CubeProps.v
theories/Float.v
theories/FloatFacts.v
theories/ProgressModel.v
theories/ProgressSpec.v
theories/ProgressProofs.v
theories/ProgressProps.v
theories/StatsModel.v
theories/StatsSpec.v
theories/StatsProofs.v
theories/StatsProps.v
theories/ModeModel.v
theories/ModeSpec.v
theories/ModeProofs.v
theories/ModeProps.v
theories/TrendModel.v
theories/TrendProofs.v
theories/TrendProps.v
theories/CatModel.v
theories/CatSpec.v
theories/CatProofs.v
theories/CatProps.v
theories/ParamModel.v
theories/ParamSpec.v
theories/ParamProofs.v
theories/ParamProps.v
theories/FloatInt.v
theories/InterpModel.v
theories/InterpSpec.v
theories/InterpProofs.v
theories/InterpProps.v
theories/RbfModel.v
theories/RbfSpec.v
theories/RbfProofs.v
theories/RbfProps.v
theories/AggModel.v
theories/AggSpec.v
theories/AggProofs.v
theories/StmProofs.v
theories/StmProps.v
theories/StdzModel.v
theories/StdzSpec.v
theories/StdzProofs.v
theories/StdzProps.v
theories/NoiseModel.v
theories/FloatSign.v
theories/NoiseSpec.v
theories/NoiseProofs.v
theories/NoiseProps.v
theories/ImgSpec.v
theories/ImgFacts.v
theories/BufferModel.v
theories/BufferProofs.v
theories/BufferProps.v
theories/DistModel.v
theories/DistSpec.v
theories/DistProofs.v
theories/DistProps.v
theories/RecoModel.v
theories/RecoSpec.v
theories/RecoProofs.v
theories/RecoProps.v
theories/MajorModel.v
theories/MajorSpec.v
theories/MajorProofs.v
theories/MajorProps.v
theories/CclModel.v
theories/CclSpec.v
theories/CclProofs.v
theories/CclProps.v
theories/BandModel.v
theories/BandSpec.v
theories/BandProofs.v
theories/BandProps.v
theories/PathModel.v
theories/PathSpec.v
theories/PathProofs.v
theories/PathProps.v
theories/ParLogModel.v
theories/ParLogSpec.v
theories/ParLogProofs.v
theories/ParLogProps.v
theories/DecModel.v
theories/DecSpec.v
theories/DecProofs.v
theories/CubeDefModel.v
theories/CubeDefSpec.v
theories/CubeDefProofs.v
theories/CubeDefProps.v
theories/TableModel.v
theories/TableSpec.v
theories/TableProofs.v
theories/TableProps.v
theories/CsoModel.v
theories/CsoSpec.v
theories/CsoProofs.v
theories/CsoProps.v
theories/SampleModel.v
theories/SampleSpec.v
theories/SampleProofs.v
theories/SampleProps.v
theories/ChunkModel.v
theories/ChunkSpec.v
theories/ChunkProofs.v
theories/ChunkProps.v
theories/SeasonModel.v
theories/SeasonSpec.v
theories/SeasonProofs.v
theories/SeasonProps.v
theories/ListingModel.v
theories/ListingSpec.v
theories/ListingProofs.v
theories/ListingProps.v
theories/SensorModel.v
theories/SensorSpec.v
theories/SensorProofs.v
theories/SensorProps.v
theories/BapModel.v
theories/BapSpec.v
theories/BapProofs.v
theories/BapScores.v
theories/BapTargets.v
theories/BapCor.v
theories/BapPixel.v
theories/BapComposite.v
theories/BapMode.v
theories/BapProps.v
theories/RoundModel.v
theories/RoundFacts.v
theories/IndexModel.v
theories/IndexSpec.v
theories/IndexProofs.v
theories/IndexProofs2.v
theories/IndexProofs3.v
theories/IndexProofs4.v
theories/IndexProps.v
theories/LsmModel.v
theories/LsmSpec.v
theories/LsmProofs.v
theories/LsmState.v
theories/LsmValues.v
theories/LsmProps.v
theories/RadModel.v
theories/RadSpec.v
theories/RadProofs.v
theories/RadInterp.v
theories/RadSurface.v
theories/RadBackground.v
theories/RadStored.v
theories/RadProps.v
theories/PolModel.v
theories/PolFloat.v
theories/PolSpec.v
theories/PolSeasons.v
theories/PolCum.v
theories/PolEvents.v
theories/PolLoop.v
theories/PolCoords.v
theories/PolVector.v
theories/PolAdapt.v
theories/PolPixel.v
theories/PolMetrics.v
theories/PolExact.v
theories/PolProps.v
theories/TxtModel.v
theories/TxtSpec.v
theories/TxtProofs.v
theories/TxtProps.v
theories/LibModel.v
theories/LibSpec.v
theories/LibProofs.v
theories/LibProps.v
theories/ImpModel.v
theories/ImpSpec.v
theories/ImpPredict.v
theories/ImpSeason.v
theories/ImpProps.v
theories/ToolModel.v
theories/ToolSpec.v
theories/ToolProofs.v
theories/ToolSample.v
theories/ToolGrid.v
theories/ToolProps.v
theories/MlModel.v
theories/MlSpec.v
theories/MlProofs.v
theories/MlProps.v
theories/L2tModel.v
theories/L2tSpec.v
theories/L2tProofs.v
theories/L2tProps.v
theories/CldModel.v
theories/CldSpec.v
theories/CldProofs.v
theories/CldTests.v
theories/CldGrow.v
theories/CldProps.v
theories/CldProps2.v
theories/WrtModel.v
theories/WrtSpec.v
theories/WrtProofs.v
theories/WrtFiles.v
theories/WrtChunk.v
theories/WrtSeq.v
theories/WrtOpt.v
theories/WrtProps.v
theories/L1Model.v
theories/L1Spec.v
theories/L1Proofs.v
theories/L1Cal.v
theories/L1Props.v
theories/PsfModel.v
theories/PsfSpec.v
theories/PsfProofs.v
theories/PsfKernel.v
theories/PsfReduce.v
theories/PsfCases.v
theories/PsfProps.v
theories/TsaModel.v
theories/TsaSpec.v
theories/TsaProofs.v
theories/TsaLabels.v
theories/TsaProps.v
theories/TsaProps2.v
theories/HarmModel.v
theories/HarmSpec.v
theories/HarmProofs.v
theories/HarmProps.v
theories/AdjTable.v
theories/AdjModel.v
theories/AdjSpec.v
theories/AdjAngle.v
theories/AdjChoose.v
theories/AdjProofs.v
theories/AdjNum.v
theories/AdjProps.v
theories/TopModel.v
theories/TopSpec.v
theories/TopProofs.v
theories/TopGeo.v
theories/TopNum.v
theories/TopProps.v
theories/PcaModel.v
theories/PcaSpec.v
theories/PcaProofs.v
theories/PcaProps.v
theories/BrdfModel.v
theories/BrdfSpec.v
theories/BrdfProofs.v
theories/BrdfProps.v
theories/UtilModel.v
theories/UtilSpec.v
theories/UtilProofs.v
theories/UtilProps.v
theories/ShmModel.v
theories/ShmSpec.v
theories/ShmProofs.v
theories/ShmProps.v
theories/ViewModel.v
theories/ViewSpec.v
theories/ViewProofs.v
theories/ViewProps.v
theories/ResModel.v
theories/ResSpec.v
theories/ResProofs.v
theories/ResProps.v
theories/ReadModel.v
theories/ReadSpec.v
theories/ReadProofs.v
theories/ReadProps.v
theories/WvpModel.v
theories/WvpSpec.v
theories/WvpProofs.v
theories/WvpUse.v
theories/WvpProps.v
theories/ClpModel.v
theories/ClpSpec.v
theories/ClpProofs.v
theories/ClpProps.v
theories/CdiModel.v
theories/CdiSpec.v
theories/CdiProofs.v
theories/CdiProps.v
theories/VapModel.v
theories/VapSpec.v
theories/VapProofs.v
theories/VapProps.v
theories/L2qModel.v
theories/L2qSpec.v
theories/L2qProofs.v
theories/L2qProps.v
theories/CsdModel.v
theories/CsdSpec.v
theories/CsdProofs.v
theories/CsdProps.v
theories/TrnModel.v
theories/TrnSpec.v
theories/TrnProofs.v
theories/TrnProps.v
theories/CitModel.v
theories/CitProps.v
theories/MagModel.v
theories/MagSpec.v
theories/MagProofs.v
theories/MagProps.v
theories/ExtModel.v
theories/ExtProps.v
theories/DcsModel.v
theories/DcsProps.v
