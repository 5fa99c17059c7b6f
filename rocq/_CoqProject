-Q theories Verif

theories/U64.v
theories/MapModel.v
theories/MapSpec.v
theories/MapProofs.v
theories/MapFamily.v
theories/MapProps.v
theories/DblModel.v
theories/DblProps.v
theories/HoodModel.v
theories/MeshModel.v
theories/MeshSpec.v
theories/MeshBase.v
theories/HoodProps.v
theories/MeshWalk.v
theories/MeshFind.v
theories/MeshKids.v
theories/MeshItem.v
theories/MeshCheck.v
theories/MeshTo.v
theories/MeshFace.v
theories/MeshNear.v
theories/MeshLookup.v
theories/Sets.v
theories/RefineModel.v
theories/RefineGeo.v
theories/RefineInv.v
theories/RefineSpread.v
theories/RefineNear.v
theories/RefineMerge.v
theories/RefineFold.v
theories/RefineExec.v
theories/RefineStop.v
theories/BalanceModel.v
theories/RefineReqs.v
theories/Create.v
theories/SfcModel.v
theories/SfcCreate.v
theories/Balance.v
theories/History.v
theories/HistProps.v
theories/CommitProps.v
theories/BalProps.v
theories/LoadCells.v
theories/HistExamples.v
theories/CommModel.v
theories/CommInv.v
theories/CommProps.v
theories/CommViews.v
theories/CommMore.v
theories/CommExamples.v
theories/Async.v
theories/Mpi.v
theories/CommAsync.v
theories/FileModel.v
theories/FileProps.v
theories/FileAccept.v
theories/SaveModel.v
theories/SaveProps.v
theories/SaveLoad.v
theories/SaveExamples.v
theories/GeoModel.v
theories/GeoBase.v
theories/GeoProps.v
theories/GeoStretch.v
theories/GeoExamples.v
theories/ConfigModel.v
theories/ConfigProps.v
theories/ZoltanModel.v
theories/ZoltanProps.v
theories/CopyProps.v
theories/DebugModel.v
theories/DebugProps.v
theories/AtModel.v
theories/AtProps.v
theories/VtkModel.v
theories/VtkProps.v
theories/Overlap.v
theories/OverlapProps.v
theories/TransferAsync.v
theories/DebugCommit.v
theories/DebugCommitProps.v
theories/DebugRequests.v
theories/DebugBalance.v
theories/Adapt.v
theories/AdaptCases.v
theories/ProgramModel.v
theories/ProgramProps.v
theories/ProgramCases.v
theories/FloatBase.v
theories/FloatDiv.v
theories/FloatGeo.v
theories/FloatCell.v
theories/FloatProps.v
theories/FloatStretch.v
theories/Queries.v
theories/Stages.v
theories/StageProps.v
theories/StageUpdate.v
theories/Rounds.v
theories/GameSpec.v
theories/GameModel.v
theories/GameProps.v
theories/GameRun.v
theories/ConvertModel.v
theories/ConvertProps.v
theories/ConvertRun.v
theories/AdvectModel.v
theories/AdvectGeo.v
theories/AdvectSum.v
theories/AdvectRegroup.v
theories/AdvectProps.v
theories/AdvectCode.v
theories/AdvectStep.v
theories/AdvectFace.v
theories/AdvectRun.v
theories/IterModel.v
theories/IterProps.v
theories/IterRun.v
theories/PoissonModel.v
theories/PoissonRef.v
theories/PoissonCache.v
theories/PoissonProps.v
theories/PoissonGeo.v
theories/PoissonRun.v
theories/PoissonCases.v
theories/PoissonAgain.v
theories/SfcProps.v
theories/ReqReturns.v
theories/AdapterModel.v
theories/AdapterDiff.v
theories/AdapterSets.v
theories/AdapterProps.v
theories/AdapterCases.v
theories/LifeModel.v
theories/LifeRing.v
theories/LifeGeo.v
theories/LifeProps.v
theories/LifeCases.v
theories/ZoltanParams.v
theories/ParticleModel.v
theories/ParticleProps.v
theories/ParticleRun.v
theories/ParticleCases.v
theories/SerialModel.v
theories/SerialProps.v
theories/SerialRing.v
theories/SerialOffset.v
theories/DatatypeModel.v
theories/DatatypeProps.v
theories/SaveCut.v
