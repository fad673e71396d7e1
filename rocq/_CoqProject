-Q theories Verif
theories/BaseReal.v
theories/TimeModel.v
theories/TimeSpec.v
theories/TimeProofs.v
theories/TimeProps.v
theories/BaseArr.v
theories/MeshIndexModel.v
theories/MeshIndexSpec.v
theories/MeshIndexProofs.v
theories/MeshIndexProps.v
theories/MeshBuildModel.v
theories/MeshBuildSpec.v
theories/MeshBuildProofs.v
theories/MeshBuildProps.v
theories/GeomModel.v
theories/GeomSpec.v
theories/GeomProofs.v
theories/MeshGeomSpec.v
theories/MeshGeomProofs.v
theories/GeomProps.v
theories/SghModel.v
theories/SghSpec.v
theories/SghProofs.v
theories/SghMore.v
theories/MarsModel.v
theories/MarsSpec.v
theories/MarsProofs.v
theories/SghExamples.v
theories/SghProps.v
theories/StrModel.v
theories/StrSpec.v
theories/StrProofs.v
theories/StrProps.v
theories/TableModel.v
theories/TableSpec.v
theories/TableProofs.v
theories/TableProps.v
theories/EosModel.v
theories/EosProofs.v
theories/EosProps.v
theories/BdyModel.v
theories/BdySpec.v
theories/BdyProofs.v
theories/BdyProps.v
theories/TiptonModel.v
theories/TiptonSpec.v
theories/TiptonProofs.v
theories/TiptonProps.v
theories/StateModel.v
theories/StateSpec.v
theories/StateProofs.v
theories/StateProps.v
theories/FillModel.v
theories/FillSpec.v
theories/FillProofs.v
theories/FillExamples.v
theories/FillProps.v
theories/SetupModel.v
theories/SetupSpec.v
theories/SetupProofs.v
theories/SetupProps.v
theories/ThermModel.v
theories/ThermSpec.v
theories/ThermProofs.v
theories/ThermFlow.v
theories/ThermExamples.v
theories/ThermProps.v
theories/ThermTimeModel.v
theories/ThermTimeProps.v
theories/PartModel.v
theories/PartSpec.v
theories/PartProofs.v
theories/PartProps.v
theories/VtkModel.v
theories/VtkSpec.v
theories/VtkProofs.v
theories/VtkProps.v
theories/LevelModel.v
theories/LevelSpec.v
theories/LevelProofs.v
theories/LevelFlow.v
theories/LevelGrid.v
theories/LevelExamples.v
theories/LevelPlane.v
theories/LevelProps.v
theories/LevelTimeModel.v
theories/LevelTimeProofs.v
theories/LevelTimeProps.v
theories/FieldModel.v
theories/FieldSpec.v
theories/FieldProofs.v
theories/FieldMore.v
theories/FieldProps.v
theories/EigenModel.v
theories/EigenSpec.v
theories/EigenProofs.v
theories/EigenProps.v
theories/ParModel.v
theories/ParSpec.v
theories/ParProofs.v
theories/ParLoops.v
theories/ParProps.v
theories/RzModel.v
theories/RzSpec.v
theories/RzProofs.v
theories/RzForces.v
theories/RzSteps.v
theories/RzMore.v
theories/RzExamples.v
theories/RzExamples2.v
theories/RzProps.v
theories/RzTimeModel.v
theories/RzTimeProps.v
theories/PlastModel.v
theories/PlastSpec.v
theories/PlastProofs.v
theories/PlastMore.v
theories/PlastProps.v
theories/FracModel.v
theories/FracSpec.v
theories/FracProofs.v
theories/FracMore.v
theories/FracForce.v
theories/FracExamples.v
theories/FracProps.v
theories/ContModel.v
theories/ContSpec.v
theories/ContProofs.v
theories/ContMore.v
theories/ContForce.v
theories/ContExamples.v
theories/ContProps.v
theories/YamlModel.v
theories/YamlSpec.v
theories/YamlProofs.v
theories/YamlPost.v
theories/YamlDoc.v
theories/YamlTree.v
theories/YamlLaws.v
theories/YamlApi.v
theories/YamlWrite.v
theories/YamlMore.v
theories/YamlExamples.v
theories/YamlProps.v
theories/InputModel.v
theories/InputSpec.v
theories/InputProofs.v
theories/InputReaders.v
theories/InputOut.v
theories/InputIds.v
theories/InputBc.v
theories/InputBcs.v
theories/InputProps.v
theories/LinModel.v
theories/LinSpec.v
theories/LinProofs.v
theories/LinProps.v
theories/EvpModel.v
theories/EvpSpec.v
theories/EvpBasis.v
theories/EvpElast.v
theories/EvpProps.v
theories/EvpElastProps.v
theories/EvpRot.v
theories/EvpRotProps.v
theories/EvpFlowModel.v
theories/EvpFlowSpec.v
theories/EvpSlip.v
theories/EvpSlipProps.v
theories/EvpHardProps.v
theories/EvpGreenProps.v
theories/EvpNewtonProps.v
theories/EvpStepModel.v
theories/EvpMeanProps.v
theories/EvpMixedProps.v
theories/EvpMisesProps.v
theories/EvpLinkProps.v
theories/EvpFftModel.v
theories/EvpFft.v
theories/EvpFftProps.v
theories/RefTables.v
theories/RefModel.v
theories/RefSpec.v
theories/RefLag.v
theories/RefQuad.v
theories/RefLoop.v
theories/RefElem.v
theories/RefThms.v
theories/RefProps.v
theories/LsSpec.v
theories/LsModel.v
theories/LsMat.v
theories/LsInv.v
theories/LsPolar.v
theories/LsPolarProps.v
theories/LsRunModel.v
theories/LsExp.v
theories/LsKin.v
theories/LsKinProps.v
theories/LsCase.v
theories/LsMeanProps.v
theories/LsGridProps.v
theories/LsStressProps.v
theories/LsFlowModel.v
theories/LsJ2Props.v
theories/LsNewtonProps.v
theories/LsRefProps.v
theories/EvpOutModel.v
theories/EvpOutSpec.v
theories/EvpOutProofs.v
theories/EvpOutProps.v
theories/EvpBoxProps.v
theories/EvpPlotModel.v
theories/EvpPlotProps.v
theories/NpModel.v
theories/NpSpec.v
theories/NpProps.v
theories/NpFft.v
theories/NpFillProps.v
theories/NpVelProps.v
theories/NpRunProps.v
theories/AnnModel.v
theories/AnnSpec.v
theories/AnnProps.v
theories/VoxModel.v
theories/VoxSpec.v
theories/VoxRay.v
theories/VoxProps.v
theories/CkptModel.v
theories/CkptSpec.v
theories/CkptProofs.v
theories/CkptProps.v
theories/PatchModel.v
theories/PatchSpec.v
theories/PatchProofs.v
theories/PatchProps.v
theories/LimModel.v
theories/LimSpec.v
theories/LimProofs.v
theories/LimProps.v
theories/StdMeshModel.v
theories/StdMeshSpec.v
theories/StdMeshProofs.v
theories/StdMeshProps.v
