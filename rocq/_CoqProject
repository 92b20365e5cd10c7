-Q theories Verif
theories/AxGradLaws.v
theories/AxSmallLaws.v
theories/CacheLaws.v
theories/CacheModel.v
theories/CacheProofs.v
theories/CacheSpec.v
theories/CallBuild.v
theories/CallLaws.v
theories/CallModel.v
theories/CallProofs.v
theories/CallReal.v
theories/CallRealLaws.v
theories/CallSpec.v
theories/Common.v
theories/ConvLaws.v
theories/ConvModel.v
theories/ConvSpec.v
theories/CoordSum.v
theories/CopyLaws.v
theories/CrossCorrProofs.v
theories/CseFullProofs.v
theories/CseGraphProofs.v
theories/CseLaws.v
theories/CseModel.v
theories/CseProofs.v
theories/CseSpec.v
theories/CseValueProofs.v
theories/CsvLaws.v
theories/CsvModel.v
theories/CsvSpec.v
theories/DbBias.v
theories/DbCalc.v
theories/DbFine.v
theories/DbGrad.v
theories/DbLaws.v
theories/DbModel.v
theories/DbNet.v
theories/DbPre.v
theories/DbProofs.v
theories/DbSpec.v
theories/DbStep.v
theories/DqnLaws.v
theories/DqnModel.v
theories/DqnProofs.v
theories/DqnSpec.v
theories/ElemLaws.v
theories/ElemModel.v
theories/ElemProofs.v
theories/ElemSpec.v
theories/EvalLaws.v
theories/EvalModel.v
theories/EvalProofs.v
theories/EvalSpec.v
theories/FitModel.v
theories/FitProofs.v
theories/FutilsLaws.v
theories/FutilsModel.v
theories/GenLaws.v
theories/GenModel.v
theories/GenProofs.v
theories/GenSpec.v
theories/GradLaws.v
theories/GradModel.v
theories/GradProofs.v
theories/GradSpec.v
theories/GroupModel.v
theories/GroupProofs.v
theories/GroupSubst.v
theories/LeafLaws.v
theories/LeafModel.v
theories/LeafMoveLaws.v
theories/LeafMoveModel.v
theories/LeafMoveSpec.v
theories/LeafProofs.v
theories/LeafSpec.v
theories/Matmul2Proofs.v
theories/MatmulLaws.v
theories/MatmulModel.v
theories/MatmulProofs.v
theories/MatmulSpec.v
theories/MatrixProofs.v
theories/MatrixSpec.v
theories/MeanGradLaws.v
theories/MeanLaws.v
theories/MemModel.v
theories/MemProofs.v
theories/MlpLaws.v
theories/MlpModel.v
theories/MlpProofs.v
theories/MlpSpec.v
theories/MoveLayerLaws.v
theories/MoveLayerModel.v
theories/NetLaws.v
theories/NetMlpProofs.v
theories/NetProofs.v
theories/NetSpec.v
theories/NetSymProofs.v
theories/NodeLaws.v
theories/NumSpec.v
theories/OtherGradLaws.v
theories/OtherGradModel.v
theories/ParamLaws.v
theories/ParamSpec.v
theories/PropertiesAxGrad.v
theories/PropertiesAxSmall.v
theories/PropertiesCache.v
theories/PropertiesCall.v
theories/PropertiesCallReal.v
theories/PropertiesConv.v
theories/PropertiesCopy.v
theories/PropertiesCse.v
theories/PropertiesCsv.v
theories/PropertiesDb.v
theories/PropertiesDqn.v
theories/PropertiesElem.v
theories/PropertiesEval.v
theories/PropertiesFutils.v
theories/PropertiesGen.v
theories/PropertiesGrad.v
theories/PropertiesLeaf.v
theories/PropertiesLeafMove.v
theories/PropertiesMatmul.v
theories/PropertiesMean.v
theories/PropertiesMeanGrad.v
theories/PropertiesMlp.v
theories/PropertiesMoveLayer.v
theories/PropertiesNet.v
theories/PropertiesNode.v
theories/PropertiesOtherGrad.v
theories/PropertiesParam.v
theories/PropertiesRbm.v
theories/PropertiesRbmChain.v
theories/PropertiesRbmProb.v
theories/PropertiesRbmTrain.v
theories/PropertiesReact.v
theories/PropertiesRecord.v
theories/PropertiesRmsNet.v
theories/PropertiesSerial.v
theories/PropertiesShape.v
theories/PropertiesShapeGrad.v
theories/PropertiesSub.v
theories/PropertiesSumGrad.v
theories/PropertiesTensor.v
theories/PropertiesTensorData.v
theories/PropertiesThread.v
theories/PropertiesTrain.v
theories/PropertiesTrainGraph.v
theories/PropertiesTransform.v
theories/PropertiesUpdater.v
theories/RbmCalc.v
theories/RbmChainLaws.v
theories/RbmChainModel.v
theories/RbmChainProofs.v
theories/RbmLaws.v
theories/RbmModel.v
theories/RbmProbLaws.v
theories/RbmSpec.v
theories/RbmTrainCost.v
theories/RbmTrainLaws.v
theories/RbmTrainModel.v
theories/RbmTrainProofs.v
theories/RbmTrainSpec.v
theories/RbmTrainValues.v
theories/ReactLaws.v
theories/ReactModel.v
theories/ReactOps.v
theories/ReactProofs.v
theories/ReactSpec.v
theories/RealNum.v
theories/RecordLaws.v
theories/RecordModel.v
theories/RmsNetLaws.v
theories/RmsNetModel.v
theories/RmsNetProofs.v
theories/RmsNetSpec.v
theories/RmsNetSym.v
theories/SampleModel.v
theories/SampleSpec.v
theories/SerialLaws.v
theories/SerialModel.v
theories/SerialProofs.v
theories/SerialSpec.v
theories/ShapeGradLaws.v
theories/ShapeGradSpec.v
theories/ShapeLaws.v
theories/ShapeModel.v
theories/ShapeProofs.v
theories/ShapeSpec.v
theories/SubLaws.v
theories/SubModel.v
theories/SubProofs.v
theories/SubSpec.v
theories/SumGradLaws.v
theories/TensorDataLaws.v
theories/TensorLaws.v
theories/TensorModel.v
theories/TensorProofs.v
theories/TensorSpec.v
theories/ThreadLaws.v
theories/ThreadModel.v
theories/ThreadProofs.v
theories/ThreadSpec.v
theories/TrainGraphLaws.v
theories/TrainLaws.v
theories/TrainModel.v
theories/TrainProofs.v
theories/TrainSpec.v
theories/TrainSymProofs.v
theories/TransformLaws.v
theories/TransformModel.v
theories/TransformProofs.v
theories/TransformSpec.v
theories/UpdaterLaws.v
theories/UpdaterModel.v
theories/UpdaterProofs.v
theories/UpdaterSpec.v
