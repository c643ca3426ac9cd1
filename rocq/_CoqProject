-Q theories Verif
theories/Base.v
theories/Num.v
theories/ArrayModel.v
theories/ArraySpec.v
theories/ArrayProofs.v
theories/PropArray.v
theories/DatasetModel.v
theories/DatasetSpec.v
theories/DatasetProofs.v
theories/DatasetProofs2.v
theories/PropDataset.v
theories/RSum.v
theories/MathModel.v
theories/MathProofs.v
theories/MathProofsR.v
theories/PropMath.v
theories/ConvModel.v
theories/ConvSpec.v
theories/ConvProofs.v
theories/ConvBwd.v
theories/PropConv.v
theories/LayerModel.v
theories/GradSpec.v
theories/GradProofs.v
theories/GradChain.v
theories/PropGrad.v
theories/OptModel.v
theories/OptProofs.v
theories/PropOpt.v
theories/LossModel.v
theories/LossSpec.v
theories/LossProofs.v
theories/PropLoss.v
theories/Conc.v
theories/ThreadModel.v
theories/ThreadProofs.v
theories/PropThread.v
theories/GraphModel.v
theories/GraphSpec.v
theories/GraphProofs.v
theories/PropGraph.v
theories/ModelModel.v
theories/ChainProofs.v
theories/NodeModel.v
theories/ModelProofs.v
theories/PropModel.v
theories/PropDropout.v
theories/TrainProofs.v
theories/CopyModel.v
theories/PropCopy.v
theories/FitModel.v
theories/PropFit.v
theories/ParProofs.v
theories/PropPar.v
theories/FnnModel.v
theories/PropFnn.v
theories/BuilderModel.v
theories/PropBuilder.v
theories/ConcatModel.v
theories/PropConcat.v
theories/RecurrentModel.v
theories/RecurrentProofs.v
theories/PropRecurrent.v
theories/TypeModel.v
theories/PropTypes.v
theories/EncodingModel.v
theories/PropEncoding.v
theories/StreamModel.v
theories/CsvModel.v
theories/PropCsv.v
theories/ImageModel.v
theories/PropImages.v
theories/JsonModel.v
theories/PropJson.v
theories/DumpModel.v
theories/PropDump.v
theories/JsonConvModel.v
theories/PropJsonConv.v
theories/PropStep.v
theories/InitModel.v
theories/PropInit.v
theories/PropTraining.v
theories/IdentityModel.v
theories/PropIdentity.v
theories/DynModel.v
theories/PropDyn.v
theories/PropWhole.v
theories/DerivModel.v
theories/PropDeriv.v
theories/PropDescent.v
theories/CnnModel.v
theories/StepProofs.v
theories/CnnSpec.v
theories/CnnProofs.v
theories/PropCnn.v
theories/PropSizes.v
theories/PropCnnTrain.v
theories/JsonHeapModel.v
theories/JsonHeapSpec.v
theories/JsonHeapProofs.v
theories/PropJsonHeap.v
theories/TreeProofs.v
theories/HeadsSpec.v
theories/HeadsProofs.v
theories/PropHeads.v
theories/RoundModel.v
theories/RoundSpec.v
theories/RoundProofs.v
theories/PropRound.v
theories/LimitSpec.v
theories/LimitProofs.v
theories/LimitLayers.v
theories/PropLimit.v
theories/CnnNetModel.v
theories/CnnNetProofs.v
theories/PropCnnNet.v
theories/RaceModel.v
theories/RaceProofs.v
theories/PropRace.v
theories/PropFine.v
theories/LeastSquares.v
theories/PropRegression.v
theories/PropRegressionFit.v
theories/PropMerge.v
theories/ShapeModel.v
theories/PropShape.v
theories/RnnModel.v
theories/RnnProofs.v
theories/PropRnn.v
theories/ParseModel.v
theories/ParseProofs.v
theories/PropParse.v
theories/ConnectModel.v
theories/ConnectProofs.v
theories/PropConnect.v
theories/CsvObjModel.v
theories/PropCsvObj.v
theories/AdamProofs.v
theories/AdamParModel.v
theories/PropAdam.v
theories/PropAdamFit.v
theories/PropAdamPar.v
theories/PropJsonBlank.v
theories/FloatModel.v
theories/FloatProofs.v
theories/FloatIeee.v
theories/PropFloat.v
theories/PropNan.v
theories/SaveModel.v
theories/DriftProofs.v
theories/PropSave.v
theories/PropErr.v
theories/CnnSaveModel.v
theories/CnnDriftProofs.v
theories/PropCnnSave.v
theories/PropCnnErr.v
theories/NameModel.v
theories/PropNames.v
theories/PropCnnAdam.v
theories/LoadModel.v
theories/PropPartLoad.v
theories/ConcatNetModel.v
theories/PropConcatNet.v
theories/RnnSaveModel.v
theories/RnnDriftProofs.v
theories/PropRnnSave.v
theories/PropRnnErr.v
theories/ScoreModel.v
theories/PropScore.v
