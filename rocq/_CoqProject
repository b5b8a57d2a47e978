-Q theories Verif
theories/Base.v
theories/Scalar.v
theories/B32Facts.v
theories/Mat.v
theories/SpecMat.v
theories/SpecReal.v
theories/RSum.v
theories/MatFacts.v
theories/MatProofs.v
theories/MatLoops.v
theories/Scatter.v
theories/MatProofs2.v
theories/MatProps.v
theories/P_Matrix.v
theories/RDeriv.v
theories/Loss.v
theories/SpecLoss.v
theories/LossProofs.v
theories/LossProofs2.v
theories/P_Loss.v
theories/Optim.v
theories/SpecOpt.v
theories/OptProofs.v
theories/OptProofs2.v
theories/OptProofs3.v
theories/P_Opt.v
theories/Regul.v
theories/SpecRegul.v
theories/RegulProofs.v
theories/P_Regul.v
theories/Act.v
theories/SpecAct.v
theories/ActDeriv.v
theories/ActDeriv2.v
theories/ActDeriv3.v
theories/ActDeriv4.v
theories/ActProofs.v
theories/ActMono.v
theories/P_Act.v
theories/LayMat.v
theories/LayImg.v
theories/LayKit.v
theories/SpecLayer.v
theories/LayGrad.v
theories/LayCurve.v
theories/LayTens.v
theories/LayProofs1.v
theories/LayProofs2.v
theories/LayProofs3.v
theories/LayProofs4.v
theories/LayProofs5.v
theories/LayProofs6.v
theories/LayProofs7.v
theories/LayProofs8.v
theories/P_Layer.v
theories/ImgKit.v
theories/ImgDot.v
theories/LayPool1.v
theories/LayPool2.v
theories/LayPool3.v
theories/LayPool4.v
theories/LayPool5.v
theories/LayConv1.v
theories/LayConv2.v
theories/LayConv3.v
theories/LayConv4.v
theories/LayFlip.v
theories/LayRnn.v
theories/LayRnnProofs.v
theories/P_Image.v
theories/SpecData.v
theories/B32Int.v
theories/Scaler.v
theories/ScalerProofs.v
theories/Metrics.v
theories/MetricsProofs.v
theories/KMeans.v
theories/KMeansProofs.v
theories/KMeansProofs2.v
theories/P_Data.v
theories/Layer.v
theories/Net.v
theories/SpecNet.v
theories/NetRow.v
theories/NetProofs1.v
theories/NetProofs2.v
theories/NetProofs3.v
theories/NetProofs4.v
theories/P_Net.v
theories/NetTrain.v
theories/SpecTrain.v
theories/TrainProofs1.v
theories/TrainProofs2.v
theories/TrainProofs3.v
theories/TrainProofs4.v
theories/TrainProofs5.v
theories/TrainProofs6.v
theories/TrainProofs7.v
theories/TrainProofs8.v
theories/TrainProofs9.v
theories/TrainProofs10.v
theories/TrainProofs11.v
theories/TrainProofs12.v
theories/TrainProofs13.v
theories/TrainProofs14.v
theories/P_Train.v
theories/LrRule1.v
theories/LrRule2.v
theories/P_Rate.v
theories/MatHeap.v
theories/SpecHeap.v
theories/HeapProofs1.v
theories/HeapProofs2.v
theories/HeapProofs3.v
theories/HeapProofs4.v
theories/HeapProofs5.v
theories/HeapProofs6.v
theories/HeapProofs7.v
theories/HeapProofs8.v
theories/P_Heap.v
theories/SpecReader.v
theories/Reader.v
theories/ReaderProofs1.v
theories/ReaderProofs2.v
theories/ReaderProofs3.v
theories/P_Reader.v
theories/SpecText.v
theories/Text.v
theories/TextProofs.v
theories/TextLex.v
theories/TextCase.v
theories/P_Text.v
theories/SpecJson.v
theories/Json.v
theories/JsonProofs.v
theories/JsonUniq.v
theories/JsonSave.v
theories/SpecSave.v
theories/JsonSaveProofs.v
theories/JsonSaveProofs2.v
theories/P_Json.v
theories/SpecGuard.v
theories/GuardProofs.v
theories/GuardProofs2.v
theories/P_Guard.v
theories/Meta.v
theories/SpecMeta.v
theories/MetaProofs1.v
theories/MetaProofs2.v
theories/MetaProofs3.v
theories/MetaProofs4.v
theories/MetaProofs5.v
theories/MetaProofs6.v
theories/P_Meta.v
theories/Csv.v
theories/SpecCsv.v
theories/CsvProofs.v
theories/P_Csv.v
theories/LayGlu.v
theories/SpecGlu.v
theories/GluProofs.v
theories/P_Glu.v
theories/SpecGrad.v
theories/GradProofs1.v
theories/GradProofs2.v
theories/GradProofs3.v
theories/GradProofs4.v
theories/P_Grad.v
theories/SpecDescent.v
theories/GradProofs5.v
theories/GradProofs6.v
theories/GradProofs7.v
theories/GradProofs8.v
theories/P_Descent.v
theories/SpecInit.v
theories/InitProofs.v
theories/P_Init.v
theories/MiscProofs.v
theories/SpecRnn.v
theories/LayRnnProofs2.v
theories/P_Rnn.v
theories/SpecRestart.v
theories/OptProofs4.v
theories/P_Restart.v
theories/SpecFit.v
theories/FitLay1.v
theories/FitLay2.v
theories/FitLay3.v
theories/FitNet1.v
theories/FitNet2.v
theories/FitNet3.v
theories/P_Fit.v
theories/SpecRound.v
theories/RoundProofs1.v
theories/RoundProofs2.v
theories/P_Round.v
theories/SpecLinear.v
theories/LinProofs1.v
theories/FitRun.v
theories/LinProofs2.v
theories/P_Linear.v
theories/SpecStale.v
theories/StaleLay.v
theories/StaleNet.v
theories/StaleRun.v
theories/StaleCase.v
theories/P_Stale.v
theories/SpecNaN.v
theories/B32Kit.v
theories/NaNAct.v
theories/NaNRefute.v
theories/NaNFin.v
theories/NaNCase.v
theories/NaNLay.v
theories/SpecSoft.v
theories/SoftProofs1.v
theories/SoftProofs2.v
theories/SoftProofs3.v
theories/B32OfR.v
theories/P_Soft.v
theories/LibmRound.v
theories/P_NaN.v
theories/SpecStay.v
theories/OptFin1.v
theories/OptFin2.v
theories/OptFin3.v
theories/P_Stay.v
theories/FitKeep.v
theories/SpecTrainFin.v
theories/TrainFin1.v
theories/TrainFin2.v
theories/TrainFin3.v
theories/TrainFin4.v
theories/P_Finite.v
theories/SpecLogit.v
theories/LogitProofs1.v
theories/LogitProofs2.v
theories/LogitProofs3.v
theories/P_Logit.v
theories/SpecAcc.v
theories/AccProofs1.v
theories/AccProofs2.v
theories/AccProofs3.v
theories/P_Acc.v
theories/NetRule1.v
theories/NetRule2.v
theories/SpecMlp.v
theories/MlpFin1.v
theories/MlpFin2.v
theories/MlpFin3.v
theories/P_Mlp.v
theories/SpecRegr.v
theories/RegrFin1.v
theories/RegrFin2.v
theories/RegrFin3.v
theories/P_Regr.v
theories/SpecSeed.v
theories/Seed1.v
theories/Seed2.v
theories/Seed3.v
theories/P_Seed.v
theories/SpecWatch.v
theories/Watch1.v
theories/Watch2.v
theories/Watch3.v
theories/P_Watch.v
theories/SpecOrder.v
theories/Order1.v
theories/Order2.v
theories/Order3.v
theories/Order4.v
theories/Order5.v
theories/P_Order.v
theories/SpecResume.v
theories/Resume1.v
theories/Resume2.v
theories/Resume3.v
theories/Resume4.v
theories/P_Resume.v
theories/SpecFixed.v
theories/Fixed1.v
theories/Fixed2.v
theories/Fixed3.v
theories/Fixed4.v
theories/P_Fixed.v
theories/SpecRecord.v
theories/Record1.v
theories/Record2.v
theories/Record3.v
theories/Record4.v
theories/P_Record.v
theories/SpecRepeat.v
theories/Rep1.v
theories/Rep2.v
theories/Rep3.v
theories/Rep4.v
theories/Rep5.v
theories/P_Repeat.v
theories/SpecPool.v
theories/PoolF1.v
theories/PoolF2.v
theories/PoolF3.v
theories/P_PoolF.v
theories/SpecZero.v
theories/Zero1.v
theories/Zero2.v
theories/Zero3.v
theories/P_Zero.v
theories/SpecDead.v
theories/Dead1.v
theories/Dead2.v
theories/P_Dead.v
theories/SpecTwin.v
theories/Twin1.v
theories/Twin2.v
theories/Twin3.v
theories/P_Twin.v
theories/SpecSym.v
theories/Sym1.v
theories/Sym2.v
theories/P_Sym.v
theories/SpecFold.v
theories/Fold1.v
theories/Fold2.v
theories/P_Fold.v
theories/SpecClass.v
theories/ActStrict.v
theories/Class1.v
theories/P_Class.v
