-Q theories Verif
theories/Base.v
theories/PermModel.v
theories/PermProofs.v
theories/TriModel.v
theories/TriProofs.v
theories/Values.v
theories/RitzModel.v
theories/RitzProofs.v
theories/LockModel.v
theories/LockProofs.v
theories/MergeModel.v
theories/MergeProofs.v
theories/PropsLinalg.v
theories/PropsOrder.v
theories/FieldsModel.v
theories/ParamsModel.v
theories/ParamsProofs.v
theories/SpecParams.v
theories/CheckProofs.v
theories/DefaultsProofs.v
theories/PropsParams.v
theories/MembersModel.v
theories/SpecMembers.v
theories/PropsMembers.v
theories/SpecParallel.v
theories/ParallelModel.v
theories/PropsParallel.v
theories/CopyModel.v
theories/CopyProofs.v
theories/PropsCopy.v
theories/OperatorModel.v
theories/OperatorProofs.v
theories/PropsOperators.v
theories/InitModel.v
theories/PropsInit.v
theories/SpecPresets.v
theories/PropsPresets.v
theories/FrameModel.v
theories/FrameProofs.v
theories/PropsFrames.v
theories/ConvModel.v
theories/SpecConv.v
theories/ConvProofs.v
theories/PropsConv.v
theories/SelectModel.v
theories/SelectProofs.v
theories/PropsSelect.v
theories/RestartModel.v
theories/ScatterProofs.v
theories/RestartProofs.v
theories/RestartProofs2.v
theories/RestartProofs3.v
theories/PropsRestart.v
theories/OrthoModel.v
theories/SpecOrtho.v
theories/OrthoProofs.v
theories/OrthoProofs2.v
theories/OrthoProofs3.v
theories/PropsOrtho.v
theories/InnerModel.v
theories/InnerProofs.v
theories/PropsInner.v
theories/MainModel.v
theories/SpecMain.v
theories/MainProofs.v
theories/MainProofs2.v
theories/PropsMain.v
theories/PropsLoop.v
theories/ReturnModel.v
theories/ReturnProofs.v
theories/PropsReturn.v
theories/DynModel.v
theories/PropsDyn.v
theories/SvdsModel.v
theories/SvdsProofs.v
theories/PropsSvds.v
theories/SvdsCtlModel.v
theories/PropsSvdsCtl.v
theories/SvdsOpModel.v
theories/PropsSvdsOp.v
theories/SvdsConvModel.v
theories/PropsSvdsConv.v
theories/SvdsMonModel.v
theories/PropsSvdsMon.v
theories/UpdateModel.v
theories/PropsUpdate.v
theories/ShiftModel.v
theories/PropsShift.v
theories/SvdsFieldsModel.v
theories/SvdsParamsModel.v
theories/SpecSvdsParams.v
theories/PropsSvdsParams.v
theories/SvdsMembersModel.v
theories/SpecSvdsMembers.v
theories/PropsSvdsMembers.v
theories/ProjModel.v
theories/SpecProj.v
theories/PropsProj.v
theories/MatAlg.v
theories/ExtractModel.v
theories/SpecExtract.v
theories/PropsExtract.v
theories/PropsExtract2.v
theories/ReprojModel.v
theories/SpecReproj.v
theories/PropsReproj.v
theories/PropsReproj2.v
theories/PropsReproj3.v
theories/PropsReproj4.v
theories/StepModel.v
theories/SpecStep.v
theories/PropsStep.v
theories/PropsStep2.v
theories/PropsStep3.v
theories/PropsStep4.v
theories/QmrModel.v
theories/SpecQmr.v
theories/PropsQmr.v
theories/PropsQmr2.v
theories/PropsQmr3.v
theories/PropsQmr4.v
theories/SvqbModel.v
theories/SpecSvqb.v
theories/PropsSvqb.v
theories/PropsSvqb2.v
theories/PropsSvqb3.v
theories/BlasModel.v
theories/SpecBlas.v
theories/PropsBlas.v
theories/PropsBlas2.v
theories/PropsBlas3.v
theories/PropsBlas4.v
theories/VwxrModel.v
theories/SpecVwxr.v
theories/PropsVwxr.v
theories/PropsVwxr2.v
theories/PropsVwxr3.v
theories/MoveModel.v
theories/SpecMove.v
theories/PropsMove.v
theories/PropsMove2.v
theories/PropsMove3.v
theories/PropsMove4.v
theories/PropsMove5.v
theories/GrammModel.v
theories/PropsMove6.v
theories/BrcastModel.v
theories/PropsBrcast.v
theories/TestModel.v
theories/SpecTest.v
theories/PropsTest.v
theories/PropsTest2.v
theories/CoherenceModel.v
theories/PropsCoherence.v
theories/PropsSelect2.v
theories/MonitorModel.v
theories/SpecMonitor.v
theories/PropsMonitor.v
theories/PropsMonitor2.v
theories/PropsMonitor3.v
theories/InnerReports.v
theories/PropsMonitor4.v
theories/PropsFrames2.v
theories/MassNormModel.v
theories/PropsQmr5.v
theories/LapackModel.v
theories/SpecLapack.v
theories/PropsLapack.v
theories/PropsLapack2.v
theories/PyModel.v
theories/SpecPy.v
theories/PropsPy.v
theories/PropsPy2.v
theories/PropsPy3.v
theories/FortranModel.v
theories/PropsFortran.v
theories/SpecR.v
theories/RModel.v
theories/PropsR.v
theories/PropsR2.v
theories/SpecMat.v
theories/MatModel.v
theories/PropsMat.v
theories/PropsMat2.v
theories/MatSvdsModel.v
theories/PropsMatSvds.v
theories/PropsMatSvds2.v
theories/ErrorTables.v
theories/PropsErrors.v
theories/MatOptions.v
theories/PropsMatOptions.v
theories/Audit.v
