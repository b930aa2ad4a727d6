-Q theories Verif
theories/Base.v
theories/Num.v
theories/GridModel.v
theories/RouteModel.v
theories/MpiModel.v
theories/InterpModel.v
theories/CubeModel.v
theories/ConvolveModel.v
theories/NumLaws.v
theories/SpecModel.v
theories/BaseLemmas.v
theories/RouteLemmas.v
theories/MpiLemmas.v
theories/LocalLemmas.v
theories/RingLemmas.v
theories/OwnerLemmas.v
theories/CubeLemmas.v
theories/ProcLemmas.v
theories/BuildLemmas.v
theories/BadLemmas.v
theories/ConvolveLemmas.v
theories/NumR.v
theories/RealLemmas.v
theories/DistLemmas.v
theories/RealMain.v
theories/OutcomeLemmas.v
theories/MpiProc.v
theories/MpiProcLemmas.v
theories/ConvProc.v
theories/ConvProcLemmas.v
theories/ConvProcMain.v
theories/AngleLemmas.v
theories/ConvolveFacts.v
theories/RouteFacts.v
theories/RingFacts.v
theories/Demo.v
theories/FloatNum.v
theories/FloatLemmas.v
theories/FloatGrid.v
theories/FloatMain.v
theories/CutLemmas.v
theories/PropConvolve.v
theories/InterpSpec.v
theories/InterpReal.v
theories/InterpFacts.v
theories/PropInterp.v
theories/UtilModel.v
theories/UtilLemmas.v
theories/PropUtil.v
theories/AlmModel.v
theories/AlmLemmas.v
theories/AlmFits.v
theories/PropAlm.v
theories/ParModel.v
theories/ParLemmas.v
theories/HarmModel.v
theories/HarmLemmas.v
theories/AnnLemmas.v
theories/CubeBuild.v
theories/WigModel.v
theories/WigSpec.v
theories/WigLemmas.v
theories/WigCalc.v
theories/WigStart.v
theories/WigPrep.v
theories/WigGen.v
theories/WigAny.v
theories/PropWig.v
theories/HarmSpec.v
theories/HarmReal.v
theories/HarmFacts.v
theories/FullModel.v
theories/FullFacts.v
theories/PropHarm.v
theories/TodParModel.v
theories/PropTodPar.v
theories/FftModel.v
theories/FftReal.v
theories/FftPass.v
theories/FftGen.v
theories/FftPlan.v
theories/FftBlue.v
theories/PropFft.v
theories/ObjModel.v
theories/ObjLemmas.v
theories/HarmFail.v
theories/PropObj.v
theories/PropConv.v
theories/ApiModel.v
theories/ApiSpec.v
theories/PropApi.v
theories/PropPyData.v
theories/PropPy.v
theories/CapiSpec.v
theories/PropCapi.v
theories/PropApiCases.v
theories/PropFloat.v
theories/ProcSched.v
theories/PropProc.v
theories/ReadProc.v
theories/PropRead.v
theories/SchedModel.v
theories/SchedLemmas.v
theories/SchedFacts.v
theories/PropSched.v
theories/IsqrtF.v
theories/PropOrders.v
theories/PiBounds.v
theories/WigTotal.v
theories/WigFCoef.v
theories/WigFPhase.v
theories/WigFStart.v
theories/WigFAngle.v
theories/LibmRnd.v
theories/PropGenF.v
theories/FftAny.v
theories/HarmFftModel.v
theories/HarmFft.v
theories/PropFftAny.v
theories/PropFftExact.v
theories/FloatErr.v
theories/PiErr.v
theories/WeightErr.v
theories/AngleErr.v
theories/PosErr.v
theories/AccErr.v
theories/PropAccuracy.v
theories/SingleF.v
theories/SingleLemmas.v
theories/NormErr.v
theories/SmoothErr.v
theories/PropSingle.v
theories/PropSmoothF.v
theories/FftLock.v
theories/FftErr.v
theories/FftErrBfly.v
theories/FftErrPass.v
theories/FftErrAll.v
theories/FftErrPlan.v
theories/FftErrBlue.v
theories/FftLits.v
theories/PropFftErr.v
theories/RingErr.v
theories/RingErr2.v
theories/PropRingErr.v
theories/DipoleF.v
theories/PropDipole.v
theories/PyPntModel.v
theories/PropPyPnt.v
theories/PropPyPntCases.v
theories/PropLonF.v
theories/PropRouteF.v
theories/PropStencilF.v
theories/PropWindowsF.v
