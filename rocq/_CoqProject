-Q theories Verif
theories/Outcome.v
theories/XReal.v
theories/KernelModel.v
theories/KernelSpec.v
theories/XRealFacts.v
theories/RSort.v
theories/KernelProofs.v
theories/KernelMain.v
theories/KernelProps.v
theories/DistModel.v
theories/DistSpec.v
theories/DistProofs.v
theories/DistProofs2.v
theories/DistCases.v
theories/DistProps.v
theories/SwModel.v
theories/SwSpec.v
theories/SwProofs.v
theories/SwProps.v
theories/GoldModel.v
theories/GoldSpec.v
theories/GoldProofs.v
theories/GoldProofs2.v
theories/GoldProps.v
theories/VarModel.v
theories/VarSpec.v
theories/VarProofs.v
theories/VarProps.v
theories/Sums.v
theories/MpiModel.v
theories/MpiSpec.v
theories/MpiProofs.v
theories/MpiProps.v
theories/OmpModel.v
theories/OmpSpec.v
theories/OmpProofs.v
theories/OmpProps.v
theories/CudaModel.v
theories/CudaProofs.v
theories/CudaProps.v
theories/ModeModel.v
theories/ModeSpec.v
theories/ModeProofs.v
theories/ModeProps.v
theories/GwrModel.v
theories/GwrSpec.v
theories/GwrProofs.v
theories/GwrCases.v
theories/GwrProps.v
theories/DiagModel.v
theories/DiagProofs.v
theories/DiagProps.v
theories/MsModel.v
theories/MsSpec.v
theories/MsProofs.v
theories/MsCases.v
theories/MsBounds.v
theories/MsBoundsProofs.v
theories/MsProps.v
theories/MsBoundsProps.v
theories/GwssModel.v
theories/GwssSpec.v
theories/GwssProofs.v
theories/GwssProofs2.v
theories/GwssCases.v
theories/GwssProps.v
theories/GlmModel.v
theories/GlmSpec.v
theories/GlmProofs.v
theories/GlmProofs2.v
theories/GlmFitModel.v
theories/GlmFitProofs.v
theories/GlmCases.v
theories/GlmProps.v
theories/GlmFitProps.v
theories/RobModel.v
theories/RobProofs.v
theories/RobFitModel.v
theories/RobFitProofs.v
theories/RobFitProps.v
theories/RobCases.v
theories/RobProps.v
theories/GwdaModel.v
theories/GwdaSpec.v
theories/GwdaProofs.v
theories/GwdaProofs2.v
theories/GwdaProofs3.v
theories/GwdaCases.v
theories/GwdaProps.v
theories/GtwrModel.v
theories/GtwrSpec.v
theories/GtwrProofs.v
theories/GtwrStop.v
theories/GtwrProps.v
theories/GwdrModel.v
theories/GwdrSpec.v
theories/GwdrProofs.v
theories/GwdrFitModel.v
theories/GwdrFitProofs.v
theories/GwdrProps.v
theories/GwdrFitProps.v
theories/RidgeModel.v
theories/RidgeFitModel.v
theories/RidgeFitSpec.v
theories/RidgeFitProofs.v
theories/RidgeProofs.v
theories/RidgeFitCases.v
theories/RidgeProps.v
theories/RidgeFitProps.v
theories/ScaNnModel.v
theories/ScaNnProofs.v
theories/ScaModel.v
theories/ScaSpec.v
theories/ScaProofs.v
theories/ScaOptModel.v
theories/ScaOptProofs.v
theories/ScaCases.v
theories/ScaNnProps.v
theories/ScaProps.v
theories/PcaModel.v
theories/PcaSpec.v
theories/PcaProofs.v
theories/PcaCases.v
theories/ValidModel.v
theories/ValidProofs.v
theories/ValidSpec.v
theories/ValidProps.v
theories/PcaProps.v
theories/FlowModel.v
theories/FlowProofs.v
theories/FlowCases.v
theories/FlowCases2.v
theories/FlowCases3.v
theories/FlowExample.v
theories/FlowProps.v
theories/FlowNan.v
theories/GwssValues.v
theories/GlmValues.v
theories/RobValues.v
theories/GwdaValues.v
theories/MsTrace.v
theories/GlmCritModel.v
theories/GlmCritProofs.v
theories/GlmCritProps.v
theories/MsCritModel.v
theories/MsCritSpec.v
theories/MsCritProofs.v
theories/MsCritCases.v
theories/MsRefitModel.v
theories/MsRefitProofs.v
theories/MsRefitProps.v
theories/MsCritProps.v
theories/GwdrCritModel.v
theories/GwdrCritProofs.v
theories/GwdrCritProps.v
theories/GtwrFlowModel.v
theories/GtwrFlowProofs.v
theories/GtwrFlowExample.v
theories/GtwrFlowProps.v
theories/CumatModel.v
theories/CumatSpec.v
theories/CumatProofs.v
theories/CumatCases.v
theories/CumatGroup.v
theories/CumatLoop.v
theories/CumatExample.v
theories/CumatProps.v
theories/CumemModel.v
theories/CumemSpec.v
theories/CumemProofs.v
theories/CumemProps.v
theories/GpuTaskModel.v
theories/GpuTaskProofs.v
theories/GpuTaskProps.v
theories/LcDiagModel.v
theories/LcDiagProofs.v
theories/LcDiagProps.v
theories/RoundModel.v
theories/RoundSpec.v
theories/RoundProofs.v
theories/RoundMain.v
theories/Binary64.v
theories/RoundCases.v
theories/RoundProps.v
theories/RoundAcc.v
theories/RoundAcc2.v
theories/RoundAccProps.v
theories/ScaSeModel.v
theories/ScaSeSpec.v
theories/ScaSeProofs.v
theories/ScaSeMain.v
theories/ScaSeProps.v
theories/MsSeModel.v
theories/MsSeSpec.v
theories/MsSeProofs.v
theories/MsSeProps.v
theories/RdistModel.v
theories/RdistSpec.v
theories/RdistProofs.v
theories/RdistCases.v
theories/RdistW.v
theories/RdistProps.v
theories/ScaNnSpec.v
theories/ScaNb.v
theories/GlmObjModel.v
theories/GlmObjSpec.v
theories/GlmObjProofs.v
theories/GlmObjCases.v
theories/GlmObjProps.v
theories/RgwssModel.v
theories/RgwssSpec.v
theories/RgwssProofs.v
theories/RgwssMain.v
theories/RgwssCases.v
theories/RgwssProps.v
theories/RobFlowModel.v
theories/RobFlowSpec.v
theories/RobFlowProofs.v
theories/RobFlowCases.v
theories/RobFlowProps.v
theories/MsCudaModel.v
theories/MsCudaSpec.v
theories/MsCudaProofs.v
theories/MsCudaMain.v
theories/MsCudaCases.v
theories/MsCudaProps.v
theories/DevDistModel.v
theories/DevDistSpec.v
theories/DevDistProofs.v
theories/DevDistCases.v
theories/DevDistProps.v
theories/GtwrUpper.v
theories/ScaObjModel.v
theories/ScaObjSpec.v
theories/ScaObjProofs.v
theories/ScaObjCases.v
theories/ScaObjProps.v
theories/RnormModel.v
theories/RnormSpec.v
theories/RnormProofs.v
theories/RnormMain.v
theories/RnormCases.v
theories/RnormProps.v
theories/GdObjModel.v
theories/GdObjSpec.v
theories/GdObjProofs.v
theories/GdObjMain.v
theories/GdObjCases.v
theories/GdObjProps.v
theories/LcObjModel.v
theories/LcObjSpec.v
theories/LcObjProofs.v
theories/LcObjCases.v
theories/LcObjProps.v
theories/RgoldModel.v
theories/RgoldSpec.v
theories/RgoldProofs.v
theories/RgoldMain.v
theories/RgoldCases.v
theories/RgoldAd.v
theories/RgoldBig.v
theories/RgoldProps.v
theories/MpiSelModel.v
theories/MpiSelSpec.v
theories/MpiSelProofs.v
theories/MpiSelRest.v
theories/MpiSelMain.v
theories/MpiSelCases.v
theories/MpiSelGoldModel.v
theories/MpiSelGold.v
theories/MpiSelProps.v
theories/MsMpiModel.v
theories/MsMpiSpec.v
theories/MsMpiNet.v
theories/MsMpiMain.v
theories/MsMpiCases.v
theories/MsMpiProps.v
theories/MsMpiSerSpec.v
theories/MsMpiSerial.v
theories/MsMpiSerProps.v
theories/RaceModel.v
theories/RaceSpec.v
theories/RaceMain.v
theories/RaceTorn.v
theories/RaceCases.v
theories/RaceProps.v
theories/GwssObjModel.v
theories/GwssObjSpec.v
theories/GwssObjProofs.v
theories/GwssObjMain.v
theories/GwssObjCorr.v
theories/GwssObjCases.v
theories/GwssObjStale.v
theories/GwssObjProps.v
theories/PcaObjModel.v
theories/PcaObjSpec.v
theories/PcaObjProofs.v
theories/PcaObjMain.v
theories/PcaObjCases.v
theories/PcaObjProps.v
theories/RlocModel.v
theories/RlocSpec.v
theories/RlocMain.v
theories/RlocCases.v
theories/RlocProps.v
theories/MsConvSpec.v
theories/MsConvMain.v
theories/MsConvProps.v
theories/MsConvKern.v
theories/MsConvKernProps.v
theories/MleSpec.v
theories/MleMain.v
theories/MleCases.v
theories/MleProps.v
theories/LevSpec.v
theories/LevMain.v
theories/LevCases.v
theories/LevProps.v
theories/LevAic.v
theories/LevAicProps.v
theories/NbMain.v
theories/NbKern.v
theories/NbKernProps.v
theories/NbLink.v
theories/NbProps.v
theories/MsUni.v
theories/MsUniProps.v
theories/LimMain.v
theories/LimKern.v
theories/LimKernProps.v
theories/LimCases.v
theories/LimProps.v
theories/KernEdge.v
theories/KernEdgeProps.v
theories/GwssZero.v
theories/GwssZeroProps.v
theories/LooMain.v
theories/LooProps.v
theories/CumatDiag.v
theories/CumatDiagProps.v
theories/LooGwdr.v
theories/LooGwdrProps.v
theories/UnbSpec.v
theories/UnbMain.v
theories/UnbProps.v
theories/GwdaBeyond.v
theories/GwdaBeyondProps.v
theories/UnbMore.v
theories/UnbMoreProps.v
theories/NbGwdr.v
theories/NbGwdrProps.v
theories/ShrinkCase.v
theories/Shrink.v
theories/ShrinkProps.v
theories/RobDiagModel.v
theories/RobDiag.v
theories/RobDiagProps.v
theories/RobCalModel.v
theories/RobCal.v
theories/RobCalProps.v
theories/EqGwdr.v
theories/EqGwdrProps.v
