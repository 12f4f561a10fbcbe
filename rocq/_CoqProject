-Q theories Verif
theories/Num.v
theories/Outcome.v
theories/Types.v
theories/Biquad.v
theories/State.v
theories/Cascade.v
theories/Transforms.v
theories/Butterworth.v
theories/Chebyshev.v
theories/PoleFilter.v
theories/RBJ.v
theories/Custom.v
theories/World.v
theories/Exact.v
theories/Float64.v
theories/RefLibm.v
theories/History.v
theories/Hoare.v
theories/Safe.v
theories/Spec.v
theories/Stream.v
theories/Classes.v
theories/ClassesProofs.v
theories/Reject.v
theories/WorldHistory.v
theories/WorldProofs.v
theories/AnyLemmas.v
theories/Examples.v
theories/PropsAny.v
theories/ClassesLemmas.v
theories/PropsClasses.v
theories/RealNum.v
theories/SigSpec.v
theories/SigProofs.v
theories/StabProofs.v
theories/RespProofs.v
theories/SigLemmas.v
theories/LayoutProofs.v
theories/FiltSig.v
theories/PropsSig.v
theories/PZSpec.v
theories/PZProofs.v
theories/CoefLemmas.v
theories/PropsCoef.v
theories/RBJSpec.v
theories/RBJProofs.v
theories/PropsRBJ.v
theories/BuildProofs.v
theories/ChebSpec.v
theories/DesignSpec.v
theories/PolyProofs.v
theories/MapProofs.v
theories/TransProofs.v
theories/ProtoProofs.v
theories/ProtoBuild.v
theories/DesignProofs.v
theories/DesignLemmas.v
theories/DesignFinal.v
theories/PropsDesign.v
theories/BandProofs.v
theories/BandBuild.v
theories/BandSpec.v
theories/BandSetup.v
theories/BandLemmas.v
theories/ShelfSpec.v
theories/ShelfLemmas.v
theories/BandFinal.v
theories/BandDouble.v
theories/PropsBand.v
theories/CallSpec.v
theories/HistRel.v
theories/CallLemmas.v
theories/PropsCalls.v
theories/FloatSpec.v
theories/FloatProofs.v
theories/Samples.v
theories/FloatLemmas.v
theories/SampleLemmas.v
theories/FloatExamples.v
theories/PropsFloat.v
theories/ChShelfSpec.v
theories/ChShelfLemmas.v
theories/ChShelfSetup.v
theories/ChShelfFinal.v
theories/ChShelfDouble.v
theories/PropsShelf.v
theories/CustomLemmas.v
theories/PropsCustom.v
theories/PZFinal.v
theories/PropsPZ.v
theories/Public.v
theories/PublicLemmas.v
theories/PublicDouble.v
theories/PropsPublic.v
theories/CountLemmas.v
theories/PropsCount.v
theories/RoundSpec.v
theories/RoundProofs.v
theories/RoundRun.v
theories/RoundLemmas.v
theories/RoundExample.v
theories/PropsRound.v
theories/NanSpec.v
theories/NanLemmas.v
theories/RBJAllSpec.v
theories/RBJAll.v
theories/PropsAccept.v
theories/RBJDefaults.v
theories/RBJProtoSpec.v
theories/RBJProto.v
theories/RBJPeak.v
theories/PropsProto.v
theories/EndSpec.v
theories/EndLemmas.v
theories/RBJSettle.v
theories/PropsEnd.v
theories/DblPi.v
theories/DblSpec.v
theories/DblProofs.v
theories/DblLemmas.v
theories/PropsDbl.v
theories/BuildAny.v
theories/BwDblSpec.v
theories/CplxDbl.v
theories/BwDbl.v
theories/BwDbl2.v
theories/BwDbl3.v
theories/BwDblLemmas.v
theories/BwExact.v
theories/BwDblFinal.v
theories/BwScale.v
theories/BwScaleLemmas.v
theories/PropsBwDbl.v
theories/ChainSpec.v
theories/ChainLemmas.v
theories/BwOut.v
theories/PropsChain.v
theories/TinyCutoff.v
theories/PropsTiny.v
theories/Contract.v
theories/ContractProofs.v
theories/ContractLemmas.v
theories/ContractBw.v
theories/PropsContract.v
theories/CasPZProofs.v
theories/QueryProofs.v
theories/PropsCasPZ.v
theories/PropsQuery.v
theories/RbjShSpec.v
theories/RbjShProofs.v
theories/RbjShLemmas.v
theories/PropsRbjSh.v
theories/NoExc.v
theories/NoExcProofs.v
theories/PropsNoExc.v
theories/ChCoefSpec.v
theories/ChExact.v
theories/PropsChCoef.v
theories/RelDbl.v
theories/ChDblSpec.v
theories/ChDbl.v
theories/ChDbl2.v
theories/SimDbl.v
theories/SimSetup.v
theories/ChDbl3.v
theories/ChDbl4.v
theories/ChDblLemmas.v
theories/ChDblEx.v
theories/PropsChDbl.v
theories/UnsetSpec.v
theories/UnsetLemmas.v
theories/PropsUnset.v
theories/ChScaleSpec.v
theories/ChScale.v
theories/ChOut.v
theories/PropsChOut.v
theories/RespDblSpec.v
theories/RespDbl.v
theories/RespDblLemmas.v
theories/RespOutSpec.v
theories/RespOut.v
theories/RespOut2.v
theories/PropsResp.v
theories/RbjRespSpec.v
theories/RbjResp.v
theories/PropsRbjResp.v
theories/ContractCh.v
theories/PropsContractCh.v
theories/ReuseLemmas.v
theories/PropsReuse.v
theories/ShelfDblSpec.v
theories/ShelfExact.v
theories/PropsShelfCoef.v
theories/ShelfSetup.v
theories/ShelfDbl.v
theories/ShelfDbl2.v
theories/ShelfScale.v
theories/ShelfOut.v
theories/ShelfEx.v
theories/PropsShelfDbl.v
theories/RunOnSpec.v
theories/RunOn.v
theories/RunOnLemmas.v
theories/RunOnEx.v
theories/PropsRunOn.v
theories/DecaySpec.v
theories/Decay.v
theories/DecayLemmas.v
theories/DecayEx.v
theories/PropsDecay.v
theories/LimitLemmas.v
theories/LimitEx.v
theories/PropsLimit.v
theories/EquivLemmas.v
theories/EquivEx.v
theories/PropsEquiv.v
theories/DesFallSpec.v
theories/DesFall.v
theories/DesFallEx.v
theories/PropsDesFall.v
theories/SmpRound.v
theories/SmpEx.v
theories/PropsSmpRound.v
theories/SettleSpec.v
theories/Settle.v
theories/SettleResp.v
theories/PropsSettle.v
theories/SettleOn.v
theories/SettleOn2.v
theories/PropsSettleOn.v
theories/MarkSpec.v
theories/Mark.v
theories/MarkEx.v
theories/PropsMark.v
theories/SettleRate.v
theories/SettleRateEx.v
theories/PropsRate.v
theories/SettleFma.v
theories/PropsSettleFma.v
theories/FmaOn.v
theories/FmaOnLemmas.v
theories/PropsFmaOn.v
theories/FmaFall.v
theories/FmaFallSpec.v
theories/FmaFallLemmas.v
theories/PropsFmaFall.v
theories/FmaDes.v
theories/PropsFmaDes.v
