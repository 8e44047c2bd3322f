-Q theories Verif
theories/Word.v
theories/ModRed.v
theories/Arith.v
theories/ModRedProofs.v
theories/Fermat.v
theories/ModRedProps.v
theories/P_ModRed.v
theories/PolySpec.v
theories/PolyProofs.v
theories/SmallPrimes.v
theories/Ring.v
theories/PrimRoot.v
theories/RingProofs.v
theories/NTT.v
theories/NTTProofs.v
theories/RingOps.v
theories/RNSSpec.v
theories/RowProofs.v
theories/OpsProofs.v
theories/NTTProps.v
theories/Pocklington.v
theories/Examples.v
theories/P_NTT.v
theories/OpsProps.v
theories/P_Ops.v
theories/Float64.v
theories/FloatProofs.v
theories/BasisExt.v
theories/BasisProofs.v
theories/CRT.v
theories/BasisProps.v
theories/BasisEx.v
theories/P_Basis.v
theories/ScalingSpec.v
theories/Scaling.v
theories/ScalingProps.v
theories/ScalingMore.v
theories/P_Scaling.v
theories/Automorphism.v
theories/AutoProps.v
theories/P_Auto.v
theories/Repr.v
theories/Gadget.v
theories/MarginProofs.v
theories/AccumProofs.v
theories/Frlwe.v
theories/FrlweSetup.v
theories/GadgetSpec.v
theories/FrlweProps.v
theories/GadgetProofs.v
theories/FrlweSwitch.v
theories/FrlweTop.v
theories/FrlweEx.v
theories/P_Frlwe.v
theories/RlweSpec.v
theories/Rlwe.v
theories/RlweBase.v
theories/RlweKeys.v
theories/RlweSwitch.v
theories/RlweGen.v
theories/RlweEnc.v
theories/RlweTop.v
theories/RlweEx.v
theories/RlweDec.v
theories/P_Rlwe.v
theories/Ckks.v
theories/CkksSpec.v
theories/CkksBase.v
theories/CkksConst.v
theories/CkksOps.v
theories/CkksFloat.v
theories/CkksAdd.v
theories/CkksAddC.v
theories/CkksMul.v
theories/CkksRelin.v
theories/CkksRot.v
theories/CkksRescale.v
theories/CkksMad.v
theories/CkksTop.v
theories/CkksEx.v
theories/CkksRefute.v
theories/P_Ckks.v
theories/Fckks.v
theories/FckksSpec.v
theories/FckksProps.v
theories/FckksDec.v
theories/FckksEx.v
theories/P_Fckks.v
theories/Codec.v
theories/CodecSpec.v
theories/CodecProofs.v
theories/CodecTop.v
theories/CodecKeys.v
theories/P_Codec.v
theories/Params.v
theories/ParamsSpec.v
theories/ParamsProofs.v
theories/ParamsEx.v
theories/P_Params.v
theories/Utils.v
theories/UtilsProofs.v
theories/P_Utils.v
theories/Sampler.v
theories/SamplerSpec.v
theories/SamplerProofs.v
theories/SamplerTop.v
theories/SparseProofs.v
theories/SparseTop.v
theories/ProbaTop.v
theories/SamplerEx.v
theories/P_Sampler.v
theories/Gauss.v
theories/GaussSpec.v
theories/GaussProofs.v
theories/GaussFlip.v
theories/GaussEx.v
theories/P_Gauss.v
theories/Primes.v
theories/PrimesSpec.v
theories/PrimesProofs.v
theories/PrimesTop.v
theories/ModuliProofs.v
theories/PrimesEx.v
theories/P_Primes.v
theories/CkksMore.v
theories/CkksMoreSpec.v
theories/CkksMoreProofs.v
theories/CkksMoreTop.v
theories/CkksNoMod.v
theories/CkksMoreEx.v
theories/P_CkksMore.v
theories/Fft.v
theories/FftSpec.v
theories/FftProofs.v
theories/FftRing.v
theories/FftTop.v
theories/SlotSpec.v
theories/SlotProofs.v
theories/Encoder.v
theories/EncSpec.v
theories/EncNtt.v
theories/EncFloat.v
theories/EncCoeffs.v
theories/EncFft.v
theories/EncSlots.v
theories/SlotTrace.v
theories/MsgSpec.v
theories/SlotMsg.v
theories/EncEx.v
theories/P_Fft.v
theories/P_Encoder.v
theories/Msg.v
theories/MsgProofs.v
theories/MsgOps.v
theories/MsgCkks.v
theories/MsgCase.v
theories/MsgEx.v
theories/Draw.v
theories/DrawSpec.v
theories/DrawProofs.v
theories/DrawFresh.v
theories/Session.v
theories/SessionSpec.v
theories/SessionProofs.v
theories/SessionEx.v
theories/SessionParts.v
theories/P_Msg.v
theories/P_Draw.v
theories/P_Session.v
theories/RingTotal.v
theories/RingTotalEx.v
theories/P_RingTotal.v
theories/Proth.v
theories/FParams.v
theories/PubParams.v
theories/PubSpec.v
theories/PubTotal.v
theories/PubProofs.v
theories/P_Pub.v
theories/AccSpec.v
theories/PubAcc.v
theories/P_Acc.v
theories/CI.v
theories/CISpec.v
theories/CIProofs.v
theories/CIProps.v
theories/CISwap.v
theories/CIEx.v
theories/P_CI.v
theories/Degree.v
theories/DegreeSpec.v
theories/DegreeProofs.v
theories/DegreeTop.v
theories/DegreeKeys.v
theories/DegreeEx.v
theories/P_Degree.v
theories/Heap.v
theories/HeapSpec.v
theories/HeapProofs.v
theories/HeapTop.v
theories/HeapEq.v
theories/HeapEx.v
theories/P_Heap.v
theories/Conc.v
theories/ConcSpec.v
theories/ConcProofs.v
theories/ConcDec.v
theories/ConcTop.v
theories/ConcEnc.v
theories/ConcFin.v
theories/ConcEx.v
theories/P_Conc.v
theories/Lazy.v
theories/LazySpec.v
theories/LazyProofs.v
theories/LazyTop.v
theories/P_Lazy.v
theories/RingUtil.v
theories/RingUtilSpec.v
theories/RingUtilProofs.v
theories/RingUtilTop.v
theories/P_RingUtil.v
theories/RotKeys.v
theories/RotKeysSpec.v
theories/RotKeysProofs.v
theories/RotKeysLists.v
theories/RotKeysTop.v
theories/P_RotKeys.v
theories/KeyKinds.v
theories/KeyKindsSpec.v
theories/KeyKindsProofs.v
theories/KeyKindsEx.v
theories/P_KeyKinds.v
theories/ParamValues.v
theories/ParamValuesSpec.v
theories/ParamValuesProofs.v
theories/P_ParamValues.v
theories/Crp.v
theories/CrpProofs.v
theories/CrpEx.v
theories/P_Crp.v
