-Q theories Verif
theories/Num.v
theories/Syntax.v
theories/ModelScalar.v
theories/Spec.v
theories/Base.v
theories/ScalarValid.v
theories/Eval.v
theories/ScalarOps.v
theories/ScalarMore.v
theories/ScalarNorm.v
theories/Unamb.v
theories/ScalarLin.v
theories/NumR.v
theories/Deriv.v
theories/SpecProg.v
theories/Programs.v
theories/ListFacts.v
theories/ScalarFacts.v
theories/Degrees.v
theories/Witness.v
theories/ScalarWit.v
theories/PropertiesScalar.v
theories/ModelSC.v
theories/Order.v
theories/SCProofs.v
theories/SCImplies.v
theories/SCWit.v
theories/PropertiesConstr.v
theories/ModelShape.v
theories/ModelArith.v
theories/SpecArr.v
theories/Arr.v
theories/ArrPlus.v
theories/ArrMul.v
theories/ArrMulMat.v
theories/ArrMulAll.v
theories/ArrMulTop.v
theories/ArrTop.v
theories/ArrPow.v
theories/ArrShape.v
theories/ScalarOver.v
theories/ArrMisc.v
theories/ArrSub.v
theories/ArrFacts.v
theories/ArrWit.v
theories/IndexErr.v
theories/SpecReject.v
theories/CheckExact.v
theories/Unsupported.v
theories/UnsupWit.v
theories/PropertiesArr.v
theories/ModelEnv.v
theories/SpecEnv.v
theories/EnvProofs.v
theories/EnvWit.v
theories/PropertiesEnv.v
theories/ModelHeap.v
theories/HeapMem.v
theories/HeapRef.v
theories/HeapOps.v
theories/HeapOps2.v
theories/HeapDeriv.v
theories/SpecHeap.v
theories/HeapProofs.v
theories/HeapVec.v
theories/HeapTop.v
theories/HeapWit.v
theories/PropertiesHeap.v
theories/ModelConstr.v
theories/SpecCon.v
theories/ConProofs.v
theories/ConVec.v
theories/ConMore.v
theories/ConWit.v
theories/PropertiesCon.v
theories/SpecMore.v
theories/LinPart.v
theories/MoreWit.v
theories/PropertiesMore.v
theories/ModelConc.v
theories/SpecConc.v
theories/ConcRun.v
theories/ConcSim.v
theories/ConcTop.v
theories/ConcWit.v
theories/PropertiesConc.v
theories/ModelConv.v
theories/SpecConv.v
theories/PolyZero.v
theories/Canon.v
theories/ConvProofs.v
theories/ConvWit.v
theories/PropertiesConv.v
theories/ModelString.v
theories/ModelErrors.v
theories/SpecErrors.v
theories/SpecString.v
theories/StringProofs.v
theories/StringWit.v
theories/PropertiesString.v
theories/SpecCopy.v
theories/HeapEffect.v
theories/CopyProofs.v
theories/CopyWit.v
theories/PropertiesCopy.v
theories/HeapTrack.v
theories/SpecProgram.v
theories/ProgramProofs.v
theories/ProgramWit.v
theories/PropertiesProg.v
theories/FloatExact.v
theories/SpecExact.v
theories/FloatSim.v
theories/FloatRun.v
theories/FloatOps.v
theories/FloatSub.v
theories/FloatProg.v
theories/FloatLin.v
theories/ExactWit.v
theories/PropertiesExact.v
theories/SpecAProg.v
theories/ModelAProg.v
theories/ArrOne.v
theories/AProgProofs.v
theories/AProgTop.v
theories/AffineProofs.v
theories/AProgWit.v
theories/AProgCon.v
theories/PropertiesAProg.v
theories/SpecExactArr.v
theories/FloatArr.v
theories/FloatArrPlus.v
theories/FloatArrMul.v
theories/FloatAProg.v
theories/FloatARun.v
theories/FloatACon.v
theories/FloatATop.v
theories/FloatOrder.v
theories/ExactArrWit.v
theories/PropertiesExactArr.v
theories/FloatLinProg.v
theories/LinProgWit.v
theories/PropertiesLinProg.v
theories/SpecEffect.v
theories/Effect.v
theories/Effect2.v
theories/EffectWit.v
theories/PropertiesEffect.v
theories/SpecSweep.v
theories/HeapSweep.v
theories/HeapSweepTop.v
theories/HeapMatPanic.v
theories/SweepWit.v
theories/PropertiesSweep.v
theories/ErrorProofs.v
theories/ErrorProofs2.v
theories/ErrorProofs3.v
theories/ErrorWit.v
theories/PropertiesErrors.v
theories/ModelHeapArr.v
theories/HeapArr.v
theories/HeapArr2.v
theories/HeapArr3.v
theories/HeapArr4.v
theories/SpecHeapArr.v
theories/HeapArrProofs.v
theories/HeapArrWit.v
theories/PropertiesHeapArr.v
theories/SpecEffectArr.v
theories/EffectArr.v
theories/EffectArr2.v
theories/EffectArrWit.v
theories/PropertiesEffectArr.v
theories/ModelHeapCon.v
theories/SpecHeapCon.v
theories/HeapCon.v
theories/HeapConProofs.v
theories/HeapConWit.v
theories/PropertiesHeapCon.v
theories/SpecForm.v
theories/LinWhen.v
theories/FormProofs.v
theories/FormWit.v
theories/PropertiesForm.v
theories/ModelMeasure.v
theories/SpecMeasure.v
theories/MeasureProofs.v
theories/MeasureWit.v
theories/PropertiesMeasure.v
theories/SpecKind.v
theories/KindProofs.v
theories/KindWit.v
theories/PropertiesKind.v
theories/SpecRound.v
theories/Round.v
theories/RoundWit.v
theories/PropertiesRound.v
theories/SpecPoint.v
theories/PointPlus.v
theories/PointPlus2.v
theories/PointMul.v
theories/PointMul2.v
theories/PointWit.v
theories/SpecAccuracy.v
theories/AccFloat.v
theories/Accuracy.v
theories/Accuracy2.v
theories/Accuracy3.v
theories/Accuracy4.v
theories/Accuracy5.v
theories/Accuracy6.v
theories/Accuracy7.v
theories/Accuracy8.v
theories/AccWit.v
theories/SpecCollect.v
theories/Collect.v
theories/Collect2.v
theories/SpecSub.v
theories/Collect3.v
theories/CollectWit.v
theories/SubWit.v
theories/SpecMat.v
theories/ProdWit.v
theories/PointProd.v
theories/PropertiesPoint.v
theories/AccuracyProd.v
theories/PropertiesAccuracy.v
theories/CollectMat.v
theories/CollectMono.v
theories/MatWit.v
theories/PowStep.v
theories/CollectSub.v
theories/PropertiesCollect.v
theories/Reject.v
theories/RejectArith.v
theories/RejectWit.v
theories/RejectHeap.v
theories/RejectArithHeap.v
theories/PropertiesReject.v
theories/RejectCon.v
theories/RejectConHeap.v
theories/SpecRejectCon.v
theories/CheckExactCon.v
theories/PropertiesRejectCon.v
theories/ReadHeap.v
theories/PropertiesRead.v
