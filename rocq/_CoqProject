-Q theories Verif
theories/Base.v
theories/PyNum.v
theories/Kernel.v
theories/Spec.v
theories/XReal.v
theories/XArith.v
theories/KernelProofs.v
theories/Expr.v
theories/ExprProofs.v
theories/KernelAlg.v
theories/Witness.v
theories/KernelRefute.v
theories/KaucherProofs.v
theories/KernelMore.v
theories/KaucherDiv.v
theories/SpecIso.v
theories/IsoProofs.v
theories/SpecArrIso.v
theories/ArrIso.v
theories/Props_Kernel.v
theories/SpecElem.v
theories/ElemProofs.v
theories/PowProofs.v
theories/PerfectLibm.v
theories/TrigProofs.v
theories/ElemRefute.v
theories/Props_Elem.v
theories/Arrays.v
theories/Construct.v
theories/SpecArray.v
theories/ArrayProofs.v
theories/ArrayMore.v
theories/ArrayMat.v
theories/ArrayItems.v
theories/ConstructProofs.v
theories/ConstructMore.v
theories/ConstructSys.v
theories/ConstructUtil.v
theories/ArrayRefute.v
theories/ArrayMid.v
theories/Props_Arrays.v
theories/Exact.v
theories/SpecExact.v
theories/Recog.v
theories/ExactProofs.v
theories/RecogProofs.v
theories/RecogMore.v
theories/RecogFinal.v
theories/SubsetProofs.v
theories/RecogRefute.v
theories/Props_Recog.v
theories/Ralgb5.v
theories/RalgbProofs.v
theories/RalgbMore.v
theories/Props_Ralgb.v
theories/Solvers.v
theories/SpecSolvers.v
theories/SolversProofs.v
theories/GSProofs.v
theories/SolversRefute.v
theories/NewtonProofs.v
theories/NewtonVerify.v
theories/IterProofs.v
theories/GSEmpty.v
theories/NewtonRaise.v
theories/GlobProofs.v
theories/Props_Solvers.v
theories/Estim.v
theories/SpecEstim.v
theories/EstimProofs.v
theories/RohnProofs.v
theories/HbrProofs.v
theories/NmChebProofs.v
theories/EstimRefute.v
theories/EstimMore.v
theories/Props_Estim.v
theories/Boundary.v
theories/SpecBoundary.v
theories/BoundaryProofs.v
theories/BoundaryMore.v
theories/Props_Boundary.v
theories/Subdiff.v
theories/SpecSubdiff.v
theories/SubdiffProofs.v
theories/SubdiffEx.v
theories/SubdiffStop.v
theories/Props_Subdiff.v
theories/Models.v
theories/SpecModels.v
theories/WilsProofs.v
theories/IspaeProofs.v
theories/IspaeMore.v
theories/IspaeBases.v
theories/IspaeFit.v
theories/IspaeLinear.v
theories/Props_Models.v
theories/Pss.v
theories/SpecPss.v
theories/PssProofs.v
theories/PssLoop.v
theories/PssMore.v
theories/Props_Pss.v
theories/Pps.v
theories/SpecPps.v
theories/PpsProofs.v
theories/PpsLoop.v
theories/PpsMore.v
theories/PpsAcc.v
theories/PpsSigns.v
theories/PpsEnds.v
theories/HbrCall.v
theories/PpsHbr.v
theories/PpsCase.v
theories/Props_Pps.v
theories/BoundaryState.v
theories/BoundaryPath.v
theories/BoundaryWindow.v
theories/BoundaryStateProofs.v
theories/BoundaryStateMore.v
theories/SysProps.v
theories/SpecSys.v
theories/SysProofs.v
theories/Plot.v
theories/SpecPlot.v
theories/PlotProofs.v
theories/Props_System.v
theories/Boundary3.v
theories/SpecBoundary3.v
theories/Boundary3Plane.v
theories/Boundary3Proofs.v
theories/Boundary3Cases.v
theories/Props_Boundary3.v
theories/BoundaryHull.v
theories/Boundary3Sound.v
theories/Boundary3State.v
theories/SpecBoundary3State.v
theories/Boundary3StateProofs.v
theories/Boundary3Slices.v
theories/Boundary3SlicesCases.v
theories/Props_Boundary3State.v
theories/EstimMat.v
theories/SpecEstimMat.v
theories/EstimMatProofs.v
theories/PpsCaseAll.v
theories/NmExact.v
theories/Props_EstimMat.v
theories/PpsAccCase.v
theories/Props_PpsEnds.v
theories/NewtonVec.v
theories/NewtonVecProofs.v
theories/Props_NewtonVec.v
theories/RecogFl.v
theories/SpecRecogFl.v
theories/RecogFlProofs.v
theories/RecogFlCor.v
theories/RecogFlRefute.v
theories/Props_RecogFl.v
theories/SpecRalgb.v
theories/SpecShor.v
theories/RalgbCodes.v
theories/ShorProofs.v
theories/ArrayCmp.v
theories/SpecArrayCmp.v
theories/ArrayCmpProofs.v
theories/ArraySum.v
theories/ArrayElem.v
theories/SpecArrayElem.v
theories/ArrayElemProofs.v
theories/Props_ArrayCmp.v
theories/Slices.v
theories/SpecSlices.v
theories/SlicesProofs.v
theories/SlicesJoint.v
theories/SlicesBack.v
theories/Props_Slices.v
theories/Memory.v
theories/SpecMemory.v
theories/MemoryProofs.v
theories/Props_Memory.v
theories/GetShape.v
theories/SpecGetShape.v
theories/Props_GetShape.v
theories/Recorded.v
theories/Documented.v
theories/PssAcc.v
theories/PssEnds.v
theories/PssCase.v
theories/Props_PssEnds.v
theories/SpecGlob.v
theories/GlobEnds.v
theories/GlobCase.v
theories/Props_GlobEnds.v
theories/Repr.v
theories/SpecRepr.v
theories/ReprProofs.v
theories/Props_Repr.v
theories/HbrFl.v
theories/SpecHbrFl.v
theories/HbrFlProofs.v
theories/Props_HbrFl.v
theories/RohnFl.v
theories/SpecRohnFl.v
theories/RohnFlProofs.v
theories/Props_RohnFl.v
theories/UssFl.v
theories/SpecUssFl.v
theories/UssFlProofs.v
theories/UssFlRefute.v
theories/Props_UssFl.v
theories/Props_ArrIso.v
theories/PssFl.v
theories/SpecPssFl.v
theories/PssFlProofs.v
theories/PssFlDiv.v
theories/PssFlRest.v
theories/PssFlMain.v
theories/PssFlBoth.v
theories/PssFlRefute.v
theories/Props_PssFl.v
theories/RoundMode.v
theories/Props_RoundMode.v
theories/SpecKaucher.v
theories/KaucherRound.v
theories/KaucherIso.v
theories/KaucherElem.v
theories/KaucherTrig.v
theories/KaucherPow.v
theories/Props_Kaucher.v
theories/ArrRepr.v
theories/ArrReprProofs.v
theories/Props_ArrRepr.v
theories/ArrayUnary.v
theories/ArrayUnaryProofs.v
theories/Props_ArrayUnary.v
theories/Constrained.v
theories/SpecConstrained.v
theories/ConstrainedProofs.v
theories/ConstrainedPenalty.v
theories/ConstrainedRefute.v
theories/Props_Constrained.v
theories/AlgebraProofs.v
theories/Props_Algebra.v
theories/RecogOpt.v
theories/SpecRecogOpt.v
theories/RecogOptProofs.v
theories/RecogOptMargin.v
theories/RecogOptSign.v
theories/RecogOptRun.v
theories/RecogOptTotal.v
theories/RecogOptFinal.v
theories/RecogOptAccuracy.v
theories/RecogOptRefute.v
theories/Props_RecogOpt.v
theories/RecogOptCon.v
theories/SpecRecogOptCon.v
theories/RecogOptConProofs.v
theories/RecogOptConRefute.v
theories/Props_RecogOptCon.v
theories/RohnTol.v
theories/RohnTolProofs.v
theories/Props_RohnTol.v
theories/SpecPow.v
theories/PowRealProofs.v
theories/PowRealRefute.v
theories/PowRealTight.v
theories/PowRealKaucher.v
theories/Props_PowReal.v
theories/SpecWilsFl.v
theories/WilsFl.v
theories/WilsFlProofs.v
theories/WilsFlMain.v
theories/WilsFlFit.v
theories/WilsFlSmooth.v
theories/WilsFlRefute.v
theories/Props_WilsFl.v
theories/SpecNeumFl.v
theories/NeumFlProofs.v
theories/NeumFlMargin.v
theories/NeumFlCase.v
theories/Props_NeumFl.v
theories/IspaeFl.v
theories/SpecIspaeFl.v
theories/IspaeFlProofs.v
theories/IspaeFlRange.v
theories/IspaeFlTight.v
theories/IspaeFlCase.v
theories/Props_IspaeFl.v
theories/IspaeFlObj.v
theories/SpecIspaeFlObj.v
theories/IspaeFlObjProofs.v
theories/IspaeFlFit.v
theories/IspaeFlUni.v
theories/IspaeFlObjCase.v
theories/IspaeFlPred.v
theories/SpecIspaeFlPred.v
theories/IspaeFlPredProofs.v
theories/IspaeFlPredTight.v
theories/IspaeFlPredCase.v
theories/Props_IspaeFlObj.v
theories/SpecRecogGrad.v
theories/RecogGradProofs.v
theories/RecogGradCase.v
theories/SpecPenaltyGrad.v
theories/PenaltyGradProofs.v
theories/PenaltyGradCase.v
theories/SpecWilsGrad.v
theories/WilsGradProofs.v
theories/Props_RecogGrad.v
