-Q theories Verif
theories/Num.v
theories/Loop.v
theories/ModelBspline.v
theories/ModelBSp.v
theories/Spec.v
theories/SumZ.v
theories/BPiece.v
theories/BLink.v
theories/ProofSpan.v
theories/ProofEval.v
theories/BInsert.v
theories/BRep.v
theories/ProofInsert.v
theories/ModelRemove.v
theories/ProofRemove.v
theories/ProofRemove2.v
theories/ProofRemove3.v
theories/ProofRefine.v
theories/ProofCut.v
theories/ProofClamp.v
theories/ProofUnclamp.v
theories/ExTac.v
theories/ModelNurbs.v
theories/ModelDer.v
theories/SpecElev.v
theories/Blossom.v
theories/ProofElev1.v
theories/ProofElev2.v
theories/ModelInt32.v
theories/ModelIga.v
theories/SpecNurbs.v
theories/ProofNet.v
theories/PropBasis.v
theories/ProofCall.v
theories/ProofNurbs.v
theories/ProofMethods.v
theories/ProofRemove4.v
theories/ProofMethods2.v
theories/ProofGeom.v
theories/ProofGeom2.v
theories/ProofPerm.v
theories/ProofSlice.v
theories/ProofInit.v
theories/ProofReads.v
theories/ProofMethods3.v
theories/ProofOk.v
theories/SpecDer.v
theories/BDer.v
theories/ProofDers.v
theories/ProofRational.v
theories/ProofDerLink.v
theories/ProofDerApi.v
theories/ProofDerApi2.v
theories/ProofDer4.v
theories/ProofIga.v
theories/ProofElev3.v
theories/ProofElev4.v
theories/ProofElev5.v
theories/ProofGauss.v
theories/ProofIga2.v
theories/PropNurbs.v
theories/PropDer.v
theories/PropRefuted.v
theories/PropIga.v
theories/PropInt32.v
theories/PropElevate.v
theories/PropRemove.v
theories/ModelTransform.v
theories/ModelCad.v
theories/SpecTransform.v
theories/SpecCompat.v
theories/ProofTransform.v
theories/PropTransform.v
theories/ProofCad.v
theories/ProofCircle.v
theories/ProofCompat1.v
theories/ProofCompat2.v
theories/ProofCompat3.v
theories/ProofRuled.v
theories/ProofCoons.v
theories/PropCompat.v
theories/PropCoons.v
theories/SpecJoin.v
theories/ProofJoin.v
theories/ProofJoin2.v
theories/ProofJoin3.v
theories/ProofCutJoin.v
theories/PropJoin.v
theories/SpecGrid.v
theories/ProofGrid.v
theories/SpecCadRefine.v
theories/ProofCadRefine.v
theories/ProofCadRefine2.v
theories/PropGrid.v
theories/ModelIo.v
theories/SpecIo.v
theories/ProofIo.v
theories/ProofIo2.v
theories/ProofIo3.v
theories/ProofIo4.v
theories/SpecVtk.v
theories/ProofIo5.v
theories/ModelFloat.v
theories/ProofFloat.v
theories/ProofIo6.v
theories/ProofIoBad.v
theories/ProofIoSize.v
theories/PropIo.v
theories/ModelHeap.v
theories/SpecHeap.v
theories/ProofHeap.v
theories/PropCad.v
theories/ProofRevolve.v
theories/ProofHeap2.v
theories/ProofHeap3.v
theories/ProofHeap4.v
theories/ProofHeap5.v
theories/ProofHeap6.v
theories/PropHeap.v
theories/PropDouble.v
theories/PropScale.v
theories/ProofCoons2.v
theories/PropCoons2.v
theories/SpecDouble.v
theories/ProofRound.v
theories/ProofRound2.v
theories/ProofRound3.v
theories/ProofRound4.v
theories/ProofRound5.v
theories/ProofRound6.v
theories/SpecRound.v
theories/ProofRound7.v
theories/PropRound.v
theories/ProofRound8.v
theories/ProofRound9.v
theories/PropRound2.v
theories/ProofRefuse.v
theories/PropRefuse.v
theories/ProofRound10.v
theories/ProofRound11.v
theories/PropRound3.v
theories/SpecPoint.v
theories/ProofPoint.v
theories/ProofPoint2.v
theories/PropPoint.v
theories/ProofTransform2.v
theories/PropTransform2.v
theories/ProofStop.v
theories/PropStop.v
theories/ModelArgs.v
theories/SpecArgs.v
theories/ProofArgs.v
theories/PropArgs.v
theories/SpecRound2.v
theories/ProofRound12.v
theories/ProofRound13.v
theories/ProofRound14.v
theories/PropRound4.v
theories/SpecRound3.v
theories/ProofRound15.v
theories/ProofRound16.v
theories/PropRound5.v
theories/ModelPlot.v
theories/SpecPlot.v
theories/ProofPlot.v
theories/ProofPlot2.v
theories/ProofPlot3.v
theories/ProofPlot4.v
theories/ProofPlot5.v
theories/ProofPlot6.v
theories/ProofPlot7.v
theories/PropPlot.v
theories/BIndep.v
theories/ProofUniq.v
theories/ProofUniq2.v
theories/PropUniq.v
theories/SpecSmooth.v
theories/ProofSmooth.v
theories/ProofSmooth2.v
theories/ProofSmooth3.v
theories/ProofSmooth4.v
theories/PropSmooth.v
theories/SpecShape.v
theories/ProofShape.v
theories/ProofShape2.v
theories/ProofShape3.v
theories/PropShape.v
theories/ProofDerGeom.v
theories/ProofDerGeom2.v
theories/PropDerGeom.v
theories/ModelSingle.v
theories/SpecSingle.v
theories/ProofSgl.v
theories/ProofSgl2.v
theories/ProofSgl3.v
theories/ProofIo7.v
theories/ProofSgl4.v
theories/PropSingle.v
theories/ProofDerMove.v
theories/ProofDerMove2.v
theories/ProofDerMove3.v
theories/PropDerMove.v
theories/ProofDerMap.v
theories/PropDerMap.v
theories/ModelPlotOpt.v
theories/SpecPlotOpt.v
theories/ProofPlotOpt.v
theories/PropPlotOpt.v
theories/ProofDerTrans.v
theories/PropDerTrans.v
theories/ProofGiven.v
theories/PropGiven.v
theories/ProofAvg.v
theories/ProofAvg2.v
theories/ProofAvg3.v
theories/ProofAvg4.v
theories/PropAvg.v
theories/ProofDerSub.v
theories/PropDerSub.v
theories/ProofVar.v
theories/PropVar.v
theories/ProofConv.v
theories/PropConv.v
theories/ProofEquiv.v
theories/PropEquiv.v
theories/ProofLayer.v
theories/ProofRound17.v
theories/PropRound6.v
theories/ProofTurn.v
theories/PropTurn.v
theories/ProofMove.v
theories/PropMove.v
theories/ProofFlip.v
theories/PropFlip.v
theories/ProofSection.v
theories/PropSection.v
theories/ProofPart.v
theories/PropPart.v
