-Q theories Verif
theories/Base.v
theories/BaseFacts.v
theories/ModelSerialization.v
theories/SpecSerialization.v
theories/ProofSerialization.v
theories/PropsSerialization.v
theories/ModelVec.v
theories/ModelKd.v
theories/SpecKd.v
theories/ProofKd.v
theories/PropsKd.v
theories/ModelAabb.v
theories/SpecAabb.v
theories/ProofAabb.v
theories/PropsAabb.v
theories/ModelBvh.v
theories/SpecBvh.v
theories/ProofBvh.v
theories/PropsBvh.v
theories/ModelMemView.v
theories/SpecMemView.v
theories/ProofMemView.v
theories/ProofMemViewSer.v
theories/PropsMemView.v
theories/LoopFacts.v
theories/ModelNurbs.v
theories/SpecNurbs.v
theories/SpecCurve.v
theories/ProofBspline.v
theories/ProofNurbs.v
theories/ProofInsertion.v
theories/ProofInsertCurve.v
theories/ProofInsertKnot.v
theories/ProofCurve.v
theories/ProofSplit.v
theories/ProofNurbsMisc.v
theories/ProofNurbsTop.v
theories/ProofDecompose.v
theories/WitnessNurbs.v
theories/PropsNurbs.v
theories/ModelSurface.v
theories/SpecSurface.v
theories/ProofSurfaceSums.v
theories/ProofSurface.v
theories/ProofSurfaceOps.v
theories/ProofSurfaceTop.v
theories/WitnessSurface.v
theories/PropsSurface.v
theories/ModelBinom.v
theories/ModelNumeric.v
theories/SpecNumeric.v
theories/ProofIntegrate.v
theories/ProofQuintic.v
theories/ProofMinimize.v
theories/ProofMatrix.v
theories/WitnessNumeric.v
theories/PropsNumeric.v
theories/ModelNewton.v
theories/SpecNewton.v
theories/ProofCholesky.v
theories/ProofNewton.v
theories/WitnessNewton.v
theories/PropsNewton.v
theories/ModelMonomial.v
theories/SpecMonomial.v
theories/ProofBpmat.v
theories/ProofMonomial.v
theories/ProofMonomialTop.v
theories/ProofMonomialDiff.v
theories/WitnessMonomial.v
theories/PropsMonomial.v
theories/ModelPolygon.v
theories/SpecPolygon.v
theories/ProofPolygon.v
theories/ProofSat.v
theories/ProofPip.v
theories/ProofConvex.v
theories/ProofHull.v
theories/WitnessPolygon.v
theories/PropsPolygon.v
theories/ModelPlane.v
theories/SpecPlane.v
theories/ProofPlane.v
theories/WitnessPlane.v
theories/PropsPlane.v
theories/ModelGjk.v
theories/SpecGjk.v
theories/ProofClosest.v
theories/ProofGjk.v
theories/WitnessGjk.v
theories/PropsGjk.v
theories/ModelPolyline.v
theories/SpecPolyline.v
theories/ProofPolyline.v
theories/ModelBoundary.v
theories/SpecBoundary.v
theories/ProofBoundary.v
theories/WitnessBoundary.v
theories/PropsBoundary.v
theories/ModelCcx.v
theories/SpecCcx.v
theories/ProofCcx.v
theories/ProofCcxTop.v
theories/ProofCcxBezier.v
theories/WitnessCcx.v
theories/PropsCcx.v
theories/ModelCsx.v
theories/SpecCsx.v
theories/ProofCsxPieces.v
theories/ProofCsx.v
theories/ProofCsxTop.v
theories/WitnessCsx.v
theories/PropsCsx.v
theories/ModelDerivative.v
theories/SpecDerivative.v
theories/ProofSmooth.v
theories/ProofDerBasis.v
theories/ProofDerivative.v
theories/ProofDerivativeTop.v
theories/ProofHodograph.v
theories/ProofContinuity.v
theories/WitnessDerivative.v
theories/PropsDerivative.v
theories/ModelVecOps.v
theories/SpecVecOps.v
theories/ProofVecOps.v
theories/PropsVecOps.v
theories/ModelSurface2.v
theories/SpecSurface2.v
theories/ProofSurfaceBezier.v
theories/ProofSurfaceDiff.v
theories/WitnessSurface2.v
theories/PropsSurface2.v
theories/ModelSsx.v
theories/SpecSsx.v
theories/ProofSsx.v
theories/ProofSsxEnds.v
theories/ProofSsxGauss.v
theories/ProofSsxTop.v
theories/WitnessSsx.v
theories/PropsSsx.v
theories/ModelJoin.v
theories/SpecJoin.v
theories/ProofJoin.v
theories/ProofPeriodic.v
theories/ProofJoinTop.v
theories/ProofLength.v
theories/WitnessJoin.v
theories/PropsJoin.v
theories/ModelInversion.v
theories/SpecInversion.v
theories/ProofInversion.v
theories/WitnessInversion.v
theories/PropsInversion.v
theories/ModelRefine.v
theories/SpecRefine.v
theories/ProofRefine.v
theories/ProofRefineTop.v
theories/ProofRefineMisc.v
theories/ProofRemoval.v
theories/WitnessRemoval.v
theories/PropsRemoval.v
theories/ProofDerivCpts.v
theories/ProofDerivSurf.v
theories/ProofRatDeriv.v
theories/WitnessRefine.v
theories/PropsRefine.v
theories/ModelStep.v
theories/SpecStep.v
theories/ProofStep.v
theories/ProofStepSurf.v
theories/ProofStepTop.v
theories/ProofStepMean.v
theories/ProofStepEdge.v
theories/ProofStepOk.v
theories/ProofStepDigits.v
theories/WitnessStep.v
theories/PropsStep.v
theories/ModelUtil.v
theories/SpecUtil.v
theories/ProofUtil.v
theories/ProofNormals.v
theories/ProofUnique.v
theories/ProofSphereBox.v
theories/WitnessUtil.v
theories/ModelViewFile.v
theories/SpecViewFile.v
theories/ProofViewFile.v
theories/ModelHull3.v
theories/SpecHull3.v
theories/ProofHull3.v
theories/WitnessHull3.v
theories/PropsUtil.v
theories/PropsViewFile.v
theories/PropsHull3.v
theories/ProofReject.v
theories/PropsReject.v
theories/ModelQuickhull.v
theories/SpecQuickhull.v
theories/ProofQhGeo.v
theories/ProofQhMesh.v
theories/ProofQhRidge.v
theories/ProofQhWalk.v
theories/ProofQhStep.v
theories/ProofQhHull.v
theories/ProofQhDet.v
theories/ProofQhBasis.v
theories/ProofQhFlat.v
theories/ProofQhPull.v
theories/ProofQhSpan.v
theories/ProofQhInit.v
theories/ProofQhCompact.v
theories/ProofQuickhull.v
theories/WitnessQuickhull.v
theories/PropsQuickhull.v
theories/SpecIsPeriodic.v
theories/ProofIsPeriodic.v
theories/PropsIsPeriodic.v
theories/SpecSolidHull.v
theories/ProofSolidHull.v
theories/WitnessSolidHull.v
theories/PropsSolidHull.v
theories/ModelOwner.v
theories/SpecOwner.v
theories/ProofOwner.v
theories/WitnessOwner.v
theories/PropsOwner.v
theories/ModelViewIter.v
theories/SpecViewIter.v
theories/ProofViewIter.v
theories/PropsViewIter.v
theories/SpecTaylor.v
theories/ProofTaylor.v
theories/WitnessTaylor.v
theories/PropsTaylor.v
theories/ModelText.v
theories/SpecText.v
theories/ProofText.v
theories/WitnessText.v
theories/PropsText.v
theories/ModelRound.v
theories/SpecRound.v
theories/ProofRound.v
theories/ProofRoundTop.v
theories/ProofRoundDouble.v
theories/ProofRoundAll.v
theories/WitnessRound.v
theories/PropsRound.v
theories/ModelRoundInsert.v
theories/SpecRoundInsert.v
theories/ProofRoundBlend.v
theories/ProofRoundInsert.v
theories/ProofRoundInsertTop.v
theories/WitnessRoundInsert.v
theories/PropsRoundInsert.v
theories/ModelRoundSplit.v
theories/SpecRoundSplit.v
theories/ProofRoundSplit.v
theories/WitnessRoundSplit.v
theories/PropsRoundSplit.v
theories/SpecRemovals.v
theories/ProofRemovals.v
theories/WitnessRemovals.v
theories/PropsRemovals.v
theories/ModelRoundHull.v
theories/SpecRoundHull.v
theories/ProofRoundHull.v
theories/WitnessRoundHull.v
theories/PropsRoundHull.v
theories/ModelRoundPolygon.v
theories/ProofRoundPolygon.v
theories/WitnessRoundPolygon.v
theories/PropsRoundPolygon.v
theories/ModelMonomialMake.v
theories/ProofMonomialMake.v
theories/PropsMonomialMake.v
theories/SpecRoundKd.v
theories/ModelRoundKd.v
theories/ProofRoundFull.v
theories/ProofRoundKd.v
theories/WitnessRoundKd.v
theories/PropsRoundKd.v
theories/ModelRoundBvh.v
theories/SpecRoundBvh.v
theories/ProofRoundBvh.v
theories/WitnessRoundBvh.v
theories/PropsRoundBvh.v
theories/ModelRoundCell.v
theories/SpecRoundCell.v
theories/ProofRoundCell.v
theories/WitnessRoundCell.v
theories/PropsRoundCell.v
theories/ModelRoundJoin.v
theories/SpecRoundJoin.v
theories/ProofRoundJoin.v
theories/WitnessRoundJoin.v
theories/PropsRoundJoin.v
theories/ModelRoundSegm.v
theories/SpecRoundSegm.v
theories/ProofRoundSegm.v
theories/WitnessRoundSegm.v
theories/PropsRoundSegm.v
theories/ModelRoundLength.v
theories/SpecRoundLength.v
theories/ProofRoundLength.v
theories/WitnessRoundLength.v
theories/PropsRoundLength.v
theories/ModelRoundUnit.v
theories/SpecRoundUnit.v
theories/ProofRoundUnit.v
theories/WitnessRoundUnit.v
theories/PropsRoundUnit.v
theories/SpecRoundDist.v
theories/ProofRoundDist.v
theories/WitnessRoundDist.v
theories/PropsRoundDist.v
theories/ModelRoundCross.v
theories/SpecRoundCross.v
theories/ProofRoundCross.v
theories/WitnessRoundCross.v
theories/PropsRoundCross.v
