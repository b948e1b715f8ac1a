-Q theories Verif
theories/Num.v
theories/ModelTs.v
theories/ModelGeom.v
theories/ModelVF.v
theories/Basics.v
theories/SpecGeom.v
theories/ProofGround.v
theories/ProofShade.v
theories/ProofRow.v
theories/ProofAngles.v
theories/ProofFit.v
theories/ProofCut.v
theories/ProofIndex.v
theories/ProofGeom.v
theories/ProofGeom2.v
theories/PropGeom.v
theories/ProofString.v
theories/ProofMatrix.v
theories/ProofTele.v
theories/ProofVF.v
theories/SpecVF.v
theories/ProofVF2.v
theories/PropVF.v
theories/ProofEnds.v
theories/ProofFast.v
theories/PropFast.v
theories/ModelLinalg.v
theories/ProofLinalg.v
theories/SpecEngine.v
theories/ProofRadiosity.v
theories/ModelParams.v
theories/ModelIrr.v
theories/ModelAOI.v
theories/ModelEngine.v
theories/SpecParams.v
theories/ProofParams.v
theories/PropParams.v
theories/SpecIrr.v
theories/ProofIrr.v
theories/ProofSky.v
theories/ProofHorizon.v
theories/ProofEngine.v
theories/SpecRun.v
theories/PropEngine.v
theories/PropIrr.v
theories/ProofRun.v
theories/ProofNight.v
theories/PropRun.v
theories/ProofAOI.v
theories/SpecAOI.v
theories/PropAOI.v
theories/ProofLoss.v
theories/PropAbs.v
theories/PropLoss.v
theories/PropSky.v
theories/ProofHistory.v
theories/PropFastRun.v
theories/PropHistory.v
theories/ProofLocal.v
theories/ProofLocal2.v
theories/ProofLocal3.v
theories/PropLocal.v
theories/PropInit.v
theories/ModelRun.v
theories/ProofKinds.v
theories/PropParallel.v
theories/PropReport.v
theories/ModelShapely.v
theories/SpecShapely.v
theories/ProofShapely.v
theories/ProofDiff.v
theories/ProofProj.v
theories/ProofCutPoint.v
theories/PropShapely.v
theories/PropSide.v
theories/ModelSnapshot.v
theories/SpecSnapshot.v
theories/ProofSnapshot.v
theories/ProofMerge.v
theories/ProofGroundAt.v
theories/ProofAverage.v
theories/PropSnapshot.v
theories/ProofEnergy.v
theories/PropEnergy.v
theories/PropExamples.v
theories/ModelShadow.v
theories/ModelHeap.v
theories/SpecShadow.v
theories/SpecHeap.v
theories/ProofHeap.v
theories/ProofShadow.v
theories/PropShadow.v
theories/PropUpdate.v
theories/ModelViews.v
theories/PropViews.v
theories/ModelPlot.v
theories/PropPlot.v
theories/SpecSun.v
theories/ProofSun.v
theories/ProofBeam.v
theories/PropSun.v
theories/PropMono.v
theories/ProofWhole.v
theories/PropWhole.v
theories/PropErf.v
theories/PropTurn.v
theories/ProofOpen.v
theories/PropOpen.v
theories/PropSetup.v
theories/ModelFloat.v
theories/ProofFloat.v
theories/PropFloat.v
theories/PropModes.v
theories/PropHeap.v
theories/PropStable.v
theories/PropRefine.v
theories/PropSelect.v
theories/PropUncut.v
theories/PropZones.v
theories/SpecSight.v
theories/ProofSight.v
theories/PropSight.v
theories/ProofSkyView.v
theories/ProofGroundSky.v
theories/PropSkyView.v
theories/PropLift.v
theories/PropFastSight.v
theories/PropRender.v
theories/PropGroundSky.v
theories/PropLight.v
theories/PropNight.v
theories/PropAlike.v
theories/PropScale.v
theories/PropFlat.v
