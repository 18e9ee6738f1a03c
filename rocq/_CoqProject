-Q theories Verif
theories/ModelActuators.v
theories/ModelAngles.v
theories/ModelBitmap.v
theories/ModelBlocking.v
theories/ModelCalibration.v
theories/ModelCollectives.v
theories/ModelCoordinates.v
theories/ModelDataSelection.v
theories/ModelDeflectometry.v
theories/ModelDirections.v
theories/ModelDistributed.v
theories/ModelEnvironment.v
theories/ModelEpochs.v
theories/ModelEvaluation.v
theories/ModelField.v
theories/ModelFitting.v
theories/ModelFloats.v
theories/ModelFocalSpots.v
theories/ModelGradients.v
theories/ModelHdf5.v
theories/ModelHeliostatTraining.v
theories/ModelInterrupted.v
theories/ModelIntersections.v
theories/ModelInverseCanting.v
theories/ModelKinematics.v
theories/ModelLBVH.v
theories/ModelLearning.v
theories/ModelLosses.v
theories/ModelNurbs.v
theories/ModelOptimization.v
theories/ModelPaint.v
theories/ModelPaintResults.v
theories/ModelRayTracer.v
theories/ModelReconstruction.v
theories/ModelRegularization.v
theories/ModelResults.v
theories/ModelRuntimes.v
theories/ModelScenario.v
theories/ModelSchedulers.v
theories/ModelSplatting.v
theories/ModelStral.v
theories/ModelStralWriter.v
theories/ModelSun.v
theories/ModelSurfaceBatches.v
theories/ModelSurfaceGenerator.v
theories/ModelSurfaceUpdate.v
theories/ModelTrace.v
theories/ModelTraining.v
theories/ModelTransforms.v
theories/ModelValidation.v
theories/ModelVectors.v
theories/ProofsActuators.v
theories/ProofsAlignHistory.v
theories/ProofsAlignment.v
theories/ProofsAngles.v
theories/ProofsBasis.v
theories/ProofsBitmap.v
theories/ProofsBlocking.v
theories/ProofsBlockingTracer.v
theories/ProofsCalibration.v
theories/ProofsCollectives.v
theories/ProofsConstraints.v
theories/ProofsCoordinates.v
theories/ProofsCorners.v
theories/ProofsCrop.v
theories/ProofsCylinder.v
theories/ProofsDataSelection.v
theories/ProofsDataSets.v
theories/ProofsDeflectometry.v
theories/ProofsDelivery.v
theories/ProofsDimmed.v
theories/ProofsDistributed.v
theories/ProofsDuplicates.v
theories/ProofsEnvironment.v
theories/ProofsEpochs.v
theories/ProofsEvaluation.v
theories/ProofsFacetOrder.v
theories/ProofsField.v
theories/ProofsFitStart.v
theories/ProofsFitting.v
theories/ProofsFloats.v
theories/ProofsFocalSpots.v
theories/ProofsFurther.v
theories/ProofsGradients.v
theories/ProofsGroupTraining.v
theories/ProofsHdf5.v
theories/ProofsHeliostatTraining.v
theories/ProofsInterrupted.v
theories/ProofsIntersections.v
theories/ProofsInverseCanting.v
theories/ProofsKinematics.v
theories/ProofsKnots.v
theories/ProofsLBVHRefuted.v
theories/ProofsLearning.v
theories/ProofsLocal.v
theories/ProofsLosses.v
theories/ProofsMirrored.v
theories/ProofsMirroredBatch.v
theories/ProofsMisaligned.v
theories/ProofsMorton.v
theories/ProofsMounting.v
theories/ProofsNurbsCases.v
theories/ProofsObstruction.v
theories/ProofsOptimization.v
theories/ProofsOrder.v
theories/ProofsOrderRefuted.v
theories/ProofsOwnMirror.v
theories/ProofsPaint.v
theories/ProofsPaintResults.v
theories/ProofsPlateau.v
theories/ProofsPointing.v
theories/ProofsProportional.v
theories/ProofsRadix.v
theories/ProofsRadixBroken.v
theories/ProofsRadixCounts.v
theories/ProofsRayTracer.v
theories/ProofsReconstruction.v
theories/ProofsRegularization.v
theories/ProofsResults.v
theories/ProofsRounds.v
theories/ProofsRuntimes.v
theories/ProofsScenario.v
theories/ProofsSchedulers.v
theories/ProofsShared.v
theories/ProofsSplatting.v
theories/ProofsSplattingFloats.v
theories/ProofsSplineMonotone.v
theories/ProofsSteady.v
theories/ProofsSteadyCase.v
theories/ProofsStral.v
theories/ProofsStralWriter.v
theories/ProofsSun.v
theories/ProofsSunShape.v
theories/ProofsSurface.v
theories/ProofsSurfaceBatches.v
theories/ProofsSurfaceChange.v
theories/ProofsSurfaceFit.v
theories/ProofsSurfaceGenerator.v
theories/ProofsSurfaceTraining.v
theories/ProofsSurfaceUpdate.v
theories/ProofsTrace.v
theories/ProofsTraceBatch.v
theories/ProofsTracePower.v
theories/ProofsTracing.v
theories/ProofsTraining.v
theories/ProofsTransforms.v
theories/ProofsTranslation.v
theories/ProofsTranslationTrace.v
theories/ProofsTraversal.v
theories/ProofsUpright.v
theories/ProofsValidation.v
theories/ProofsVectors.v
theories/ProofsWeights.v
theories/PropActuators.v
theories/PropBitmap.v
theories/PropBlocking.v
theories/PropCalibration.v
theories/PropCollectives.v
theories/PropCoordinates.v
theories/PropDataSelection.v
theories/PropDeflectometry.v
theories/PropDelivery.v
theories/PropDimmed.v
theories/PropDistributed.v
theories/PropDuplicates.v
theories/PropEnvironment.v
theories/PropEpochs.v
theories/PropEvaluation.v
theories/PropField.v
theories/PropFitStart.v
theories/PropFitting.v
theories/PropFloats.v
theories/PropFocalSpots.v
theories/PropGradients.v
theories/PropGroupTraining.v
theories/PropHeliostatTraining.v
theories/PropInterrupted.v
theories/PropIntersections.v
theories/PropInverseCanting.v
theories/PropKinematics.v
theories/PropLBVH.v
theories/PropLearning.v
theories/PropLocal.v
theories/PropLosses.v
theories/PropMirrored.v
theories/PropMisaligned.v
theories/PropNurbs.v
theories/PropObstruction.v
theories/PropOptimization.v
theories/PropOrder.v
theories/PropPaint.v
theories/PropPaintResults.v
theories/PropPlateau.v
theories/PropProportional.v
theories/PropRayTracer.v
theories/PropReconstruction.v
theories/PropRegularization.v
theories/PropResults.v
theories/PropRuntimes.v
theories/PropScenario.v
theories/PropSchedulers.v
theories/PropSteady.v
theories/PropStral.v
theories/PropStralWriter.v
theories/PropSun.v
theories/PropSunShape.v
theories/PropSurfaceBatches.v
theories/PropSurfaceGenerator.v
theories/PropSurfaceUpdate.v
theories/PropTrace.v
theories/PropTracing.v
theories/PropTraining.v
theories/PropTransforms.v
theories/PropTranslation.v
theories/PropUpright.v
theories/PropValidation.v
theories/PropWeights.v
theories/RealSums.v
theories/SpecActuators.v
theories/SpecBitmap.v
theories/SpecBlocking.v
theories/SpecCalibration.v
theories/SpecCollectives.v
theories/SpecConstraints.v
theories/SpecCoordinates.v
theories/SpecDataSelection.v
theories/SpecDeflectometry.v
theories/SpecDelivery.v
theories/SpecDistributed.v
theories/SpecDuplicates.v
theories/SpecEnvironment.v
theories/SpecEpochs.v
theories/SpecEvaluation.v
theories/SpecField.v
theories/SpecFitting.v
theories/SpecFocalSpots.v
theories/SpecHdf5.v
theories/SpecInterrupted.v
theories/SpecIntersections.v
theories/SpecInverseCanting.v
theories/SpecKinematics.v
theories/SpecLBVH.v
theories/SpecLosses.v
theories/SpecMirrored.v
theories/SpecNurbs.v
theories/SpecObstruction.v
theories/SpecOptimization.v
theories/SpecOrder.v
theories/SpecPaint.v
theories/SpecPaintResults.v
theories/SpecProportional.v
theories/SpecRayTracer.v
theories/SpecReconstruction.v
theories/SpecResults.v
theories/SpecRuntimes.v
theories/SpecScenario.v
theories/SpecSchedulers.v
theories/SpecSplatting.v
theories/SpecStral.v
theories/SpecStralWriter.v
theories/SpecSunShape.v
theories/SpecSurfaceGenerator.v
theories/SpecTrace.v
theories/SpecTraining.v
theories/SpecTransforms.v
theories/SpecTranslation.v
theories/SpecValidation.v
