-Q theories Verif
theories/Outcome.v
theories/Num.v
theories/Float64.v
theories/FloatLemmas.v
theories/TrigLemmas.v
theories/GridModel.v
theories/CollisionModel.v
theories/BufferModel.v
theories/NumericsModel.v
theories/MappingModel.v
theories/BasisModel.v
theories/RobotModel.v
theories/DwaModel.v
theories/ErgodicModel.v
theories/ExplorationModel.v
theories/SpecMotion.v
theories/SpecRobot.v
theories/SpecDwa.v
theories/SpecErgodic.v
theories/SpecExploration.v
theories/Spec.v
theories/SpecMapping.v
theories/SpecBasis.v
theories/SpecSystem.v
theories/GridProofs.v
theories/GridFloat.v
theories/PropGridAux.v
theories/PropGrid.v
theories/CircleProofs.v
theories/CollisionProofs.v
theories/PropCollisionAux.v
theories/PropCollisionAux2.v
theories/PropCollision.v
theories/BufferProofs.v
theories/PropBuffer.v
theories/NumericsProofs.v
theories/MotionProofs.v
theories/AngleFloat.v
theories/PropNumerics.v
theories/RayProofs.v
theories/MappingProofs.v
theories/MappingFloat.v
theories/PropMappingAux.v
theories/PropMapping.v
theories/BasisProofs.v
theories/PropBasis.v
theories/RobotProofs.v
theories/PropRobot.v
theories/DwaProofs.v
theories/PredictProofs.v
theories/PropDwaAux.v
theories/PropDwa.v
theories/ErgodicProofs.v
theories/ErgodicReal.v
theories/ErgodicSystem.v
theories/ErgodicFloat.v
theories/PropErgodicAux.v
theories/PropErgodic.v
theories/ExplorationProofs.v
theories/ClearanceProofs.v
theories/SystemProofs.v
theories/PropExplorationAux.v
theories/PropExploration.v
theories/PropSystemAux.v
theories/PropSystem.v
theories/FitModel.v
theories/SpecFit.v
theories/FitProofs.v
theories/PropFit.v
theories/SpecClearance.v
theories/ClearanceExec.v
theories/PropClearanceAux.v
theories/PropClearance.v
theories/GridFloat2.v
theories/PropGridFloatAux.v
theories/PropGridFloat.v
theories/SpecLimits.v
theories/DwaFloat.v
theories/WindowFloat.v
theories/LimitsFloat.v
theories/PropLimitsAux.v
theories/PropLimits.v
theories/SpecRk.v
theories/RkProofs.v
theories/PropRkAux.v
theories/PropRk.v
theories/SpecShared.v
theories/SharedProofs.v
theories/PropShared.v
theories/ParamModel.v
theories/SpecParams.v
theories/ParamProofs.v
theories/ShippedProofs.v
theories/PropParamsAux.v
theories/PropParams.v
theories/SpecPlan.v
theories/PlanProofs.v
theories/PropPlanAux.v
theories/PropPlan.v
theories/SpecFree.v
theories/FreeProofs.v
theories/PropFreeAux.v
theories/PropFree.v
theories/FineModel.v
theories/SpecFine.v
theories/FineProofs.v
theories/PropFineAux.v
theories/PropFine.v
theories/SpecFar.v
theories/FarProofs.v
theories/PropFarAux.v
theories/PropFar.v
theories/SpecNear.v
theories/NearProofs.v
theories/PropNearAux.v
theories/PropNear.v
theories/SpecSafe.v
theories/SafeProofs.v
theories/PropSafeAux.v
theories/PropSafe.v
theories/SpecCoeff.v
theories/CoeffProofs.v
theories/PropCoeffAux.v
theories/PropCoeff.v
theories/SpecTurns.v
theories/TurnsProofs.v
theories/PropTurnsAux.v
theories/PropTurns.v
theories/SpecGauss.v
theories/GaussProofs.v
theories/PropGaussAux.v
theories/PropGauss.v
theories/SpecSlope.v
theories/SlopeProofs.v
theories/PropSlopeAux.v
theories/PropSlope.v
theories/SpecBarrier.v
theories/BarrierProofs.v
theories/PropBarrierAux.v
theories/PropBarrier.v
theories/SpecUpdate.v
theories/UpdateProofs.v
theories/UpdateMin.v
theories/PropUpdateAux.v
theories/PropUpdate.v
theories/SpecPolar.v
theories/PolarProofs.v
theories/PropPolarAux.v
theories/PropPolar.v
theories/SpecEntropy.v
theories/EntropyFloat.v
theories/PropEntropyAux.v
theories/PropEntropy.v
theories/UnitTests.v
