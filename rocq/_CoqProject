-Q theories Verif
theories/ABLInit.v
theories/ABLInitProofs.v
theories/ABLInitSpec.v
theories/ABLStats.v
theories/ABLStatsSpec.v
theories/ActSampling.v
theories/ActSamplingProofs.v
theories/ActSamplingSpec.v
theories/Advance.v
theories/AdvanceProofs.v
theories/AdvanceSpec.v
theories/Anelastic.v
theories/AnelasticSpec.v
theories/Averaging.v
theories/AveragingProofs.v
theories/AveragingProofs2.v
theories/AveragingProofs3.v
theories/AveragingProofs4.v
theories/AveragingSpec.v
theories/Base.v
theories/BaseFacts.v
theories/BndryPlane.v
theories/BoundaryCond.v
theories/BoundarySpec.v
theories/BoxR.v
theories/BoxRFacts.v
theories/Centre.v
theories/CentreSpec.v
theories/Composite.v
theories/CompositeProofs.v
theories/CompositeProofs2.v
theories/CompositeSpec.v
theories/DiskActuator.v
theories/DiskProofs.v
theories/DiskProofs2.v
theories/DiskSpec.v
theories/ExactFlow.v
theories/ExactFlowSpec.v
theories/ExtTurb.v
theories/ExtTurbSpec.v
theories/FieldRepo.v
theories/FieldRepoProofs.v
theories/FieldRepoProofs2.v
theories/FieldRepoProofs3.v
theories/FieldRepoProofs4.v
theories/FieldRepoProofs5.v
theories/FieldRepoSpec.v
theories/FieldTag.v
theories/FieldTagSpec.v
theories/Forest.v
theories/ForestSpec.v
theories/FreeSurface.v
theories/FreeSurfaceProofs.v
theories/FreeSurfaceProofs2.v
theories/FreeSurfaceSpec.v
theories/HosWaves.v
theories/HosWavesSpec.v
theories/Immersed.v
theories/ImmersedSpec.v
theories/Inputs.v
theories/InputsSpec.v
theories/Interp.v
theories/InterpProofs.v
theories/InterpProofs2.v
theories/InterpProofs3.v
theories/InterpSpec.v
theories/JoukProofs.v
theories/Kynema.v
theories/KynemaSpec.v
theories/Levelset.v
theories/LiftingLine.v
theories/LiftingLineProofs.v
theories/LiftingLineSpec.v
theories/Markers.v
theories/MarkersSpec.v
theories/MeshMap.v
theories/MesoForcing.v
theories/MesoForcingProofs.v
theories/MesoForcingProofs2.v
theories/MesoForcingSpec.v
theories/ModPower.v
theories/ModPowerSpec.v
theories/MomFlux.v
theories/MomFluxProofs.v
theories/MomFluxSpec.v
theories/MoninObukhov.v
theories/MoninObukhovSpec.v
theories/MultiPhase.v
theories/MultiPhaseSpec.v
theories/Overset.v
theories/PlaneAvg.v
theories/PlaneAvgProofs.v
theories/PlaneAvgProofs2.v
theories/PlaneAvgProofs3.v
theories/PlaneAvgSpec.v
theories/Plic.v
theories/PlicIntercept.v
theories/PlicIntercept2.v
theories/PlicProofs.v
theories/PlicProofs2.v
theories/PlicProofs3.v
theories/PlicSpec.v
theories/PlicVol.v
theories/PropABLInit.v
theories/PropABLStats.v
theories/PropActSampling.v
theories/PropAdvance.v
theories/PropAnelastic.v
theories/PropAveraging.v
theories/PropAxell.v
theories/PropBndryPlane.v
theories/PropBoundary.v
theories/PropCentre.v
theories/PropComposite.v
theories/PropDisk.v
theories/PropDiskBox.v
theories/PropDiskSpread.v
theories/PropExactFlow.v
theories/PropExtTurb.v
theories/PropField.v
theories/PropFieldTag.v
theories/PropForest.v
theories/PropFreeSurface.v
theories/PropHosWaves.v
theories/PropImmersed.v
theories/PropInputs.v
theories/PropInterp.v
theories/PropJouk.v
theories/PropKynema.v
theories/PropLES.v
theories/PropLevelset.v
theories/PropLiftingLine.v
theories/PropMO.v
theories/PropMap.v
theories/PropMarkers.v
theories/PropMeso.v
theories/PropModPower.v
theories/PropMomFlux.v
theories/PropMultiPhase.v
theories/PropOutput.v
theories/PropOverset.v
theories/PropPlane.v
theories/PropPlic.v
theories/PropPlicFlat.v
theories/PropProfiles.v
theories/PropRadar.v
theories/PropRegistry.v
theories/PropRestart.v
theories/PropRotorDisk.v
theories/PropSST.v
theories/PropSampling.v
theories/PropSolverOpts.v
theories/PropSource.v
theories/PropSpinner.v
theories/PropStartState.v
theories/PropStencil.v
theories/PropStokes.v
theories/PropSubvol.v
theories/PropSynthTurb.v
theories/PropTagging.v
theories/PropTempPert.v
theories/PropTime.v
theories/PropTioga.v
theories/PropTransport.v
theories/PropUdf.v
theories/PropVec.v
theories/PropVisc.v
theories/PropVof.v
theories/PropWall.v
theories/PropWallModel.v
theories/PropWaveBC.v
theories/PropWaveInputs.v
theories/PropWaveKin.v
theories/PropWaves.v
theories/PropWing.v
theories/PropWingBox.v
theories/Radar.v
theories/RadarProofs.v
theories/RadarProofs2.v
theories/RadarSpec.v
theories/Registry.v
theories/Restart.v
theories/RotorDisk.v
theories/RotorDiskSpec.v
theories/Sampling.v
theories/SimTime.v
theories/SimTimeProofs.v
theories/SimTimeProofs2.v
theories/SimTimeProofs3.v
theories/SimTimeProofs4.v
theories/SimTimeProofs5.v
theories/SimTimeProofs6.v
theories/SimTimeProofs7.v
theories/SimTimeProofs8.v
theories/SimTimeSpec.v
theories/SolverOpts.v
theories/SourceTerms.v
theories/Spinner.v
theories/SpinnerSpec.v
theories/StartState.v
theories/StartStateSpec.v
theories/Stencil.v
theories/StencilProofs.v
theories/StencilSpec.v
theories/Stokes.v
theories/StokesExpand.v
theories/StokesPoly.v
theories/StokesProofs.v
theories/StokesSeries.v
theories/StokesSpec.v
theories/StokesWave.v
theories/Subvol.v
theories/SubvolSpec.v
theories/SynthTurb.v
theories/SynthTurbProofs.v
theories/SynthTurbSpec.v
theories/Tagging.v
theories/TaggingProofs.v
theories/TaggingSpec.v
theories/TempPert.v
theories/TempPertSpec.v
theories/Tioga.v
theories/TiogaSpec.v
theories/Transport.v
theories/TransportSpec.v
theories/TurbProofs.v
theories/TurbSpec.v
theories/Turbulence.v
theories/Udf.v
theories/UdfSpec.v
theories/VecSpace.v
theories/VecSpaceProofs.v
theories/VecSpaceSpec.v
theories/Visc.v
theories/ViscSpec.v
theories/VofAdvect.v
theories/VofProofs.v
theories/VofProofs2.v
theories/VofSetting.v
theories/VofSpec.v
theories/WallModel.v
theories/WallModelSpec.v
theories/WaveBC.v
theories/WaveBCSpec.v
theories/WaveInputs.v
theories/WaveInputsSpec.v
theories/Waves.v
theories/WavesSpec.v
theories/Wing.v
theories/WingProofs.v
theories/WingSpec.v
