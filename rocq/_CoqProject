-Q theories Verif
theories/Base.v
theories/GridModel.v
theories/GridProofs.v
theories/GridExtra.v
theories/ThmGrid.v
theories/ListUtil.v
theories/DecompModel.v
theories/DecompProofs.v
theories/CollectorModel.v
theories/CollectorProofs.v
theories/CollectorHist.v
theories/HashModel.v
theories/HashProofs.v
theories/ThmDecomp.v
theories/OverlayModel.v
theories/Interleave.v
theories/OverlayConc.v
theories/OverlaySum.v
theories/OverlayPass.v
theories/ThmOverlay.v
theories/MpiModel.v
theories/MpiNet.v
theories/MpiData.v
theories/MpiExchange.v
theories/ThmMpi.v
theories/OutModel.v
theories/OutProofs.v
theories/ThmOut.v
theories/TimeModel.v
theories/ThmTime.v
theories/SigModel.v
theories/ThmSig.v
theories/UtilModel.v
theories/UtilProofs.v
theories/ThmUtil.v
theories/RndUtil.v
theories/CfgModel.v
theories/ThmCfg.v
theories/ParticleModel.v
theories/ParticleProofs.v
theories/ThmParticle.v
theories/BeamModel.v
theories/ThmBeam.v
theories/YeeModel.v
theories/YeeProofs.v
theories/ThmYee.v
theories/YeeSmb.v
theories/ThmYeeSmb.v
theories/ExtModel.v
theories/ThmExt.v
theories/CurrentModel.v
theories/CurrentProofs.v
theories/ThmCurrent.v
theories/ThmCurrent2.v
theories/ThmAzimuth.v
theories/PushModel.v
theories/ThmPush.v
theories/ThmPush2.v
theories/CollModel.v
theories/ThmColl.v
theories/CollOpModel.v
theories/ThmColl2.v
theories/CollOpProofs.v
theories/ThmColl3.v
theories/InitModel.v
theories/ThmInit.v
theories/ThmInit2.v
theories/ThmInit3.v
theories/StepModel.v
theories/ThmStep.v
theories/MomentModel.v
theories/ThmMoment.v
theories/CheckModel.v
theories/ThmCheck.v
theories/MigrModel.v
theories/MigrNet.v
theories/MigrProofs.v
theories/ThmMigr.v
theories/PmlModel.v
theories/ThmPml.v
theories/DensModel.v
theories/ThmDens.v
theories/ThmInterp.v
theories/MjTable.v
theories/MjModel.v
theories/MjProofs.v
theories/ThmMj.v
theories/MapModel.v
theories/MapProofs.v
theories/ThmMap.v
theories/SumUtil.v
theories/CavityProofs.v
theories/ThmEnergy.v
theories/ThmGauss.v
theories/SmbCurrent.v
theories/ThmDivide.v
theories/ThmGaussSmb.v
theories/ThmFlight.v
theories/SmbCorner.v
theories/ThmCorner.v
theories/RoundModel.v
theories/RoundProofs.v
theories/ThmRound.v
theories/CollPhaseModel.v
theories/CollPhaseProofs.v
theories/ThmPhase.v
theories/ThmPhase2.v
theories/ThmCurrent3.v
theories/ThmColl4.v
theories/ThmColl5.v
theories/ProbeModel.v
theories/ProbeProofs.v
theories/ThmProbe.v
theories/RaceModel.v
theories/ThmRace.v
theories/ThmMj2.v
theories/FieldMpiModel.v
theories/FieldMpi.v
theories/ThmFieldMpi.v
theories/OutMpiModel.v
theories/ThmOutMpi.v
theories/MsgModel.v
theories/ThmMsg.v
theories/ConstModel.v
theories/ThmWave.v
theories/ExpFix.v
theories/ThmTemp.v
theories/ThmTemp2.v
theories/ThmTemp3.v
theories/ThmBeam2.v
theories/ThmBeam3.v
theories/ThmRunRef.v
theories/ThmGaussRef.v
theories/ThmRoundRef.v
theories/VecModel.v
theories/ThmVec.v
theories/MemModel.v
theories/ThmMem.v
theories/ThmRest.v
theories/ThmGauss0.v
theories/MpiCurrent.v
theories/MpiRoundModel.v
theories/MpiRoundProofs.v
theories/ThmMpiRound.v
theories/ThmMpiRoundEx.v
theories/ThmLinear.v
theories/ThmCellTemp.v
theories/CfgJsonModel.v
theories/CfgJsonProofs.v
theories/ThmCfgJson.v
theories/ThmRoundGauss.v
theories/FullModel.v
theories/ThmFull.v
theories/ThmBeamGauss.v
theories/ThmNewFields.v
theories/ThmDivGauss.v
theories/CollRoundModel.v
theories/ThmCollRound.v
theories/ThmSpeed.v
theories/ThmFree.v
theories/ReaderModel.v
theories/ReaderProofs.v
theories/ThmReader.v
theories/ScaleProofs.v
theories/ThmScale.v
theories/ThmReverse.v
theories/ThmPlanar.v
theories/ThmRoundGauss2.v
theories/ThmTakesPlace.v
theories/ThmTakesBeams.v
theories/ThmSplit.v
theories/MJModel.v
theories/ThmMJ.v
theories/ThmMJ2.v
theories/PhysInfoModel.v
theories/ThmPhysInfo.v
theories/ThmReader2.v
