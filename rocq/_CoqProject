-Q theories Verif
theories/Num.v
theories/NumFacts.v
theories/Fort.v
theories/SpecFort.v
theories/FortFacts.v
theories/PropFort.v
theories/MP.v
theories/SpecMP.v
theories/MPFacts.v
theories/MPFacts2.v
theories/ExMP.v
theories/PropMP.v
theories/SpecRegen.v
theories/RegenFacts.v
theories/RegenFacts2.v
theories/ExRegen.v
theories/PropRegen.v
theories/Push.v
theories/SpecPush.v
theories/PushFacts.v
theories/PushOde.v
theories/PushFacts2.v
theories/PushFacts3.v
theories/ExPush.v
theories/SpecMagnet.v
theories/PushFacts4.v
theories/PropPush.v
theories/Geom.v
theories/SpecGeom.v
theories/GeomFacts.v
theories/Poly.v
theories/SpecPoly.v
theories/PolyGeo.v
theories/PolyFacts.v
theories/ExGeom.v
theories/PropGeom.v
theories/SpecRay.v
theories/RayFacts.v
theories/ExRay.v
theories/PropRay.v
theories/Sey.v
theories/SpecSey.v
theories/SeyFacts.v
theories/SeyFacts2.v
theories/SeyFacts3.v
theories/SeyTab.v
theories/SeyFacts4.v
theories/ExSey.v
theories/PropSey.v
theories/Impact.v
theories/SpecImpact.v
theories/ImpactFacts.v
theories/ImpactFacts2.v
theories/ImpactFacts3.v
theories/ImpactFacts4.v
theories/ImpactFacts5.v
theories/ExImpact.v
theories/PropImpact.v
theories/Furman.v
theories/SpecFurman.v
theories/FurmanFacts.v
theories/FurmanFacts2.v
theories/FurmanFacts3.v
theories/FurmanFacts4.v
theories/FurmanFacts5.v
theories/ExFurman.v
theories/FurmanFacts6.v
theories/FurmanFacts7.v
theories/FurmanFacts8.v
theories/FurmanFacts9.v
theories/SpecKeep.v
theories/FurmanKeep.v
theories/ExKeep.v
theories/PropFurman.v
theories/Beam.v
theories/SpecBeam.v
theories/BeamFacts.v
theories/BeamFacts2.v
theories/ExBeam.v
theories/PropBeam.v
theories/SpecProfile.v
theories/ProfFacts.v
theories/PropProfile.v
theories/SpecTrig.v
theories/TrigFacts.v
theories/PropTrig.v
theories/Source.v
theories/SpecSource.v
theories/SourceFacts.v
theories/SourceFacts2.v
theories/SourceFacts3.v
theories/SourceFacts4.v
theories/SourceFacts5.v
theories/SourceFacts6.v
theories/ExSource.v
theories/PropSource.v
theories/PropStart.v
theories/CrossIon.v
theories/SpecCrossIon.v
theories/CrossIonFacts.v
theories/CrossIonFacts2.v
theories/CrossIonFacts3.v
theories/CrossIonFacts4.v
theories/CrossIonFacts5.v
theories/CrossIonFacts6.v
theories/ExCrossIon.v
theories/PropCrossIon.v
theories/Sim.v
theories/SpecSim.v
theories/SimFacts.v
theories/SimFacts2.v
theories/SimFacts3.v
theories/SimFacts4.v
theories/SimFacts5.v
theories/SimFacts6.v
theories/SimFacts7.v
theories/SimFacts8.v
theories/SimFacts9.v
theories/ExSim.v
theories/PropSim.v
theories/ExForce.v
theories/PropForce.v
theories/Saver.v
theories/SpecSaver.v
theories/SaverFacts.v
theories/SaverFacts2.v
theories/SaverFacts3.v
theories/SaverFacts4.v
theories/SaverFacts5.v
theories/SaverFacts6.v
theories/SaverFacts7.v
theories/SaverFacts8.v
theories/SaverFacts9.v
theories/SaverFacts10.v
theories/SaverFacts11.v
theories/ExSaver.v
theories/ExSaver2.v
theories/PropSaver.v
theories/Ckpt.v
theories/SpecCkpt.v
theories/CkptFacts.v
theories/CkptFacts2.v
theories/CkptFacts3.v
theories/CkptFacts4.v
theories/CkptFacts5.v
theories/ExCkpt.v
theories/PropCkpt.v
theories/ConfigVal.v
theories/ConfigTable.v
theories/Config.v
theories/SpecConfig.v
theories/ConfigFacts.v
theories/ConfigFacts2.v
theories/ConfigFacts3.v
theories/ConfigFacts4.v
theories/ConfigFacts5.v
theories/ConfigFacts6.v
theories/ConfigFacts7.v
theories/ExConfig.v
theories/PropConfig.v
theories/PyHT.v
theories/SpecPyHT.v
theories/PyHTFacts.v
theories/PyHTFacts2.v
theories/PyHTFacts3.v
theories/PyHTFacts4.v
theories/PyHTFacts5.v
theories/PyHTFacts6.v
theories/ExPyHT.v
theories/PropPyHT.v
theories/Whole.v
theories/SpecWhole.v
theories/WholeFacts.v
theories/WholeFacts2.v
theories/WholeFacts3.v
theories/WholeFacts4.v
theories/WholeFacts5.v
theories/WholeFacts6.v
theories/ExWhole.v
theories/PropWhole.v
theories/Init.v
theories/SpecInit.v
theories/SpecInitParts.v
theories/InitFacts.v
theories/InitFacts2.v
theories/InitFacts3.v
theories/InitFacts4.v
theories/InitFacts5.v
theories/InitFacts6.v
theories/ExInit.v
theories/InitFacts7.v
theories/PropInit.v
theories/Em.v
theories/SpecEm.v
theories/EmFacts.v
theories/ExEm.v
theories/PropEm.v
theories/PyHTFacts7.v
theories/PropSlice.v
theories/Erf.v
theories/SpecErf.v
theories/ErfFacts.v
theories/PiBound.v
theories/BE.v
theories/SpecBE.v
theories/BEFacts.v
theories/BEFacts2.v
theories/BEFacts3.v
theories/BEFacts4.v
theories/PropErf.v
theories/PropBE.v
theories/Snap.v
theories/SpecSnap.v
theories/SnapFacts.v
theories/PropSnap.v
theories/Extract.v
theories/SpecExtract.v
theories/ExtractFacts.v
theories/ExtractFacts2.v
theories/ExtractFacts3.v
theories/ExtractFacts4.v
theories/ExExtract2.v
theories/ExExtract.v
theories/PropExtract.v
theories/Energy.v
theories/SpecEnergy.v
theories/EnergyFacts.v
theories/ExEnergy.v
theories/PropEnergy.v
theories/Mpi.v
theories/SpecMpi.v
theories/MpiFacts.v
theories/MpiFacts2.v
theories/ExMpi.v
theories/PropMpi.v
theories/SpecRand.v
theories/RandFacts.v
theories/RandFacts2.v
theories/ExRand.v
theories/PropRand.v
theories/NpPoly.v
theories/SpecNpPoly.v
theories/NpPolyFacts.v
theories/ExNpPoly.v
theories/PropNpPoly.v
theories/PyHTInit.v
theories/SpecPyHTInit.v
theories/PyHTInitFacts.v
theories/PyHTInitFacts2.v
theories/PyHTInitFacts3.v
theories/PyHTInitFacts4.v
theories/ExPyHTInit.v
theories/PropPyHTInit.v
theories/SpecOutp.v
theories/OutpFacts.v
theories/ExOutp.v
theories/PropOutp.v
theories/Choose.v
theories/SpecChoose.v
theories/ChooseFacts.v
theories/ExChoose.v
theories/PropChoose.v
theories/SaveState.v
theories/SpecSaveState.v
theories/SaveStateFacts.v
theories/ExSaveState.v
theories/PropSaveState.v
theories/FpDist.v
theories/SpecLaw.v
theories/LawFacts.v
theories/LawFacts2.v
theories/LawFacts3.v
theories/LawFacts4.v
theories/ErfReal.v
theories/ExLaw.v
theories/PropLaw.v
theories/SpecMean.v
theories/MeanFacts.v
theories/MeanPoisson.v
theories/MeanFurman.v
theories/MeanRegen.v
theories/MeanSey.v
theories/MeanSoft.v
theories/ExMean.v
theories/PropMean.v
theories/LoadFile.v
theories/SpecLoadFile.v
theories/LoadFileFacts.v
theories/ExLoadFile.v
theories/PropLoadFile.v
theories/SeyFile.v
theories/SpecSeyFile.v
theories/SeyFileFacts.v
theories/PropSeyFile.v
theories/SpecMeanCross.v
theories/MeanCross.v
theories/PropMeanCross.v
theories/Monitor.v
theories/SpecMonitor.v
theories/MonitorFacts.v
theories/PropMonitor.v
