-Q theories Verif
theories/ActiveSetModel.v
theories/AtmosFileModel.v
theories/AtomFlatModel.v
theories/Base.v
theories/BaseLemmas.v
theories/BcInterpModel.v
theories/BlockMapModel.v
theories/BlockMapProofs.v
theories/BlockMapSpec.v
theories/BlockMapThms.v
theories/BroadeningModel.v
theories/BroadeningSpec.v
theories/Cascade3Proofs.v
theories/CascadeDirProofs.v
theories/CascadeModel.v
theories/CascadeProofs.v
theories/CascadeSpec.v
theories/ChargeIterModel.v
theories/ChargeModel.v
theories/ChargeProofs.v
theories/ConfigModel.v
theories/ConfigParseModel.v
theories/ConfigParseSpec.v
theories/ConvergeModel.v
theories/ConvergeSpec.v
theories/CrtafModel.v
theories/DdaExact.v
theories/DdaModel.v
theories/DdaProofs.v
theories/DdaSpec.v
theories/FlatLoopModel.v
theories/FlatLoopProofs.v
theories/FlatLoopSpec.v
theories/Fp3Model.v
theories/Fp3Spec.v
theories/FpCascadeModel.v
theories/FpCascadeSpec.v
theories/FpCellsSpec.v
theories/FpClipModel.v
theories/FpClipSpec.v
theories/FpDdaModel.v
theories/FpDdaSpec.v
theories/FpMarchModel.v
theories/FpMarchSpec.v
theories/FpRayModel.v
theories/GatherModel.v
theories/Given3Model.v
theories/GivenModel.v
theories/HealpixIdx.v
theories/HealpixModel.v
theories/HealpixProofs.v
theories/HydrogenModel.v
theories/IndexGenModel.v
theories/IndexGenProofs.v
theories/IndexGenSpec.v
theories/InnerMergeModel.v
theories/InterpProofs.v
theories/IterModel.v
theories/LcTables.v
theories/LineSweepModel.v
theories/LoadModel.v
theories/LongCharModel.v
theories/LsGeomProofs.v
theories/LsStoreProofs.v
theories/LteModel.v
theories/MagmaModel.v
theories/MagmaProofs.v
theories/MagmaSpec.v
theories/March3Model.v
theories/MergeCfgModel.v
theories/MergeJModel.v
theories/MergeJProofs.v
theories/MergeJSpec.v
theories/Mip3Model.v
theories/Mip3Proofs.v
theories/MipModel.v
theories/MipProofs.v
theories/MortonBits.v
theories/MortonModel.v
theories/MortonProofs.v
theories/MortonSpec.v
theories/MultiLevelModel.v
theories/MultiLevelProofs.v
theories/MultiLevelThms.v
theories/NgModel.v
theories/NrMagmaModel.v
theories/OutFileModel.v
theories/OutFileSpec.v
theories/Output3Model.v
theories/OutputModel.v
theories/ParLemmas.v
theories/ParModel.v
theories/Pass3Model.v
theories/Pass3Proofs.v
theories/Pass3Spec.v
theories/PassModel.v
theories/PassProofs.v
theories/PassSpec.v
theories/ProbeInterpModel.v
theories/ProbeList3Proofs.v
theories/ProbeListModel.v
theories/ProbeListProofs.v
theories/ProbeListSpec.v
theories/ProbeRayModel.v
theories/ProfNormModel.v
theories/PropsActiveSet.v
theories/PropsActiveSet3.v
theories/PropsAtmosFile.v
theories/PropsAtomFlat.v
theories/PropsBcInterp.v
theories/PropsBlockMap.v
theories/PropsBroadening.v
theories/PropsCascade.v
theories/PropsCharge.v
theories/PropsChargeIter.v
theories/PropsConfig.v
theories/PropsConfigParse.v
theories/PropsConverge.v
theories/PropsCrtaf.v
theories/PropsDda.v
theories/PropsFlatLoop.v
theories/PropsFp3.v
theories/PropsFpCascade.v
theories/PropsFpCells.v
theories/PropsFpClip.v
theories/PropsFpDda.v
theories/PropsFpMarch.v
theories/PropsFpRay.v
theories/PropsGather.v
theories/PropsGiven.v
theories/PropsGiven3.v
theories/PropsHealpix.v
theories/PropsHydrogen.v
theories/PropsIndexGen.v
theories/PropsInnerMerge.v
theories/PropsIter.v
theories/PropsLambda.v
theories/PropsLineSweep.v
theories/PropsLoad.v
theories/PropsLongChar.v
theories/PropsLte.v
theories/PropsMagma.v
theories/PropsMarch3.v
theories/PropsMergeCfg.v
theories/PropsMergeJ.v
theories/PropsMips.v
theories/PropsMips3.v
theories/PropsMorton.v
theories/PropsMultiLevel.v
theories/PropsNg.v
theories/PropsNrMagma.v
theories/PropsOutFile.v
theories/PropsOutput3.v
theories/PropsPass3.v
theories/PropsProbeRay.v
theories/PropsProbes.v
theories/PropsProfNorm.v
theories/PropsPw.v
theories/PropsRadiance.v
theories/PropsRayConfig.v
theories/PropsRayGeom.v
theories/PropsRayState.v
theories/PropsRayTool.v
theories/PropsRestart.v
theories/PropsRun.v
theories/PropsSearch.v
theories/PropsSnapName.v
theories/PropsSolve.v
theories/PropsSparse.v
theories/PropsSpecEmis.v
theories/PropsStartup.v
theories/PropsStatEq.v
theories/PropsVelInterp.v
theories/PropsVelMip.v
theories/PropsVelRange.v
theories/PropsVoigt.v
theories/PropsWaveDist.v
theories/PropsWaveGrid.v
theories/PwModel.v
theories/PwProofs.v
theories/PwSpec.v
theories/RadianceModel.v
theories/RadianceProofs.v
theories/RadianceSpec.v
theories/Radix.v
theories/RayAccProofs.v
theories/RayConfigModel.v
theories/RayConfigSpec.v
theories/RayGeomModel.v
theories/RayStateModel.v
theories/RayToolModel.v
theories/RayToolProofs.v
theories/RestartModel.v
theories/RunModel.v
theories/SearchModel.v
theories/SolveModel.v
theories/SparseModel.v
theories/SparseProofs.v
theories/SpecEmisModel.v
theories/StartupModel.v
theories/StatEqModel.v
theories/StatEqProofs.v
theories/StatEqSpec.v
theories/VelInterpModel.v
theories/VelMipModel.v
theories/VelMipProofs.v
theories/VelRangeModel.v
theories/VelRangeProofs.v
theories/VoigtModel.v
theories/WaveDistModel.v
theories/WaveDistProofs.v
theories/WaveDistSpec.v
theories/WaveGridModel.v
theories/WaveGridProofs.v
theories/WaveGridProofs2.v
theories/WaveGridSpec.v
