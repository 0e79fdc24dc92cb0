-Q theories Verif
theories/Limbs.v
theories/LimbsProofs.v
theories/Field.v
theories/FieldProofs.v
theories/Fp.v
theories/Prime.v
theories/SpecArith.v
theories/ArithProofs.v
theories/PropsArith.v
theories/Base.v
theories/Poly.v
theories/PolyProofs.v
theories/MleSpec.v
theories/Circuit.v
theories/FastProver.v
theories/FastVerifier.v
theories/Lazy.v
theories/GkrMath.v
theories/TablesProofs.v
theories/FastProverProofs.v
theories/PhaseProofs.v
theories/FastVerifierProofs.v
theories/FastCheat.v
theories/Count.v
theories/SoundProofs.v
theories/SpecGkr.v
theories/RoundProofs.v
theories/PropsGkr.v
theories/VpdGroup.v
theories/VpdR.v
theories/VpdMask.v
theories/VpdInput.v
theories/VpdGroupProofs.v
theories/VpdRProofs.v
theories/VpdMaskProofs.v
theories/VpdInputProofs.v
theories/SpecVpd.v
theories/VpdSound.v
theories/PropsVpd.v
theories/Transcript.v
theories/SpecTranscript.v
theories/TranscriptProofs.v
theories/PropsTranscript.v
theories/Loader.v
theories/SpecLoader.v
theories/LoaderProofs.v
theories/ZkEval.v
theories/ZkEvalProofs.v
theories/ZkProver.v
theories/ZkVerifier.v
theories/ZkPhaseProofs.v
theories/ZkMaskProofs.v
theories/ZkRoundProofs.v
theories/ZkLayerProofs.v
theories/ZkPredProofs.v
theories/ZkOpenProofs.v
theories/ZkLinkProofs.v
theories/ZkVerifierProofs.v
theories/ZkComplete.v
theories/ZkCheat.v
theories/LoadedProofs.v
theories/PropsLoader.v
theories/SpecZk.v
theories/ZkFacts.v
theories/ZkLoaded.v
theories/PropsZk.v
theories/Gen.v
theories/SpecGen.v
theories/GenProofs.v
theories/PropsGen.v
theories/SumGame.v
theories/ZkIdeal.v
theories/ZkTarget.v
theories/ZkSoundProofs.v
theories/ZkSoundLayer.v
theories/ZkSoundTrue.v
theories/ZkSoundUpper.v
theories/ZkAccept.v
theories/PropsZkSound.v
theories/FastLoader.v
theories/SpecFastLoader.v
theories/FastLoaderProofs.v
theories/FastLoadedProofs.v
theories/PropsFastLoader.v
theories/Program.v
theories/Compiler.v
theories/SpecCompiler.v
theories/CompilerMaps.v
theories/CompilerRead.v
theories/CompilerLevels.v
theories/CompilerLayers.v
theories/CompilerShape.v
theories/CompilerWiring.v
theories/CompilerFile.v
theories/CompilerCircuit.v
theories/CompilerProofs.v
theories/CompilerOrder.v
theories/CompilerTotal.v
theories/CompilerFills.v
theories/CompilerDone.v
theories/CompilerEnd.v
theories/PropsCompiler.v
theories/PropsCompilerTotal.v
theories/SpecSha.v
theories/ShaBits.v
theories/ShaGen.v
theories/ShaSem.v
theories/ShaBlock.v
theories/ShaMain.v
theories/ShaCheck.v
theories/ShaProgram.v
theories/PropsSha.v
theories/MerkleGen.v
theories/SpecMerkle.v
theories/MerkleShape.v
theories/MerkleProofs.v
theories/MerkleRuns.v
theories/PropsMerkle.v
theories/LanczosGen.v
theories/SpecLanczos.v
theories/LanczosProgram.v
theories/LanczosWiring.v
theories/CompilerOutputs.v
theories/PropsLanczos.v
theories/ZkHide.v
theories/ZkView.v
theories/ZkGroup.v
theories/ZkViewProofs.v
theories/ZkHideProofs.v
theories/PropsZkHide.v
theories/ZkFull.v
theories/ZkLikely.v
theories/PropsZkFull.v
theories/TradProver.v
theories/TradVerifier.v
theories/TradProofs.v
theories/TradPhase.v
theories/TradVerifierProofs.v
theories/TradSound.v
theories/PropsTrad.v
theories/BcProver.v
theories/BcVerifier.v
theories/BcPhase0.v
theories/BcPhase.v
theories/BcVerifierProofs.v
theories/BcMessages.v
theories/PropsBc.v
theories/BcScale.v
theories/BcSound0.v
theories/BcSound.v
theories/PropsBcSound.v
theories/ModWrap.v
theories/Conc.v
theories/ParaProver.v
theories/ParaProofs.v
theories/ParaPhase1.v
theories/ParaInit.v
theories/ParaUpdate.v
theories/ParaWitness.v
theories/ParaPhase2.v
theories/PropsPara.v
theories/MvTest.v
theories/MvTestProofs.v
theories/MvTestOpen.v
theories/PropsMv.v
theories/TradLoader.v
theories/SpecTradLoader.v
theories/TradLoaderProofs.v
theories/TradLoadedProofs.v
theories/PropsTradLoader.v
theories/ParaVerifier.v
theories/SpecParaLoader.v
theories/ParaLoaderProofs.v
theories/ParaVerifierProofs.v
theories/PropsParaVerifier.v
theories/ModNear.v
theories/ParaMessages.v
theories/PropsParaMessages.v
theories/GenModes.v
theories/SpecGenModes.v
theories/GenModesProofs.v
theories/PropsGenModes.v
theories/Depth.v
theories/SpecDepth.v
theories/DepthProofs.v
theories/PropsDepth.v
theories/Mm.v
theories/MmProofs.v
theories/PropsMm.v
theories/LanczosPrint.v
theories/LanczosPrintProofs.v
theories/PropsLanczosPrint.v
theories/LoadedUb.v
theories/DepthChain.v
