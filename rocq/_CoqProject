-Q theories Verif

theories/Base.v
theories/Params.v
theories/Env.v
theories/LowMC.v
theories/Picnic1.v
theories/Tree.v
theories/Picnic3.v
theories/Api.v
theories/Spec.v
theories/BaseFacts.v
theories/ParamFacts.v
theories/LowMCFacts.v
theories/ApiSpec.v
theories/ApiFacts.v
theories/UtilFacts.v
theories/Witness.v
theories/ApiProofs1.v
theories/LowMCInj.v
theories/PropertiesKeys.v
theories/PropertiesLowMC.v
theories/Hint.v
theories/ZkbMpc.v
theories/Zkb.v
theories/ZkbRound.v
theories/ZkbSign.v
theories/ZkbChal.v
theories/ZkbCodec.v
theories/ZkbTop.v
theories/SigSpec.v
theories/ZkbApi.v
theories/ZkbProps.v
theories/ZkbSound.v
theories/ZkbWitness.v
theories/PropertiesPicnic1.v
theories/TreeShape.v
theories/TreeSeed.v
theories/TreeReveal.v
theories/TreeOpen.v
theories/TreeMissing.v
theories/TreeMerkle.v
theories/TreeVerify.v
theories/TreeSpec.v
theories/TreeTop.v
theories/P3Tape.v
theories/P3Aux.v
theories/P3Online.v
theories/P3Mask.v
theories/P3Chal.v
theories/P3Round.v
theories/P3Seeds.v
theories/P3Verify.v
theories/P3Sign.v
theories/P3Complete.v
theories/P3Codec.v
theories/P3Ext.v
theories/P3Api.v
theories/P3Uninit.v
theories/P3Spec.v
theories/P3Bytes.v
theories/P3Props.v
theories/P3Witness.v
theories/AllProps.v
theories/PropertiesPicnic3.v
theories/PropertiesApi.v
theories/TreeWitness.v
theories/PropertiesTree.v
theories/Keccak.v
theories/KeccakSpec.v
theories/KeccakPerm.v
theories/KeccakSponge.v
theories/KeccakProofs.v
theories/HashSpec.v
theories/HashProofs.v
theories/PropertiesHash.v
theories/ZkbppSpec.v
theories/ZkbppProofs.v
theories/ZkbppProofs2.v
theories/ZkbppProofs3.v
theories/ZkbppProofs4.v
theories/KkwSpec.v
theories/KkwTree.v
theories/KkwNodes.v
theories/KkwChal.v
theories/KkwOnline.v
theories/KkwSign.v
theories/KkwVerify.v
theories/PropertiesSpec.v
theories/PrivacySpec.v
theories/MatInv.v
theories/ZkbPrivacy.v
theories/P3Privacy.v
theories/PrivacyWitness.v
theories/PropertiesPrivacy.v
theories/SoundSpec.v
theories/P3Sound.v
theories/SoundWitness.v
theories/ZkbBind.v
theories/PropertiesSound.v
theories/Memory.v
theories/Alloc.v
theories/AllocApi.v
theories/MemSpec.v
theories/MemLogic.v
theories/MemRules.v
theories/MemObjects.v
theories/MemApi.v
theories/MemTop.v
theories/PropertiesMemory.v
theories/Print.v
theories/PrintSpec.v
theories/PrintProofs.v
theories/PropertiesPrint.v
theories/LayoutSpec.v
theories/LayoutProofs.v
theories/PropertiesLayout.v
theories/LeakSpec.v
theories/Leak.v
theories/LeakProofs.v
theories/PropertiesLeak.v
theories/ForkSpec.v
theories/ZkbFork.v
theories/ForkWitness.v
theories/PropertiesFork.v
theories/MiniC.v
theories/CodeLowMC.v
theories/CodeSpec.v
theories/MiniCFacts.v
theories/CodeRules.v
theories/CodeLowMCProofs.v
theories/CodeWitness.v
theories/PropertiesCode.v
theories/CodeZkb.v
theories/CodeHeap.v
theories/CodeZkbProofs.v
theories/CodeZkbBits.v
theories/CodeZkbSub.v
theories/CodeZkbMpc.v
theories/CodeZkbSpec.v
theories/CodeZkbRun.v
theories/CodeZkbThm.v
theories/CodeZkbWitness.v
theories/PropertiesCodeZkb.v
theories/CodeXor.v
theories/CodeVerify.v
theories/CodeVerifySpec.v
theories/CodeVerifyProofs.v
theories/PropertiesCodeVerify.v
theories/CodeZkbVer.v
theories/CodeZkbVerSub.v
theories/CodeZkbVerRun.v
theories/CodeZkbVerThm.v
theories/CodeZkbVerWitness.v
theories/PropertiesCodeZkbVer.v
theories/CodeP3.v
theories/CodeP3Proofs.v
theories/CodeP3Lin.v
theories/CodeP3Aux.v
theories/CodeP3Spec.v
theories/CodeP3AuxRun.v
theories/CodeP3AuxThm.v
theories/CodeP3On.v
theories/CodeP3Sbox.v
theories/CodeP3Sim.v
theories/CodeShow.v
theories/CodeP3SimThm.v
theories/CodeP3Proto.v
theories/CodeP3Thm.v
theories/CodeP3Witness.v
theories/PropertiesCodeP3.v
theories/CodeP3AuxBits.v
theories/PropertiesCodeAux.v
theories/Rng.v
theories/RngSpec.v
theories/RngProofs.v
theories/PropertiesRng.v
theories/CodeKeccak.v
theories/CodeKeccakSpec.v
theories/CodeLanes.v
theories/CodeKeccakProofs.v
theories/CodeSpongeProofs.v
theories/CodeSqueezeProofs.v
theories/CodeHashProofs.v
theories/PropertiesCodeKeccak.v
theories/RefusalProofs.v
theories/PropertiesRefusal.v
theories/CodeHashUses.v
theories/CodeHashUsesSpec.v
theories/CodeHashUsesProofs.v
theories/CodeHashUsesTop.v
theories/CodeHashUsesWitness.v
theories/PropertiesCodeHashUses.v
theories/CodeSign.v
theories/CodeSignSpec.v
theories/CodeSignRules.v
theories/CodeSignProofs.v
theories/CodeSignThm.v
theories/CodeSignWitness.v
theories/PropertiesCodeSign.v
theories/CodeVerRound.v
theories/CodeVerRoundSpec.v
theories/CodeVerRoundProofs.v
theories/CodeVerRoundThm.v
theories/CodeVerRoundWitness.v
theories/PropertiesCodeVerRound.v
theories/CodeVerAll.v
theories/CodeVerAllSpec.v
theories/CodeH3Proofs.v
theories/CodeVerAllProofs.v
theories/CodeVerAllWitness.v
theories/PropertiesCodeVerAll.v
theories/CodeSignAll.v
theories/CodeSignAllSpec.v
theories/CodeSignAllModel.v
theories/CodeSignAllProofs.v
theories/CodeSignAllWitness.v
theories/PropertiesCodeSignAll.v
theories/CodeTraceSpec.v
theories/CodeTraceSim.v
theories/CodeTraceH3.v
theories/CodeTraceSign.v
theories/PropertiesCodeTrace.v
theories/CodeSerialize.v
theories/CodeSerializeSpec.v
theories/CodeSerializeProofs.v
theories/CodeSerializeWitness.v
theories/PropertiesCodeSerialize.v
theories/CodeDeserialize.v
theories/CodeDeserializeSpec.v
theories/CodeDeserializeProofs.v
theories/CodeReceiveProofs.v
theories/CodeDeserializeWitness.v
theories/PropertiesCodeDeserialize.v
theories/CodeEndProofs.v
theories/PropertiesCodeEnd.v
theories/CodeKeys.v
theories/CodeKeysSpec.v
theories/CodeKeysProofs.v
theories/CodeKeysThm.v
theories/PropertiesCodeKeys.v
theories/CodeKeygen.v
theories/CodeKeygenProofs.v
theories/PropertiesCodeKeygen.v
theories/CodeLifeProofs.v
theories/PropertiesCodeLife.v
theories/CodeTree.v
theories/CodeTreeSpec.v
theories/CodeTreeProofs.v
theories/CodeTreeThm.v
theories/PropertiesCodeTree.v
theories/CodeMerkle.v
theories/CodeMerkleSpec.v
theories/CodeMerkleProofs.v
theories/PropertiesCodeMerkle.v
theories/CodeVerifyTree.v
theories/CodeVerifyTreeSpec.v
theories/CodeVerifyTreeProofs.v
theories/PropertiesCodeVerifyTree.v
theories/CodeReconstruct.v
theories/CodeReconstructSpec.v
theories/CodeReconstructProofs.v
theories/PropertiesCodeReconstruct.v
theories/CodeReveal.v
theories/CodeRevealProofs.v
theories/PropertiesCodeReveal.v
theories/CodeOpening.v
theories/CodeOpeningSpec.v
theories/CodeOpeningProofs.v
theories/PropertiesCodeOpening.v
theories/CodeOpen.v
theories/CodeOpenProofs.v
theories/PropertiesCodeOpen.v
