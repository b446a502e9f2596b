-Q theories Verif
theories/Address.v
theories/AddressProofs.v
theories/AdrsEnc.v
theories/AnyAddr.v
theories/ApiProofs.v
theories/ApiProofs2.v
theories/Base.v
theories/BaseFacts.v
theories/Bench.v
theories/BenchProofs.v
theories/BenchSpec.v
theories/BuildProofs.v
theories/BuildSpec.v
theories/CBuild.v
theories/CBuildApi.v
theories/CBuildProofs.v
theories/CCore.v
theories/CCoreCases.v
theories/CCoreProofs.v
theories/CCoreProofs2.v
theories/CCoreProofs3.v
theories/CFips202.v
theories/CFips202Proofs.v
theories/CGlue.v
theories/CGlueProofs.v
theories/CGlueProofs2.v
theories/CGlueProofs3.v
theories/CGlueProofs4.v
theories/CHaraka.v
theories/CHarakaProofs.v
theories/CHarakaProofs2.v
theories/CHarakaProofs3.v
theories/CHarakaProofs4.v
theories/CHarakaProofs5.v
theories/CHarakaProofs6.v
theories/CHashRuns.v
theories/CInt.v
theories/CIntFacts.v
theories/CKat.v
theories/CKatFiles.v
theories/CKatMain.v
theories/CKatMainProofs.v
theories/CKatProofs.v
theories/CRandombytes.v
theories/CRandombytesProofs.v
theories/CRng.v
theories/CRngProofs.v
theories/CSha2.v
theories/CSha2Proofs.v
theories/CTApi.v
theories/CTErase.v
theories/CTLog.v
theories/CTProofs.v
theories/CTRoots.v
theories/CTSpec.v
theories/CTreehash.v
theories/CTreehashProofs.v
theories/CWord.v
theories/CallApiProofs.v
theories/CallErase.v
theories/CallForsProofs.v
theories/CallInputFacts.v
theories/CallLog.v
theories/CallSignProofs.v
theories/CallSpec.v
theories/CallSpecFacts.v
theories/CallTreeProofs.v
theories/CallWotsProofs.v
theories/CoreFacts.v
theories/CoreFacts2.v
theories/CoreFacts3.v
theories/Fips202.v
theories/ForgeCode.v
theories/ForgeFacts.v
theories/ForgeProofs.v
theories/ForgeSpec.v
theories/Fors.v
theories/ForsProofs.v
theories/Haraka.v
theories/HarakaHashSpec.v
theories/HarakaNi.v
theories/HarakaNiLanes.v
theories/HarakaNiProofs.v
theories/HarakaNiSponge.v
theories/HarakaProofs.v
theories/HarakaSpec.v
theories/HarakaSponge.v
theories/HarakaTweak.v
theories/HashHaraka.v
theories/HashHarakaProofs.v
theories/HashSha2.v
theories/HashSha2Proofs.v
theories/HashShake.v
theories/HashShakeProofs.v
theories/HashSpec.v
theories/Kat.v
theories/KatIo.v
theories/KatProofs.v
theories/KatSpec.v
theories/KeccakProofs.v
theories/KeccakSnP.v
theories/KeccakSnPLanes.v
theories/KeccakSnPProofs.v
theories/KeccakSnPSpec.v
theories/KeccakSpec.v
theories/LaneAgree.v
theories/LaneChainProofs.v
theories/LaneFacts.v
theories/LaneHashForms.v
theories/LaneKeccak.v
theories/LaneKeccakProofs.v
theories/LaneMerkleProofs.v
theories/LaneSha2.v
theories/LaneSha2Ok.v
theories/LaneSha2Proofs.v
theories/LaneSha2Thash.v
theories/LaneShake.v
theories/LaneShakeOk.v
theories/LaneShakeProofs.v
theories/LaneSortProofs.v
theories/LaneThashShake.v
theories/LaneTreeFacts.v
theories/LaneTreeProofs.v
theories/LaneWotsProofs.v
theories/Lanes.v
theories/LeakCode.v
theories/LeakFacts.v
theories/LeakSpec.v
theories/LeakToy.v
theories/Merkle.v
theories/MerkleProofs.v
theories/OptBuild.v
theories/OptForge.v
theories/OptProofs.v
theories/Overlap.v
theories/OverlapProofs.v
theories/Params.v
theories/Prop_Api.v
theories/Prop_Bench.v
theories/Prop_Builds.v
theories/Prop_CBuild.v
theories/Prop_CGlue.v
theories/Prop_CHaraka.v
theories/Prop_CHash.v
theories/Prop_CInt.v
theories/Prop_CKat.v
theories/Prop_CKatMain.v
theories/Prop_CRandombytes.v
theories/Prop_CRng.v
theories/Prop_CT.v
theories/Prop_Calls.v
theories/Prop_Forge.v
theories/Prop_Fors.v
theories/Prop_Haraka.v
theories/Prop_Index.v
theories/Prop_Kat.v
theories/Prop_LaneHash.v
theories/Prop_Lanes.v
theories/Prop_Leak.v
theories/Prop_Opt.v
theories/Prop_Overlap.v
theories/Prop_Rng.v
theories/Prop_Selftest.v
theories/Prop_Sha2.v
theories/Prop_Shake.v
theories/Prop_SnP.v
theories/Prop_Tests.v
theories/Prop_Trees.v
theories/Prop_Wots.v
theories/Refine.v
theories/Rng.v
theories/RngProofs.v
theories/RngSpec.v
theories/Selftest.v
theories/SelftestImpl.v
theories/SelftestProofs.v
theories/SelftestSpec.v
theories/Sha2.v
theories/Sha2Facts.v
theories/Sha2Proofs.v
theories/Sha2Spec.v
theories/Shake128Spec.v
theories/ShakeProofs.v
theories/Sign.v
theories/SignBytes.v
theories/SignProofs.v
theories/SignX.v
theories/SignXProofs.v
theories/Spec.v
theories/SpecExt.v
theories/SpecExtW.v
theories/SpecFacts.v
theories/SpongeFacts.v
theories/Suite.v
theories/TestPrograms.v
theories/TestProgramsProofs.v
theories/Text.v
theories/Toy.v
theories/TreeProofs.v
theories/TreehashProofs.v
theories/Utils.v
theories/Wots.v
theories/WotsDigitsProofs.v
theories/WotsProofs.v
