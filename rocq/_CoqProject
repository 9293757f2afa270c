-Q theories Verif

theories/Base.v
theories/Legendre.v
theories/NumTheory.v
theories/Reciprocity.v
theories/LegendreFacts.v
theories/Euler.v
theories/LegendreSpec.v
theories/Primality.v
theories/FastMod.v
theories/Lucas.v
theories/Sloth.v
theories/SlothFacts.v
theories/Common.v
theories/Depend.v
theories/Prover.v
theories/BytesFacts.v
theories/DependSpec.v
theories/DependFacts.v
theories/DependDet.v
theories/VdeFacts.v
theories/CommonFacts.v
theories/SealSpec.v
theories/SealCore.v
theories/SealFile.v
theories/SealTop.v
theories/SealZero.v
theories/Primes.v
theories/ParamFacts.v
theories/SealPad.v
theories/SealWitness.v
theories/Verifier.v
theories/ShortTable.v
theories/ChallengeFacts.v
theories/VerifierFacts.v
theories/ParallelFacts.v
theories/TableFacts.v
theories/SealVerify.v
theories/SealMeaning.v
theories/ReplyMeaning.v
theories/PropVde.v
theories/PropCommon.v
theories/PropDepend.v
theories/PropSeal.v
theories/PropVerifier.v
theories/Merkle.v
theories/MerkleFacts.v
theories/MerkleRoot.v
theories/Postorage.v
theories/PostorageFacts.v
theories/PropPostorage.v
theories/Convert.v
theories/ConvertFacts.v
theories/Field.v
theories/Mimc.v
theories/Space.v
theories/SpaceFacts.v
theories/MimcFacts.v
theories/FrField.v
theories/FrFacts.v
theories/PropSpace.v
theories/R1cs.v
theories/Circuits.v
theories/R1csFacts.v
theories/DfCircuitFacts.v
theories/HashCircuitFacts.v
theories/PowCircuitFacts.v
theories/EqualCircuitFacts.v
theories/PospaceCircuitFacts.v
theories/PospaceCircuitFacts2.v
theories/CircuitSpec.v
theories/PropCircuit.v
theories/SpaceRun.v
theories/PropPospace.v
theories/PropMeaning.v
theories/PropReply.v
theories/Scripts.v
theories/ScriptFacts.v
theories/RabinMonier.v
theories/PropScripts.v
theories/Driver.v
theories/DriverFacts.v
theories/PropDriver.v
theories/SpotFacts.v
theories/PropSpot.v
theories/Chance.v
theories/ChanceFacts.v
theories/PropChance.v
theories/MimcAlg.v
theories/PropMimc.v
theories/LocalFacts.v
theories/PropLocal.v
theories/PropLeaves.v
theories/Crash.v
theories/CrashFacts.v
theories/PropCrash.v
theories/SpaceChance.v
theories/PropSpaceChance.v
theories/DetFacts.v
theories/PropDet.v
theories/MerkleMore.v
theories/PropProof.v
theories/SealLocal.v
theories/PropSealLocal.v
theories/SaveTorn.v
theories/PropSaveTorn.v
theories/ShortRead.v
theories/ShortReadFacts.v
theories/PropShortRead.v
theories/Machine.v
theories/MachineSpec.v
theories/MachineFacts.v
theories/PropMachine.v
theories/SpaceCrash.v
theories/SpaceCrashFacts.v
theories/PropSpaceCrash.v
theories/ShortVerify.v
theories/ShortVerifyFacts.v
theories/PropShortVerify.v
theories/AnyLength.v
theories/PropAnyLength.v
theories/IvFacts.v
theories/PropIv.v
theories/Paths.v
theories/PathFacts.v
theories/PropPaths.v
theories/Report.v
theories/ReportFacts.v
theories/PropReport.v
theories/SpaceReport.v
theories/PropSpaceReport.v
theories/Live.v
theories/LiveFacts.v
theories/PropLive.v
theories/Work.v
theories/WorkFacts.v
theories/PropWork.v
theories/Room.v
theories/RoomFacts.v
theories/PropRoom.v
theories/Side.v
theories/SideFacts.v
theories/PropSide.v
theories/OntoFacts.v
theories/PropOnto.v
theories/SpaceDisk.v
theories/SpaceDiskFacts.v
theories/PropSpaceDisk.v
theories/Thrifty.v
theories/PropThrifty.v
theories/SpaceSide.v
theories/SpaceSideFacts.v
theories/PropSpaceSide.v
theories/Reseal.v
theories/ResealFacts.v
theories/PropReseal.v
theories/Gather.v
theories/PropGather.v
theories/PropPlain.v
theories/PropJudge.v
theories/Grow.v
theories/GrowFacts.v
theories/PropGrow.v
theories/PropUpdate.v
theories/Demand.v
theories/PropDemand.v
theories/SpaceProg.v
theories/SpaceProgFacts.v
theories/PropSpaceProg.v
theories/PropSealSide.v
theories/SealRareFacts.v
theories/PropSealRare.v
theories/BuildFacts.v
theories/PropBuilds.v
theories/FixedFacts.v
theories/RoundsFacts.v
theories/PropRounds.v
theories/ResumeFacts.v
theories/PropResume.v
theories/UnchangedFacts.v
theories/PropUnchanged.v
theories/PropReplica.v
