-Q theories Verif
theories/Outcome.v
theories/BasicSpec.v
theories/OutcomeLemmas.v
theories/ZqModel.v
theories/ZqProofs.v
theories/NumTheory.v
theories/ZqPow.v
theories/TranscodeModel.v
theories/TranscodeProofs.v
theories/CbdModel.v
theories/CbdSpec.v
theories/CbdProofs.v
theories/PrimesModel.v
theories/PrimesProofs.v
theories/NttModel.v
theories/PolySpec.v
theories/PolyRing.v
theories/NttPure.v
theories/NttStages.v
theories/NttProofs.v
theories/NttPropLemmas.v
theories/PropsZq.v
theories/PropsTranscode.v
theories/PropsCbd.v
theories/PropsNtt.v
theories/RnsModel.v
theories/RnsSpec.v
theories/RnsProofs.v
theories/RnsScalerProofs.v
theories/RnsPropLemmas.v
theories/RnsNewLemmas.v
theories/PropsRns.v
theories/RqModel.v
theories/RqSpec.v
theories/RqCtx.v
theories/RqRows.v
theories/RqProofs.v
theories/RingRn.v
theories/RqOps.v
theories/RqIO.v
theories/RqPropLemmas.v
theories/PropsRq.v
theories/ParamsModel.v
theories/BfvSpec.v
theories/ParamsProofs.v
theories/SlotsProofs.v
theories/BuildProofs.v
theories/PrimeCert.v
theories/ExampleParams.v
theories/ParamsPropLemmas.v
theories/PropsParams.v
theories/PlainModel.v
theories/CipherModel.v
theories/OpsModel.v
theories/SchemeSpec.v
theories/PlainProofs.v
theories/PlainPropLemmas.v
theories/PropsPlain.v
theories/CipherSpec.v
theories/RnPoly.v
theories/CipherProofs.v
theories/EncryptProofs.v
theories/CipherPropLemmas.v
theories/LinearPropLemmas.v
theories/CtDot.v
theories/DotPropLemmas.v
theories/CipherExamples.v
theories/PropsCipher.v
theories/SerialPropLemmas.v
theories/MulProofs.v
theories/MulPropLemmas.v
theories/MulExamples.v
theories/PropsMul.v
theories/KeysModel.v
theories/KeysSpec.v
theories/KeysProofs.v
theories/KeySwitchProofs.v
theories/KeyNoiseProofs.v
theories/KeyOpsProofs.v
theories/KeyPropLemmas.v
theories/KeyExamples.v
theories/PropsKeys.v
theories/EvalSpec.v
theories/RotProofs.v
theories/EvalKeyProofs.v
theories/EvalOpsProofs.v
theories/EvalSumProofs.v
theories/EvalExpandProofs.v
theories/EvalPropLemmas.v
theories/EvalExamples.v
theories/PropsEval.v
theories/RgswSpec.v
theories/RgswPropLemmas.v
theories/MultProofs.v
theories/MultPropLemmas.v
theories/RgswExamples.v
theories/PropsRgsw.v
theories/WireSpec.v
theories/WireProofs.v
theories/WireKeysProofs.v
theories/WireOpsProofs.v
theories/WirePropLemmas.v
theories/KeySerialPropLemmas.v
theories/WireExamples.v
theories/PropsWire.v
theories/ShapeProofs.v
theories/ReachSpec.v
theories/ReachProofs.v
theories/ReachPropLemmas.v
theories/ReachExamples.v
theories/PropsReach.v
theories/MbfvModel.v
theories/MbfvSpec.v
theories/MbfvProofs.v
theories/MbfvPropLemmas.v
theories/MbfvExamples.v
theories/PropsMbfv.v
theories/DefaultModel.v
theories/DefaultSpec.v
theories/DefaultCerts.v
theories/DefaultPropLemmas.v
theories/DefaultGroup.v
theories/DefaultExamples.v
theories/PropsDefault.v
theories/CircuitSpec.v
theories/CircuitProofs.v
theories/CircuitPropLemmas.v
theories/CircuitExamples.v
theories/PropsCircuit.v
theories/SafeSpec.v
theories/SafeProofs.v
theories/SafeOpsProofs.v
theories/SafePropLemmas.v
theories/SafeExamples.v
theories/PropsSafe.v
theories/PolyEncProofs.v
theories/VotingModel.v
theories/VotingSpec.v
theories/VotingProofs.v
theories/VotingExamples.v
theories/PropsVoting.v
theories/PirModel.v
theories/PirSpec.v
theories/PirLists.v
theories/PirProofs.v
theories/MulPirProofs.v
theories/MulPirPropLemmas.v
theories/PirExamples.v
theories/PropsMulPir.v
theories/SealPirProofs.v
theories/SealPirPropLemmas.v
theories/SealPirExamples.v
theories/PropsSealPir.v
theories/ProgramsModel.v
theories/ProgramsSpec.v
theories/ProgramsProofs.v
theories/ProgramsSetProofs.v
theories/ProgramsRgswProofs.v
theories/ProgramsPropLemmas.v
theories/ProgramsExamples.v
theories/PropsPrograms.v
theories/BytesModel.v
theories/BytesSpec.v
theories/BytesProofs.v
theories/BytesMessages.v
theories/BytesReadProofs.v
theories/BytesParams.v
theories/BytesPropLemmas.v
theories/BytesExamples.v
theories/PropsBytes.v
theories/LeakModel.v
theories/LeakSpec.v
theories/LeakErase.v
theories/LeakProofs.v
theories/LeakAlike.v
theories/LeakKeys.v
theories/LeakSwitch.v
theories/LeakPropLemmas.v
theories/LeakExamples.v
theories/PropsLeak.v
theories/RangeNtt.v
theories/RangeSpec.v
theories/RangeProofs.v
theories/RangePropLemmas.v
theories/RangeExamples.v
theories/PropsRange.v
theories/KeygenSpec.v
theories/KeygenProofs.v
theories/KeygenProtoProofs.v
theories/KeygenPropLemmas.v
theories/KeygenExamples.v
theories/PropsKeygen.v
theories/ReleaseModel.v
theories/ReleaseSpec.v
theories/ReleaseProofs.v
theories/ReleaseNttProofs.v
theories/ReleasePropLemmas.v
theories/ReleaseExamples.v
theories/PropsRelease.v
theories/TfheModel.v
theories/TfheSpec.v
theories/TfheProofs.v
theories/TfhePropLemmas.v
theories/TfheExamples.v
theories/PropsTfhe.v
theories/SizesSpec.v
theories/SizesProofs.v
theories/SizesPropLemmas.v
theories/SizesExamples.v
theories/PropsSizes.v
theories/RawSpec.v
theories/RawPropLemmas.v
theories/PropsRaw.v
theories/PortSpec.v
theories/PortPropLemmas.v
theories/PortExamples.v
theories/PortSlots.v
theories/PortSlotsEx.v
theories/PropsPort.v
theories/ReleaseRnsModel.v
theories/ReleaseRnsProofs.v
theories/ReleaseRnsPropLemmas.v
theories/PropsReleaseRns.v
theories/ReleaseRqModel.v
theories/ReleaseRqSpec.v
theories/ReleaseRqProofs.v
theories/ReleaseRqPropLemmas.v
theories/ReleaseRqExamples.v
theories/PropsReleaseRq.v
theories/ReleaseUtilModel.v
theories/ReleaseUtilProofs.v
theories/ReleaseUtilPropLemmas.v
theories/PropsReleaseUtil.v
theories/ReleasePrimesModel.v
theories/ReleasePrimesProofs.v
theories/ReleasePrimesPropLemmas.v
theories/PropsReleasePrimes.v
theories/ReleaseBuildModel.v
theories/ReleaseBuildProofs.v
theories/ReleaseBuildPropLemmas.v
theories/PropsReleaseBuild.v
