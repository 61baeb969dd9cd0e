-Q theories Verif
theories/Word.v
theories/U256Model.v
theories/U256Spec.v
theories/U256Proofs.v
theories/U256Props.v
theories/MontgomeryModel.v
theories/MontgomeryProofs.v
theories/MontgomeryProps.v
theories/KnuthModel.v
theories/KnuthProofs.v
theories/DivisionProps.v
theories/BinaryModel.v
theories/EncodingSpec.v
theories/BinaryProofs.v
theories/EncodingModel.v
theories/EncodingProofs.v
theories/BinaryProps.v
theories/LehmerModel.v
theories/LehmerSpec.v
theories/LehmerProofs.v
theories/LehmerLoop.v
theories/LehmerDouble.v
theories/LehmerMain.v
theories/LehmerProps.v
theories/NumberTheory.v
theories/Primes.v
theories/FieldSig.v
theories/FieldSpec.v
theories/FieldModel.v
theories/FieldProofs.v
theories/FieldInstance.v
theories/FieldAlgModel.v
theories/FieldAlgProofs.v
theories/FieldProps.v
theories/InverseModel.v
theories/InverseProps.v
theories/Arr.v
theories/FftSpec.v
theories/FftModel.v
theories/PermuteProofs.v
theories/FftProofs.v
theories/FftProps.v
theories/MerkleModel.v
theories/MerkleSpec.v
theories/MerkleIndexProofs.v
theories/MerkleProofs.v
theories/MerkleTreeProofs.v
theories/MerkleProps.v
theories/CurveModel.v
theories/CurveSpec.v
theories/CurveGroup.v
theories/CurveProofs.v
theories/WnafModel.v
theories/WnafSpec.v
theories/WnafProofs.v
theories/ScalarMulProofs.v
theories/CurveInstance.v
theories/CurveChain.v
theories/CurveOrder.v
theories/CurveBase.v
theories/CurveProps.v
theories/SignModel.v
theories/SignSpec.v
theories/SignProofs.v
theories/SignCollision.v
theories/SignProps.v
theories/MmapModel.v
theories/MmapSpec.v
theories/MmapProps.v
theories/MacroModel.v
theories/MacroProps.v
theories/HashModel.v
theories/HashProps.v
theories/ChannelModel.v
theories/ChannelSpec.v
theories/ChannelProps.v
theories/PowModel.v
theories/PowProps.v
theories/StarkBase.v
theories/StarkInstance.v
theories/PolyModel.v
theories/PolyProps.v
theories/TraceModel.v
theories/TraceProps.v
theories/ExprModel.v
theories/ExprSpec.v
theories/ExprProofs.v
theories/LayoutProps.v
theories/ExprProps.v
theories/CheckProps.v
theories/QueryModel.v
theories/QueryProps.v
theories/FriModel.v
theories/FriProps.v
theories/PolyRoots.v
theories/OodsModel.v
theories/OodsProofs.v
theories/OodsProps.v
theories/OodsSatProps.v
theories/OodsClaimProps.v
theories/DagModel.v
theories/DagProofs.v
theories/DagShake.v
theories/DagSpec.v
theories/DagBuild.v
theories/DagProps.v
theories/ComponentModel.v
theories/ComponentProofs.v
theories/ComponentProps.v
theories/ComponentSubst.v
theories/ComponentSpec.v
theories/ComponentCheckProps.v
theories/ComponentTestProps.v
theories/StarkSpec.v
theories/StarkModel.v
theories/StarkProofs.v
theories/StarkOpen.v
theories/StarkFri.v
theories/StarkNum.v
theories/StarkMain.v
theories/StarkRead.v
theories/StarkProps.v
theories/StarkTotalSpec.v
theories/StarkTotal.v
theories/StarkTotalProps.v
theories/AcceptSpec.v
theories/AcceptProofs.v
theories/AcceptMain.v
theories/AcceptProps.v
theories/X86Model.v
theories/X86Proofs.v
theories/X86Props.v
theories/CodecModel.v
theories/CodecProps.v
theories/RandModel.v
theories/RandProps.v
theories/ClaimModel.v
theories/ClaimSpec.v
theories/ClaimProofs.v
theories/ClaimProps.v
theories/ExampleProofs.v
theories/ExampleProps.v
theories/MimcProps.v
theories/VdfProps.v
theories/MimcHashProps.v
theories/MimcTreeProps.v
theories/PedersenModel.v
theories/PedersenSpec.v
theories/PedersenProofs.v
theories/PedersenProps.v
theories/PedersenHash.v
theories/PedersenTraceProps.v
theories/PedersenFeltProps.v
theories/BindModel.v
theories/BindSpec.v
theories/BindProps.v
theories/BindPedersenProps.v
theories/PedersenProveProps.v
theories/SeedModel.v
theories/SeedSpec.v
theories/SeedProps.v
theories/SolidityModel.v
theories/SoliditySpec.v
theories/SolidityProofs.v
theories/SolidityProps.v
theories/ContractModel.v
theories/ContractSpec.v
theories/ContractProofs.v
theories/ContractTotal.v
theories/ContractProps.v
theories/AllocModel.v
theories/AllocSpec.v
theories/AllocProofs.v
theories/AllocProps.v
theories/MerkleSolModel.v
theories/MerkleSolProofs.v
theories/MerkleSolProps.v
theories/CoinSolModel.v
theories/CoinSolProofs.v
theories/CoinSolProps.v
theories/FriSolModel.v
theories/FriSolProofs.v
theories/FriSolBits.v
theories/FriSolProps.v
theories/PrimeSolModel.v
theories/PrimeSolProofs.v
theories/PrimeSolProps.v
theories/VerifySolModel.v
theories/VerifySolProofs.v
theories/VerifySolProps.v
theories/FriLoopModel.v
theories/FriLoopProps.v
theories/FriScaleProps.v
theories/LeafSolModel.v
theories/LeafSolProps.v
theories/DefaultSolModel.v
theories/DefaultSolProps.v
