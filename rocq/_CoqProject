-Q theories Verif
theories/Prelude.v
theories/Types.v
theories/Bitvec.v
theories/Ser.v
theories/De.v
theories/Impls.v
theories/Api.v
theories/Merkleize.v
theories/Proofs.v
theories/MerkImpls.v
theories/Cost.v
theories/Multiproofs.v
theories/Text.v
theories/Display.v
theories/Sha256.v
theories/SpecSer.v
theories/SpecMerkle.v
theories/SpecMulti.v
theories/SpecPack.v
theories/SpecProve.v
theories/SpecFound.v
theories/SpecTree.v
theories/Valid.v
theories/Lib.v
theories/SpecModes.v
theories/ModesProof.v
theories/ChunkLib.v
theories/MerkProof.v
theories/TreeProof.v
theories/BitsLib.v
theories/SerProof.v
theories/SerSpec.v
theories/DeProof.v
theories/ConProof.v
theories/BitsDe.v
theories/RoundTrip.v
theories/DecValid.v
theories/SpecAccept.v
theories/SpecDecode.v
theories/SpecWrite.v
theories/Accept.v
theories/SerAny.v
theories/SpecErr.v
theories/DeErr.v
theories/ReadProof.v
theories/WriteProof.v
theories/SpecApi.v
theories/SpecText.v
theories/RootProof.v
theories/GindexProof.v
theories/ProveProof.v
theories/LeafProof.v
theories/BindProof.v
theories/SpecMinimal.v
theories/MultiProof.v
theories/MinimalProof.v
theories/PackProof.v
theories/PackGindex.v
theories/PackProve.v
theories/ProbeProof.v
theories/FoundProof.v
theories/ValueTree.v
theories/Compare.v
theories/SpecCompare.v
theories/CompareProof.v
theories/SpecBeside.v
theories/BesideProof.v
theories/SpecJoin.v
theories/JoinProof.v
theories/GrowProof.v
theories/SpecRoot.v
theories/RootAny.v
theories/SpecLater.v
theories/SpecAlike.v
theories/AlikeProof.v
theories/AlikeRoot.v
theories/LaterProof.v
theories/SpecSummary.v
theories/SummaryProof.v
theories/SpecHuge.v
theories/HugeProof.v
theories/SpecSize.v
theories/SizeProof.v
theories/DeCost.v
theories/SpecEffort.v
theories/DeCostProof.v
theories/DeExact.v
theories/SerCost.v
theories/SerCostProof.v
theories/SerExact.v
theories/SpecCost.v
theories/CostProof.v
theories/Derive.v
theories/SpecDerive.v
theories/DeriveProof.v
theories/SizeHint.v
theories/SizeHintProof.v
theories/CodecFacts.v
theories/SpecPrefix.v
theories/PrefixProof.v
theories/SpecFault.v
theories/FaultProof.v
theories/SpecAccess.v
theories/AccessProof.v
theories/CostProve.v
theories/CostVerify.v
theories/SpecVerify.v
theories/CostVerifyProof.v
theories/TextProof.v
theories/DisplayProof.v
theories/Samples.v
theories/CodecThms.v
theories/PropCodec.v
theories/MerkleThms.v
theories/PropMerkle.v
theories/DeriveThms.v
theories/PropDerive.v
theories/TextThms.v
theories/PropText.v
theories/Conform.v
theories/ConformTypes.v
theories/Conform1.v
theories/Conform2.v
theories/Conform3.v
theories/Conform4.v
theories/ConformUnit.v
