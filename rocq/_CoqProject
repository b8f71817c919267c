-Q theories Verif
theories/Base.v
theories/BaseFacts.v
theories/ExLagrange.v
theories/Fields.v
theories/GroupFacts.v
theories/ModelCommit.v
theories/ModelCommitCbor.v
theories/ModelComplaint.v
theories/ModelCorruptAll.v
theories/ModelCurve.v
theories/ModelDealing.v
theories/ModelEncode.v
theories/ModelGroup.v
theories/ModelH2C.v
theories/ModelHashes.v
theories/ModelHeap.v
theories/ModelHeapDeal.v
theories/ModelHeapH2C.v
theories/ModelHeapSign.v
theories/ModelKey.v
theories/ModelMega.v
theories/ModelMegaKey.v
theories/ModelPoly.v
theories/ModelProtocol.v
theories/ModelRo.v
theories/ModelRoPoints.v
theories/ModelScalar.v
theories/ModelSecp.v
theories/ModelSecret.v
theories/ModelSetup.v
theories/ModelSign.v
theories/ModelSubset.v
theories/ModelXmd.v
theories/ModelZk.v
theories/OrderCert.v
theories/Pocklington.v
theories/PrimeCerts.v
theories/ProofAb.v
theories/ProofCert.v
theories/ProofCodec.v
theories/ProofCommit.v
theories/ProofComplaint.v
theories/ProofCorrupt.v
theories/ProofCurve.v
theories/ProofDealing.v
theories/ProofDecimal.v
theories/ProofDynamic.v
theories/ProofDynamicRun.v
theories/ProofFast.v
theories/ProofFastP.v
theories/ProofFp.v
theories/ProofFrame.v
theories/ProofFrameDeal.v
theories/ProofFrameH2C.v
theories/ProofH2C.v
theories/ProofHashChacha.v
theories/ProofHashSha.v
theories/ProofHashWords.v
theories/ProofHashes.v
theories/ProofHeap.v
theories/ProofHeapAlloc.v
theories/ProofHeapCorrupt.v
theories/ProofHeapDeal.v
theories/ProofHeapH2C.v
theories/ProofHeapMega.v
theories/ProofHeapSign.v
theories/ProofHeapZk.v
theories/ProofHonest.v
theories/ProofInterp.v
theories/ProofKey.v
theories/ProofLagrange.v
theories/ProofMega.v
theories/ProofOracles.v
theories/ProofOrder.v
theories/ProofPanic.v
theories/ProofPoly.v
theories/ProofProtocol.v
theories/ProofRand.v
theories/ProofRo.v
theories/ProofRun.v
theories/ProofScalar.v
theories/ProofSecp.v
theories/ProofSecrecy.v
theories/ProofSign.v
theories/ProofSswu.v
theories/ProofTranscript.v
theories/ProofXmd.v
theories/ProofZk.v
theories/PropActive.v
theories/PropBias.v
theories/PropBind.v
theories/PropCbor.v
theories/PropCommit.v
theories/PropCommitCbor.v
theories/PropComplaint.v
theories/PropConcrete.v
theories/PropCorrupt.v
theories/PropCorruptAll.v
theories/PropCurve.v
theories/PropDealRandom.v
theories/PropDealers.v
theories/PropDealing.v
theories/PropDelivery.v
theories/PropDriverCalls.v
theories/PropDynamic.v
theories/PropDynamicRun.v
theories/PropEncode.v
theories/PropEpoch.v
theories/PropFeldman.v
theories/PropField.v
theories/PropFuel.v
theories/PropHardened.v
theories/PropHash.v
theories/PropHashes.v
theories/PropHeap.v
theories/PropHeapCorruptAll.v
theories/PropHeapDeal.v
theories/PropHeapH2C.v
theories/PropHexText.v
theories/PropHiding.v
theories/PropHmac.v
theories/PropIndices.v
theories/PropKey.v
theories/PropLagrangeZero.v
theories/PropMalicious.v
theories/PropMega.v
theories/PropMegaKey.v
theories/PropNonces.v
theories/PropOpenings.v
theories/PropOutput.v
theories/PropPads.v
theories/PropPanic.v
theories/PropPath.v
theories/PropPoint.v
theories/PropPoly.v
theories/PropPolyRandom.v
theories/PropPolyZero.v
theories/PropPresig.v
theories/PropPrivate.v
theories/PropProtocol.v
theories/PropRand.v
theories/PropRecover.v
theories/PropReplay.v
theories/PropReuse.v
theories/PropReveal.v
theories/PropRo.v
theories/PropRobust.v
theories/PropRounds.v
theories/PropScalar.v
theories/PropSecp.v
theories/PropSecret.v
theories/PropSeed.v
theories/PropSetup.v
theories/PropSign.v
theories/PropSimulate.v
theories/PropSources.v
theories/PropSubset.v
theories/PropSubsetExact.v
theories/PropTagged.v
theories/PropTamper.v
theories/PropTyped.v
theories/PropUnbiased.v
theories/PropWords.v
theories/PropXmd.v
theories/PropZk.v
theories/SpecCbor.v
theories/SpecDealing.v
theories/SpecDrivers.v
theories/SpecEpoch.v
theories/SpecGroup.v
theories/SpecH2C.v
theories/SpecHash.v
theories/SpecHeap.v
theories/SpecHeapDeal.v
theories/SpecHeapH2C.v
theories/SpecKey.v
theories/SpecMalicious.v
theories/SpecPanic.v
theories/SpecPoly.v
theories/SpecPresig.v
theories/SpecRo.v
theories/SpecSecp.v
theories/SpecSign.v
theories/SpecXmd.v
theories/Toy.v
theories/ToyShort.v
theories/Zmod.v
