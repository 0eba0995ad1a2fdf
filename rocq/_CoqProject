-Q theories Verif
theories/Base.v
theories/BaseFacts.v
theories/OrdMap.v
theories/OrdMapFacts.v
theories/Sha256.v
theories/Strict.v
theories/Merkle.v
theories/MpcAtoms.v
theories/MpcTree.v
theories/MpcBlock.v
theories/SpecCodec.v
theories/SpecValid.v
theories/StrictProofs.v
theories/SpecHash.v
theories/SpecTree.v
theories/SpecFull.v
theories/SpecLocal.v
theories/SpecSession.v
theories/Dumb.v
theories/Ripemd.v
theories/SpecRipemd.v
theories/SpecBlock.v
theories/SpecBuoy.v
theories/SpecStrings.v
theories/SpecLayout.v
theories/HashFacts.v
theories/TreeFacts.v
theories/ConcealProofs.v
theories/BlockInv.v
theories/PathProofs.v
theories/MergeProofs.v
theories/SpecMerkle.v
theories/MerkleProofs.v
theories/SpecCommit.v
theories/MpcTreeProofs.v
theories/SpecDerived.v
theories/DerivedProofs.v
theories/CodecProofs.v
theories/Digest.v
theories/Engine.v
theories/Schemes.v
theories/Suites.v
theories/MpcTests.v
theories/Serde.v
theories/Seals.v
theories/Api.v
theories/Vesper.v
theories/EngineIo.v
theories/SpecDerive.v
theories/SpecEngine.v
theories/EngineProofs.v
theories/SpecMisc.v
theories/MiscProofs.v
theories/LevelProofs.v
theories/ModeProofs.v
theories/PrefixProofs.v
theories/PassProofs.v
theories/AvailProofs.v
theories/ExtractProofs.v
theories/TheoremsMpc.v
theories/TheoremsBlock.v
theories/TheoremsMerkle.v
theories/CraftedProofs.v
theories/TheoremsMisc.v
theories/TheoremsMore.v
theories/SpecSha.v
theories/ShaProofs.v
theories/UniqueProofs.v
theories/TheoremsExt.v
theories/PoisonProofs.v
theories/TheoremsAdv.v
theories/LocalProofs.v
theories/MergeLooseProofs.v
theories/TheoremsLocal.v
theories/SessionProofs.v
theories/TheoremsSession.v
theories/RipemdProofs.v
theories/TheoremsHash.v
theories/HideProofs.v
theories/TheoremsHide.v
theories/SpecEnd.v
theories/TheoremsEnd.v
theories/Stl.v
theories/SpecStl.v
theories/StlProofs.v
theories/TheoremsStl.v
theories/SpecQuery.v
theories/TheoremsQuery.v
theories/SpecCount.v
theories/CountProofs.v
theories/TheoremsCount.v
theories/Text.v
theories/SpecText.v
theories/TheoremsText.v
theories/Loops.v
theories/TheoremsLoops.v
theories/TheoremsTight.v
theories/Orders.v
theories/SpecOrders.v
theories/TheoremsOrders.v
theories/TheoremsFrame.v
theories/SpecFind.v
theories/TheoremsFind.v
theories/SpecForm.v
theories/TheoremsForm.v
theories/SpecGame.v
theories/GameProofs.v
theories/TheoremsGame.v
theories/SpecHideGame.v
theories/GameHideProofs.v
theories/TheoremsHideGame.v
theories/SpecViewGame.v
theories/GameViewProofs.v
theories/TheoremsViewGame.v
theories/SpecBlockGame.v
theories/TheoremsBlockGame.v
theories/SpecSuites.v
theories/TheoremsSuites.v
theories/SpecExtend.v
theories/TheoremsExtend.v
theories/SpecCompress.v
theories/CompressProofs.v
theories/TheoremsCompress.v
theories/SpecTests.v
theories/TheoremsTests.v
theories/SpecSerde.v
theories/TheoremsSerde.v
theories/SpecTalk.v
theories/TheoremsTalk.v
theories/SpecMany.v
theories/TheoremsMany.v
theories/SpecDepth.v
theories/DepthData.v
theories/DepthProofs.v
theories/Steps.v
theories/TheoremsDepth.v
theories/Work.v
theories/TheoremsWork.v
theories/SpecTarget.v
theories/TargetProofs.v
theories/TheoremsTarget.v
theories/AttackProofs.v
theories/TheoremsAttack.v
theories/SpecIdGame.v
theories/TheoremsIdGame.v
theories/SpecLate.v
theories/TheoremsLate.v
theories/SpecTransfer.v
theories/TheoremsTransfer.v
theories/SpecNest.v
theories/TheoremsNest.v
theories/Costs.v
theories/TheoremsCosts.v
theories/SpecScript.v
theories/TheoremsScript.v
theories/SpecSalt.v
theories/TheoremsSalt.v
theories/SpecOpen.v
theories/TheoremsOpen.v
theories/SpecChoice.v
theories/TheoremsChoice.v
theories/SpecPick.v
theories/TheoremsPick.v
theories/OfferProofs.v
theories/SpecOffer.v
theories/TheoremsOffer.v
theories/PlayProofs.v
theories/SpecPlay.v
theories/TheoremsPlay.v
theories/SpecSeek.v
theories/TheoremsSeek.v
theories/SpecShare.v
theories/TheoremsShare.v
theories/SpecSettled.v
theories/TheoremsSettled.v
theories/SpecResting.v
theories/TheoremsResting.v
theories/SpecDraw.v
theories/TheoremsDraw.v
theories/SpecFuse.v
theories/TheoremsFuse.v
theories/SpecFeed.v
theories/TheoremsFeed.v
theories/CasesMpc.v
theories/CasesMisc.v
theories/CasesMore.v
theories/CasesExt.v
theories/CasesAdv.v
theories/CasesLocal.v
theories/CasesSession.v
theories/CasesHash.v
theories/CasesHide.v
theories/CasesEnd.v
theories/CasesStl.v
theories/CasesQuery.v
theories/CasesCount.v
theories/CasesText.v
theories/CasesLoops.v
theories/CasesTight.v
theories/CasesOrders.v
theories/CasesFrame.v
theories/CasesFind.v
theories/CasesForm.v
theories/CasesGame.v
theories/CasesHideGame.v
theories/CasesViewGame.v
theories/CasesBlockGame.v
theories/CasesSuites.v
theories/CasesExtend.v
theories/CasesCompress.v
theories/CasesTests.v
theories/CasesSerde.v
theories/CasesTalk.v
theories/CasesMany.v
theories/CasesDepth.v
theories/CasesWork.v
theories/CasesTarget.v
theories/CasesAttack.v
theories/CasesIdGame.v
theories/CasesLate.v
theories/CasesTransfer.v
theories/CasesNest.v
theories/CasesCosts.v
theories/CasesScript.v
theories/CasesSalt.v
theories/CasesOpen.v
theories/CasesChoice.v
theories/CasesPick.v
theories/CasesOffer.v
theories/CasesPlay.v
theories/CasesSeek.v
theories/CasesShare.v
theories/CasesSettled.v
theories/CasesResting.v
theories/CasesDraw.v
theories/CasesFuse.v
theories/CasesFeed.v
theories/PropMpc.v
theories/PropBlock.v
theories/PropMerkle.v
theories/PropEncoding.v
theories/PropEngine.v
theories/PropSchemes.v
theories/PropApi.v
theories/PropMore.v
theories/PropExt.v
theories/PropAdv.v
theories/PropLocal.v
theories/PropSession.v
theories/PropHash.v
theories/PropHide.v
theories/PropEnd.v
theories/PropStl.v
theories/PropQuery.v
theories/PropCount.v
theories/PropText.v
theories/PropLoops.v
theories/PropOrders.v
theories/PropFind.v
theories/PropForm.v
theories/PropGame.v
theories/PropHideGame.v
theories/PropViewGame.v
theories/PropBlockGame.v
theories/PropSuites.v
theories/PropExtend.v
theories/PropCompress.v
theories/PropTests.v
theories/PropSerde.v
theories/PropTalk.v
theories/PropMany.v
theories/PropDepth.v
theories/PropWork.v
theories/PropTarget.v
theories/PropAttack.v
theories/PropIdGame.v
theories/PropLate.v
theories/PropTransfer.v
theories/PropNest.v
theories/PropCosts.v
theories/PropScript.v
theories/PropSalt.v
theories/PropOpen.v
theories/PropChoice.v
theories/PropPick.v
theories/PropOffer.v
theories/PropPlay.v
theories/PropSeek.v
theories/PropShare.v
theories/PropSettled.v
theories/PropResting.v
theories/PropDraw.v
theories/PropFuse.v
theories/PropFeed.v
