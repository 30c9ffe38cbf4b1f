-Q theories Verif
theories/Machine.v
theories/Spec.v
theories/Prims.v
theories/ChunkModel.v
theories/ChunkProofs.v
theories/ChunkProofs2.v
theories/IterSpec.v
theories/ChunkProofs3.v
theories/ChunkProofs4.v
theories/ChunkProofs5.v
theories/Program.v
theories/SpecProps.v
theories/ChunkProgram.v
theories/ChunkExamples.v
theories/ChunkIter.v
theories/ChunkLaws.v
theories/ChunkOverflow.v
theories/PropertiesChunk.v
theories/RingModel.v
theories/RingProofs.v
theories/RingProofs2.v
theories/RingProofs3.v
theories/RingProofs4.v
theories/RingProofs5.v
theories/RingProgram.v
theories/RingProofs6.v
theories/RingLaws.v
theories/RingOverflow.v
theories/PropertiesRing.v
theories/IterSpec2.v
theories/SparseModel.v
theories/SparseSpec.v
theories/SparseProofs.v
theories/SparseProofs2.v
theories/SparseProofs3.v
theories/SparseProgram.v
theories/SparseLaws.v
theories/SparseLaws2.v
theories/PropertiesSparse.v
theories/InlineModel.v
theories/InlineSpec.v
theories/InlineProofs.v
theories/InlineProofs2.v
theories/InlineProofs3.v
theories/InlineProgram.v
theories/InlineLaws.v
theories/PropertiesInline.v
theories/RefpoolModel.v
theories/RefpoolProofs.v
theories/ArbitraryModel.v
theories/ArbitrarySpec.v
theories/ArbitraryProofs.v
theories/PropertiesExtra.v
theories/RefModel.v
theories/RefSpec.v
theories/RefProofs.v
theories/RefProofs2.v
theories/PropertiesRef.v
theories/Bombs.v
theories/BombProgram.v
theories/ChunkBombs.v
theories/RingBombs.v
theories/SparseBombs.v
theories/InlineBombs.v
theories/Portable.v
theories/Endless.v
theories/Interchange.v
theories/ChunkCost.v
theories/Capacity.v
theories/SparseCapacity.v
theories/PropertiesBombs.v
theories/PropertiesMore.v
theories/ReadOnly.v
theories/PropertiesShared.v
theories/PropertiesHuge.v
theories/BulkCost.v
theories/RingCost.v
theories/InlineCost.v
theories/PropertiesCost.v
theories/CallbackModel.v
theories/CallbackSpec.v
theories/CallbackProofs.v
theories/PropertiesCallback.v
theories/RawPartsModel.v
theories/PropertiesRaw.v
theories/BorrowModel.v
theories/BorrowSpec.v
theories/BorrowProofs.v
theories/BorrowProofs2.v
theories/BorrowProofs3.v
theories/BorrowProofs4.v
theories/BorrowProofs5.v
theories/BorrowProofs6.v
theories/BorrowProofs7.v
theories/BorrowProofs8.v
theories/BorrowLink.v
theories/BorrowLink2.v
theories/BorrowLink3.v
theories/PropertiesBorrow.v
theories/KeySpec.v
theories/KeyProofs.v
theories/KeyProofs2.v
theories/PropertiesKeys.v
theories/MoveModel.v
theories/MoveSpec.v
theories/MoveProofs.v
theories/PropertiesMove.v
theories/FuzzModel.v
theories/FuzzSpec.v
theories/FuzzProofs.v
theories/FuzzProofs2.v
theories/FuzzProofs3.v
theories/PropertiesFuzz.v
theories/PropertiesUnchecked.v
theories/StreamModel.v
theories/StreamSpec.v
theories/StreamProofs.v
theories/PropertiesStream.v
theories/LiveModel.v
theories/LiveSpec.v
theories/LiveProofs.v
theories/LiveProofs2.v
theories/LiveProofs3.v
theories/LiveLaws.v
theories/PropertiesLive.v
theories/LiveProofs4.v
theories/LiveProofs5.v
theories/PropertiesLive2.v
theories/LiveSparseModel.v
theories/LiveSparse.v
theories/PropertiesLive3.v
theories/ProgramEnd.v
theories/MixModel.v
theories/MixSpec.v
theories/MixProofs.v
theories/MixProgram.v
theories/MixBalance.v
theories/PropertiesMix.v
theories/TypesModel.v
theories/PropertiesTypes.v
theories/Amortised.v
theories/RingAmortised.v
theories/PropertiesAmortised.v
theories/BorrowModel2.v
theories/BorrowLink4.v
theories/BorrowLink5.v
theories/BorrowLink6.v
theories/BorrowModel3.v
theories/BorrowLink7.v
theories/BorrowLink8.v
theories/PropertiesBorrow2.v
theories/MixBombSpec.v
theories/MixBombs.v
theories/PropertiesMixBomb.v
theories/TempModel.v
theories/TempSpec.v
theories/TempProofs.v
theories/TempMix.v
theories/PropertiesTemp.v
theories/OwnModel.v
theories/OwnSpec.v
theories/OwnProofs.v
theories/OwnMix.v
theories/PropertiesOwn.v
theories/WalkModel.v
theories/WalkSpec.v
theories/WalkProofs.v
theories/WalkMix.v
theories/PropertiesWalk.v
theories/NestModel.v
theories/NestSpec.v
theories/NestNature.v
theories/NestProofs.v
theories/NestBalance.v
theories/NestBombSpec.v
theories/NestBombs.v
theories/NestBombBalance.v
theories/PropertiesNest.v
theories/PropertiesNestCalls.v
theories/PropertiesNestBomb.v
theories/NestCopyModel.v
theories/NestCopySpec.v
theories/NestCopyProofs.v
theories/PropertiesNestCopy.v
theories/NestShowModel.v
theories/NestShowSpec.v
theories/NestShowProofs.v
theories/PropertiesNestShow.v
theories/VisitModel.v
theories/VisitSpec.v
theories/VisitProofs.v
theories/VisitProofs2.v
theories/VisitSpecProofs.v
theories/PropertiesVisit.v
theories/ManyModel.v
theories/ManySpec.v
theories/ManyProofs.v
theories/PropertiesMany.v
theories/Litmus.v
theories/RepoTests.v
theories/Instances.v
