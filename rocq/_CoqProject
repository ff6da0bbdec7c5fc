-Q theories Verif
theories/Base.v
theories/Header.v
theories/Node.v
theories/Combine.v
theories/Iter.v
theories/Api.v
theories/BaseLemmas.v
theories/Tree.v
theories/Rep.v
theories/JoinBase.v
theories/JoinProofs.v
theories/WithProofs.v
theories/PrefixProofs.v
theories/PredProofs.v
theories/FindProofs.v
theories/Entries.v
theories/IterProofs.v
theories/Canon.v
theories/ScanProofs.v
theories/Sim.v
theories/SimErr.v
theories/Spec.v
theories/Client.v
theories/Top.v
theories/TopOps.v
theories/MemLemmas.v
theories/MemExamples.v
theories/PropsMem.v
theories/Store.v
theories/StoreSpec.v
theories/StoreProofs.v
theories/World.v
theories/WorldProofs.v
theories/FailSpec.v
theories/FailProofs.v
theories/Logged.v
theories/U64.v
theories/MemStore.v
theories/MemStoreProofs.v
theories/StoreLemmas.v
theories/Format.v
theories/FormatProofs.v
theories/DecodeProofs.v
theories/StoreTop.v
theories/StoreExamples.v
theories/PropsStore.v
theories/File.v
theories/FileProofs.v
theories/PagedFile.v
theories/PagedFileProofs.v
theories/PagedSpec.v
theories/PagedTop.v
theories/PagedExamples.v
theories/PropsPaged.v
theories/PagedStore.v
theories/PagedStoreProofs.v
theories/TreeExamples.v
theories/PropsTrees.v
theories/Heap.v
theories/HeapSpec.v
theories/HeapProofs.v
theories/HeapOps.v
theories/HeapRun.v
theories/HeapTop.v
theories/HeapExamples.v
theories/PropsHeap.v
theories/HeapIter.v
theories/HeapIterSpec.v
theories/HeapIterProofs.v
theories/HeapIterRun.v
theories/HeapIterTop.v
theories/HeapIterExamples.v
theories/PropsHeapIter.v
theories/HeapTree.v
theories/HeapBorrow.v
theories/HeapMerge.v
theories/HeapClean.v
theories/HeapTreeOps.v
theories/HeapTreeRec.v
theories/HeapTreeOuter.v
theories/HeapJoinPure.v
theories/HeapJoin.v
theories/HeapFind.v
theories/HeapAsk.v
theories/HeapTreeMono.v
theories/HeapTreeSpec.v
theories/HeapTreeTop.v
theories/HeapTreeExamples.v
theories/PropsHeapTree.v
theories/Chunk.v
theories/ChunkProofs.v
theories/WebFile.v
theories/WebSpec.v
theories/WebProofs.v
theories/WebPlans.v
theories/WebTop.v
theories/WebStore.v
theories/WebAppend.v
theories/WebDurable.v
theories/BrowserExamples.v
theories/WebTreeExamples.v
theories/PropsBrowser.v
theories/Paging.v
theories/PagingSpec.v
theories/PagingProofs.v
theories/PagingTop.v
theories/PagingRun.v
theories/PagingWeb.v
theories/PagingStore.v
theories/PagingStoreProofs.v
theories/PagingExamples.v
theories/PropsPaging.v
theories/Blob.v
theories/BlobSpec.v
theories/BlobProofs.v
theories/BlobExamples.v
theories/PropsBlob.v
theories/WebFs.v
theories/WebFsSpec.v
theories/WebFsSim.v
theories/WebFsProofs.v
theories/WebFsExamples.v
theories/WebSync.v
theories/WebSyncSpec.v
theories/WebSyncProofs.v
theories/WebVfs.v
theories/WebVfsProofs.v
theories/WebSyncExamples.v
theories/PropsFs.v
theories/WebFsStaleSpec.v
theories/WebFsStale.v
theories/WebFsLike.v
theories/WebFsClosed.v
theories/WebFsStaleExamples.v
theories/PropsFsAny.v
theories/WebFsFile.v
theories/WebFsPagesSpec.v
theories/WebFsPages.v
theories/FsPagesExamples.v
theories/PropsFsPages.v
theories/WebFsBlob.v
theories/WebFsBlobProofs.v
theories/WebFsDurable.v
theories/WebFsBlobExamples.v
theories/PropsFsBlob.v
theories/WebFsRecordSpec.v
theories/WebFsRecord.v
theories/WebFsLoad.v
theories/WebFsRecordExamples.v
theories/WebFsRecordLarge.v
theories/PropsFsRecord.v
theories/InPlace.v
theories/InPlaceAgree.v
theories/WeakFind.v
theories/WeakIter.v
theories/InPlaceProofs.v
theories/InPlaceMono.v
theories/InPlaceSpec.v
theories/InPlaceTop.v
theories/InPlaceExamples.v
theories/PropsInPlace.v
theories/GroupSpec.v
theories/GroupProofs.v
theories/GroupTop.v
theories/PropsGroup.v
theories/PanicSpec.v
theories/PanicProofs.v
theories/PanicTop.v
theories/AlignProofs.v
theories/AlignTop.v
theories/PanicExamples.v
theories/PropsPanic.v
theories/AcceptSpec.v
theories/AcceptProofs.v
theories/AcceptTop.v
theories/AcceptExamples.v
theories/PropsAccept.v
theories/CostSpec.v
theories/CostProofs.v
theories/CostTop.v
theories/CostExamples.v
theories/PropsCost.v
theories/LazySpec.v
theories/LazyProofs.v
theories/LazyIter.v
theories/LazyTop.v
theories/LazyExamples.v
theories/PropsLazy.v
theories/ThreadsSpec.v
theories/ThreadsProofs.v
theories/ThreadsExamples.v
theories/PropsThreads.v
theories/MixProofs.v
theories/MixTop.v
theories/MixExamples.v
theories/PropsMix.v
theories/WebAccept.v
theories/WebFsAccept.v
theories/WebAcceptExamples.v
theories/PropsBrowserAccept.v
theories/PagingUsable.v
theories/PagingAccept.v
theories/PagingAcceptExamples.v
theories/PropsPagingAccept.v
theories/WebTakes.v
theories/WebTakesExamples.v
theories/PropsBrowserTrees.v
theories/PowerSpec.v
theories/PowerProofs.v
theories/PowerExamples.v
theories/PropsPower.v
theories/WebPagesSpec.v
theories/WebPages.v
theories/PagesExamples.v
theories/PropsPages.v
theories/RetainSpec.v
theories/PrefixExact.v
theories/RetainTop.v
theories/PropsRetain.v
theories/ScanSpec.v
theories/ScanExact.v
theories/PropsScan.v
theories/EqSpec.v
theories/MarkProofs.v
theories/EqTop.v
theories/PropsEq.v
theories/ShapeSpec.v
theories/ShapeProofs.v
theories/PropsShape.v
theories/WebOpen.v
theories/WebOpenSpec.v
theories/WebOpenProofs.v
theories/WebOpenTop.v
theories/PropsWebOpen.v
theories/WeakJoin.v
theories/WeakWith.v
theories/WeakMid.v
theories/WeakRead.v
theories/WeakNew.v
theories/WeakPred.v
theories/SurviveSpec.v
theories/Survive.v
theories/SurviveMore.v
theories/SurviveExamples.v
theories/PropsSurvive.v
theories/MergeSpec.v
theories/MergeProofs.v
theories/MergeExamples.v
theories/PropsMerge.v
theories/Raw.v
theories/RawSpec.v
theories/RawProofs.v
theories/RawExamples.v
theories/PropsRaw.v
theories/WeakGroup.v
theories/HeapGroup.v
theories/HeapGroupSpec.v
theories/HeapGroupProofs.v
theories/HeapGroupTop.v
theories/HeapGroupExamples.v
theories/PropsHeapGroup.v
theories/HeapWhole.v
theories/HeapWholeSpec.v
theories/HeapWholeReads.v
theories/HeapWholePure.v
theories/HeapWholeGood.v
theories/HeapWholeTop.v
theories/HeapWholeExamples.v
theories/PropsHeapWhole.v
theories/HeapFail.v
theories/HeapFailOps.v
theories/HeapFailRec.v
theories/Blame.v
theories/HeapFailNew.v
theories/HeapFailSpec.v
theories/HeapFailPure.v
theories/HeapFailTop.v
theories/HeapFailExamples.v
theories/PropsHeapFail.v
theories/DamageSpec.v
theories/DamageProofs.v
theories/DamageExamples.v
theories/PropsDamage.v
theories/SyncDev.v
theories/SyncDevProofs.v
theories/SyncTop.v
theories/SyncExamples.v
theories/PropsSync.v
theories/BrowserMain.v
theories/BrowserMainProofs.v
theories/Decimals.v
theories/SyncAccept.v
theories/BrowserAccept.v
theories/BrowserMainExamples.v
theories/PropsBrowserMain.v
theories/PagedSizesSpec.v
theories/PagedSizes.v
theories/PagedSizesBad.v
theories/PagedSizesExamples.v
theories/PropsSizes.v
theories/DumpSpec.v
theories/Dump.v
theories/DumpProofs.v
theories/PropsDump.v
theories/WalkSpec.v
theories/Walk.v
theories/WalkProofs.v
theories/PropsWalk.v
theories/Bulk.v
theories/BulkProofs.v
theories/BulkMix.v
theories/BulkStored.v
theories/PropsBulk.v
theories/RebuildProofs.v
theories/MoveProofs.v
theories/PropsRebuild.v
theories/Dirs.v
theories/DirsSpec.v
theories/DirsProofs.v
theories/DirsExamples.v
theories/PropsDirs.v
theories/Fill.v
theories/FillProofs.v
theories/FillExamples.v
theories/PropsFill.v
theories/Words.v
theories/WordsProofs.v
theories/WordsFill.v
theories/WordsExamples.v
theories/PropsWords.v
