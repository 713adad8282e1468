-Q theories Verif
theories/Util.v
theories/HeapModel.v
theories/HeapSpec.v
theories/HeapProofs.v
theories/PropHeap.v
theories/HashModel.v
theories/HashSpec.v
theories/HashProofs.v
theories/PropHash.v
theories/PageModel.v
theories/PageSpec.v
theories/PageProofs.v
theories/PageOps.v
theories/PropPage.v
theories/TxnModel.v
theories/CursorModel.v
theories/TreeModel.v
theories/TreeSpec.v
theories/TreeProofs.v
theories/TreeOps.v
theories/TreeSplit.v
theories/TreePut.v
theories/TreeShape.v
theories/TreeOrder.v
theories/TreeTotal.v
theories/TxnInv.v
theories/DbModel.v
theories/SysModel.v
theories/DbSpec.v
theories/DbProofs.v
theories/DbCommit.v
theories/PropTree.v
theories/PropDb.v
theories/PropCommit.v
theories/CursorSpec.v
theories/CursorProofs.v
theories/PropCursor.v
theories/PropReuse.v
theories/CacheModel.v
theories/PropCache.v
theories/PropScan.v
theories/PropOrder.v
theories/PropTotal.v
theories/PoolModel.v
theories/PoolSpec.v
theories/PoolProofs.v
theories/PoolLive.v
theories/PoolSafe.v
theories/PropPool.v
theories/CollectModel.v
theories/ProcessModel.v
theories/ReportSpec.v
theories/ReportProofs.v
theories/ReportGroups.v
theories/ReportArrays.v
theories/ReportMain.v
theories/PropReport.v
theories/PropCollect.v
theories/FileModel.v
theories/PropFile.v
theories/PropEnd.v
theories/IgnoreModel.v
theories/PcreSpec.v
theories/IgnoreSpec.v
theories/IgnoreProofs.v
theories/PropIgnore.v
theories/PropIgnoreFile.v
theories/HumanModel.v
theories/PropHuman.v
theories/WalkModel.v
theories/PropWalk.v
theories/PropRun.v
theories/ConfigModel.v
theories/PropConfig.v
theories/OutputModel.v
theories/PropOutput.v
theories/ImageModel.v
theories/PropImage.v
theories/FormatModel.v
theories/PropFormat.v
theories/QueueModel.v
theories/PropQueue.v
theories/ParModel.v
theories/PropPar.v
theories/JsonModel.v
theories/PropJson.v
theories/MainModel.v
theories/PropMain.v
theories/FreeLeaf.v
theories/PropOnce.v
theories/ArchModel.v
theories/PropArch.v
theories/LifeModel.v
theories/PropLife.v
theories/KeyModel.v
theories/PropKey.v
theories/FineModel.v
theories/FineSpec.v
theories/FineProofs.v
theories/PropFine.v
theories/PropWhole.v
theories/HeapLockModel.v
theories/HeapLockSpec.v
theories/HeapLockProofs.v
theories/PropHeapLock.v
theories/MarkModel.v
theories/MarkSpec.v
theories/MarkProofs.v
theories/PropMark.v
theories/PtrModel.v
theories/PropPtr.v
theories/ImgParModel.v
theories/PropImgPar.v
theories/PropMeta.v
theories/PairInv.v
theories/PropPair.v
theories/PropFileLife.v
theories/PropEnds.v
theories/PropTime.v
theories/PropColour.v
theories/PropSubpath.v
theories/PropLocal.v
theories/PropLoad.v
theories/PropMany.v
theories/PropSweep.v
theories/PropWrap.v
theories/PropMap.v
theories/PropBatch.v
theories/PropSelect.v
theories/PropSound.v
theories/PropTiny.v
theories/PropRefresh.v
theories/PropFirst.v
theories/PropRounds.v
theories/PropImport.v
theories/ProgModel.v
theories/PropProg.v
theories/PropNarrow.v
theories/LevelModel.v
theories/PropLevel.v
theories/MsgModel.v
theories/PropMsg.v
theories/PropOthers.v
theories/LiveModel.v
theories/PropLive.v
theories/FreedModel.v
theories/PropFreed.v
theories/PropChange.v
theories/PropFirstFill.v
theories/PropDedup.v
theories/PropFailedCommit.v
theories/PropRetry.v
theories/PropFailedOne.v
theories/PropStuck.v
