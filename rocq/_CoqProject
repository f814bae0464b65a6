-Q theories Verif
theories/UintPairModel.v
theories/UintPairSpec.v
theories/UintPairProofs.v
theories/UintPairProps.v
theories/BinBufModel.v
theories/BinBufSpec.v
theories/BinBufProofs.v
theories/BinBufProps.v
theories/StrategyModel.v
theories/StrategySpec.v
theories/StrategyProofs.v
theories/StrategyProps.v
theories/DblIndexModel.v
theories/DblIndexSpec.v
theories/DblIndexProofs.v
theories/DblIndexProps.v
theories/DiskAllocModel.v
theories/DiskAllocSpec.v
theories/DiskAllocProofs.v
theories/DiskAllocProps.v
theories/BlockMgrModel.v
theories/BlockMgrSpec.v
theories/BlockMgrProofs.v
theories/BlockMgrProps.v
theories/CountPtrModel.v
theories/CountPtrSpec.v
theories/CountPtrProofs.v
theories/CountPtrProps.v
theories/AddrQueueModel.v
theories/AddrQueueSpec.v
theories/AddrQueueProofs.v
theories/AddrQueueProps.v
theories/SumLib.v
theories/IoQueueModel.v
theories/IoQueueSpec.v
theories/IoQueueProofs.v
theories/IoQueueProps.v
theories/WaitAnyModel.v
theories/WaitAnyProofs.v
theories/WaitAnyProps.v
theories/RwPoolModel.v
theories/RwPoolSpec.v
theories/RwPoolProofs.v
theories/RwPoolProps.v
theories/AsyncIoModel.v
theories/AsyncIoProofs.v
theories/AsyncIoRules.v
theories/AsyncIoProps.v
theories/StackModel.v
theories/StackSpec.v
theories/StackProofs.v
theories/StackProps.v
theories/SequenceModel.v
theories/SequenceSpec.v
theories/SequenceProofs.v
theories/SequenceProps.v
theories/VectorModel.v
theories/VectorSpec.v
theories/VectorProofs.v
theories/VectorProps.v
theories/DequeModel.v
theories/DequeSpec.v
theories/DequeProofs.v
theories/DequeProps.v
theories/ScheduleModel.v
theories/ScheduleSpec.v
theories/ScheduleProofs.v
theories/ScheduleProps.v
theories/BufIoModel.v
theories/BufIoSpec.v
theories/BufIoRules.v
theories/PrefetchProofs.v
theories/IStreamProofs.v
theories/BufWriterProofs.v
theories/OStreamProofs.v
theories/BufIoProps.v
theories/OrderLib.v
theories/LoserModel.v
theories/LoserSpec.v
theories/LoserProofs.v
theories/LoserProps.v
theories/SortModel.v
theories/SortSpec.v
theories/SortProofs.v
theories/SortProps.v
theories/WinnerModel.v
theories/WinnerSpec.v
theories/WinnerProofs.v
theories/WinnerProps.v
theories/IntKsortModel.v
theories/IntKsortProofs.v
theories/IntKsortRunProofs.v
theories/IntKsortProps.v
theories/ScanModel.v
theories/ScanSpec.v
theories/ScanProofs.v
theories/ScanProps.v
theories/ShuffleModel.v
theories/ShuffleProofs.v
theories/ShuffleProps.v
theories/MultiseqModel.v
theories/MultiseqSpec.v
theories/MultiseqProofs.v
theories/MultiseqResultProofs.v
theories/UtilsModel.v
theories/UtilsProofs.v
theories/MultiseqProps.v
theories/UtilsProps.v
theories/StreamModel.v
theories/StreamSpec.v
theories/StreamProofs.v
theories/StreamProps.v
theories/SorterModel.v
theories/SorterSpec.v
theories/SorterProofs.v
theories/SorterProps.v
theories/MergeFactorModel.v
theories/MergeFactorProps.v
theories/RunWriteModel.v
theories/RunWriteSpec.v
theories/RunWriteProofs.v
theories/RunWriteProps.v
theories/StableKsortModel.v
theories/StableKsortSpec.v
theories/StableKsortProofs.v
theories/StableKsortProps.v
theories/WbtlModel.v
theories/WbtlSpec.v
theories/WbtlProofs.v
theories/WbtlProps.v
theories/VecWriterModel.v
theories/VecWriterSpec.v
theories/VecWriterProofs.v
theories/VecWriterProps.v
theories/BlockSchedModel.v
theories/BlockSchedSpec.v
theories/BlockSchedProofs.v
theories/BlockSchedProps.v
theories/PqTreeModel.v
theories/PqTournProofs.v
theories/PqMergeProofs.v
theories/PqTreeProofs.v
theories/PqModel.v
theories/PqSpec.v
theories/PqListProofs.v
theories/PqProofs.v
theories/PqProps.v
theories/PqGenModel.v
theories/PqGenProps.v
theories/HashMapModel.v
theories/HashMapSpec.v
theories/HashMapBase.v
theories/HashMapStream.v
theories/HashMapProofs.v
theories/HashMapIterModel.v
theories/HashMapIter.v
theories/HashMapBkt.v
theories/HashMapProps.v
theories/BtreeModel.v
theories/BtreeBase.v
theories/BtreeLeaf.v
theories/BtreeTree.v
theories/BtreeRoot.v
theories/BtreeIter.v
theories/BtreeSpec.v
theories/BtreeProofs.v
theories/BtreeProps.v
theories/BtreeBulkModel.v
theories/BtreeBulkProofs.v
theories/BtreeBulkProps.v
theories/NodeCacheModel.v
theories/NodeCacheSpec.v
theories/NodeCacheProofs.v
theories/NodeCacheProps.v
theories/MatrixModel.v
theories/MatrixFeedModel.v
theories/MatrixBase.v
theories/MatrixProofs.v
theories/MatrixRec.v
theories/MatrixStrassen.v
theories/MatrixSw.v
theories/MatrixFeed.v
theories/MatrixVec.v
theories/MatrixSpec.v
theories/MatrixObjModel.v
theories/MatrixObj.v
theories/MatrixObjStep.v
theories/MatrixProps.v
theories/MatrixFeedProps.v
theories/MatrixIterSpec.v
theories/MatrixIterModel.v
theories/MatrixIter.v
theories/MatrixIterProps.v
theories/BlockCacheModel.v
theories/BlockCacheDev.v
theories/BlockCacheSpec.v
theories/BlockCacheMach.v
theories/BlockCacheInv.v
theories/BlockCacheStep.v
theories/BlockCacheOps.v
theories/BlockCacheStat.v
theories/BlockCacheFifo.v
theories/BlockCacheProps.v
theories/HashMapRegModel.v
theories/HashMapRegSpec.v
theories/HashMapTrack.v
theories/HashMapTrackOps.v
theories/HashMapRegBase.v
theories/HashMapRegStep.v
theories/HashMapRegEx.v
theories/HashMapRegProps.v
theories/BufReaderModel.v
theories/BufReaderSpec.v
theories/BufReader.v
theories/BufReaderProps.v
theories/VecReaderModel.v
theories/VecReaderSpec.v
theories/VecReader.v
theories/VecReaderProps.v
theories/IoStatsModel.v
theories/IoStatsSpec.v
theories/IoStats.v
theories/IoStatsProps.v
theories/LinuxAioModel.v
theories/LinuxAioSpec.v
theories/LinuxAio.v
theories/LinuxAioProps.v
theories/ConfigModel.v
theories/ConfigSpec.v
theories/Config.v
theories/ConfigSize.v
theories/ConfigDisk.v
theories/ConfigFile.v
theories/ConfigProps.v
theories/FilesModel.v
theories/FilesSpec.v
theories/Files.v
theories/FilesProps.v
theories/CmdlineModel.v
theories/CmdlineSpec.v
theories/Cmdline.v
theories/CmdlineWrap.v
theories/CmdlineProps.v
theories/MwmergeModel.v
theories/MwmergeSpec.v
theories/Mwmerge.v
theories/MwTree.v
theories/MwVariants.v
theories/MwComb.v
theories/MwBubble.v
theories/MwmergeProps.v
theories/ParMergeModel.v
theories/ParMergeSpec.v
theories/ParMerge.v
theories/ParMergeAll.v
theories/ParMergeSplit.v
theories/ParMergeProps.v
theories/MwSortModel.v
theories/MwSortSpec.v
theories/MwSort.v
theories/MwSortProps.v
theories/PpqModel.v
theories/PpqSpec.v
theories/Ppq.v
theories/PpqTake.v
theories/PpqOps.v
theories/PpqEnough.v
theories/PpqProps.v
theories/PpqLimitModel.v
theories/PpqLimitSpec.v
theories/PpqLimit.v
theories/PpqLimitEnough.v
theories/PpqLimitProps.v
theories/PpqHeapModel.v
theories/PpqHeapSpec.v
theories/PpqHeap.v
theories/PpqHeapRun.v
theories/PpqHeapProps.v
theories/PpqRaceModel.v
theories/PpqRaceProps.v
