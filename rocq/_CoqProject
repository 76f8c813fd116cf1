-Q theories Verif
theories/EntityId.v
theories/EntityIdProofs.v
theories/Base.v
theories/Entities.v
theories/EntitiesSpec.v
theories/EntitiesProofs.v
theories/EntitiesHistory.v
theories/PropsEntities.v
theories/SparseSet.v
theories/Track.v
theories/SparseSetSpec.v
theories/SparseSetProofs.v
theories/SparseSetProofs2.v
theories/SparseSetHistory.v
theories/PropsSparseSet.v
theories/MapSum.v
theories/Borrow.v
theories/BorrowSpec.v
theories/BorrowProofs.v
theories/PropsBorrow.v
theories/Conc.v
theories/ConcSpec.v
theories/ConcProofs.v
theories/PropsConc.v
theories/Clock.v
theories/ClockSpec.v
theories/PropsClock.v
theories/Sched.v
theories/SchedSpec.v
theories/SchedProofs.v
theories/SchedProofs2.v
theories/SchedProofs3.v
theories/SchedProofs4.v
theories/PropsSched.v
theories/PropsSched2.v
theories/PropsSched3.v
theories/Run.v
theories/RunSpec.v
theories/RunProofs.v
theories/RunProofs2.v
theories/RunProofs3.v
theories/RunProofs4.v
theories/PropsRun.v
theories/PropsRun2.v
theories/PropsRun3.v
theories/World.v
theories/WorldSpec.v
theories/WorldProofs.v
theories/WorldProofs2.v
theories/PropsWorld.v
theories/Views.v
theories/ViewsProofs.v
theories/PropsViews.v
theories/Unique.v
theories/UniqueSpec.v
theories/PropsUnique.v
theories/Move.v
theories/PropsMove.v
theories/Bulk.v
theories/BulkProofs.v
theories/PropsBulk.v
theories/Iter.v
theories/IterSpec.v
theories/IterFloat.v
theories/IterProofs.v
theories/IterProofs2.v
theories/IterAlias.v
theories/IterOwned.v
theories/WorldIter.v
theories/PropsIter.v
theories/PropsWorldIter.v
theories/Serde.v
theories/SerdeProofs.v
theories/PropsSerde.v
theories/PropsCalls.v
theories/CloneWorld.v
theories/PropsClone.v
theories/ViewTypes.v
theories/PropsParams.v
theories/Refs.v
theories/PropsRefs.v
theories/Panics.v
theories/PanicsSpec.v
theories/PanicsProofs.v
theories/PropsPanics.v
theories/PanicsWorldSpec.v
theories/PanicsLoose.v
theories/PanicsWorld.v
theories/PropsPanicsWorld.v
theories/UniqueCheck.v
theories/PropsUniqueCheck.v
theories/RunSerial.v
theories/PropsRunSerial.v
theories/RunPanic.v
theories/PropsRunPanic.v
theories/PropsRunIf.v
theories/WeakBorrow.v
theories/WeakBorrowSpec.v
theories/WeakBorrowProofs.v
theories/WeakBorrowHb.v
theories/PropsWeakBorrow.v
theories/WorkloadInfo.v
theories/WorkloadInfoSpec.v
theories/WorkloadInfoProofs.v
theories/WorkloadInfoOrder.v
theories/PropsInfo.v
theories/Extend.v
theories/ExtendSpec.v
theories/ExtendProofs.v
theories/PropsExtend.v
theories/LabelTypes.v
theories/PropsLabel.v
theories/Derive.v
theories/PropsDerive.v
theories/WeakClock.v
theories/PropsWeakClock.v
theories/AddWorkload.v
theories/PropsAddWorkload.v
theories/StorageTypes.v
theories/StorageTypesSpec.v
theories/PropsStorageTypes.v
theories/ViewTrack.v
theories/ViewTrackSpec.v
theories/PropsViewTrack.v
theories/EmptyCond.v
theories/EmptyCondSpec.v
theories/PropsEmptyCond.v
theories/TableLock.v
theories/TableLockSpec.v
theories/PropsTableLock.v
theories/Names.v
theories/NamesSpec.v
theories/PropsNames.v
theories/Compare.v
theories/CompareSpec.v
theories/PropsCompare.v
theories/Memory.v
theories/MemorySpec.v
theories/PropsMemory.v
theories/DeriveIter.v
theories/DeriveIterSpec.v
theories/PropsDeriveIter.v
theories/IterWrite.v
theories/IterWriteSpec.v
theories/PropsIterWrite.v
theories/IterLive.v
theories/PropsIterLive.v
theories/PropsIterNext.v
