-Q theories Verif
theories/Base.v
theories/Slots.v
theories/BinSearch.v
theories/LeafNode.v
theories/InnerNode.v
theories/Store.v
theories/Tree.v
theories/InsertParts.v
theories/Readers.v
theories/Shared.v
theories/Remove.v
theories/Iterators.v
theories/Observe.v
theories/Cursor.v
theories/BulkLoad.v
theories/History.v
theories/Augment.v
theories/View.v
theories/MapSet.v
theories/SetHist.v
theories/SlotLemmas.v
theories/NodeLemmas.v
theories/Spec.v
theories/AugSpec.v
theories/ExamplePrograms.v
theories/SearchSpec.v
theories/ExampleSpec.v
theories/Contents.v
theories/AnySpec.v
theories/AnyHist.v
theories/GroupSpec.v
theories/Order.v
theories/ContentsProof.v
theories/Logical.v
theories/Descent.v
theories/InsertProof.v
theories/InvLemmas.v
theories/InsertTop.v
theories/RemoveLeaf.v
theories/RemoveInner.v
theories/RemoveProof.v
theories/RemoveTop.v
theories/Lookup.v
theories/CursorProof.v
theories/RefProof.v
theories/AugProof.v
theories/ViewProof.v
theories/IterProof.v
theories/IntoProof.v
theories/BulkProof.v
theories/BulkTop.v
theories/HistProof.v
theories/HistTop.v
theories/AnyProof.v
theories/AugTop.v
theories/SearchProof.v
theories/QueryProof.v
theories/ExampleProof.v
theories/DateProof.v
theories/MapTop.v
theories/ReadTop.v
theories/SharedSpec.v
theories/SharedProof.v
theories/GarbageSpec.v
theories/ShapeTop.v
theories/EdgeProof.v
theories/FollowSpec.v
theories/FollowProof.v
theories/SetProof.v
theories/CountProof.v
theories/GroupProof.v
theories/GroupFault.v
theories/GroupFaultProof.v
theories/Instances.v
theories/PropHistory.v
theories/PropMap.v
theories/PropIter.v
theories/PropCursor.v
theories/Orphan.v
theories/OrphanAny.v
theories/OrphanVolatile.v
theories/OrphanReach.v
theories/PropBulk.v
theories/PropAug.v
theories/PropSearch.v
theories/PropQuery.v
theories/PropExamples.v
theories/PropGroup.v
theories/PropGroupExact.v
theories/ViewRead.v
theories/DropSpec.v
theories/DropExact.v
theories/Garbage.v
theories/GarbageGrow.v
theories/PropShape.v
theories/PropSet.v
theories/PropAny.v
theories/Unwind.v
theories/UnwindSpec.v
theories/UnwindProof.v
theories/UnwindSafe.v
theories/UnwindExact.v
theories/UnwindTop.v
theories/PropUnwind.v
theories/Volatile.v
theories/VolatileSpec.v
theories/VolatileProof.v
theories/VolatileLink.v
theories/PropVolatile.v
theories/PropShared.v
theories/Owned.v
theories/OwnedSpec.v
theories/OwnedProof.v
theories/OwnedExact.v
theories/OwnedTop.v
theories/PropOwned.v
theories/CostSpec.v
theories/CostProof.v
theories/CostTop.v
theories/PropCost.v
theories/ReleaseSpec.v
theories/ReleaseProof.v
theories/ReleaseTop.v
theories/PropRelease.v
theories/Validate.v
theories/ValidateSpec.v
theories/ValidateProof.v
theories/PropValidate.v
