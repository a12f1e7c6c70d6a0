-Q theories Verif
theories/Spec/Order.v
theories/Lang/Mem.v
theories/Spec/Sorts.v
theories/Proofs/Wp.v
theories/Proofs/OrderLib.v
theories/Model/Insertion.v
theories/Proofs/Insertion.v
theories/Model/Basic.v
theories/Proofs/Basic.v
theories/Model/Heap.v
theories/Proofs/HeapLib.v
theories/Proofs/Heap.v
theories/Model/Rotate.v
theories/Proofs/Rotate.v
theories/Proofs/RotateGcd.v
theories/Model/Search.v
theories/Model/Buffer.v
theories/Model/Merge.v
theories/Proofs/Search.v
theories/Proofs/HalfMerge.v
theories/Proofs/MergeLib.v
theories/Proofs/BufMerge.v
theories/Proofs/Merge.v
theories/Proofs/MergeSort.v
theories/Proofs/MergeProps.v
theories/Proofs/Examples.v
theories/Props/Simple.v
theories/Props/Safety.v
theories/Props/Merge.v
theories/Spec/Strings.v
theories/Model/Comparators.v
theories/Proofs/Comparators.v
theories/Proofs/Natural.v
theories/Props/Comparators.v
theories/Model/NetworkTables.v
theories/Model/Networks.v
theories/Proofs/NetLib.v
theories/Proofs/NetCheck.v
theories/Proofs/NetPlansA.v
theories/Proofs/NetPlansB.v
theories/Proofs/NetPlansC.v
theories/Proofs/NetGen.v
theories/Proofs/NetOddEven.v
theories/Proofs/Networks.v
theories/Props/Networks.v
theories/Model/Straight.v
theories/Model/FixedTables.v
theories/Model/Fixed.v
theories/Proofs/Straight.v
theories/Proofs/Fixed.v
theories/Props/Fixed.v
theories/Model/Indirect.v
theories/Proofs/Indirect.v
theories/Props/Indirect.v
theories/Model/Adapters.v
theories/Proofs/Adapters.v
theories/Props/Adapters.v
theories/Spec/Probes.v
theories/Model/Probes.v
theories/Proofs/Moves.v
theories/Proofs/ProbesA.v
theories/Proofs/ProbesB.v
theories/Proofs/ProbesC.v
theories/Proofs/ProbesD.v
theories/Proofs/ProbesE.v
theories/Proofs/ProbesF.v
theories/Proofs/ProbesG.v
theories/Proofs/ProbesH.v
theories/Proofs/ProbesI.v
theories/Props/Probes.v
theories/Model/Pdq.v
theories/Proofs/IndexLib.v
theories/Proofs/PdqPart.v
theories/Proofs/Pdq.v
theories/Props/Quick.v
theories/Model/Quick.v
theories/Proofs/Quick.v
theories/Model/Select.v
theories/Proofs/Select.v
theories/Proofs/QuickMerge.v
theories/Spec/Select.v
theories/Props/QuickMerge.v
theories/Model/Poplar.v
theories/Proofs/Poplar.v
theories/Props/Poplar.v
theories/Model/Smooth.v
theories/Proofs/Smooth.v
theories/Proofs/SmoothTable.v
theories/Props/Smooth.v
theories/Model/DropMerge.v
theories/Proofs/DropMerge.v
theories/Props/DropMerge.v
theories/Model/Tim.v
theories/Proofs/Stable.v
theories/Proofs/Tim.v
theories/Proofs/TimMerge.v
theories/Proofs/TimMergeHi.v
theories/Proofs/TimSort.v
theories/Props/Tim.v
theories/Model/Counting.v
theories/Proofs/Counting.v
theories/Props/Counting.v
theories/Spec/Verge.v
theories/Model/Verge.v
theories/Proofs/Verge.v
theories/Proofs/VergeSort.v
theories/Proofs/VergeCase.v
theories/Props/Verge.v
theories/Model/Cartesian.v
theories/Proofs/Cartesian.v
theories/Props/Cartesian.v
theories/Model/Splay.v
theories/Proofs/Splay.v
theories/Props/Splay.v
theories/Spec/Comparisons.v
theories/Model/FixedList.v
theories/Model/MergeInsertion.v
theories/Proofs/FixedList.v
theories/Proofs/MergeInsertion.v
theories/Proofs/MergeInsertionCase.v
theories/Props/MergeInsertion.v
theories/Model/Mel.v
theories/Proofs/ListPath.v
theories/Proofs/ListMerge.v
theories/Proofs/Encroach.v
theories/Proofs/ListRounds.v
theories/Proofs/ListMoves.v
theories/Proofs/ListEdges.v
theories/Proofs/Mel.v
theories/Props/Mel.v
theories/Model/StablePartition.v
theories/Proofs/StablePartition.v
theories/Model/Slab.v
theories/Proofs/SlabMel.v
theories/Proofs/Slab.v
theories/Props/Slab.v
theories/Proofs/Regions.v
theories/Model/Spin.v
theories/Proofs/SpinMerge.v
theories/Proofs/SpinHalf.v
theories/Proofs/SpinInsert.v
theories/Proofs/SpinRange.v
theories/Spec/Spin.v
theories/Proofs/Spin.v
theories/Proofs/SpinTrap.v
theories/Props/Spin.v
theories/Model/Ska.v
theories/Proofs/Bins.v
theories/Proofs/SkaLib.v
theories/Proofs/SkaSwaps.v
theories/Proofs/SkaByte.v
theories/Proofs/Ska.v
theories/Proofs/SkaKeys.v
theories/Props/Ska.v
theories/Model/Spread.v
theories/Proofs/SpreadArith.v
theories/Proofs/SpreadBins.v
theories/Proofs/Spread.v
theories/Props/Spread.v
theories/Model/Grail.v
theories/Proofs/GrailMerge.v
theories/Proofs/GrailSmart.v
theories/Proofs/GrailBuffers.v
theories/Proofs/GrailBlocks.v
theories/Proofs/GrailCombine.v
theories/Proofs/GrailChunks.v
theories/Proofs/GrailBuild.v
theories/Proofs/GrailKeys.v
theories/Proofs/GrailSort.v
theories/Props/Grail.v
theories/Model/Wiki.v
theories/Proofs/WikiFind.v
theories/Proofs/WikiMerge.v
theories/Proofs/WikiNet.v
theories/Proofs/WikiLevels.v
theories/Proofs/WikiBlocks.v
theories/Proofs/WikiPull.v
theories/Proofs/WikiSearch.v
theories/Proofs/WikiRows.v
theories/Proofs/WikiSort.v
theories/Props/Wiki.v
theories/Lang/Lists.v
theories/Spec/Lists.v
theories/Model/ContainerAware.v
theories/Proofs/Lists.v
theories/Proofs/ContainerAware.v
theories/Proofs/ContainerMel.v
theories/Props/ContainerAware.v
theories/Model/Ieee.v
theories/Proofs/Ieee.v
theories/Model/SpreadFloat.v
theories/Proofs/SpreadFill.v
theories/Proofs/SpreadFloat.v
theories/Props/Floats.v
theories/Model/SpreadString.v
theories/Proofs/SpreadPlace.v
theories/Proofs/SpreadPrefix.v
theories/Proofs/SpreadString.v
theories/Props/Strings.v
theories/Model/SkaCompound.v
theories/Proofs/SkaCompound.v
theories/Props/SkaCompound.v
theories/Spec/Approx.v
theories/Model/SwapIf.v
theories/Proofs/SwapIf.v
theories/Props/SwapIf.v
theories/Proofs/Unsafe.v
theories/Props/Unsafe.v
theories/Proofs/ProbesMax.v
theories/Props/ProbesMax.v
theories/Model/Bitops.v
theories/Proofs/Bitops.v
theories/Props/Bitops.v
theories/Proofs/WikiLarge.v
theories/Proofs/GrailLarge.v
theories/Model/Facade.v
theories/Spec/Facade.v
theories/Proofs/Facade.v
theories/Proofs/FacadeCalls.v
theories/Props/Facade.v
theories/Model/IntegerRange.v
theories/Spec/IntegerRange.v
theories/Proofs/IntegerRange.v
theories/Props/IntegerRange.v
theories/Model/SelfSort.v
theories/Spec/SelfSort.v
theories/Proofs/SelfSort.v
theories/Props/SelfSort.v
theories/Model/MoveCount.v
theories/Spec/MoveCount.v
theories/Proofs/MoveCount.v
theories/Props/MoveCount.v
theories/Spec/ContainerAdapter.v
theories/Model/ContainerAdapter.v
theories/Proofs/ContainerAdapter.v
theories/Props/ContainerAdapter.v
theories/Proofs/QuickMergeAny.v
theories/Spec/Pipe.v
theories/Model/Pipe.v
theories/Proofs/Pipe.v
theories/Props/Pipe.v
theories/Model/Stability.v
theories/Spec/Stability.v
theories/Proofs/Stability.v
theories/Props/Stability.v
theories/Model/IterMove.v
theories/Spec/IterMove.v
theories/Proofs/IterMove.v
theories/Props/IterMove.v
theories/Model/Default.v
theories/Spec/Default.v
theories/Proofs/Default.v
theories/Props/Default.v
theories/Model/SortFunctions.v
theories/Spec/SortFunctions.v
theories/Proofs/SortFunctions.v
theories/Props/SortFunctions.v
theories/Model/MetricsTools.v
theories/Proofs/MetricsTools.v
theories/Props/MetricsTools.v
theories/Model/Branchless.v
theories/Spec/Branchless.v
theories/Proofs/Branchless.v
theories/Props/Branchless.v
theories/Model/Refined.v
theories/Proofs/Refined.v
theories/Props/Refined.v
theories/Model/Entry.v
theories/Proofs/Entry.v
theories/Props/Entry.v
theories/Model/ScopeGuard.v
theories/Props/ScopeGuard.v
theories/Model/FunctionPointer.v
theories/Proofs/FunctionPointer.v
theories/Props/FunctionPointer.v
theories/Model/AdapterStorage.v
theories/Proofs/AdapterStorage.v
theories/Props/AdapterStorage.v
theories/Spec/IteratorOperations.v
theories/Model/IteratorWrapper.v
theories/Props/IteratorWrapper.v
theories/Model/SorterTraits.v
theories/Props/SorterTraits.v
theories/Model/ImmovableVector.v
theories/Proofs/ImmovableVector.v
theories/Props/ImmovableVector.v
theories/Model/SmallArray.v
theories/Spec/SmallArray.v
theories/Proofs/SmallArray.v
theories/Props/SmallArray.v
theories/Model/FunctionObjects.v
theories/Props/FunctionObjects.v
theories/Model/AssociateMoves.v
theories/Spec/AssociateMoves.v
theories/Proofs/AssociateMoves.v
theories/Props/AssociateMoves.v
