-Q theories Verif
theories/Base.v
theories/Spec.v
theories/MapSpec.v
theories/SpecFacts.v
theories/AvlModel.v
theories/AvlProofs.v
theories/AvlProofs2.v
theories/AvlMapProofs.v
theories/AvlIterModel.v
theories/AvlIterProofs.v
theories/AvlHistModel.v
theories/AvlHistProofs.v
theories/AvlShows.v
theories/PropertiesAvl.v
theories/Heap.v
theories/HeapProofs.v
theories/StackModel.v
theories/StackSpec.v
theories/StackProofs.v
theories/StackHistProofs.v
theories/PropertiesStack.v
theories/AvlHeapModel.v
theories/AvlHeapSpec.v
theories/AvlHeapProofs.v
theories/AvlHeapProofs2.v
theories/AvlHeapProofs3.v
theories/AvlHeapHistModel.v
theories/AvlHeapLazy.v
theories/AvlHeapHistSpec.v
theories/AvlHeapProofs4.v
theories/AvlHeapProofs5.v
theories/AvlHeapProofs6.v
theories/AvlRetainClones.v
theories/SmallFacts.v
theories/PropertiesAvlHeap.v
theories/Vec.v
theories/BTreeModel.v
theories/BTreeProofs.v
theories/BTreeProofs2.v
theories/BTreeIterModel.v
theories/BTreeIterProofs.v
theories/BTreeIterProofs2.v
theories/BTreeRangeProofs.v
theories/BTreeChkProofs.v
theories/BTreeMutProofs.v
theories/BTreeSpec.v
theories/BTreeHistModel.v
theories/BTreeHistProofs.v
theories/BTreeShows.v
theories/PropertiesBTree.v
theories/SetSpec.v
theories/SetOpModel.v
theories/AvlSetModel.v
theories/BTreeSetModel.v
theories/SetFacts.v
theories/AvlSetProofs.v
theories/BTreeSetProofs.v
theories/SetShows.v
theories/PropertiesSet.v
theories/SerdeModel.v
theories/SerdeProofs.v
theories/SerdeAvlProofs.v
theories/SerdeBTreeProofs.v
theories/PropertiesSerde.v
theories/FixedModel.v
theories/FixedIterModel.v
theories/FixedProofs.v
theories/FixedProofs2.v
theories/FixedProofs3.v
theories/FixedProofs4.v
theories/FixedSpec.v
theories/FixedShows.v
theories/FixedChkProofs.v
theories/FixedIterProofs.v
theories/FixedIterShows.v
theories/FixedMutProofs.v
theories/FixedDropProofs.v
theories/PropertiesFixed.v
theories/BTreeHeapModel.v
theories/BTreeHeapSpec.v
theories/BTreeHeapProofs.v
theories/BTreeHeapProofs2.v
theories/BTreeHeapProofs3.v
theories/BTreeHeapProofs4.v
theories/BTreeHeapProofs5.v
theories/BTreeHeapProofs6.v
theories/BTreeHeapHistModel.v
theories/BTreeHeapHistSpec.v
theories/BTreeHeapProofs7.v
theories/BTreeHeapProofs8.v
theories/BTreeHeapLazy.v
theories/BTreeHeapProofs9.v
theories/PropertiesBTreeHeap.v
theories/HeapMut.v
theories/HeapMutProofs.v
theories/MutSpec.v
theories/BTreeHeapMutModel.v
theories/BTreeHeapMutProofs.v
theories/BTreeHeapMutProofs2.v
theories/BTreeHeapMutProofs3.v
theories/BTreeHeapMutSpec.v
theories/BTreeHeapMutProofs4.v
theories/PropertiesBTreeHeapMut.v
theories/AvlHeapMutModel.v
theories/AvlHeapMutSpec.v
theories/AvlHeapMutProofs.v
theories/AvlHeapMutProofs2.v
theories/AvlHeapMutProofs3.v
theories/AvlHeapMutProofs4.v
theories/PropertiesAvlHeapMut.v
theories/AvlHeapIntoModel.v
theories/AvlHeapIntoSpec.v
theories/AvlHeapIntoProofs.v
theories/AvlHeapIntoProofs2.v
theories/PropertiesAvlHeapInto.v
theories/FixedHeapModel.v
theories/FixedHeapProofs.v
theories/FixedHeapProofs2.v
theories/FixedHeapProofs3.v
theories/FixedHeapProofs4.v
theories/FixedHeapProofs5.v
theories/FixedHeapProofs6.v
theories/FixedHeapProofs7.v
theories/FixedHeapProofs8.v
theories/FixedHeapProofs9.v
theories/FixedHeapSpec.v
theories/FixedHeapLazy.v
theories/FixedHeapIntoModel.v
theories/FixedHeapIntoSpec.v
theories/FixedHeapIntoProofs.v
theories/FixedHeapIntoProofs2.v
theories/FixedHeapIntoProofs3.v
theories/FixedCloneModel.v
theories/FixedCloneProofs.v
theories/PropertiesFixedHeap.v
theories/PropertiesFixedHeapInto.v
theories/FixedHeapMutModel.v
theories/FixedHeapMutSpec.v
theories/FixedHeapMutProofs.v
theories/FixedHeapMutProofs2.v
theories/FixedHeapMutProofs3.v
theories/FixedHeapMutProofs4.v
theories/PropertiesFixedHeapMut.v
theories/AnyOrdSpec.v
theories/BTreeAnyProofs.v
theories/FixedAnyProofs.v
theories/AvlAnyProofs.v
theories/AnyOrdShows.v
theories/PropertiesAnyOrd.v
theories/Ask.v
theories/AvlAskModel.v
theories/BTreeAskModel.v
theories/FixedAskModel.v
theories/AskSpec.v
theories/AskProofs.v
theories/AvlAskProofs.v
theories/BTreeAskProofs.v
theories/FixedAskProofs.v
theories/AskShows.v
theories/PropertiesAsk.v
theories/AskAnySpec.v
theories/AskAnyProofs.v
theories/AvlAskAnyProofs.v
theories/BTreeAskAnyProofs.v
theories/FixedAskAnyProofs.v
theories/AskRun.v
theories/AskRunProofs.v
theories/PropertiesAskAny.v
theories/AnyHeapSpec.v
theories/AvlAnyRange.v
theories/AvlAnyHist.v
theories/AvlHeapAnyProofs.v
theories/AvlHeapAnyProofs2.v
theories/PropertiesAnyHeap.v
theories/BTreeAnyChk.v
theories/BAnyHeapSpec.v
theories/BTreeHeapAnyProofs.v
theories/BTreeHeapAnyProofs2.v
theories/PropertiesBAnyHeap.v
theories/BAnyRangeSpec.v
theories/BTreeAnyRange.v
theories/PropertiesBAnyRange.v
theories/AskHeapSpec.v
theories/AvlHeapAskModel.v
theories/AvlHeapAskHistModel.v
theories/AvlHeapAskProofs.v
theories/AvlHeapAskProofs2.v
theories/AvlHeapAskProofs3.v
theories/AvlHeapAskProofs4.v
theories/AvlHeapAskProofs5.v
theories/PropertiesAskHeap.v
theories/BAskHeapSpec.v
theories/BTreeHeapAskModel.v
theories/BTreeHeapAskHistModel.v
theories/BTreeHeapAskProofs.v
theories/BTreeHeapAskProofs2.v
theories/BTreeHeapAskProofs3.v
theories/BTreeHeapAskProofs4.v
theories/BTreeHeapAskProofs5.v
theories/PropertiesBAskHeap.v
theories/FixedHeapAskModel.v
theories/FixedHeapAskProofs.v
theories/FixedAskHeapSpec.v
theories/FixedHeapAskProofs2.v
theories/FixedHeapAskProofs3.v
theories/FixedHeapAskProofs4.v
theories/PropertiesFixedAskHeap.v
theories/EntryAskModel.v
theories/EntryAskSpec.v
theories/EntryAskProofs.v
theories/AvlEntryAskModel.v
theories/BTreeEntryAskModel.v
theories/AvlEntryAskProofs.v
theories/BTreeEntryAskProofs.v
theories/PropertiesAvlEntry.v
theories/PropertiesBEntry.v
theories/AvlRangeAskModel.v
theories/AskRangeSpec.v
theories/AvlRangeAskProofs.v
theories/PropertiesAskRange.v
theories/BTreeRangeAskModel.v
theories/BAskRangeSpec.v
theories/BTreeRangeAskProofs.v
theories/PropertiesAskBRange.v
theories/BTreeHeapRangeAskModel.v
theories/BAskRangeMutSpec.v
theories/BTreeHeapRangeAskProofs.v
theories/BTreeHeapRangeAskProofs2.v
theories/PropertiesAskBRangeMut.v
theories/AvlHeapRangeAskModel.v
theories/AskRangeMutSpec.v
theories/AvlHeapRangeAskProofs.v
theories/AvlHeapRangeAskProofs2.v
theories/PropertiesAskRangeMut.v
theories/BTreeVecModel.v
theories/BTreeVecProofs.v
theories/PropertiesVec.v
