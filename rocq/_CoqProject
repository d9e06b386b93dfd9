-Q theories Verif

theories/Base.v
theories/Ord.v
theories/OrdProof.v
theories/Codec.v
theories/CodecSpec.v
theories/NBits.v
theories/CodecProof.v
theories/LeafPage.v
theories/LeafProof.v
theories/LeafSpace.v
theories/LeafCodec.v
theories/LeafSpec.v
theories/LeafCodecProof.v
theories/BTree.v
theories/BTreeInv.v
theories/BTreeFind.v
theories/BTreeParent.v
theories/BTreeSplit.v
theories/BTreeRoot.v
theories/BTreeIns.v
theories/PropCodecProof.v
theories/PropCodec.v
theories/PostingTree.v
theories/PostingTreeSpec.v
theories/PostingTreeProof.v
theories/PropTreeProof.v
theories/PropTree.v
theories/PosCodec.v
theories/PosSpec.v
theories/PosProof.v
theories/PropPos.v
theories/Entries.v
theories/EntriesSpec.v
theories/EntriesProof.v
theories/PropEntries.v
theories/Bulk.v
theories/BulkSpec.v
theories/BulkProof.v
theories/PropBulk.v
theories/EntryTree.v
theories/EntryTreeProof.v
theories/IndexSpec.v
theories/IndexProof.v
theories/IndexHeap.v
theories/IndexExamples.v
theories/PropIndex.v
theories/Vacuum.v
theories/VacuumProof.v
theories/PropVacuum.v
theories/Tsq.v
theories/TsqSpec.v
theories/TsqProof.v
theories/TsqPhrase.v
theories/TsqExec.v
theories/TsqExtract.v
theories/PropTsqProof.v
theories/PropTsq.v
theories/TidBitmap.v
theories/TidBitmapProof.v
theories/PropBitmap.v
theories/ScanEntry.v
theories/ScanEntryProof.v
theories/Scan.v
theories/ScanSpec.v
theories/ScanRegular.v
theories/ScanBitmap.v
theories/PropScan.v
theories/ScanFast.v
theories/PropFast.v
theories/IndexScan.v
theories/QuerySpec.v
theories/TreeFound.v
theories/EntryFound.v
theories/IndexScanProof.v
theories/QueryExamples.v
theories/PropQuery.v
theories/Scalar.v
theories/ScalarSpec.v
theories/ScalarTypes.v
theories/DistSpec.v
theories/ScalarProof.v
theories/ScalarTypesProof.v
theories/ScalarExamples.v
theories/PropScalar.v
theories/OrderScan.v
theories/OrderSpec.v
theories/OrderScanProof.v
theories/OrderAlt.v
theories/NatScan.v
theories/ScanFastD.v
theories/NatEntry.v
theories/NatSpec.v
theories/NatProof.v
theories/PropNat.v
theories/OrderExamples.v
theories/PropOrder.v
theories/Array.v
theories/ArraySpec.v
theories/ArrayFloat.v
theories/ArrayProof.v
theories/ArrayQuery.v
theories/ArrayExamples.v
theories/PropArray.v
theories/Inverted.v
theories/InvertedSpec.v
theories/InvertedCodec.v
theories/InvertedProof.v
theories/InvertedTree.v
theories/InvertedEval.v
theories/InvertedMake.v
theories/InvertedPath.v
theories/InvertedQuery.v
theories/InvertedExamples.v
theories/PropInverted.v
theories/TextSearch.v
theories/TextSpec.v
theories/TextQuery.v
theories/TextExamples.v
theories/PropText.v
theories/VacuumTree.v
theories/VacTreeInv.v
theories/VacTreeFrom.v
theories/VacTreeTo.v
theories/VacTreeClean.v
theories/VacTreeDel.v
theories/VacTreeScan.v
theories/VacTreeAll.v
theories/VacTreeSpec.v
theories/PropVacTreeProof.v
theories/VacTreeExamples.v
theories/PropVacTree.v
theories/VacScanSpec.v
theories/VacScanProof.v
theories/PropVacScan.v
theories/VacIndex.v
theories/VacIndexProof.v
theories/LifeSpec.v
theories/LifeProof.v
theories/LifeQuery.v
theories/LifeExamples.v
theories/LifeQueryExamples.v
theories/PropLife.v
theories/TsRank.v
theories/TsRankSpec.v
theories/TsRankProof.v
theories/TsRankScore.v
theories/TsRankWords.v
theories/TsRankEqual.v
theories/PropRank.v
theories/ScanConc.v
theories/ScanConcSpec.v
theories/ScanConcTree.v
theories/ScanConcProof.v
theories/PropScanConc.v
theories/IndexConcSpec.v
theories/IndexConcProof.v
theories/PropIndexConc.v
theories/PropScanOverlap.v
theories/Qsort.v
theories/QsortProof.v
theories/SortItems.v
theories/SortItemsProof.v
theories/PropSort.v
theories/FullScan.v
theories/FullSpec.v
theories/FullProof.v
theories/FullExamples.v
theories/PropFull.v
theories/Spill.v
theories/SpillProof.v
theories/PropSpill.v
theories/BTreeConc.v
theories/BTreeConcInv.v
theories/BTreeConcProof.v
theories/PostingTreeConc.v
theories/PostingTreeConcSpec.v
theories/PostingTreeConcProof.v
theories/PropTreeConc.v
theories/IndexConc.v
theories/TextOrder.v
theories/TextOrderSpec.v
theories/TextOrderProof.v
theories/PropTextOrder.v
theories/NanFree.v
theories/PropArrayDist.v
theories/Validate.v
theories/PropValidate.v
theories/Options.v
theories/PropOptions.v
