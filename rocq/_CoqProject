-Q theories Verif
theories/Base.v
theories/Unicode.v
theories/Split.v
theories/SpecSplit.v
theories/SplitProofs.v
theories/PropSplit.v
theories/Tables.v
theories/Width.v
theories/SpecWidth.v
theories/WidthProofs.v
theories/Once.v
theories/OnceProofs.v
theories/PropWidth.v
theories/BuildTables.v
theories/SpecTables.v
theories/BuildProofs.v
theories/PropTables.v
theories/Utf8.v
theories/SpecUtf8.v
theories/Utf8Proofs.v
theories/Reader.v
theories/SpecReader.v
theories/ReaderProofs.v
theories/PropIO.v
theories/Ansi.v
theories/SpecAnsi.v
theories/SpecFormat.v
theories/AnsiProofs.v
theories/Sgr.v
theories/PropAnsi.v
theories/Attr.v
theories/SpecAttr.v
theories/AttrProofs.v
theories/SpecBlocks.v
theories/Blocks.v
theories/PropAttr.v
theories/SpecTrie.v
theories/Trie.v
theories/TrieProofs.v
theories/Dict.v
theories/SpecHyph.v
theories/DictProofs.v
theories/Hyph.v
theories/HyphProofs.v
theories/FileProofs.v
theories/FileHyph.v
theories/Cache.v
theories/CacheProofs.v
theories/Text.v
theories/PatDe.v
theories/PatGb.v
theories/PatEs.v
theories/PatFr.v
theories/PatUs.v
theories/Shipped.v
theories/Lang.v
theories/HyphTests.v
theories/ShippedProofs.v
theories/PropTrie.v
theories/PropHyph.v
theories/PropShipped.v
theories/SrcDe.v
theories/SrcGb.v
theories/SrcEs.v
theories/SrcFr.v
theories/SrcUs.v
theories/Strip.v
theories/SpecTex.v
theories/StripProofs.v
theories/TexProofs.v
theories/PropTex.v
theories/Arith.v
theories/ArithB64.v
theories/KP.v
theories/Nodes.v
theories/Render.v
theories/Cost.v
theories/SpecGreedy.v
theories/KPProofs.v
theories/KPStart.v
theories/SpecKP.v
theories/SpecLines.v
theories/Frags.v
theories/Para.v
theories/Show.v
theories/Tokens.v
theories/Align.v
theories/Options.v
theories/Call.v
theories/Settings.v
theories/AlignProofs.v
theories/Reuse.v
theories/Format.v
theories/FormatLines.v
theories/SpecScreen.v
theories/Screen.v
theories/FormatCall.v
theories/SpecDemerits.v
theories/Fresh.v
theories/ScaleB64.v
theories/Succeed.v
theories/Words.v
theories/Strings.v
theories/SpecAny.v
theories/AnyNodes.v
theories/AnyLines.v
theories/AnyShape.v
theories/AnyCall.v
theories/CostCall.v
theories/PropAlign.v
theories/PropFormat.v
theories/PropWords.v
theories/PropStrings.v
theories/PropAny.v
theories/PropCost.v
theories/Ucd.v
theories/SpecUcd.v
theories/UcdProofs.v
theories/TablesGo.v
theories/UcdShipped.v
theories/Compare.v
theories/PropCompare.v
theories/Greedy.v
theories/PropGreedy.v
theories/HyphNew.v
theories/PropHyphNew.v
theories/ScaleLines.v
theories/PropScale.v
theories/RepoTests.v
theories/LineTests.v
theories/Sub.v
theories/PropSub.v
theories/Alias.v
theories/PropAlias.v
theories/Endless.v
theories/Huge.v
theories/Forbid.v
theories/ForbidB64.v
theories/NoNumber.v
theories/PropEndless.v
theories/PropForbid.v
theories/Shared.v
theories/PropShared.v
theories/Fraction.v
theories/PropFraction.v
theories/Again.v
theories/PropAgain.v
theories/Span.v
theories/PropSpan.v
theories/Heap.v
theories/SpecHeap.v
theories/HeapProofs.v
theories/PropHeap.v
theories/Writers.v
theories/PropWriters.v
theories/Work.v
theories/PropWork.v
theories/StripWork.v
theories/PropStripWork.v
theories/SpecHyphAll.v
theories/HyphExact.v
theories/HyphSafe.v
theories/PropHyphAll.v
theories/Platform.v
theories/PropPlatform.v
theories/GreedyFormat.v
theories/PropLayouts.v
theories/Kept.v
theories/PropKept.v
theories/History.v
theories/PropHistory.v
theories/Total.v
theories/Convert.v
theories/PropTotal.v
theories/Count.v
theories/PropCount.v
theories/Display.v
theories/PropDisplay.v
theories/Combine.v
theories/PropCombine.v
theories/Fewest.v
theories/PropFewest.v
theories/Counts.v
theories/PropCounts.v
theories/Filled.v
theories/PropFilled.v
theories/Rest.v
theories/PropRest.v
theories/Pieces.v
theories/PropPieces.v
theories/Minima.v
theories/PropMinima.v
theories/Orders.v
theories/PropOrders.v
theories/Letters.v
theories/PropLetters.v
theories/Joined.v
theories/PropJoined.v
theories/OneLine.v
theories/PropOneLine.v
theories/Parts.v
theories/PropParts.v
theories/Atoms.v
theories/PropAtoms.v
theories/Join.v
theories/PropJoin.v
theories/EachWord.v
theories/PropEachWord.v
theories/Apart.v
theories/PropApart.v
theories/Sure.v
theories/PropSure.v
theories/Least.v
theories/PropLeast.v
theories/FormatSure.v
theories/PropFormatSure.v
theories/RestSure.v
theories/PropRestSure.v
theories/AgainSure.v
theories/PropAgainSure.v
theories/Cuts.v
theories/PropCuts.v
theories/Finer.v
theories/PropFiner.v
theories/Closing.v
theories/PropClosing.v
