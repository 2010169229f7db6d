-Q theories Verif
theories/Base.v
theories/Str.v
theories/Spec.v
theories/SpecFacts.v
theories/TextRange.v
theories/Green.v
theories/GreenFacts.v
theories/Cache.v
theories/Builder.v
theories/CacheFacts.v
theories/BuilderFacts.v
theories/GreenIter.v
theories/PropertiesGreen.v
theories/PropertiesBuilder.v
theories/Cursor.v
theories/CursorFacts.v
theories/CursorIter.v
theories/Walk.v
theories/Tokens.v
theories/Search.v
theories/CursorMore.v
theories/Ast.v
theories/AstFacts.v
theories/PropertiesCursor.v
theories/PropertiesAst.v
theories/Text.v
theories/TextFacts.v
theories/PropertiesText.v
theories/Forest.v
theories/Client.v
theories/ForestFacts.v
theories/ClientFacts.v
theories/ClientFrame.v
theories/ClientHist.v
theories/Heap.v
theories/HeapList.v
theories/HeapInv.v
theories/HeapSll.v
theories/HeapOps.v
theories/HeapNav.v
theories/HeapMut.v
theories/HeapAttach.v
theories/HeapSim.v
theories/HeapStep.v
theories/HeapCycle.v
theories/HeapLoop.v
theories/HeapProg.v
theories/HeapClient.v
theories/Script.v
theories/Tracks.v
theories/Compound.v
theories/CompoundFacts.v
theories/ScriptRun.v
theories/Moves.v
theories/PropertiesHeap.v
theories/PropertiesScript.v
theories/Arc.v
theories/ArcFacts.v
theories/PropertiesArc.v
theories/Layout.v
theories/LayoutFacts.v
theories/PropertiesLayout.v
theories/Fmt.v
theories/FmtFacts.v
theories/PropertiesFmt.v
theories/Serde.v
theories/SerdeFacts.v
theories/PropertiesSerde.v
theories/Sexp.v
theories/SexpFacts.v
theories/Math.v
theories/MathFacts.v
theories/PropertiesExamples.v
theories/Show.v
theories/ShowFacts.v
theories/AstHeap.v
theories/PropertiesShow.v
theories/SerdeHeap.v
theories/SerdeHeapFacts.v
theories/PropertiesSerdeHeap.v
theories/PropertiesAstHeap.v
theories/Api.v
theories/ApiFacts.v
theories/PropertiesApi.v
theories/Chunks.v
theories/PropertiesChunks.v
theories/Replace.v
theories/PropertiesReplace.v
theories/Catch.v
theories/PropertiesCatch.v
theories/GreenStore.v
theories/GreenStoreFacts.v
theories/GreenOwn.v
theories/StoreClient.v
theories/PropertiesStore.v
theories/StoreBuild.v
theories/StoreBuildFacts.v
theories/PropertiesStoreBuild.v
theories/Release.v
theories/Refused.v
theories/Wrapped.v
theories/PropertiesRelease.v
theories/PropertiesWrapped.v
theories/WrapGreen.v
theories/WrapGreenFacts.v
theories/PropertiesWrapGreen.v
theories/GreenFmt.v
theories/GreenFmtFacts.v
theories/PropertiesGreenFmt.v
theories/RawFmt.v
theories/PropertiesRawFmt.v
theories/RawShow.v
theories/PropertiesRawShow.v
theories/WrapHeap.v
theories/PropertiesWrapHeap.v
theories/WrapRange.v
theories/PropertiesWrapRange.v
theories/WrapSearch.v
theories/PropertiesWrapSearch.v
theories/Index32.v
theories/Index32Facts.v
theories/PropertiesIndex.v
theories/PropertiesPlace.v
theories/Threads.v
theories/ThreadsFacts.v
theories/PropertiesThreads.v
theories/Races.v
theories/RacesFacts.v
theories/RacesSteps.v
theories/PropertiesRaces.v
