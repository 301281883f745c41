-Q theories Verif
theories/Base.v
theories/Utf8.v
theories/Macros.v
theories/Token.v
theories/Queue.v
theories/Context.v
theories/Lex.v
theories/Tag.v
theories/Flow.v
theories/Plain.v
theories/Block.v
theories/Scanner.v
theories/Reader.v
theories/Event.v
theories/Parser.v
theories/Errors.v
theories/Conformance.v
theories/SpecGrammar.v
theories/ParserLang.v
theories/ParserEffects.v
theories/ParserFacts.v
theories/PropGrammar.v
theories/BaseFacts.v
theories/SpecTokens.v
theories/TokenGrammar.v
theories/TokenStream.v
theories/TokenSound.v
theories/SpecCalls.v
theories/TokenCalls.v
theories/TagCheck.v
theories/TokenLaws.v
theories/PropTokens.v
theories/SpecQueue.v
theories/QueueFacts.v
theories/SpecUtf8.v
theories/Utf8Facts.v
theories/PeekFacts.v
theories/SpecPos.v
theories/Contract.v
theories/SpecBlank.v
theories/LexFacts.v
theories/TagFacts.v
theories/FlowFacts.v
theories/Loops.v
theories/SpecUri.v
theories/UriFacts.v
theories/BasicFacts.v
theories/PropBasics.v
theories/PlainFacts.v
theories/BlockFacts.v
theories/LazyFacts.v
theories/ScanSpec.v
theories/ScanWp.v
theories/ScanFacts.v
theories/SpecStream.v
theories/SortFacts.v
theories/WhiteFacts.v
theories/SpecLayout.v
theories/Layout.v
theories/History.v
theories/Runs.v
theories/StreamFacts.v
theories/PropStream.v
theories/SpecQuoted.v
theories/QuotedFacts.v
theories/SpecContent.v
theories/ContentFacts.v
theories/PropContent.v
theories/SpecNames.v
theories/NameFacts.v
theories/PropNames.v
theories/SpecPlain.v
theories/PlainSem.v
theories/PlainStream.v
theories/PropPlain.v
theories/SpecBlock.v
theories/BlockSem.v
theories/BlockStream.v
theories/SpecBorrow.v
theories/BlockTokens.v
theories/BlockLines.v
theories/BlockAlone.v
theories/PropBlock.v
theories/CutFacts.v
theories/CutLeaf.v
theories/CutScalar.v
theories/CutBlock.v
theories/CutScan.v
theories/CutRounds.v
theories/SpecOwned.v
theories/Chunks.v
theories/OwnedWitness.v
theories/PropOwned.v
theories/Buffers.v
theories/PropBuffers.v
theories/SpecDefer.v
theories/Defer.v
theories/Narrow.v
theories/NarrowPlain.v
theories/DeferBlock.v
theories/NarrowBlock.v
theories/DeferStream.v
theories/PropDefer.v
theories/Shift.v
theories/SpecGap.v
theories/GapEat.v
theories/GapSim.v
theories/GapFacts.v
theories/PropGap.v
theories/SpecYaml.v
theories/YamlRound.v
theories/YamlWord.v
theories/YamlAsk.v
theories/YamlFlow.v
theories/YamlBlock.v
theories/YamlMark.v
theories/YamlDoc.v
theories/SpecTape.v
theories/TapeFacts.v
theories/TapeStream.v
theories/EventFuel.v
theories/EventCount.v
theories/PropTape.v
theories/EventCalm.v
theories/SpecHarmless.v
theories/BlockCalm.v
theories/HarmlessFacts.v
theories/PropCalm.v
theories/OwnedEvents.v
theories/PropSources.v
theories/YamlEvents.v
theories/YamlExample.v
theories/PropYaml.v
theories/SpecPlaced.v
theories/LayoutStream.v
theories/PropLayout.v
theories/Parts.v
theories/SpecParts.v
theories/PartsSim.v
theories/PropParts.v
theories/SpecDeferEvents.v
theories/EventSim.v
theories/DeferEvents.v
theories/SpecDeferYaml.v
theories/DeferYaml.v
theories/PropDeferEvents.v
theories/SpecGapEvents.v
theories/GapEvents.v
theories/PropGapEvents.v
theories/SpecLazySource.v
theories/LazySource.v
theories/LazySourceYaml.v
theories/PropLazySource.v
theories/SpecJson.v
theories/JsonYaml.v
theories/JsonFacts.v
theories/SpecShown.v
theories/JsonLazy.v
theories/PropJson.v
theories/SpecMarks.v
theories/EventMarks.v
theories/MarkFacts.v
theories/PropMarks.v
theories/SourceLaws.v
theories/PropSourceLaws.v
theories/EventEq.v
theories/SpecSame.v
theories/EqFacts.v
theories/PropEq.v
theories/Shared.v
theories/SpecShared.v
theories/SharedFacts.v
theories/PropShared.v
theories/SpecRepair.v
theories/RepairFacts.v
theories/PropRepair.v
theories/StretchFacts.v
theories/PropStretch.v
theories/SpecLogged.v
theories/LoggedFacts.v
theories/PropLogged.v
theories/SoonFacts.v
theories/SoonText.v
theories/PropSoon.v
theories/SpecNear.v
theories/NearFacts.v
theories/PropNear.v
