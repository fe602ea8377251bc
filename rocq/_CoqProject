-Q theories Verif
theories/Base.v
theories/Source.v
theories/Utils.v
theories/Items.v
theories/Container.v
theories/Arrays.v
theories/Copy.v
theories/Parser.v
theories/Lemmas.v
theories/Escape.v
theories/Strings.v
theories/StringRT.v
theories/Api.v
theories/StringApi.v
theories/PropStrings.v
theories/Numbers.v
theories/PropNumbers.v
theories/Dates.v
theories/PropDates.v
theories/Keys.v
theories/Reader.v
theories/Files.v
theories/PropBasic.v
theories/Unicode.v
theories/PropUnicode.v
theories/Linecol.v
theories/Consist.v
theories/Wf.v
theories/Errors.v
theories/PropErrors.v
theories/Fuel.v
theories/FuelParse.v
theories/Mono.v
theories/PropTerm.v
theories/Text.v
theories/Render.v
theories/CopyFacts.v
theories/TextValue.v
theories/TextParse.v
theories/TextTree.v
theories/TextDoc.v
theories/Verbatim.v
theories/NoLoss.v
theories/Ordinary.v
theories/NoLossVal.v
theories/NoLossDoc.v
theories/PropLossless.v
theories/ListSpec.v
theories/ArrayLemmas.v
theories/ArrayText.v
theories/ArrayTidy.v
theories/ArrayLines.v
theories/PropArrays.v
theories/OMap.v
theories/ContOps.v
theories/ContText.v
theories/PropContainers.v
theories/AotObj.v
theories/PropAot.v
theories/ItemInd.v
theories/PyVal.v
theories/PyItem.v
theories/ItemConv.v
theories/Unwrap.v
theories/PropItem.v
theories/Floats.v
theories/PropFloats.v
theories/Control.v
theories/PropControl.v
theories/Heap.v
theories/HeapLemmas.v
theories/PropRead.v
theories/DumpText.v
theories/DumpCont.v
theories/DumpValue.v
theories/DumpHead.v
theories/DumpChain.v
theories/DumpDoc.v
theories/DumpTop.v
theories/DumpRender.v
theories/PropDumps.v
theories/WordChars.v
theories/Grammar.v
theories/GramSound.v
theories/GramBal.v
theories/PropGrammar.v
theories/Facts.v
theories/Meaning.v
theories/Says.v
theories/SaysDoc.v
theories/Lookup.v
theories/LookupFacts.v
theories/Local.v
theories/LookupSays.v
theories/PropFacts.v
theories/Denote.v
theories/Lines.v
theories/CompStr.v
theories/CompNum.v
theories/CompDate.v
theories/Trees.v
theories/ValueEnd.v
theories/Snug.v
theories/CompKey.v
theories/CompValue.v
theories/PropValues.v
theories/Reread.v
theories/Written.v
theories/PropReread.v
theories/PropWritten.v
theories/Document.v
theories/Spelling.v
theories/Neat.v
theories/Ends.v
theories/DocLine.v
theories/DocLoop.v
theories/DocHead.v
theories/DocSpot.v
theories/DocRun.v
theories/SpellingTest.v
theories/PropDocument.v
theories/PropDocLossless.v
theories/Edit.v
theories/Changes.v
theories/Possible.v
theories/EditNeat.v
theories/MadeSnug.v
theories/MadeNeat.v
theories/EditOps.v
theories/InsideFacts.v
theories/EditMore.v
theories/EditSwap.v
theories/EditAll.v
theories/DocNeat.v
theories/Memory.v
theories/PropEdit.v
theories/PropInside.v
theories/PropMemory.v
theories/Mapping.v
theories/MappingSpec.v
theories/MappingFacts.v
theories/PropMapping.v
theories/Failing.v
theories/FailSpec.v
theories/FailFacts.v
theories/PropFailing.v
theories/Surgery.v
theories/SurgeryFacts.v
theories/PropSurgery.v
theories/Derived.v
theories/DerivedFacts.v
theories/PropDerived.v
theories/Views.v
theories/ViewFacts.v
theories/PropViews.v
theories/PropCopy.v
theories/Regular.v
theories/PropPlace.v
theories/Raw.v
theories/RawSpec.v
theories/RawFacts.v
theories/PropRaw.v
theories/FailAot.v
theories/PropFailAot.v
theories/Keying.v
theories/PropKeys.v
