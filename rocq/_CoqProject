-Q theories Verif
theories/Base.v
theories/Json.v
theories/BaseFacts.v
theories/Regex.v
theories/Pointer.v
theories/SpecPointer.v
theories/PointerFacts.v
theories/PropsPointer.v
theories/Quote.v
theories/SpecQuote.v
theories/QuoteFacts.v
theories/PropsQuote.v
theories/SpecEq.v
theories/JsonFacts.v
theories/PropsEq.v
theories/JTree.v
theories/SpecTree.v
theories/JTreeFacts.v
theories/JTreeEdit.v
theories/JTreeOps.v
theories/PropsTree.v
theories/RelPointer.v
theories/SpecRel.v
theories/RelPointerFacts.v
theories/PropsRel.v
theories/Patch.v
theories/SpecPatch.v
theories/PatchFacts.v
theories/PropsPatch.v
theories/PropsTreePatch.v
theories/Keywords.v
theories/Deps.v
theories/SpecDeps.v
theories/DepsFacts.v
theories/PropsDeps.v
theories/Text.v
theories/Repr.v
theories/Schema.v
theories/SpecSchema.v
theories/SpecCode.v
theories/SchemaFacts.v
theories/SchemaSim.v
theories/SchemaKw.v
theories/ValueFacts.v
theories/SchemaLoop.v
theories/SchemaMain.v
theories/SchemaStrict.v
theories/SchemaCode.v
theories/SchemaCases.v
theories/SchemaLaws.v
theories/SpecAssert.v
theories/SchemaAssert.v
theories/PropsSchema.v
theories/PropsKeywords.v
theories/PropsEval.v
theories/SpecSees.v
theories/SchemaSees.v
theories/PropsUnevaluated.v
theories/SpecTerm.v
theories/SpecSound.v
theories/SchemaTerm.v
theories/SpecShift.v
theories/SchemaShift.v
theories/Order.v
theories/SpecAlike.v
theories/OrderFacts.v
theories/SchemaAlike.v
theories/PropsWhole.v
theories/PropsCode.v
theories/PropsSafe.v
theories/SpecOutput.v
theories/SchemaFine.v
theories/SchemaQuiet.v
theories/SchemaPlaced.v
theories/SchemaSafe.v
theories/SchemaShape.v
theories/Output.v
theories/OutputFacts.v
theories/HierFacts.v
theories/PropsOutput.v
theories/PropsResult.v
theories/Catalog.v
theories/SpecCatalog.v
theories/CatalogFacts.v
theories/PropsCatalog.v
theories/Build.v
theories/Locate.v
theories/SpecBuild.v
theories/BuildFrame.v
theories/BuildMade.v
theories/BuildOk.v
theories/BuildInv.v
theories/BuildRefs.v
theories/BuildFacts.v
theories/BuildStays.v
theories/PropsBuild.v
theories/PatchHeap.v
theories/SpecHeap.v
theories/PatchHeapFacts.v
theories/PatchHeapSame.v
theories/PatchHeapTree.v
theories/PatchHeapOps.v
theories/PropsPatchHeap.v
theories/SpecWritten.v
theories/BuildGood.v
theories/PropsWritten.v
theories/PropsLocate.v
theories/SpecEqual.v
theories/SchemaEqual.v
theories/PropsEqual.v
theories/ReadBack.v
theories/ReadBackFacts.v
theories/SpecReadBack.v
theories/ReadBackExact.v
theories/PropsReadBack.v
theories/SpecOutline.v
theories/OutlineFacts.v
theories/PropsOutline.v
theories/Meta.v
theories/SpecMeta.v
theories/MetaFacts.v
theories/PropsMeta.v
theories/SpecCaches.v
theories/BuildCaches.v
theories/BuildClosed.v
theories/BuildSteps.v
theories/SpecLocal.v
theories/SchemaLocal.v
theories/JudgeLocal.v
theories/PropsCaches.v
theories/PropsMixed.v
theories/SpecStrict.v
theories/BuildSettled.v
theories/BuildStrict.v
theories/PropsTotal.v
theories/SpecNames.v
theories/SpecAccept.v
theories/NameFacts.v
theories/BuildAccept.v
theories/BuildFound.v
theories/PropsAccept.v
theories/SpecAnnot.v
theories/SchemaAnnot.v
theories/PropsAnnot.v
theories/SpecEnds.v
theories/BuildEnds.v
theories/PropsEnds.v
theories/BuildLeaves.v
theories/PropsLeaves.v
theories/Source.v
theories/SpecSource.v
theories/SourceFacts.v
theories/PropsSource.v
theories/PatchSeq.v
theories/SpecSeq.v
theories/PatchSeqFacts.v
theories/PropsSeq.v
theories/Compare.v
theories/SpecCompare.v
theories/PropsCompare.v
theories/SpecText.v
theories/TextFacts.v
theories/PropsText.v
theories/Roots.v
theories/SpecRoots.v
theories/PropsRoots.v
theories/Formats.v
theories/SpecFormats.v
theories/PropsFormats.v
theories/Rfc3986.v
theories/PropsSameUri.v
theories/Double.v
theories/Suite.v
theories/SuiteSchema.v
theories/SuiteOutput.v
theories/SpecErrors.v
theories/SchemaErrors.v
theories/PropsErrors.v
theories/Start.v
theories/SpecStart.v
theories/StartFacts.v
theories/PropsStart.v
theories/Formatters.v
theories/PropsFormatters.v
theories/SpecTreeAny.v
theories/JTreeSim.v
theories/PropsTreeAny.v
theories/SpecLabels.v
theories/JTreeLabels.v
theories/PropsLabels.v
theories/SpecInherit.v
theories/JSeq.v
theories/JSeqFacts.v
theories/PropsInherit.v
theories/SpecPyInt.v
theories/PyIntFacts.v
theories/PropsLenient.v
theories/PropsPatchErrors.v
theories/PropsMoveInto.v
theories/AnyValue.v
theories/SpecAnyValue.v
theories/AnyValueFacts.v
theories/PropsAnyValue.v
theories/JSlice.v
theories/JLoose.v
theories/JLooseOps.v
theories/SpecSlice.v
theories/JSliceFacts.v
theories/PropsSlice.v
theories/ReprObjects.v
theories/SpecPython.v
theories/SpecReprs.v
theories/PythonFacts.v
theories/PropsRepr.v
theories/PointerSeq.v
theories/PropsPointerSeq.v
theories/SpecMistyped.v
theories/PropsMistyped.v
theories/SpecRemote.v
theories/PropsRemote.v
theories/SpecCommute.v
theories/CommuteFacts.v
theories/PropsCommute.v
theories/JViews.v
theories/PropsViews.v
theories/JAlias.v
theories/SpecAlias.v
theories/AliasFacts.v
theories/PropsAlias.v
theories/Late.v
theories/SpecLate.v
theories/LateFacts.v
theories/LateKeeps.v
theories/PropsLate.v
theories/SchemaEdit.v
theories/SpecEdit.v
theories/EditFacts.v
theories/EditRuns.v
theories/EditSane.v
theories/PropsEdit.v
theories/SpecTwin.v
theories/SchemaTwin.v
theories/TwinMade.v
theories/PropsTwin.v
theories/LookupFacts.v
theories/PropsLookup.v
theories/SchemaPatch.v
theories/SpecSchemaPatch.v
theories/PatchSpots.v
theories/PropsSchemaPatch.v
theories/PropsPatchTwin.v
theories/SpecDecimal.v
theories/PropsDecimal.v
theories/JChars.v
theories/SpecChars.v
theories/PropsChars.v
theories/SpecNotes.v
theories/SchemaNotes.v
theories/PropsNotes.v
theories/PropsLeft.v
theories/Hashing.v
theories/SpecHashing.v
theories/PropsHashing.v
theories/SpecOpMembers.v
theories/PropsOpMembers.v
theories/PatchAny.v
theories/PropsPatchAny.v
