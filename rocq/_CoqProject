-Q theories Verif
theories/Base.v
theories/Utf8.v
theories/Utf8Proofs.v
theories/Escape.v
theories/XmlSpec.v
theories/EscapeProofs.v
theories/Bitset.v
theories/BitsetProofs.v
theories/Stack.v
theories/StackProofs.v
theories/Encoding.v
theories/EncodingProofs.v
theories/Sax2.v
theories/Sax2Proofs.v
theories/Lint.v
theories/LintProofs.v
theories/Tables.v
theories/TablesProofs.v
theories/PropertiesBasic.v
theories/Scan.v
theories/Parser.v
theories/ScanProofs.v
theories/Effects.v
theories/DocEffects.v
theories/Sim.v
theories/LexProofs.v
theories/Grammar.v
theories/TextProofs.v
theories/Complete.v
theories/DocComplete.v
theories/Wrapped.v
theories/Term.v
theories/NoPanic.v
theories/Legal.v
theories/Sample.v
theories/Reject.v
theories/Local.v
theories/Counter.v
theories/ParserEx.v
theories/PropertiesParser.v
theories/Heap.v
theories/Dump.v
theories/TreeBuilder.v
theories/TreeShape.v
theories/TreeOps.v
theories/Forest.v
theories/ForestOps.v
theories/ForestAdd.v
theories/ForestAttr.v
theories/History.v
theories/TreeCalls.v
theories/TreeRead.v
theories/TreeReplace.v
theories/TreeAttrs.v
theories/TreeOwner.v
theories/Retire.v
theories/TreeEx.v
theories/PropertiesTree.v
theories/RetireEx.v
theories/PropertiesRetire.v
theories/DtdProofs.v
theories/DtdHistory.v
theories/DtdLoop.v
theories/Undeclared.v
theories/PropertiesDtd.v
theories/Xml.v
theories/XmlDump.v
theories/Mirror.v
theories/XmlBuild.v
theories/XmlSteps.v
theories/XmlElem.v
theories/XmlTree.v
theories/DtdTree.v
theories/XmlParse.v
theories/Tidy.v
theories/XmlRound.v
theories/Nested.v
theories/NestedProofs.v
theories/XmlFinal.v
theories/XmlGrammar.v
theories/Diverge.v
theories/XmlRefuse.v
theories/XmlEx.v
theories/PropertiesXml.v
theories/Content.v
theories/ContentProofs.v
theories/ContentDump.v
theories/PropertiesContent.v
theories/Loose.v
theories/LooseLex.v
theories/LooseDecl.v
theories/LooseProofs.v
theories/LooseDoc.v
theories/LooseStrict.v
theories/LooseTree.v
theories/LooseEx.v
theories/PropertiesLoose.v
theories/Conformance.v
theories/Doctype.v
theories/DoctypeAttr.v
theories/DoctypeContent.v
theories/DoctypeSubset.v
theories/DoctypeDoc.v
theories/DoctypeCases.v
theories/DoctypeNodes.v
theories/DoctypeTree.v
theories/DoctypeKept.v
theories/DoctypeRound.v
theories/DoctypeEx.v
theories/PropertiesDoctype.v
theories/DumpWrite.v
theories/DumpWriteProofs.v
theories/DumpWriteTree.v
theories/PropertiesWrite.v
theories/DtdSafe.v
theories/DtdSafeEx.v
theories/TreeSafe.v
theories/TreeSafeParse.v
theories/TreeSafeDtd.v
theories/TreeSafeDoctype.v
theories/TreeSafeEx.v
theories/TreeSafeDoctypeEx.v
theories/PropertiesPanic.v
theories/Edit.v
theories/EditEx.v
theories/PropertiesEdit.v
theories/TermDtd.v
theories/TermRuns.v
theories/TermDoc.v
theories/TermEx.v
theories/PropertiesTerm.v
theories/LooseDtd.v
theories/LooseModel.v
theories/LooseSubset.v
theories/LooseBody.v
theories/LooseDtdDoc.v
theories/LooseBodyProofs.v
theories/LooseTables.v
theories/LooseDtdEx.v
theories/PropertiesLooseDtd.v
theories/DeclRight.v
theories/DumpTotal.v
theories/DumpDecl.v
theories/DumpEdit.v
theories/DumpEditEx.v
theories/PropertiesDump.v
theories/Order.v
theories/PropertiesOrder.v
theories/Linear.v
theories/Blowup.v
theories/Power.v
theories/TreeEntities.v
theories/NextCrash.v
theories/PropertiesLinear.v
