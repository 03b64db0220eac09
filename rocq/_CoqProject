-Q theories Verif
theories/Base.v
theories/Ids.v
theories/NameTables.v
theories/Names.v
theories/Links.v
theories/Tree.v
theories/Iter.v
theories/ForestSpec.v
theories/TreeSpec.v
theories/ListFacts.v
theories/TreeProofs.v
theories/ForestFacts.v
theories/IterSpec.v
theories/IterProofs.v
theories/Data.v
theories/Attrs.v
theories/Slab.v
theories/NodeApi.v
theories/AttrSpec.v
theories/Doc.v
theories/AttrFacts.v
theories/LinkProofs.v
theories/SlabProofs.v
theories/PruneFacts.v
theories/History.v
theories/DocSpec.v
theories/RemoveProofs.v
theories/RemoveExact.v
theories/InvProofs.v
theories/HistoryProofs.v
theories/DrainProofs.v
theories/CopyProofs.v
theories/DropProofs.v
theories/TidyProofs.v
theories/Replay.v
theories/TreeApi.v
theories/RootProofs.v
theories/RootSpec.v
theories/RootExact.v
theories/ApiProofs.v
theories/DocApi.v
theories/NamesProofs.v
theories/Types.v
theories/TypeSpec.v
theories/TypeProofs.v
theories/Samples.v
theories/PropertiesTree.v
theories/PropertiesAttrs.v
theories/DropSpec.v
theories/DropExact.v
theories/LoopSpec.v
theories/LoopExact.v
theories/PropertiesDoc.v
theories/PropertiesNames.v
theories/AimProofs.v
theories/Text.v
theories/TextSpec.v
theories/TextFacts.v
theories/TextPure.v
theories/TextMixed.v
theories/Loops.v
theories/TextProofs.v
theories/TextApi.v
theories/TextSamples.v
theories/PropertiesText.v
theories/Writer.v
theories/WriterSpec.v
theories/WriterProofs.v
theories/WriterApi.v
theories/WriterSamples.v
theories/PropertiesWriter.v
theories/PropertiesMore.v
theories/Parser.v
theories/ValueSpec.v
theories/ValueProofs.v
theories/ParserSpec.v
theories/ParserProofs.v
theories/ParserTree.v
theories/ParserLinks.v
theories/ParserApi.v
theories/ParserFacts.v
theories/ParserMeaning.v
theories/ParserStatements.v
theories/ParserCascade.v
theories/ParserValues.v
theories/ParserSamples.v
theories/PropertiesParser.v
theories/RoundSpec.v
theories/RoundRead.v
theories/RoundMatch.v
theories/RoundResolve.v
theories/RoundText.v
theories/RoundProofs.v
theories/RoundSamples.v
theories/PropertiesRound.v
theories/Values.v
theories/InitialSpec.v
theories/KindProofs.v
theories/Display.v
theories/DisplaySpec.v
theories/DisplayProofs.v
theories/PropertiesValues.v
theories/NodeSpec.v
theories/NodeProofs.v
theories/LifeSpec.v
theories/LifeProofs.v
theories/AskSpec.v
theories/AskProofs.v
theories/PropertiesNode.v
theories/PropertiesAnswers.v
theories/Css.v
theories/CssSpec.v
theories/CssProofs.v
theories/PropertiesCss.v
theories/Guards.v
theories/GuardSpec.v
theories/GuardTree.v
theories/GuardProofs.v
theories/PropertiesGuard.v
theories/SessionSpec.v
theories/SessionProofs.v
theories/PropertiesSession.v
theories/Unwind.v
theories/UnwindSpec.v
theories/UnwindTree.v
theories/UnwindAttrs.v
theories/PropertiesUnwind.v
theories/World.v
theories/WorldSpec.v
theories/WorldSim.v
theories/WorldProofs.v
theories/WorldInv.v
theories/MixProofs.v
theories/MixRemove.v
theories/WorldSamples.v
theories/PropertiesWorld.v
theories/Raw.v
theories/RawSpec.v
theories/RawProofs.v
theories/PropertiesRaw.v
theories/KeyProofs.v
theories/ParserUsers.v
theories/ResaveSpec.v
theories/ResaveProofs.v
theories/ResaveSamples.v
theories/PropertiesResave.v
theories/GuardDoc.v
theories/GuardIter.v
theories/GuardIterSpec.v
theories/GuardIterProofs.v
theories/GuardDesc.v
theories/GuardIterApi.v
theories/PropertiesGuardIter.v
theories/GuardWriter.v
theories/GuardWriterSpec.v
theories/GuardWriterProofs.v
theories/PropertiesGuardWriter.v
theories/GuardDocSpec.v
theories/GuardDocProofs.v
theories/GuardDrain.v
theories/GuardCopy.v
theories/GuardDocApi.v
theories/GuardFree.v
theories/PropertiesGuardDoc.v
theories/UnwindDoc.v
theories/UnwindDocSpec.v
theories/UnwindDocProofs.v
theories/PropertiesUnwindDoc.v
theories/DrainEdit.v
theories/DrainEditSpec.v
theories/DrainEditProofs.v
theories/DrainEditSamples.v
theories/PropertiesDrain.v
theories/Weak.v
theories/WeakSpec.v
theories/WeakProofs.v
theories/PropertiesWeak.v
theories/GuardPrint.v
theories/GuardPrintSpec.v
theories/GuardPrintProofs.v
theories/PropertiesPrint.v
theories/DrainAsk.v
theories/DrainAskSpec.v
theories/DrainAskProofs.v
theories/PropertiesAsk.v
theories/UndoSpec.v
theories/UndoProofs.v
theories/PropertiesUndo.v
theories/ApartSpec.v
theories/ApartProofs.v
theories/PropertiesApart.v
theories/SameSpec.v
theories/SameProofs.v
theories/PropertiesSame.v
theories/OrderSpec.v
theories/OrderProofs.v
theories/OrderWrite.v
theories/PropertiesOrder.v
theories/XmlOrderSpec.v
theories/XmlOrderText.v
theories/XmlOrderProofs.v
theories/PropertiesXmlOrder.v
theories/PartSpec.v
theories/PartProofs.v
theories/PartAttrs.v
theories/PartSpace.v
theories/PartForeign.v
theories/PropertiesPart.v
theories/Errors.v
theories/ErrorSpec.v
theories/ErrorProofs.v
theories/PropertiesErrors.v
theories/CommuteSpec.v
theories/CommuteProofs.v
theories/PropertiesCommute.v
theories/LastMove.v
theories/PropertiesLastMove.v
theories/LastValueSpec.v
theories/LastValue.v
theories/PropertiesLastValue.v
