-Q theories Verif
theories/Base.v
theories/Regex.v
theories/Escape.v
theories/Dom.v
theories/ParseTree.v
theories/Parse.v
theories/Conformance.v
theories/BaseFacts.v
theories/Spec.v
theories/EscapeFacts.v
theories/P_Escape.v
theories/SpecDom.v
theories/DomFacts.v
theories/P_Children.v
theories/SpecApi.v
theories/ApiFacts.v
theories/P_Api.v
theories/SerFacts.v
theories/P_Ser.v
theories/RegexFacts.v
theories/SpecTree.v
theories/ParseTreeFacts.v
theories/P_Tree.v
theories/SpecLex.v
theories/LexFacts.v
theories/ParseFacts.v
theories/DocFacts.v
theories/SpecParse.v
theories/TagFacts.v
theories/AcceptFacts.v
theories/ParsedFacts.v
theories/NsFacts.v
theories/DocProps.v
theories/PosFacts.v
theories/PrologFacts.v
theories/LexRun.v
theories/P_Parse.v
theories/SpecDoc.v
theories/SpecErr.v
theories/PrintFacts.v
theories/ReadFacts.v
theories/ErrFacts.v
theories/StepFacts.v
theories/LoopFacts.v
theories/P_Exact.v
theories/PrintDoc.v
theories/FormFacts.v
theories/RoundFacts.v
theories/DocCheck.v
theories/P_Doc.v
theories/Files.v
theories/SpecBytes.v
theories/Utf8Facts.v
theories/SpecFiles.v
theories/FilesFacts.v
theories/P_Files.v
theories/Nodes.v
theories/NodeFacts.v
theories/P_Nodes.v
theories/Errors.v
theories/P_Errors.v
theories/P_Reject.v
theories/SpecEsc.v
theories/UnescFacts.v
theories/SpecMore.v
theories/ReFacts.v
theories/CharFacts.v
theories/SynFacts.v
theories/P_More.v
theories/AppendFacts.v
theories/P_Append.v
theories/Warn.v
theories/SpecWarn.v
theories/WarnFacts.v
theories/P_Warn.v
theories/SpecMean.v
theories/MeanFacts.v
theories/P_Mean.v
theories/TripFacts.v
theories/P_Trip.v
theories/SpecMany.v
theories/ManyFacts.v
theories/P_Many.v
theories/SpecXml.v
theories/XmlFacts.v
theories/XmlCheck.v
theories/XmlUnique.v
theories/P_Xml.v
theories/XmlOut.v
theories/XmlOutCheck.v
theories/XmlExact.v
theories/P_XmlOut.v
theories/Calls.v
theories/SpecCalls.v
theories/CallsFacts.v
theories/P_Calls.v
theories/Orders.v
theories/SpecOrders.v
theories/OrdersFacts.v
theories/P_Orders.v
theories/Machine.v
theories/SpecMachine.v
theories/MachineFacts.v
theories/P_Machine.v
theories/Stack.v
theories/SpecStack.v
theories/StackFacts.v
theories/DepthFacts.v
theories/P_Stack.v
theories/SpecCycle.v
theories/CycleFacts.v
theories/CycleDoc.v
theories/P_Cycle.v
theories/Objects.v
theories/SpecObjects.v
theories/ObjectsFacts.v
theories/ObjectsMore.v
theories/ObjectsEq.v
theories/P_Objects.v
theories/Patterns.v
theories/SpecPattern.v
theories/PatternFacts.v
theories/P_Pattern.v
theories/SpecStd.v
theories/P_Std.v
theories/SpecPanic.v
theories/PanicFacts.v
theories/P_Panic.v
theories/SpecLocal.v
theories/LocalFacts.v
theories/P_Local.v
theories/SpecEmbed.v
theories/EmbedFacts.v
theories/P_Embed.v
theories/SpecSize.v
theories/SizeFacts.v
theories/SizeMore.v
theories/P_Size.v
theories/Time.v
theories/SpecTime.v
theories/TimeFacts.v
theories/TimeUnesc.v
theories/TimeElem.v
theories/TimeDom.v
theories/TimeWide.v
theories/TimeParse.v
theories/TimeOut.v
theories/TimeCount.v
theories/TimeDoc.v
theories/TimeLow.v
theories/P_Time.v
theories/SpecMade.v
theories/MadeFacts.v
theories/MadeDoc.v
theories/P_Made.v
theories/SpecTell.v
theories/TellFacts.v
theories/P_Tell.v
theories/SpecUndo.v
theories/UndoFacts.v
theories/P_Undo.v
theories/SpecConf.v
theories/ConfText.v
theories/ConfLex.v
theories/ConfTag.v
theories/ConfFacts.v
theories/ConfDoc.v
theories/P_Conf.v
theories/TimeEdit.v
theories/SpecTimeEdit.v
theories/TimeRow.v
theories/TimeTree.v
theories/P_TimeEdit.v
theories/SpecEntity.v
theories/EntText.v
theories/EntTag.v
theories/EntFacts.v
theories/EntCount.v
theories/P_Entity.v
theories/TimeEq.v
theories/TimeSame.v
theories/P_TimeEq.v
theories/SpecForm.v
theories/FormTags.v
theories/P_Form.v
theories/SpecWhite.v
theories/WhiteFacts.v
theories/P_White.v
theories/SpecCut.v
theories/CutFacts.v
theories/P_Cut.v
theories/SpecSettle.v
theories/SettleFacts.v
theories/P_Settle.v
theories/P_Dtd.v
theories/Stderr.v
theories/SpecStderr.v
theories/StderrFacts.v
theories/P_Stderr.v
theories/ErrDebug.v
theories/P_ErrDebug.v
theories/Broken.v
theories/P_Broken.v
