-Q theories Verif
theories/Str.v
theories/Fold.v
theories/Text.v
theories/ValueTypes.v
theories/Property.v
theories/Chrono.v
theories/DateTime.v
theories/Component.v
theories/Alarm.v
theories/Calendar.v
theories/Nom.v
theories/Parser.v
theories/Spec.v
theories/StrFacts.v
theories/UnfoldProofs.v
theories/FoldProofs.v
theories/TextProofs.v
theories/ValueProofs.v
theories/SpecBuild.v
theories/BuildProofs.v
theories/SpecDate.v
theories/DateProofs.v
theories/SetterProofs.v
theories/SpecTree.v
theories/TreeProofs.v
theories/SpecCal.v
theories/SpecDoc.v
theories/CalProofs.v
theories/ParserProofs.v
theories/TotalProofs.v
theories/ReadProofs.v
theories/AcceptProofs.v
theories/RejectProofs.v
theories/ErrorProofs.v
theories/DocProofs.v
theories/Properties_Fold.v
theories/Properties_Text.v
theories/SpecConv.v
theories/ConvProofs.v
theories/SpecRound.v
theories/RoundProofs.v
theories/LfProofs.v
theories/RoundChecks.v
theories/Properties_Round.v
theories/Properties_Build.v
theories/Properties_Date.v
theories/Properties_Cal.v
theories/Properties_Parse.v
theories/ErrorText.v
theories/SpecError.v
theories/MessageProofs.v
theories/Properties_Message.v
theories/SpecMore.v
theories/MoreProofs.v
theories/Properties_More.v
theories/Access.v
theories/SpecAccess.v
theories/AccessProofs.v
theories/Properties_Access.v
theories/SpecExact.v
theories/ExactProofs.v
theories/KeepProofs.v
theories/SpecItems.v
theories/ItemProofs.v
theories/WrittenProofs.v
theories/SpecText.v
theories/Properties_Exact.v
theories/Properties_Items.v
theories/SpecGrammar.v
theories/GrammarProofs.v
theories/Properties_Grammar.v
theories/SpecFold.v
theories/CutProofs.v
theories/Properties_Lines.v
theories/SpecScan.v
theories/ScanProofs.v
theories/Properties_Scan.v
theories/SpecSmall.v
theories/Properties_Small.v
theories/Serde.v
theories/SpecSerde.v
theories/SerdeProofs.v
theories/Properties_Serde.v
theories/Cost.v
theories/SpecCost.v
theories/CostProofs.v
theories/DepthProofs.v
theories/Properties_Cost.v
theories/SpecGetters.v
theories/Properties_Getters.v
theories/FoldRelease.v
theories/FoldReleaseProofs.v
theories/SpecRelease.v
theories/Properties_Release.v
theories/RepoTests.v
theories/SpecRfc.v
theories/RfcProofs.v
theories/Properties_Rfc.v
theories/SpecFail.v
theories/FailProofs.v
theories/Properties_Fail.v
theories/SpecStack.v
theories/StackProofs.v
theories/Properties_Stack.v
theories/SpecRefold.v
theories/RefoldProofs.v
theories/Properties_Refold.v
theories/SpecCut.v
theories/TruncProofs.v
theories/CutCalProofs.v
theories/Properties_Cut.v
theories/SpecAlike.v
theories/AlikeProofs.v
theories/Properties_Alike.v
theories/Writer.v
theories/SpecWriter.v
theories/WriterProofs.v
theories/Properties_Writer.v
theories/SpecInject.v
theories/InjectProofs.v
theories/Properties_Inject.v
theories/SpecSize.v
theories/FoldCost.v
theories/SizeProofs.v
theories/Properties_Size.v
theories/SpecShape.v
theories/ShapeProofs.v
theories/Properties_Shape.v
theories/ReadSizeProofs.v
theories/Properties_ReadSize.v
theories/SpecBack.v
theories/BackProofs.v
theories/Properties_Back.v
theories/SpecSurvive.v
theories/SurviveProofs.v
theories/Properties_Survive.v
theories/SpecPrecise.v
theories/PreciseProofs.v
theories/Properties_Precise.v
theories/SpecReprint.v
theories/ReprintProofs.v
theories/Properties_Reprint.v
theories/SpecWork.v
theories/WorkProofs.v
theories/Properties_Work.v
theories/ZeroCopy.v
theories/SpecCopy.v
theories/CopyProofs.v
theories/Properties_Copy.v
theories/SpecSharp.v
theories/SharpProofs.v
theories/Properties_Sharp.v
theories/SpecEdge.v
theories/EdgeProofs.v
theories/EndProofs.v
theories/KeptProofs.v
theories/Properties_Edge.v
theories/SpecMixed.v
theories/SpecSettle.v
theories/MixedProofs.v
theories/Properties_Mixed.v
theories/SettleProofs.v
theories/Properties_Settle.v
theories/SpecCalls.v
theories/CallsProofs.v
theories/Properties_Calls.v
theories/SpecWide.v
theories/WideProofs.v
theories/Properties_Wide.v
theories/Search.v
theories/SpecSearch.v
theories/SearchProofs.v
theories/SearchDocProofs.v
theories/Properties_Search.v
theories/SpecRefused.v
theories/MessageSizeProofs.v
theories/Properties_MessageSize.v
theories/SpecNest.v
theories/NestProofs.v
theories/Properties_Nest.v
theories/SpecTables.v
theories/TableProofs.v
theories/Properties_Tables.v
theories/JsonText.v
theories/SpecJson.v
theories/JsonProofs.v
theories/Properties_Json.v
theories/SpecImport.v
theories/ImportProofs.v
theories/Properties_Import.v
theories/SpecExport.v
theories/ExportProofs.v
theories/Properties_Export.v
theories/Equal.v
theories/SpecEqual.v
theories/EqualProofs.v
theories/Properties_Equal.v
theories/SpecUser.v
theories/UserProofs.v
theories/Properties_User.v
theories/SpecDiff.v
theories/DiffProofs.v
theories/Properties_Diff.v
theories/SpecSession.v
theories/SessionProofs.v
theories/Properties_Session.v
theories/SpecNear.v
theories/NearProofs.v
theories/Properties_Near.v
theories/SpecMerge.v
theories/MergeProofs.v
theories/Properties_Merge.v
