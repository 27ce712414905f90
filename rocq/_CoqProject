-Q theories Verif
theories/Base.v
theories/Utf8.v
theories/CharClass.v
theories/Reader.v
theories/Vnode.v
theories/Tokenizer.v
theories/ExprParser.v
theories/CmdTable.v
theories/CmdParser.v
theories/Token.v
theories/Ast.v
theories/Export.v
theories/Api.v
theories/RefCompiler.v
theories/Compiler.v
theories/Format.v
theories/FormatProof.v
theories/Walk.v
theories/Printer.v
theories/Tests.v
theories/Cursor.v
theories/Grammar.v
theories/TokSafe.v
theories/ExprSafe.v
theories/Head.v
theories/Extent.v
theories/Script.v
theories/Fault.v
theories/Safe.v
theories/CmdBase.v
theories/CmdArgs.v
theories/HeadProof.v
theories/ExtentProof.v
theories/CmdPieces.v
theories/CmdOpen.v
theories/CmdSafe.v
theories/CmdLoop.v
theories/ExportSafe.v
theories/ApiExpr.v
theories/ScriptExport.v
theories/ApiFile.v
theories/Places.v
theories/PlacesProof.v
theories/LinesProof.v
theories/ReaderFacts.v
theories/Nodes.v
theories/CmdSpec.v
theories/Derived.v
theories/Shape.v
theories/NodeText.v
theories/NodeFacts.v
theories/NodeHead.v
theories/OneLine.v
theories/FullNames.v
theories/Blocks.v
theories/Order.v
theories/Visits.v
theories/WalkProof.v
theories/Sexpr.v
theories/CompileProof.v
theories/ExprText.v
theories/OutProof.v
theories/Sim.v
theories/SimCmd.v
theories/SimArgs.v
theories/SimRun.v
theories/SimLoop.v
theories/Graft.v
theories/Join.v
theories/JoinProof.v
theories/Written.v
theories/WrittenProof.v
theories/Lookahead.v
theories/WrittenBrace.v
theories/PropTotal.v
theories/PropReader.v
theories/RefAgree.v
theories/PropAst.v
theories/PropCmd.v
theories/IndexReader.v
theories/IndexProof.v
theories/Cli.v
theories/PropTool.v
theories/PropWalk.v
theories/PropOut.v
theories/PropText.v
theories/PrintBack.v
theories/PropWrite.v
theories/Rest.v
theories/RestProof.v
theories/WrittenScript.v
theories/TargetProof.v
theories/ArgsProof.v
theories/StmtShow.v
theories/FindBack.v
theories/HeadBack.v
theories/LineProof.v
theories/ListingBack.v
theories/ExtentBack.v
theories/BlockProof.v
theories/ScriptProof.v
theories/PropScript.v
theories/PropBlank.v
theories/PropHeader.v
theories/PropComments.v
theories/PropNames.v
theories/Json.v
theories/JsonSpec.v
theories/JsonRead.v
theories/JsonProof.v
theories/PropJson.v
theories/JsonFields.v
theories/PropFields.v
theories/Rows.v
theories/RowProof.v
theories/PropOrder.v
theories/Regex.v
theories/RegexTable.v
theories/RegexProof.v
theories/RegexVim.v
theories/PropRegex.v
theories/Sequel.v
theories/SequelProof.v
theories/PropSequel.v
theories/PropFault.v
theories/IndentProof.v
theories/LayoutProof.v
theories/ConcatProof.v
theories/PropLabel.v
theories/PropLayout.v
theories/CompilerObj.v
theories/ObjProof.v
theories/PropObj.v
theories/PropMessage.v
theories/Scanner.v
theories/ScannerProof.v
theories/ScannerErr.v
theories/PropFailure.v
theories/PropDelivery.v
theories/SizeProof.v
theories/PropSize.v
theories/AloneProof.v
theories/PropAlone.v
theories/AssignProof.v
theories/PropAssign.v
theories/HeapParser.v
theories/HeapProof.v
theories/PropHeap.v
theories/PropToken.v
theories/CliOut.v
theories/PropStdout.v
theories/GrowProof.v
theories/CondProof.v
theories/PropCond.v
theories/CallProof.v
theories/PropCall.v
