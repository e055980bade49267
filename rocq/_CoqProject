-Q theories Verif

theories/Base.v
theories/StringUtil.v
theories/Tags.v
theories/Dom.v
theories/NodeUtil.v
theories/Values.v
theories/Match.v
theories/Rule.v
theories/RuleMatching.v
theories/Arrays.v
theories/ParserTables.v
theories/Parser.v
theories/MatchSem.v
theories/MatchRefine.v
theories/MatchSim.v
theories/GroupAlg.v
theories/GroupSpec.v
theories/GroupProofs.v
theories/MatchLink.v
theories/RuleSpec.v
theories/RuleProofs.v
theories/PropRule.v
theories/MatchSpec.v
theories/GroupFacts.v
theories/MatchProofs.v
theories/StringSpec.v
theories/StringProofs.v
theories/ExtractSpec.v
theories/LocalProofs.v
theories/ExtractProofs.v
theories/CountProofs.v
theories/SpecUnique.v
theories/SearchSpec.v
theories/SearchFacts.v
theories/ResultProofs.v
theories/ExtractMain.v
theories/LeadingProofs.v
theories/ChainProofs.v
theories/Samples.v
theories/DocumentNode.v
theories/PropExtract.v
theories/OptionalCode.v
theories/PropSearch.v
theories/ValueSpec.v
theories/ValueProofs.v
theories/PropValues.v
theories/NodeSpec.v
theories/NodeProofs.v
theories/PropMatch.v
theories/TextSpec.v
theories/TextProofs.v
theories/SerialProofs.v
theories/LocationProofs.v
theories/PropText.v
theories/Convert.v
theories/ConvertSpec.v
theories/ConvertProofs.v
theories/Cli.v
theories/CliSpec.v
theories/CliProofs.v
theories/LimitProofs.v
theories/Ownership.v
theories/PyRefs.v
theories/PySpec.v
theories/PyProofs.v
theories/OwnershipSpec.v
theories/OwnershipProofs.v
theories/PropUse.v
theories/Regular.v
theories/MachineRows.v
theories/RegularProofs.v
theories/Grammar.v
theories/GrammarCheck.v
theories/GrammarSpec.v
theories/GrammarProofs.v
theories/GrammarTexts.v
theories/SafetyCheck.v
theories/ParserSpec.v
theories/SafetyProofs.v
theories/ParserSafety.v
theories/PropParser.v
theories/SyntaxSpec.v
theories/SyntaxWords.v
theories/SyntaxRun.v
theories/SyntaxMeaning.v
theories/SyntaxTree.v
theories/ExpressSpec.v
theories/ExpressProofs.v
theories/SyntaxProofs.v
theories/PropSyntax.v
theories/PropPython.v
theories/ParsedProofs.v
theories/Bindings.v
theories/BindSpec.v
theories/BindProofs.v
theories/PropBind.v
theories/Program.v
theories/ProgramSpec.v
theories/ProgramProofs.v
theories/PropProgram.v
theories/Depth.v
theories/DepthSpec.v
theories/DepthProofs.v
theories/DepthCases.v
theories/PropDepth.v
theories/MeaningSpec.v
theories/MeaningProofs.v
theories/SpecExt.v
theories/MeaningMain.v
theories/MeaningCases.v
theories/PropMeaning.v
theories/PermTac.v
theories/RuleHeap.v
theories/RuleHeapSpec.v
theories/RuleHeapProofs.v
theories/RuleHeapOps.v
theories/RuleHeapMain.v
theories/RuleHeapMove.v
theories/PropRuleHeap.v
theories/JsonText.v
theories/JsonSpec.v
theories/JsonUnique.v
theories/JsonProofs.v
theories/Utf8Proofs.v
theories/JsonMain.v
theories/PropJson.v
theories/Scripts.v
theories/ScriptSpec.v
theories/ScriptProofs.v
theories/PropScripts.v
theories/Href.v
theories/HrefSpec.v
theories/HrefProofs.v
theories/PropHref.v
theories/CaptureState.v
theories/CaptureStateSpec.v
theories/CaptureStateProofs.v
theories/PropCaptureState.v
theories/Asserts.v
theories/AssertSpec.v
theories/AssertCheck.v
theories/AssertParse.v
theories/AssertProofs.v
theories/PropAsserts.v
theories/TestRegex.v
theories/Blackbox.v
theories/UnitTests.v
theories/BatsTests.v
theories/Cost.v
theories/CostSpec.v
theories/CostProofs.v
theories/CostCases.v
theories/CostDeep.v
theories/PropCost.v
theories/CondState.v
theories/CondSpec.v
theories/CondProofs.v
theories/CondMain.v
theories/PropCondState.v
theories/CondGroupSpec.v
theories/CondGroups.v
theories/CondGroupMain.v
theories/PropCondGroups.v
theories/ScriptRun.v
theories/ScriptRunSpec.v
theories/ScriptRunProofs.v
theories/ScriptRunMain.v
theories/ScriptLines.v
theories/PropScriptRun.v
theories/ErrorSpec.v
theories/ErrorRun.v
theories/ErrorParts.v
theories/ErrorPlaces.v
theories/ErrorProofs.v
theories/ErrorTexts.v
theories/ErrorExact.v
theories/PropError.v
theories/ExactSpec.v
theories/ExactProofs.v
theories/PropExact.v
theories/Buffers.v
theories/BufferSpec.v
theories/BufferProofs.v
theories/PropBuffers.v
theories/NoMemory.v
theories/NoMemorySpec.v
theories/NoMemoryProofs.v
theories/NoMemoryMain.v
theories/PropNoMemory.v
theories/Process.v
theories/ProcessSpec.v
theories/ProcessProofs.v
theories/ProcessMain.v
theories/PropProcess.v
theories/AssertProgram.v
theories/AssertMain.v
theories/PropAssertMain.v
theories/AlikeSpec.v
theories/AlikeSim.v
theories/AlikeProofs.v
theories/AlikeMain.v
theories/AlikeCases.v
theories/PropAlike.v
theories/RewriteSpec.v
theories/RewriteProofs.v
theories/RewriteCases.v
theories/PropRewrite.v
theories/FrameSpec.v
theories/FrameSim.v
theories/FrameCases.v
theories/PropFrame.v
theories/MostSpec.v
theories/MostProofs.v
theories/LessProofs.v
theories/MostCases.v
theories/PropMost.v
theories/ComposeSpec.v
theories/ComposeProofs.v
theories/ComposeCases.v
theories/PropCompose.v
theories/PathSpec.v
theories/PathProofs.v
theories/Chaining.v
theories/ChainingSpec.v
theories/ChainingProofs.v
theories/PathCases.v
theories/PropPath.v
theories/RepeatSpec.v
theories/RepeatProofs.v
theories/RepeatCases.v
theories/PropRepeat.v
theories/SelectSpec.v
theories/SelectProofs.v
theories/SelectCases.v
theories/PropSelect.v
theories/PipeSpec.v
theories/PipeProofs.v
theories/PipeCases.v
theories/PropPipe.v
theories/GrowSpec.v
theories/GrowProofs.v
theories/GrowCases.v
theories/PropGrow.v
theories/BraceSpec.v
theories/BraceProofs.v
theories/BraceSim.v
theories/BraceMain.v
theories/BraceCases.v
theories/PropBrace.v
theories/SkelSpec.v
theories/SkelOne.v
theories/SkelSim.v
theories/SkelMain.v
theories/SkelCases.v
theories/PropSkel.v
theories/PartSpec.v
theories/PartMain.v
theories/PartCases.v
theories/PropPart.v
theories/FinalSpec.v
theories/ErrorFinal.v
theories/ParseCost.v
theories/ParseCostProofs.v
theories/ParseCostCases.v
theories/PropBuild.v
theories/NumberFinal.v
theories/PropFinal.v
theories/TextCost.v
theories/TextCostSpec.v
theories/TextCostProofs.v
theories/PropCopies.v
theories/CondCost.v
theories/CondCostSpec.v
theories/CondCostProofs.v
theories/CondCostCases.v
theories/PropWork.v
theories/UnsignedChar.v
theories/UnsignedSpec.v
theories/UnsignedProofs.v
theories/PropUnsigned.v
theories/VisibleSpec.v
theories/VisibleProofs.v
theories/PropVisible.v
theories/RegexSpec.v
theories/RegexProofs.v
theories/RegexParse.v
theories/PropRegex.v
theories/ExtendSpec.v
theories/ExtendProofs.v
theories/PropExtend.v
theories/LenientSpec.v
theories/LenientProofs.v
theories/PropLenient.v
theories/AskSpec.v
theories/AskProofs.v
theories/AskCase.v
theories/PropAsk.v
