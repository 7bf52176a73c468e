-Q theories Verif
theories/Base.v
theories/Utf8.v
theories/Utf8Facts.v
theories/Tone.v
theories/ToneSpec.v
theories/ToneFacts.v
theories/Props_Tone.v
theories/Dict.v
theories/DictFacts.v
theories/DictGen.v
theories/DictRead.v
theories/DictGenFacts.v
theories/DictGenEnd.v
theories/DictGenExact.v
theories/Props_DictGen.v
theories/Loc.v
theories/LocSpec.v
theories/LocFacts.v
theories/Props_Misc.v
theories/PegSyntax.v
theories/Grammar.v
theories/Peg.v
theories/PegToaq.v
theories/PegSpec.v
theories/PegFacts.v
theories/NodeFacts.v
theories/FailFacts.v
theories/PegToaqFacts.v
theories/Ast.v
theories/Action.v
theories/Parser.v
theories/AstInd.v
theories/ModFacts.v
theories/AstSorts.v
theories/ActionTypes.v
theories/SortFacts.v
theories/ActionSpec.v
theories/ActionFacts.v
theories/ActionTypeFacts.v
theories/ParserFacts.v
theories/TreeSpec.v
theories/PegText.v
theories/ParserSpec.v
theories/ApiFacts.v
theories/SortApi.v
theories/Visit.v
theories/VisitSpec.v
theories/VisitFacts.v
theories/Equal.v
theories/EqualSpec.v
theories/EqualFacts.v
theories/Braces.v
theories/BracesSpec.v
theories/BracesFacts.v
theories/RepoTests.v
theories/AstApi.v
theories/ModSpec.v
theories/ModWords.v
theories/TileSpec.v
theories/SpellSpec.v
theories/TileFacts.v
theories/TileApi.v
theories/SpellFacts.v
theories/SpanSpec.v
theories/SpanFacts.v
theories/AstCases.v
theories/TileCases.v
theories/ActHits.v
theories/ParserCases.v
theories/Props_Peg.v
theories/Props_Ast.v
theories/Logic.v
theories/LogicWords.v
theories/Interp.v
theories/Simplify.v
theories/LogicString.v
theories/LogicSpec.v
theories/OrderFacts.v
theories/LogicFuel.v
theories/NameFacts.v
theories/NameInj.v
theories/SeqFacts.v
theories/TermFacts.v
theories/LogicApi.v
theories/LogicCases.v
theories/SafeBase.v
theories/InterpSafe.v
theories/SimplifySafe.v
theories/LogicSafe.v
theories/LogicLoop.v
theories/LogicTests.v
theories/ScopeSpec.v
theories/ScopeFacts.v
theories/ScopeInterp.v
theories/ScopeRun.v
theories/ScopeSimp.v
theories/ScopeNum.v
theories/ScopeEnds.v
theories/ScopeTotal.v
theories/ScopeCases.v
theories/Props_Logic.v
theories/App.v
theories/AppSpec.v
theories/AppFacts.v
theories/AppApi.v
theories/AppTotal.v
theories/Props_App.v
theories/Dedup.v
theories/DedupSpec.v
theories/DedupFacts.v
theories/ErrFacts.v
theories/DedupApi.v
theories/MsgFacts.v
theories/DedupCases.v
theories/WordSpec.v
theories/WordErr.v
theories/WordErrs.v
theories/Props_Fail.v
theories/Pretty.v
theories/Main.v
theories/MainSpec.v
theories/MainApi.v
theories/PrettyFacts.v
theories/DumpFacts.v
theories/DumpApi.v
theories/MainCases.v
theories/Props_Main.v
theories/Meaning.v
theories/MeaningFacts.v
theories/MeaningNames.v
theories/MeaningRun.v
theories/MeaningStep.v
theories/MeaningBody.v
theories/MeaningArgs.v
theories/MeaningSpecs.v
theories/MeaningEnd.v
theories/MeaningHoa.v
theories/MeaningOne.v
theories/MeaningApi.v
theories/MeaningText.v
theories/MeaningCases.v
theories/Props_Meaning.v
theories/Shown.v
theories/ShownRead.v
theories/ShownFacts.v
theories/ShownNums.v
theories/ShownHeap.v
theories/ShownApi.v
theories/WordShape.v
theories/WordSpell.v
theories/WordName.v
theories/ShownText.v
theories/ShownCases.v
theories/HeapNames.v
theories/NameText.v
theories/Props_Shown.v
theories/Props_Names.v
theories/FuncWords.v
theories/FuncSym.v
theories/FuncSound.v
theories/FuncTree.v
theories/FuncSupport.v
theories/Props_Words.v
theories/PlaceFacts.v
theories/WordTile.v
theories/Props_Places.v
theories/Clauses.v
theories/ClauseHeap.v
theories/ClauseHoa.v
theories/ClauseSimp.v
theories/ClauseRun.v
theories/ClauseStep.v
theories/ClauseBind.v
theories/ClauseSpecs.v
theories/ClauseArgs.v
theories/ClauseFront.v
theories/ClauseEnd.v
theories/ClauseOne.v
theories/ClauseEnds.v
theories/ClauseHalt.v
theories/ClauseTotal.v
theories/ClauseCases.v
theories/Props_Clauses.v
theories/Truth.v
theories/TruthFacts.v
theories/TruthProof.v
theories/TruthEnd.v
theories/TruthCases.v
theories/Props_Truth.v
theories/ClauseApps.v
theories/Props_Ends.v
theories/Report.v
theories/ReportFacts.v
theories/ReportLabels.v
theories/ReportCases.v
theories/Props_Report.v
theories/ClauseNotation.v
theories/ClauseShown.v
theories/ClauseWritten.v
theories/Props_Written.v
theories/Orderly.v
theories/OrderlyFacts.v
theories/OrderlyProof.v
theories/OrderlyEnd.v
theories/ClauseSketch.v
theories/ClauseRead.v
theories/ClauseReadEnd.v
theories/Props_Orderly.v
theories/Props_Read.v
theories/Json.v
theories/JsonRead.v
theories/JsonFacts.v
theories/Utf8Valid.v
theories/Utf8Shown.v
theories/HeapText.v
theories/ErrText.v
theories/JsonApi.v
theories/Props_Json.v
theories/Roles.v
theories/RoleKinds.v
theories/RoleFacts.v
theories/Props_Roles.v
theories/Introduced.v
theories/ClauseNum.v
theories/Props_Numbers.v
theories/LateDigit.v
theories/LateFacts.v
theories/LateApi.v
theories/LateEnds.v
theories/Props_Late.v
theories/CaseFold.v
theories/CaseFacts.v
theories/CaseApi.v
theories/CaseText.v
theories/CaseAlike.v
theories/CaseTree.v
theories/CaseAst.v
theories/CaseTalk.v
theories/Props_Case.v
theories/LateWord.v
theories/Props_Word.v
theories/ErrCases.v
theories/Props_Wants.v
