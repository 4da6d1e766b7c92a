-Q theories Verif

theories/Base.v
theories/CInt.v
theories/Sequences.v
theories/SequencesProofs.v
theories/MatchAnalysis.v
theories/Spec_Match.v
theories/MatchAnalysisProofs.v
theories/Values.v
theories/ArgMatchers.v
theories/InvMatchers.v
theories/ActionSeq.v
theories/Spec_Actions.v
theories/ActionSeqProofs.v
theories/ReentProofs.v
theories/MoveOnly.v
theories/Spec_MoveOnly.v
theories/MoveOnlyProofs.v
theories/SortInv.v
theories/SortInvProofs.v
theories/SmartPtr.v
theories/Spec_Shared.v
theories/SmartPtrProofs.v
theories/VTable.v
theories/Proxy.v
theories/Spec_Layout.v
theories/VTableProofs.v
theories/CopyTableProofs.v
theories/ProxyProofs.v
theories/Ordinals.v
theories/OrdinalsProofs.v
theories/Spec_Args.v
theories/MatcherProofs.v
theories/Spec_Conditions.v
theories/ConditionProofs.v
theories/Spec_Double.v
theories/DoubleProofs.v
theories/ReturnSet.v
theories/Spec_ReturnSet.v
theories/ReturnSetProofs.v
theories/Events.v
theories/Spec_Events.v
theories/EventsProofs.v
theories/Expectation.v
theories/Spec_Verify.v
theories/ExpectationProofs.v
theories/Format.v
theories/Spec_Format.v
theories/FormatProofs.v
theories/DataMembers.v
theories/Spec_DataMembers.v
theories/DataMembersProofs.v
theories/MockCopy.v
theories/Spec_Race.v
theories/Race.v
theories/Spec_Threads.v
theories/RaceProofs.v
theories/P_Match.v
theories/P_Actions.v
theories/P_Args.v
theories/P_Layout.v
theories/P_Format.v
theories/P_Misc.v
theories/P_Members.v
theories/P_Copy.v
theories/P_Race.v
theories/P_Verify.v
theories/Syntax.v
theories/World.v
theories/WorldLogic.v
theories/WorldFuel.v
theories/WorldExamples.v
theories/WorldVerify.v
theories/Spec_World.v
theories/WorldRel.v
theories/WorldSimA.v
theories/WorldSimB.v
theories/WorldSimC.v
theories/WorldSimD.v
theories/WorldSimE.v
theories/WorldSimF.v
theories/WorldSim.v
theories/WorldDtor.v
theories/WorldType.v
theories/Spec_View.v
theories/SpecFacts.v
theories/SpecKept.v
theories/SpecCalls.v
theories/SpecLasting.v
theories/SpecSpy.v
theories/SpecArgs.v
theories/Spec_Alike.v
theories/SpecAlike.v
theories/SpecFrame.v
theories/SpecMocks.v
theories/SpecHistory.v
theories/Spec_Verification.v
theories/SpecVerify.v
theories/SpecStatement.v
theories/Spec_Play.v
theories/SpecPlay.v
theories/Capture.v
theories/Spec_Capture.v
theories/CaptureProofs.v
theories/WrapProofs.v
theories/P_World.v
theories/P_Calls.v
theories/P_Mocks.v
theories/P_Verification.v
theories/P_Play.v
theories/P_Capture.v
theories/Spec_Heard.v
theories/WorldHeard.v
theories/Adapters.v
theories/Spec_Adapters.v
theories/AdaptersProofs.v
theories/P_Adapters.v
theories/Reports.v
theories/Spec_Reports.v
theories/ReportsProofs.v
theories/P_Reports.v
theories/Convert.v
theories/Spec_Convert.v
theories/Spec_ConvertMixed.v
theories/ConvertProofs.v
theories/ConvertFloatProofs.v
theories/ConvertMixedProofs.v
theories/P_Convert.v
theories/Creators.v
theories/Spec_Creators.v
theories/CreatorsProofs.v
theories/P_Creators.v
theories/SeqVars.v
theories/Spec_SeqVars.v
theories/SeqVarsProofs.v
theories/P_SeqVars.v
theories/Listeners.v
theories/Spec_Listeners.v
theories/ListenersProofs.v
theories/P_Listeners.v
theories/Predicates.v
theories/Spec_Predicates.v
theories/PredicatesProofs.v
theories/P_Predicates.v
theories/Inherit.v
theories/Spec_Inherit.v
theories/InheritProofs.v
theories/P_Inherit.v
theories/P_Dynamic.v
theories/Finally.v
theories/FinallyProofs.v
theories/Settings.v
theories/SettingsProofs.v
theories/Align.v
theories/AlignProofs.v
theories/P_Platform.v
theories/Spec_Leaks.v
theories/LeakProofs.v
theories/WorldLeaks.v
theories/StmtTemps.v
theories/P_Leaks.v
theories/Spec_Rules.v
theories/RulesMore.v
theories/RulesInv.v
theories/RulesStmts.v
theories/RulesCalls.v
theories/RulesClosing.v
theories/RulesProofs.v
theories/RulesLeaks.v
theories/P_Rules.v
theories/OutOfMemory.v
theories/Spec_OutOfMemory.v
theories/OutOfMemoryProofs.v
theories/P_OutOfMemory.v
theories/Interrupted.v
theories/Spec_Interrupted.v
theories/InterruptedProofs.v
theories/InterruptedStmts.v
theories/InterruptedEnds.v
theories/P_Interrupted.v
theories/SourceFiles.v
theories/Spec_SourceFiles.v
theories/SourceFilesProofs.v
theories/Globals.v
theories/Spec_Globals.v
theories/GlobalsProofs.v
theories/GlobalsEnds.v
theories/P_SourceFiles.v
theories/CallConv.v
theories/Spec_CallConv.v
theories/CallConvProofs.v
theories/P_CallConv.v
theories/Overloads.v
theories/Spec_Overloads.v
theories/OverloadsProofs.v
theories/P_Overloads.v
theories/Departing.v
theories/Spec_Departing.v
theories/DepartingProofs.v
theories/P_Departing.v
theories/Making.v
theories/Spec_Making.v
theories/MakingProofs.v
theories/P_Making.v
theories/Rtti.v
theories/Spec_Rtti.v
theories/RttiProofs.v
theories/P_Rtti.v
theories/AtOnce.v
theories/Spec_AtOnce.v
theories/AtOnceProofs.v
theories/P_AtOnce.v
theories/Printing.v
theories/Spec_Printing.v
theories/PrintingProofs.v
theories/P_Printing.v
theories/Kept.v
theories/Spec_Kept.v
theories/KeptProofs.v
theories/KeptUses.v
theories/P_Kept.v
theories/Shown.v
theories/Spec_Shown.v
theories/ShownProofs.v
theories/P_Shown.v
theories/Thrown.v
theories/Spec_Thrown.v
theories/ThrownProofs.v
theories/P_Thrown.v
theories/Copied.v
theories/Spec_Copied.v
theories/CopiedProofs.v
theories/P_Copied.v
theories/Forms.v
theories/Spec_Forms.v
theories/FormsProofs.v
theories/P_Forms.v
theories/Asked.v
theories/Spec_Asked.v
theories/AskedProofs.v
theories/P_Asked.v
theories/Passing.v
theories/Spec_Passing.v
theories/PassingProofs.v
theories/P_Passing.v
theories/Compared.v
theories/Spec_Compared.v
theories/ComparedProofs.v
theories/P_Compared.v
theories/Within.v
theories/Spec_Within.v
theories/WithinProofs.v
theories/P_Within.v
theories/FnState.v
theories/Spec_FnState.v
theories/FnStateProofs.v
theories/P_FnState.v
theories/Reuse.v
theories/Spec_Reuse.v
theories/ReuseProofs.v
theories/P_Reuse.v
