-Q theories Verif
theories/Machine.v
theories/Blocking.v
theories/Awaitable.v
theories/Api.v
theories/Poll.v
theories/Equality.v
theories/Serde.v
theories/Spec.v
theories/TripleProofs.v
theories/ShapeProofs.v
theories/DispatchProofs.v
theories/TransitionProofs.v
theories/ApiProofs.v
theories/RouteProofs.v
theories/HistoryProofs.v
theories/TotalProofs.v
theories/ThreadProofs.v
theories/SameProofs.v
theories/HandleProofs.v
theories/DataProofs.v
theories/Sim.v
theories/FrontProofs.v
theories/HookProofs.v
theories/ViewProofs.v
theories/EqualityProofs.v
theories/SerdeProofs.v
theories/RestoreProofs.v
theories/OmitProofs.v
theories/MiscProofs.v
theories/PollProofs.v
theories/Examples.v
theories/MacroSyntax.v
theories/MacroVisit.v
theories/MacroAnalyze.v
theories/MacroLower.v
theories/MacroGen.v
theories/MacroSem.v
theories/MacroSpec.v
theories/MacroOrderSpec.v
theories/MacroAcceptSpec.v
theories/MacroBasics.v
theories/MacroExpandProofs.v
theories/MacroLowerProofs.v
theories/MacroCallProofs.v
theories/MacroMachineProofs.v
theories/MacroBehaviour.v
theories/MacroPathProofs.v
theories/MacroExamples.v
theories/MacroNameSpec.v
theories/MacroNameProofs.v
theories/MacroStorageProofs.v
theories/MacroConfigProofs.v
theories/MacroExtraProofs.v
theories/MacroCycleProofs.v
theories/MacroTypeProofs.v
theories/MacroArgProofs.v
theories/MacroOrderProofs.v
theories/MacroReorderProofs.v
theories/MacroAcceptProofs.v
theories/MacroPassProofs.v
theories/Props1.v
theories/Props2.v
theories/Props3.v
theories/Props4.v
theories/Props5.v
theories/Props6.v
theories/Props7.v
theories/Props8.v
theories/Props9.v
theories/Props10.v
theories/Props11.v
theories/Props12.v
theories/MacroSource.v
theories/MacroSourceProofs.v
theories/RepoExamples.v
theories/RepoExampleProofs.v
theories/RepoCalcProofs.v
theories/RepoSpec.v
theories/RepoUseProofs.v
theories/RepoCalcUse.v
theories/RepoCalcFacts.v
theories/RepoAgree.v
theories/Props13.v
theories/RepoTests.v
theories/RepoTestSpec.v
theories/RepoTestProofs.v
theories/RepoRingProofs.v
theories/RepoTestUse.v
theories/Props14.v
theories/DebugFmt.v
theories/DebugSpec.v
theories/DebugProofs.v
theories/Props15.v
theories/MacroScopeSpec.v
theories/MacroScopeProofs.v
theories/Props16.v
theories/AnySpec.v
theories/AnyProofs.v
theories/AnyExamples.v
theories/Props17.v
theories/RepoUi.v
theories/RepoUiSpec.v
theories/RepoUiProofs.v
theories/Props18.v
theories/SaveSpec.v
theories/SaveProofs.v
theories/RepoSave.v
theories/RepoSaveProofs.v
theories/IdleSpec.v
theories/IdleProofs.v
theories/Props19.v
theories/Props20.v
theories/Drops.v
theories/DropSpec.v
theories/DropProofs.v
theories/Props21.v
theories/SuperCalls.v
theories/SuperSpec.v
theories/SuperProofs.v
theories/Props22.v
theories/PullSpec.v
theories/PullProofs.v
theories/Props23.v
theories/MacroShuffleSpec.v
theories/MacroShuffleProofs.v
theories/KindSim.v
theories/MacroTypedSpec.v
theories/MacroTypedProofs.v
theories/Props24.v
theories/Props25.v
theories/ActiveSpec.v
theories/ActiveProofs.v
theories/Props26.v
theories/RefSpec.v
theories/RefProofs.v
theories/Props27.v
theories/LocalSpec.v
theories/LocalProofs.v
theories/Props28.v
theories/ConstSpec.v
theories/ConstProofs.v
theories/ConstMacroProofs.v
theories/Props29.v
theories/AgreeSpec.v
theories/AgreeProofs.v
theories/Props30.v
theories/RenameSpec.v
theories/RenameProofs.v
theories/RenameSim.v
theories/RenameMake.v
theories/Props31.v
theories/WorkSpec.v
theories/WorkProofs.v
theories/WorkCalls.v
theories/WorkTight.v
theories/Props32.v
theories/AddSpec.v
theories/SimIff.v
theories/AddProofs.v
theories/Props33.v
theories/BalanceSpec.v
theories/BalanceProofs.v
theories/Props34.v
theories/Life.v
theories/LifeSpec.v
theories/LifeProofs.v
theories/Props35.v
theories/PaceSpec.v
theories/PaceProofs.v
theories/Props36.v
theories/Tasks.v
theories/TaskSpec.v
theories/TaskProofs.v
theories/Props37.v
theories/NestSpec.v
theories/NestProofs.v
theories/Props38.v
theories/DiagramSpec.v
theories/DiagramProofs.v
theories/Props39.v
theories/QueueSpec.v
theories/QueueProofs.v
theories/Props40.v
theories/ProgressSpec.v
theories/ProgressProofs.v
theories/Props41.v
theories/AccountSpec.v
theories/AccountProofs.v
theories/JournalProofs.v
theories/Props42.v
theories/DropPoll.v
theories/DropPollSpec.v
theories/DropPollProofs.v
theories/Props43.v
theories/TypestatePoll.v
theories/TypestatePollSpec.v
theories/TypestatePollProofs.v
theories/Props44.v
theories/MacroPoll.v
theories/MacroPollSpec.v
theories/MacroPollProofs.v
theories/Props45.v
theories/AsyncSpec.v
theories/AsyncProofs.v
theories/Props46.v
theories/RegroupSpec.v
theories/RegroupProofs.v
theories/Props47.v
theories/PollSimSpec.v
theories/PollSimProofs.v
theories/Props48.v
theories/AddPollSpec.v
theories/AddPollProofs.v
theories/Props49.v
theories/RenamePollSpec.v
theories/RenamePollProofs.v
theories/Props50.v
theories/AsyncPollSpec.v
theories/AsyncPollProofs.v
theories/Props51.v
theories/EquivSpec.v
theories/EquivProofs.v
theories/EquivPollProofs.v
theories/Props52.v
theories/Props53.v
theories/PollInvSpec.v
theories/PollInvProofs.v
theories/Props54.v
