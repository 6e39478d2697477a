-Q theories Verif
theories/Base.v
theories/BaseFacts.v
theories/LexerModel.v
theories/LexerSpec.v
theories/LexerProofs.v
theories/LexerProofs2.v
theories/IcuExample.v
theories/PropertiesLexer.v
theories/TreeModel.v
theories/TreeSpec.v
theories/TreeArena.v
theories/TreeMachine.v
theories/TreeRefine.v
theories/TreeRefine2.v
theories/TreeRefine3.v
theories/TreeGrammar.v
theories/TreeGrammar2.v
theories/TreeProofs.v
theories/TreeProofs2.v
theories/TreeProofs3.v
theories/DocSpec.v
theories/DocProofs.v
theories/TreeProofs4.v
theories/DocProofs2.v
theories/DocCheck.v
theories/PropertiesTree.v
theories/ValueModel.v
theories/CommandModel.v
theories/IsoModel.v
theories/FormatterModel.v
theories/FormatterAbs.v
theories/FormatterRefine.v
theories/FormatterRefine2.v
theories/FormatterSim.v
theories/FormatterActs.v
theories/FormatterSpec.v
theories/FormatterProofs.v
theories/FormatterProofs2.v
theories/FormatterProofs3.v
theories/FormatterProofs4.v
theories/FormatterProofs5.v
theories/FmtExample.v
theories/PropertiesFormatter.v
theories/IsoSpec.v
theories/IsoProofs.v
theories/IsoProofs2.v
theories/CommandProofs.v
theories/PropertiesIso.v
theories/RegistryModel.v
theories/RegistrySpec.v
theories/RegistryProofs.v
theories/PropertiesRegistry.v
theories/LocaliserModel.v
theories/LocaliserSpec.v
theories/LocaliserProofs.v
theories/PropertiesLocaliser.v
theories/ProviderModel.v
theories/ProviderSpec.v
theories/ProviderProofs.v
theories/ProviderProofs2.v
theories/ProviderProofs3.v
theories/ProviderProofs4.v
theories/ProviderProofs5.v
theories/ProviderProofs6.v
theories/ProviderProofs7.v
theories/ProviderProofs8.v
theories/ProviderSpec2.v
theories/ProviderProofs9.v
theories/PropertiesProvider.v
theories/PropertiesProvider2.v
theories/SystemModel.v
theories/SystemSpec.v
theories/SystemProofs.v
theories/PropertiesSystem.v
theories/PropertiesSystem2.v
theories/L10nData.v
theories/ErrorModel.v
theories/ErrorSpec.v
theories/ErrorProofs.v
theories/ErrorProofs2.v
theories/PropertiesErrors.v
theories/PropertiesErrors2.v
theories/OptionSpec.v
theories/OptionProofs.v
theories/PropertiesOptions.v
theories/ScriptModel.v
theories/ScriptSpec.v
theories/PropertiesScript.v
theories/SyncModel.v
theories/SyncSpec.v
theories/SyncProofs.v
theories/SyncProofs2.v
theories/SyncProofs3.v
theories/SyncProofs4.v
theories/SyncProofs5.v
theories/PropertiesSync.v
theories/DefectSpec.v
theories/DefectProofs.v
theories/DefectProofs2.v
theories/SyntaxErrorSpec.v
theories/SyntaxErrorProofs.v
theories/SyntaxErrorProofs2.v
theories/PropertiesDefect.v
theories/LocaliserSpec2.v
theories/LocaliserProofs2.v
theories/PropertiesLocaliser2.v
theories/Conformance.v
theories/ProviderSyncModel.v
theories/ProviderSyncSpec.v
theories/ProviderSyncProofs.v
theories/PropertiesProviderSync.v
theories/ShareModel.v
theories/ShareSpec.v
theories/ShareProofs.v
theories/PropertiesShare.v
theories/FeatureModel.v
theories/FeatureSpec.v
theories/FeatureProofs.v
theories/PropertiesFeature.v
theories/DisplaySpec.v
theories/DisplayProofs.v
theories/PropertiesDisplay.v
theories/OpenModel.v
theories/OpenSpec.v
theories/OpenProofs.v
theories/PropertiesOpen.v
theories/ErrorSpec2.v
theories/PropertiesErrors3.v
theories/OrderModel.v
theories/OrderSpec.v
theories/OrderProofs.v
theories/OrderProofs2.v
theories/PropertiesOrder.v
theories/FloatModel.v
theories/FloatSpec.v
theories/FloatProofs.v
theories/RatioProofs.v
theories/PropertiesFloat.v
theories/PropertiesOriginal.v
theories/PropertiesCommand.v
theories/SizeSpec.v
theories/SizeProofs.v
theories/PropertiesSize.v
theories/ArenaSpec.v
theories/ArenaProofs.v
theories/PropertiesArena.v
theories/UseSpec.v
theories/UseProofs.v
theories/PropertiesUse.v
theories/RowsSpec.v
theories/RowsProofs.v
theories/PropertiesRows.v
theories/SeparateSpec.v
theories/SeparateProofs.v
theories/PropertiesSeparate.v
theories/OnlySpec.v
theories/OnlyProofs.v
theories/OnlyProofs2.v
theories/OnlyProofs3.v
theories/PropertiesOnly.v
theories/PartsSpec.v
theories/PartsProofs.v
theories/PropertiesParts.v
theories/TokenSpec.v
theories/TokenProofs.v
theories/PropertiesToken.v
theories/MemorySpec.v
theories/MemoryProofs.v
theories/MemoryProofs2.v
theories/MemoryProofs3.v
theories/PropertiesMemory.v
theories/CallsModel.v
theories/CallsSpec.v
theories/CallsProofs.v
theories/CallsProofs2.v
theories/PropertiesCalls.v
theories/TwinSpec.v
theories/TwinProofs.v
theories/PropertiesTwin.v
theories/SettleSpec.v
theories/SettleProofs.v
theories/SettleProofs2.v
theories/PropertiesSettle.v
theories/VerbatimSpec.v
theories/VerbatimProofs.v
theories/PropertiesVerbatim.v
theories/LocCallsModel.v
theories/LocCallsSpec.v
theories/LocCallsProofs.v
theories/LocCallsProofs2.v
theories/PropertiesLocCalls.v
theories/QueryModel.v
theories/QuerySpec.v
theories/QueryProofs.v
theories/QueryProofs2.v
theories/QueryProofs3.v
theories/QueryProofs4.v
theories/QueryProofs5.v
theories/QueryProofs6.v
theories/PropertiesQuery.v
theories/AskModel.v
theories/AskSpec.v
theories/AskProofs.v
theories/AskProofs2.v
theories/PropertiesAsk.v
theories/AgreeProofs.v
theories/PropertiesAgree.v
theories/ReenterModel.v
theories/ReenterSpec.v
theories/ReenterProofs.v
theories/ReenterProofs2.v
theories/ReenterProofs3.v
theories/ReenterProofs4.v
theories/ReenterProofs5.v
theories/PropertiesReenter.v
theories/ReenterSyncModel.v
theories/ReenterSyncSpec.v
theories/ReenterSyncProofs.v
theories/ReenterSyncProofs2.v
theories/ReenterSyncProofs3.v
theories/PropertiesReenterSync.v
theories/GrowModel.v
theories/GrowSpec.v
theories/GrowProofs.v
theories/GrowProofs2.v
theories/GrowProofs3.v
theories/PropertiesGrow.v
theories/NoteSpec.v
theories/NoteProofs.v
theories/NoteProofs2.v
theories/PropertiesNote.v
theories/RegThreadsModel.v
theories/RegThreadsSpec.v
theories/RegThreadsProofs.v
theories/RegThreadsProofs2.v
theories/RegThreadsProofs3.v
theories/RegThreadsProofs4.v
theories/RegThreadsProofs5.v
theories/PropertiesRegThreads.v
theories/RegParseModel.v
theories/RegParseProofs.v
theories/LoopSpec.v
theories/LoopProofs.v
theories/PropertiesLoop.v
theories/FetchSpec.v
theories/FetchProofs.v
theories/PropertiesFetch.v
theories/WholeModel.v
theories/WholeSpec.v
theories/WholeProofs.v
theories/WholeProofs2.v
theories/WholeProofs3.v
theories/PropertiesWhole.v
theories/FreshSpec.v
theories/FreshProofs.v
theories/FreshProofs2.v
theories/FreshProofs3.v
theories/PropertiesFresh.v
theories/TornSpec.v
theories/TornProofs.v
theories/TornProofs2.v
theories/TornSpec2.v
theories/TornProofs3.v
theories/TornProofs4.v
theories/PropertiesTorn.v
theories/SumSpec.v
theories/SumProofs.v
theories/PropertiesSum.v
theories/InterfereSpec.v
theories/InterfereProofs.v
theories/InterfereSpec2.v
theories/InterfereProofs2.v
theories/InterfereProofs3.v
theories/PropertiesInterfere.v
theories/PropertiesInterfere2.v
theories/AllowedSpec.v
theories/AllowedProofs.v
theories/AllowedProofs2.v
theories/PropertiesAllowed.v
theories/MemoryThreads.v
theories/PropertiesMemory2.v
theories/MemoryThreads2.v
theories/RegParseThreads.v
theories/PropertiesRegParse.v
theories/RegFew.v
theories/RegFew2.v
theories/PropertiesRegFew.v
theories/PropertiesMemory3.v
theories/IsolationSpec.v
theories/IsolationProofs.v
theories/PropertiesIsolation.v
