-Q theories Verif
theories/Base.v
theories/BaseFacts.v
theories/CharModel.v
theories/CharSpec.v
theories/CharProofs.v
theories/CharProps.v
theories/Utf8Model.v
theories/Utf8Spec.v
theories/Utf8Proofs.v
theories/Utf8Props.v
theories/TokenModel.v
theories/TokenSpec.v
theories/TokenProofs.v
theories/TokenProps.v
theories/SpellerBase.v
theories/SentenceModel.v
theories/SentenceSpec.v
theories/SentenceProofs.v
theories/SentenceProps.v
theories/GcCacheModel.v
theories/CacheModel.v
theories/HandleModel.v
theories/SpellModel.v
theories/SpellSpec.v
theories/CacheProofs.v
theories/SpellProofs.v
theories/SpellProps.v
theories/OptionProps.v
theories/AnalysisModel.v
theories/AnalysisSpec.v
theories/AnalysisProps.v
theories/AnalyzerBase.v
theories/HyphModel.v
theories/HyphSpec.v
theories/HyphProofs.v
theories/HyphProps.v
theories/AdapterModel.v
theories/TweaksModel.v
theories/TweaksSpec.v
theories/TweaksProofs.v
theories/TweaksProps.v
theories/SuggestModel.v
theories/SuggestSpec.v
theories/SuggestProofs.v
theories/SuggestProofs2.v
theories/SuggestEdits.v
theories/SuggestInv.v
theories/SuggestInv2.v
theories/SuggestOut.v
theories/SuggestHits.v
theories/SuggestProps.v
theories/SetupModel.v
theories/SetupSpec.v
theories/SetupProofs.v
theories/SetupTable.v
theories/SetupProps.v
theories/CompatModel.v
theories/CompatSpec.v
theories/CompatProps.v
theories/ParaModel.v
theories/RulesModel.v
theories/GrammarModel.v
theories/GrammarSpec.v
theories/ParaProofs.v
theories/ParaLoops.v
theories/RulesProofs.v
theories/AutocorrectProofs.v
theories/CapProofs.v
theories/GrammarCallSpec.v
theories/GrammarProofs.v
theories/GrammarProps.v
theories/RulesSpec.v
theories/RuleMeaning.v
theories/RulesFound.v
theories/RulesProps.v
theories/CapSpec.v
theories/CapMeaning.v
theories/CapProps.v
theories/FstModel.v
theories/FstSpec.v
theories/FstProofs.v
theories/FstPaths.v
theories/FstLookup.v
theories/FstProps.v
theories/FstFileModel.v
theories/FstFileProofs.v
theories/FstFileProps.v
theories/WfstModel.v
theories/WfstSpec.v
theories/WfstProofs.v
theories/WfstPaths.v
theories/WfstLookup.v
theories/WfstProps.v
theories/WfstReach.v
theories/VfstModel.v
theories/VfstSpec.v
theories/VfstProofs.v
theories/VfstSuggestProofs.v
theories/VfstProps.v
theories/FinModel.v
theories/FinSpec.v
theories/FinStructure.v
theories/FinTotal.v
theories/FinAttributes.v
theories/FinBaseform.v
theories/FinDebug.v
theories/FinAnalyzer.v
theories/FinExample.v
theories/FinProps.v
theories/FinWordSpec.v
theories/FinHyphens.v
theories/FinWordBase.v
theories/FinWordProps.v
theories/FinAttrSpec.v
theories/FinAttrItems.v
theories/FinAttrOrg.v
theories/FinAttrProps.v
theories/ToolModel.v
theories/ToolSpec.v
theories/ToolThreads.v
theories/ToolProofs.v
theories/ToolProps.v
theories/CompilerModel.v
theories/CompilerSpec.v
theories/CompilerSymbols.v
theories/CompilerReading.v
theories/CompilerLoading.v
theories/CompilerTable.v
theories/CompilerProofs.v
theories/CompilerProps.v
theories/CompilerWeights.v
theories/CompilerWeightProps.v
theories/CompilerTextModel.v
theories/CompilerTextSpec.v
theories/CompilerTextProofs.v
theories/CompilerTextProps.v
theories/CompilerSpellerSpec.v
theories/CompilerSpellerProofs.v
theories/CompilerSpellerProps.v
theories/HfstModel.v
theories/HfstSpec.v
theories/HfstProofs.v
theories/HfstProps.v
theories/HfstSuggestProofs.v
theories/HfstSuggestProps.v
theories/FinNumeralSpec.v
theories/FinNumeralProofs.v
theories/FinNumeralBase.v
theories/FinNumeralProps.v
theories/FinPlaceSpec.v
theories/FinPlaceProofs.v
theories/FinPlaceBase.v
theories/FinPlaceProps.v
theories/ZhfstLoaderModel.v
theories/ZhfstLoaderSpec.v
theories/ZhfstLoaderProofs.v
theories/ZhfstLoaderProps.v
theories/LifeModel.v
theories/LifeSpec.v
theories/LifeProofs.v
theories/LifeHistory.v
theories/LifeProps.v
theories/FinPartsSpec.v
theories/FinPartsProofs.v
theories/FinPartsProps.v
theories/PyModel.v
theories/PySpec.v
theories/PyProofs.v
theories/PyProps.v
theories/JavaModel.v
theories/JavaSpec.v
theories/JavaProofs.v
theories/JavaProps.v
theories/CsModel.v
theories/CsSpec.v
theories/CsProofs.v
theories/CsProps.v
theories/JavaDictModel.v
theories/JavaDictSpec.v
theories/JavaDictProps.v
theories/JsModel.v
theories/JsSpec.v
theories/JsProofs.v
theories/JsProps.v
theories/CsHyphModel.v
theories/CsHyphProps.v
theories/IfHyphModel.v
theories/IfHyphProps.v
theories/IfSpellModel.v
theories/IfSpellProps.v
theories/IfSuggestModel.v
theories/IfSuggestProps.v
theories/IfOptModel.v
theories/IfOptProps.v
theories/IfPatModel.v
theories/IfPatProps.v
