-Q theories Verif

theories/Base.v
theories/Shell.v
theories/SpecShell.v
theories/ShellParser.v
theories/ShellProofs.v
theories/PropertiesShell.v
theories/Dict.v
theories/Algo.v
theories/StrUtils.v
theories/Preproc.v
theories/Abbrev.v
theories/AlgoProofs.v
theories/StrUtilsProofs.v
theories/SpecPreproc.v
theories/PreprocProofs.v
theories/AbbrevProofs.v
theories/PropertiesBasic.v
theories/Value.v
theories/Cli.v
theories/SpecCli.v
theories/CliProofs.v
theories/CliExamples.v
theories/CliMore.v
theories/PropertiesCli.v
theories/DictSource.v
theories/SpecDict.v
theories/DictSourceProofs.v
theories/PropertiesDict.v
theories/When.v
theories/SpecWhen.v
theories/WhenProofs.v
theories/WhenTests.v
theories/PropertiesWhen.v
theories/SchemeValidator.v
theories/SpecScheme.v
theories/SchemeNested.v
theories/SchemeProofs.v
theories/ArgparseSource.v
theories/PropertiesScheme.v
theories/Generation.v
theories/SpecGeneration.v
theories/GenerationProofs.v
theories/ShellCompleter.v
theories/ShellCompleterProofs.v
theories/PropertiesGeneration.v
theories/Defines.v
theories/SpecDefines.v
theories/DefinesProofs.v
theories/PropertiesDefines.v
theories/PyStr.v
theories/Helpers.v
theories/SpecHelpers.v
theories/HelpersProofs.v
theories/HelpersMore.v
theories/ShippedHelpers.v
theories/ShippedProofs.v
theories/PropertiesHelpers.v
theories/SpecGlob.v
theories/BashPatterns.v
theories/BashPatternsProofs.v
theories/BashUtils.v
theories/PatternMore.v
theories/PropertiesPatterns.v
theories/GlobMatch.v
theories/BashParser.v
theories/SpecParser.v
theories/ParserPaths.v
theories/ParserTables.v
theories/ParserProofs.v
theories/ParserProofs2.v
theories/ParserExact.v
theories/ParserCheck.v
theories/PropertiesParser.v
theories/Pattern.v
theories/SpecRegex.v
theories/SpecPattern.v
theories/PatternProofs.v
theories/RegexProofs.v
theories/FishFiles.v
theories/RegexMore.v
theories/SpecZshGlob.v
theories/ZshGlobProofs.v
theories/PatternErrors.v
theories/PropertiesRegex.v
theories/HelpParser.v
theories/SpecHelp.v
theories/HelpProofs.v
theories/HelpMore.v
theories/HelpLayout.v
theories/HelpConverter.v
theories/HelpConverterProofs.v
theories/PropertiesHelp.v
theories/FishUtils.v
theories/SpecFish.v
theories/FishProofs.v
theories/FishConditions.v
theories/FishRuntime.v
theories/SpecOffered.v
theories/SpecFishOffers.v
theories/FishEval.v
theories/FishOffered.v
theories/FishCommand.v
theories/FishOffers.v
theories/FishBlock.v
theories/PropertiesFish.v
theories/FishQuery.v
theories/SpecQuery.v
theories/FishQueryProofs.v
theories/FishQueryMain.v
theories/PropertiesQuery.v
theories/SpecValid.v
theories/SchemeForms.v
theories/SchemeKinds.v
theories/SchemeWritten.v
theories/SchemeDefinitions.v
theories/PropertiesValid.v
theories/SpecBash.v
theories/BashOffers.v
theories/BashStrings.v
theories/BashClusters.v
theories/BashArguments.v
theories/BashDispatch.v
theories/BashPositionals.v
theories/BashFunctions.v
theories/BashDashes.v
theories/BashMeaning.v
theories/BashWhole.v
theories/BashCheck.v
theories/PropertiesBash.v
theories/SpecAcross.v
theories/Across.v
theories/AcrossOptions.v
theories/AcrossCheck.v
theories/PropertiesAcross.v
theories/ZshUtils.v
theories/SpecZsh.v
theories/ZshReading.v
theories/ZshSpecs.v
theories/SpecZshFunction.v
theories/Zsh.v
theories/ZshFunction.v
theories/ZshOffers.v
theories/ZshPositionals.v
theories/PropertiesZsh.v
theories/ZshQuery.v
theories/SpecZshQuery.v
theories/ZshQueryProofs.v
theories/ZshQueryMain.v
theories/ZshConditions.v
theories/PropertiesZshQuery.v
theories/Choices.v
theories/SpecChoices.v
theories/ChoicesEmit.v
theories/ChoicesZsh.v
theories/ChoicesFish.v
theories/ChoicesMain.v
theories/PropertiesChoices.v
theories/YamlParser.v
theories/SpecYaml.v
theories/YamlProofs.v
theories/SpecYamlScalar.v
theories/YamlScalarProofs.v
theories/PropertiesYaml.v
theories/Ranges.v
theories/SpecRanges.v
theories/RangesProofs.v
theories/CommandPath.v
theories/SpecCommandPath.v
theories/CommandPathProofs.v
theories/PropertiesCompleters.v
theories/Combine.v
theories/SpecCombine.v
theories/CombineProofs.v
theories/PropertiesCombine.v
theories/KeyValue.v
theories/SpecKeyValue.v
theories/KeyValueProofs.v
theories/PropertiesKeyValue.v
theories/ZshScript.v
theories/SpecZshScript.v
theories/ZshScriptProofs.v
theories/PropertiesZshScript.v
theories/Capture.v
theories/SpecCapture.v
theories/CaptureProofs.v
theories/PropertiesCapture.v
theories/Argparse.v
theories/SpecArgparse.v
theories/ArgparseProofs.v
theories/PropertiesArgparse.v
theories/ZshStyles.v
theories/SpecZshStyles.v
theories/ZshStylesProofs.v
theories/PropertiesZshStyles.v
theories/SpecZshPattern.v
theories/ZshWrapper.v
theories/SpecZshWrapper.v
theories/ZshPatternProofs.v
theories/ZshWrapperProofs.v
theories/PropertiesZshWrapper.v
theories/ZshCode.v
theories/SpecZshCode.v
theories/ZshCodeProofs.v
theories/ZshLines.v
theories/ZshCodeMain.v
theories/PropertiesZshCode.v
theories/BashWords.v
theories/SpecBashWords.v
theories/BashWordsProofs.v
theories/PropertiesBashWords.v
theories/ValueList.v
theories/SpecValueList.v
theories/ValueListProofs.v
theories/PropertiesValueList.v
theories/YamlText.v
theories/SpecYamlText.v
theories/YamlTextProofs.v
theories/YamlTextMain.v
theories/YamlTextDocs.v
theories/YamlTextTree.v
theories/PropertiesYamlText.v
theories/HelpYaml.v
theories/HelpYamlProofs.v
theories/PropertiesHelpYaml.v
theories/Output.v
theories/SpecOutput.v
theories/OutputProofs.v
theories/PropertiesOutput.v
theories/Application.v
theories/SpecApplication.v
theories/ApplicationProofs.v
theories/PropertiesApplication.v
theories/PyLoader.v
theories/SpecPyLoader.v
theories/PyLoaderProofs.v
theories/PropertiesPyLoader.v
theories/Settings.v
theories/SpecSettings.v
theories/SettingsProofs.v
theories/PropertiesSettings.v
theories/SpecWraps.v
theories/Wraps.v
theories/WrapsProofs.v
theories/PropertiesWraps.v
theories/SpecPrefix.v
theories/PrefixCompleter.v
theories/PrefixProofs.v
theories/PropertiesPrefix.v
theories/SpecExec.v
theories/Exec.v
theories/ExecProofs.v
theories/PropertiesExec.v
theories/SpecKeyValueRun.v
theories/KeyValueRun.v
theories/KeyValueRunProofs.v
theories/PropertiesKeyValueRun.v
theories/FishKeyValue.v
theories/SpecFishKeyValue.v
theories/FishKeyValueProofs.v
theories/PropertiesFishKeyValue.v
theories/SpecNumbers.v
theories/Numbers.v
theories/NumbersProofs.v
theories/PropertiesNumbers.v
theories/FishCommandLine.v
theories/SpecFishCommandLine.v
theories/FishCommandLineProofs.v
theories/PropertiesFishCommandLine.v
theories/ZshKeyValueExec.v
theories/ZshKeyValueExecProofs.v
theories/PropertiesZshKeyValueExec.v
theories/FileCompleter.v
theories/SpecFileCompleter.v
theories/FileCompleterProofs.v
theories/PropertiesFileCompleter.v
theories/PrefixReply.v
theories/SpecPrefixReply.v
theories/PrefixReplyProofs.v
theories/PropertiesPrefixReply.v
theories/MimeFile.v
theories/SpecMimeFile.v
theories/MimeFileProofs.v
theories/PropertiesMimeFile.v
theories/SystemLists.v
theories/SpecSystemLists.v
theories/SystemListsProofs.v
theories/PropertiesSystemLists.v
theories/SpecImport.v
theories/ImportProofs.v
theories/PropertiesImport.v
theories/DateFormat.v
theories/SpecDateFormat.v
theories/DateFormatProofs.v
theories/PropertiesDateFormat.v
theories/ExportValidProofs.v
theories/PropertiesExportValid.v
theories/IpAddress.v
theories/SpecIpAddress.v
theories/PropertiesIpAddress.v
theories/Lang.v
theories/SpecLang.v
theories/PropertiesLang.v
theories/Manual.v
theories/SpecManual.v
theories/ManualProofs.v
theories/PropertiesManual.v
theories/UidList.v
theories/SpecUidList.v
theories/PropertiesUidList.v
theories/NameLists.v
theories/SpecNameLists.v
theories/PropertiesNameLists.v
theories/ErrorText.v
theories/SpecErrorText.v
theories/PropertiesErrorText.v
