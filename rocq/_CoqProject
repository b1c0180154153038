-Q theories Verif
theories/Base.v
theories/BaseFacts.v
theories/Utf8.v
theories/StrOps.v
theories/Corr.v
theories/CharsetData.v
theories/Table.v
theories/Charset.v
theories/Position.v
theories/Converter.v
theories/Eliminator.v
theories/Reducer.v
theories/Dotted.v
theories/Ligature.v
theories/TrimMod.v
theories/Neologdn.v
theories/ModifierKind.v
theories/ChanomaModel.v
theories/PathModel.v
theories/Yaml.v
theories/File.v
theories/Configuration.v
theories/Cli.v
theories/Python.v
theories/ErrorMsg.v
theories/Csv.v
theories/PyProgram.v
theories/RustProgram.v
theories/Process.v
theories/Log.v
theories/Race.v
theories/YamlText.v
theories/YamlSpec.v
theories/YamlTextFacts.v
theories/YamlScalars.v
theories/YamlSound.v
theories/YamlComplete.v
theories/YamlData.v
theories/OutputTool.v
theories/Ending.v
theories/WriteOut.v
theories/ProcessSpec.v
theories/RaceSpec.v
theories/CsvSpec.v
theories/RepoTests.v
theories/CharSpec.v
theories/Spec.v
theories/ConverterFacts.v
theories/TableFacts.v
theories/SimpleFacts.v
theories/ConverterProps.v
theories/PropsConverter.v
theories/SimpleProps.v
theories/PropsSimple.v
theories/CorrFacts.v
theories/CorrProps.v
theories/PropsCorr.v
theories/CharsetFacts.v
theories/LigFacts.v
theories/PropsLig.v
theories/NeoFacts.v
theories/NeoProps.v
theories/CjkProps.v
theories/PropsCharset.v
theories/PropsNeo.v
theories/PropsPipeline.v
theories/FileSpec.v
theories/PathSpec.v
theories/PathProps.v
theories/FileProps.v
theories/YamlProps.v
theories/ConfigSpec.v
theories/ConfigProps.v
theories/PropsFile.v
theories/PropsConfig.v
theories/ParseSpec.v
theories/ParseProps.v
theories/PropsParse.v
theories/BinSpec.v
theories/BinProps.v
theories/PropsBin.v
theories/Utf8Props.v
theories/CsvProps.v
theories/ProcessProps.v
theories/PropsUtf8.v
theories/PropsTableFile.v
theories/NeoSpec.v
theories/NeoMore.v
theories/PropsNeoMore.v
theories/PropsErrors.v
theories/PropsDescribe.v
theories/PropsYamlGrammar.v
theories/PropsMore.v
theories/PropsCsv.v
theories/KindEq.v
theories/CommProps.v
theories/PropsComm.v
theories/PropsOrigin.v
theories/PropsEq.v
theories/PySpec.v
theories/PyProps.v
theories/PropsPy.v
theories/PropsBounds.v
theories/PropsProcess.v
theories/PropsOutput.v
theories/PropsLog.v
theories/PropsRace.v
theories/PropsImage.v
theories/PropsUndo.v
theories/PropsInterchange.v
theories/ExampleData.v
theories/PropsExamples.v
theories/PropsYamlText.v
theories/PropsYamlPrint.v
theories/PropsEnding.v
theories/RustSpec.v
theories/RustProps.v
theories/PropsRust.v
theories/RepeatSpec.v
theories/RepeatProps.v
theories/PropsRepeat.v
theories/PropsWrite.v
theories/PropsWriteMore.v
theories/SearchSpec.v
theories/SearchProps.v
theories/PropsSearch.v
theories/DebugText.v
theories/DebugSpec.v
theories/DebugProps.v
theories/PropsDebug.v
theories/Refusal.v
theories/RefusalSpec.v
theories/PropsRefusal.v
theories/EditSpec.v
theories/EditFacts.v
theories/EditLig.v
theories/PropsEdit.v
theories/WidthSpec.v
theories/PropsWidth.v
theories/RenameSpec.v
theories/PropsRename.v
theories/BackSpec.v
theories/BackFacts.v
theories/PropsBackwards.v
theories/LengthSpec.v
theories/LengthFacts.v
theories/PropsLength.v
theories/SuperfluousSpec.v
theories/PropsSuperfluous.v
theories/PropsSuperfluousNeo.v
theories/PanicSpec.v
theories/PanicPlace.v
theories/PanicFacts.v
theories/PropsPanic.v
theories/PropsPanicLoad.v
theories/SameSpec.v
theories/SameFacts.v
theories/SameNeo.v
theories/PropsSame.v
theories/PropsStream.v
theories/TableLawSpec.v
theories/PropsTableLaws.v
theories/ShortSpec.v
theories/Machines.v
theories/ShortFacts.v
theories/PropsShort.v
theories/CutSpec.v
theories/CutFacts.v
theories/PropsCut.v
theories/OrderSpec.v
theories/PropsOrderShows.v
theories/FrameSpec.v
theories/PropsFrame.v
theories/LosslessSpec.v
theories/PropsLossless.v
theories/ThreeSpec.v
theories/PropsThree.v
theories/ShellPipe.v
theories/ShellSpec.v
theories/PropsShell.v
theories/RowsSpec.v
theories/PropsRows.v
theories/PlacesSpec.v
theories/PropsPlaces.v
theories/PropsOrderMore.v
theories/EntriesSpec.v
theories/PropsEntries.v
theories/PropsRowsMore.v
theories/PropsLosslessMore.v
