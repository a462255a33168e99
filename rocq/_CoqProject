-Q theories Verif
theories/Base.v
theories/BaseFacts.v
theories/TargetModel.v
theories/TargetSpec.v
theories/TargetProofs.v
theories/Prop_Target.v
theories/LexerModel.v
theories/LexerSpec.v
theories/LexerProofs.v
theories/LexiconModel.v
theories/LexiconSpec.v
theories/GeneratorProofs.v
theories/LexiconProofs.v
theories/FastPathProofs.v
theories/ActionProofs.v
theories/CircularProofs.v
theories/LexerExamples.v
theories/LexerTheorems.v
theories/ParseProofs.v
theories/Prop_Lexer.v
theories/SkipSpec.v
theories/SkipProofs.v
theories/SkipLexiconProofs.v
theories/Prop_Skip.v
theories/ValidateModel.v
theories/ValidateSpec.v
theories/ValidateProofs.v
theories/ValidateRuleProofs.v
theories/Prop_Validate.v
theories/TreeModel.v
theories/TreeSpec.v
theories/TreeProofs.v
theories/TreeWalkProofs.v
theories/TreeRangeProofs.v
theories/BuildModel.v
theories/BuildProofs.v
theories/MachineProofs.v
theories/TreeDeleteProofs.v
theories/Prop_Tree.v
theories/MutableModel.v
theories/MutableSpec.v
theories/MutableProofs.v
theories/Prop_Edit.v
theories/DocumentModel.v
theories/DocumentSpec.v
theories/DocumentProofs.v
theories/HistoryProofs.v
theories/EventProofs.v
theories/UndoProofs.v
theories/Prop_Document.v
theories/CursorModel.v
theories/CursorSpec.v
theories/Prop_Cursor.v
theories/BlockModel.v
theories/BlockSpec.v
theories/BlockProofs.v
theories/Prop_Block.v
theories/ReplaceModel.v
theories/ReplaceSpec.v
theories/ReplaceProofs.v
theories/Prop_Replace.v
theories/StripModel.v
theories/Prop_Strip.v
theories/ObserverModel.v
theories/ObserverSpec.v
theories/ObserverProofs.v
theories/Prop_Observer.v
theories/UtilModel.v
theories/UtilSpec.v
theories/UtilProofs.v
theories/Prop_Util.v
theories/LockModel.v
theories/LockSpec.v
theories/LockProofs.v
theories/Prop_Lock.v
theories/DispatchModel.v
theories/Prop_Dispatch.v
theories/ChangesModel.v
theories/ChangesSpec.v
theories/ChangesProofs.v
theories/Prop_Changes.v
theories/RebuildModel.v
theories/RebuildSpec.v
theories/RestartProofs.v
theories/RebuildTreeProofs.v
theories/RebuildEventsProofs.v
theories/RebuildPrepareProofs.v
theories/RebuildStartProofs.v
theories/ReplaceTreeProofs.v
theories/RebuildProofs.v
theories/RebuildHistoryProofs.v
theories/ArrivalSpec.v
theories/ArrivalProofs.v
theories/LocalLexiconSpec.v
theories/LocalLexiconProofs.v
theories/Prop_Rebuild.v
theories/RegexModel.v
theories/RegexSpec.v
theories/RegexLangProofs.v
theories/RegexTupleProofs.v
theories/RegexBuildProofs.v
theories/Prop_Regex.v
theories/RuleValues.v
theories/RuleItemModel.v
theories/RuleItemSpec.v
theories/RuleItemProofs.v
theories/RuleItemRuleProofs.v
theories/RuleVariationSpec.v
theories/RuleVariationProofs.v
theories/Prop_RuleItem.v
theories/RuleHelperProofs.v
theories/Prop_RuleHelpers.v
theories/FormatModel.v
theories/FormatSpec.v
theories/FormatProofs.v
theories/Prop_Format.v
theories/StandardActionModel.v
theories/StandardActionSpec.v
theories/StandardActionProofs.v
theories/Prop_StandardAction.v
theories/RegistryModel.v
theories/RegistrySpec.v
theories/RegistryProofs.v
theories/Prop_Registry.v
theories/TransformModel.v
theories/TransformSpec.v
theories/TransformTextProofs.v
theories/TransformTreeProofs.v
theories/TransformUpdateModel.v
theories/TransformUpdateSpec.v
theories/TransformUpdateProofs.v
theories/Prop_Transform.v
theories/WorkModel.v
theories/WorkSpec.v
theories/WorkProofs.v
theories/Prop_Work.v
theories/QueryModel.v
theories/QuerySpec.v
theories/QueryProofs.v
theories/QueryNavModel.v
theories/QueryNavProofs.v
theories/QuerySliceProofs.v
theories/Prop_QueryNav.v
theories/QueryDeleteProofs.v
theories/Prop_Query.v
theories/IndentModel.v
theories/IndentSpec.v
theories/IndentProofs.v
theories/IndentMoreProofs.v
theories/IndentLoopProofs.v
theories/IndentAutoProofs.v
theories/IndentBackProofs.v
theories/Prop_Indent.v
theories/CssModel.v
theories/CssSpec.v
theories/CssProofs.v
theories/CssMatchProofs.v
theories/CssCascadeProofs.v
theories/CssOrderProofs.v
theories/Prop_Css.v
theories/CssReadModel.v
theories/CssReadSpec.v
theories/CssReadProofs.v
theories/CssSheetModel.v
theories/CssSheetSpec.v
theories/CssSheetProofs.v
theories/Prop_CssSheet.v
theories/CssColorModel.v
theories/CssColorSpec.v
theories/CssColorProofs.v
theories/Prop_CssColor.v
theories/TextFormatModel.v
theories/TextFormatSpec.v
theories/TextFormatProofs.v
theories/TextFormatWriteProofs.v
theories/TextFormatReadProofs.v
theories/Prop_TextFormat.v
theories/ThemeModel.v
theories/ThemeSpec.v
theories/ThemeProofs.v
theories/Prop_Theme.v
theories/ItemListModel.v
theories/ItemListSpec.v
theories/ItemListProofs.v
theories/Prop_ItemList.v
theories/DocioModel.v
theories/DocioProofs.v
theories/Prop_Docio.v
theories/JsonModel.v
theories/JsonSpec.v
theories/JsonStepProofs.v
theories/JsonRunProofs.v
theories/JsonDocProofs.v
theories/JsonTotalProofs.v
theories/JsonIntProofs.v
theories/Prop_Json.v
theories/CsvModel.v
theories/CsvSpec.v
theories/CsvRunProofs.v
theories/CsvTotalProofs.v
theories/Prop_Csv.v
theories/IniModel.v
theories/IniSpec.v
theories/IniTextProofs.v
theories/IniRunProofs.v
theories/IniLineProofs.v
theories/IniFileProofs.v
theories/IniWriteProofs.v
theories/IniTotalProofs.v
theories/Prop_Ini.v
theories/NumbersModel.v
theories/NumbersSpec.v
theories/NumbersRunProofs.v
theories/NumbersLevelProofs.v
theories/NumbersTextProofs.v
theories/NumbersEnglishProofs.v
theories/NumbersReadProofs.v
theories/NumbersTotalProofs.v
theories/NumbersEndProofs.v
theories/NumbersLongProofs.v
theories/Prop_Numbers.v
theories/AncestorModel.v
theories/AncestorSpec.v
theories/AncestorProofs.v
theories/Prop_Ancestor.v
theories/DocTokenModel.v
theories/DocTokenProofs.v
theories/Prop_DocToken.v
theories/CallbackModel.v
theories/CallbackProofs.v
theories/Prop_Callback.v
theories/CssLangModel.v
theories/CssTextSpec.v
theories/CssStepProofs.v
theories/CssCharProofs.v
theories/CssNameProofs.v
theories/CssSelectorProofs.v
theories/CssGroupProofs.v
theories/CssValueProofs.v
theories/CssWholeSheetProofs.v
theories/Prop_CssText.v
theories/RuleTreeModel.v
theories/RuleTreeSpec.v
theories/RuleTreeProofs.v
theories/RuleTreeListProofs.v
theories/IntrospectProofs.v
theories/Prop_RuleTree.v
theories/XmlModel.v
theories/XmlSpec.v
theories/XmlMatchProofs.v
theories/XmlStepProofs.v
theories/XmlAttrProofs.v
theories/XmlProofs.v
theories/XmlEncodingProofs.v
theories/Prop_Xml.v
theories/LexIdModel.v
theories/LexIdSpec.v
theories/LexIdProofs.v
theories/Prop_LexId.v
theories/SwitchModel.v
theories/SwitchSpec.v
theories/SwitchProofs.v
theories/Prop_Switch.v
theories/SwapModel.v
theories/SwapSpec.v
theories/SwapProofs.v
theories/Prop_Swap.v
theories/IndentLangModel.v
theories/IndentLangSpec.v
theories/IndentLangProofs.v
theories/Prop_IndentLang.v
theories/TrimModel.v
theories/TrimProofs.v
theories/Prop_Trim.v
theories/FthemesModel.v
theories/FthemesSpec.v
theories/FthemesProofs.v
theories/Prop_Fthemes.v
theories/TranslateModel.v
theories/TranslateSpec.v
theories/TranslateProofs.v
theories/Prop_Translate.v
theories/SchemeModel.v
theories/SchemeSpec.v
theories/SchemeProofs.v
theories/Prop_Scheme.v
theories/Prop_SchemeComplex.v
theories/TfcacheModel.v
theories/TfcacheSpec.v
theories/TfcacheProofs.v
theories/Prop_Tfcache.v
theories/PeekModel.v
theories/PeekSpec.v
theories/PeekProofs.v
theories/Prop_Peek.v
theories/ReportModel.v
theories/ReportSpec.v
theories/ReportProofs.v
theories/Prop_Report.v
theories/AliveModel.v
theories/AliveSpec.v
theories/AliveProofs.v
theories/Prop_Alive.v
theories/SaveModel.v
theories/SaveSpec.v
theories/SaveProofs.v
theories/Prop_Save.v
theories/RaiseModel.v
theories/RaiseProofs.v
theories/Prop_Raise.v
theories/ReactModel.v
theories/ReactSpec.v
theories/ReactProofs.v
theories/Prop_React.v
theories/OnceModel.v
theories/OnceProofs.v
theories/Prop_Once.v
