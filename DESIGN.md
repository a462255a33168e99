# Formal model of parce: design

Source: `/repo` (wbsoft/parce), read as text. Model and proofs: `/verif/rocq/theories`, Rocq/Coq 8.16.1, standard library only.

## Layout

* `Base.v`, `BaseFacts.v`: Python strings, lists and slices.
* `<Topic>Model.v`: model of the code, function by function, without proofs. Every definition cites the file and lines it
  models, and says where it is simpler than the code.
* `<Topic>Spec.v`: small specifications that do not use the model's helpers.
* `<Topic>Proofs.v`: lemmas.
* `Prop_<Topic>.v`: the property theorems with short proofs, `Print Assumptions`, and an example that meets the hypotheses.
* `seeded/LOG.jsonl`: wrong programs the theorems were tested against.

## Conventions

* A Python `str` is a list of code points (`list nat`); positions are `nat`, or `Z` where the code accepts negative numbers.
* A loop is structural recursion, or recursion on fuel that gives `None` when the fuel is used up, which no theorem counts as a
  normal result; the theorems say that the fuel the model takes is enough. Non-termination is stated as "for every amount of fuel".
* An exception is a value: usually the outer `None` of an option.
* Generators are functions from an index to an optional item, or lists where the code uses them up completely.
* A node of a tree is identified by its path, the child indices that lead to it from the root; other objects by a number.
* Code that runs in several threads is a transition system; one step is one access to shared data.
* What is outside of the code (regular expressions, the operating system, the user's functions) is a variable of a section. A
  theorem holds for all values of it that satisfy the hypotheses in the theorem.

## The model

| file | models | code |
|------|--------|------|
| `TargetModel.v` | Model of parce/target.py | target.py: 43, 48-59, 61-70, 72-83, 85-87, 89-96, 98-111, 103-110 |
| `LexerModel.v` | Model of parce/lexer.py: the event generator of a `Lexer` | lexer.py: 97, 113-123, 125-132, 134-172, 137-139, 141, 156-167 |
| `LexiconModel.v` | Model of parce/lexicon.py: the parse functions of a `Lexicon`, and of the actions in parce/ruleitem.py that turn a match into lexemes | lexer.py: 174-183; lexicon.py: 259-393, 259-437, 288-311, 313-367, 322-349, 350-357, 359-366, 386-393, 395-436, 397-418, 421-431; ruleitem.py: 391-393 |
| `ValidateModel.v` | Model of parce/validate.py: checking default targets, and validating a lexicon | validate.py: 46-88, 55-84, 99-110, 109, 114-177, 121-123, 134-177, 138-152, 144-145, 173-177 |
| `TreeModel.v` | Model of parce/tree.py: tokens, contexts, and the ways to search and walk through them | tree.py: 131-153, 185-201, 203-208, 226-268, 270-278, 280-288, 290-299, 308-318, 321-400, 391-394, 534-535, 538-551, 538-571, 553-560, 562-571, 574-620, 650-675, 677-686, 703-725, 727-748, 750-758, 760-768, 770-785, 787-796, 798-809, 811-834, 836-851, 883-906, 908-931, 979-1017, 1008-1014, 1019-1060, 1030-1045, 1052-1058, 1062-1069, 1073-1088; util.py: 784-798 |
| `BuildModel.v` | Model of `build_tree` in parce/treebuilder.py | treebuilder.py: 56-70, 63-69, 66-68, 67-68, 310-311 |
| `MutableModel.v` | Model of parce/mutablestring.py: a string that is edited in batches | document.py: 76-80; mutablestring.py: 72-76, 90-93, 95-105, 107-131, 120-127, 123-126, 133-140, 142-156, 166-177, 169-173, 187-194, 204-210, 229-238 |
| `DocumentModel.v` | Model of `Document` in parce/document.py: undo, redo, the modified flag and the events | document.py: 105, 288-306, 316-322, 329-337, 339-345, 347-356, 358-366, 368-381, 378-380, 383-400, 402-405, 407-409, 415-419, 429-437; mutablestring.py: 95-105, 120-127, 166-177 |
| `CursorModel.v` | Model of `AbstractDocument._update_cursors` in parce/document.py | document.py: 82-100, 87-100, 575-578 |
| `BlockModel.v` | Model of the blocks (lines) of parce/document.py | document.py: 116-120, 122-125, 127-137, 139-175, 177-190, 192-209, 704-707, 716-718, 720-732, 734-744, 746-756 |
| `ReplaceModel.v` | Model of AbstractDocument.replace and re_sub in parce/document.py: the operations they perform on the document (see MutableModel.v), which is outside an edit context | document.py: 210-228, 221-228, 248-255 |
| `StripModel.v` | Model of the selecting methods of `Cursor` in parce/document.py | document.py: 76-80, 470-472, 588-591, 593-596, 615-623, 630-637, 639-647, 649-660, 662-677, 679-683 |
| `ObserverModel.v` | Model of `Observable` in parce/util.py | util.py: 194-248, 238-248, 304-320, 322-334, 336-348, 350-357, 367-395 |
| `UtilModel.v` | Model of some functions of parce/util.py: fix_boundaries, merge_adjacent, get_bom_encoding, split_list, unroll | util.py: 646-671, 674-692, 716-734, 737-750, 753-777 |
| `LockModel.v` | Model of object_locker, caching_dict and file_cache in parce/util.py | util.py: 463-512, 556-601, 604-631 |
| `DispatchModel.v` | Model of `Dispatcher` in parce/util.py | util.py: 122-127, 129-150, 170-178, 180-185 |
| `ChangesModel.v` | Model of the class `Changes` in parce/treebuilderutil.py: pending changes merged into one | treebuilder.py: 207-216, 518-528; treebuilderutil.py: 43-58, 70-104, 106-108, 110-116 |
| `RebuildModel.v` | Model of the incremental tree builder: parce/treebuilderutil.py and the methods `build_new_tree`, `replace_tree` and `process` of `TreeBuilder` in parce/treebuilder.py | tree.py: 170-176, 280-288, 402-423, 727-748, 883-906, 1019-1060; treebuilder.py: 155-166, 218-372, 266-270, 275-372, 281-285, 305-371, 306-311, 316-321, 322-323, 322-371, 350-355, 374-474, 406-413, 418-438, 448-462, 471-472, 494-502, 541-586; treebuilderutil.py: 37, 119-180, 137-144, 146-180, 150-160, 171-180, 183-248, 206-237, 258-266, 269-295, 298-316, 319-338, 341-356; util.py: 784-798 |
| `RegexModel.v` | Model of parce/regex.py: `words2regexp` and `make_charclass` with all functions they use, and of the functions `words` and `chars` in parce/rule.py | regex.py: 31-48, 51-76, 79-102, 193-205, 207-222, 225-338, 301-317, 319-337, 341-473, 359-424, 431-439, 440-472; rule.py: 330-349, 352-367 |
| `RuleItemModel.v` | Model of parce/ruleitem.py: rule items, `evaluate`, `pre_evaluate`, rules and variations; and of the helpers in parce/rule.py | lexicon.py: 373-393; ruleitem.py: 450-462, 465-481, 473-481, 484-509, 512-535, 538-547, 568-580; util.py: 753-777 |
| `FormatModel.v` | Model of parce/formatter.py: which format each piece of a text gets, and of parce/out/html.py | formatter.py: 55-86, 147-156, 158-261, 169-224, 204-224, 206-224, 228-242, 245-255, 263-280; html.py: 116-119, 158-160; tree.py: 1019-1060 |
| `StandardActionModel.v` | Model of parce/standardaction.py: the standard actions | standardaction.py: 106-115, 117-120, 122-123, 125-129, 131-134, 136-140 |
| `RegistryModel.v` | Model of parce/registry.py: the registry of language definitions | registry.py: 51-63, 90, 114-185, 187-227, 229-253, 255-266, 268-307, 309-314 |
| `TransformModel.v` | Model of the class `Transformer` in parce/transform.py: transforming a text, transforming a tree with the cache of results, and removing results from the cache | transform.py: 31-51, 54-80, 195, 197-295, 210-213, 215-236, 238-251, 262-264, 264-288, 265-288, 266-269, 270-279, 297-348, 312-348, 313-337, 321-323, 360-376, 392-401, 426-433, 509-534; tree.py: 1073-1088 |
| `TransformUpdateModel.v` | Model of an update of the tree by a tree builder that a Transformer is connected to: the "invalidate" event of `TreeBuilder.replace_tree` and the handler `Transformer.invalidate_node` | transform.py: 392-401; treebuilder.py: 374-474 |
| `WorkModel.v` | Model of how threads work together in parce/work.py (Worker, BackgroundWorker) and parce/treebuilder.py (TreeBuilder.rebuild, add_changes, get_changes, process) | treebuilder.py: 215, 325-328, 328, 526, 527, 541-585, 562, 564, 567, 570, 575, 583, 584; treebuilderutil.py: 106-108; work.py: 49-52, 108-127, 118-127, 133-145, 143, 144, 147-158, 154, 158, 175-220, 188, 191, 195-212, 217, 222-231, 244-270, 337-339 |
| `QueryModel.v` | Model of parce/query.py: a query over the nodes of one tree `root`, where a node is its path | query.py: 258-260, 283-299, 301-353, 331-340, 346-353, 356-374, 376-381, 383-407, 386-403, 409-416, 418-442, 421-437, 444-454, 456-460, 462-474, 504-518, 520-530, 546-558, 560-572, 591-597, 599-605, 612-622, 612-702, 624-638, 640-655, 657-676, 678-689, 691-702; tree.py: 185-201, 226-268, 445-446, 727-748 |
| `QueryNavModel.v` | Model of the queries that go to the tokens before and after nodes, and of slices (parce/query.py) | query.py: 364-368, 476-490, 492-502, 574-589; tree.py: 203-208, 270-278, 280-299, 727-748; util.py: 780-793 |
| `IndentModel.v` | Model of parce/indent.py: what `AbstractIndenter` does with the lines of a document | document.py: 102-106, 470-472, 584-586; indent.py: 87-100, 104-121, 123-135, 151-200, 164-200, 169-172, 175, 194, 202-231, 212-228, 236-239, 245-252, 262-267, 269-308, 276-299, 281-283, 304-305; mutablestring.py: 129-131, 208-210 |
| `CssModel.v` | Model of the matching and cascading half of /repo/parce/css.py: the elements (lines 429-735), the specificity of a rule (1362-1383), the order of the rules in a style sheet (329-345) and the combined properties (375-411) | css.py: 121-150, 329-345, 336-341, 380-384, 391-411, 497-507, 525-558, 559-561, 563-604, 573-604, 574-600, 606-667, 624-651, 670-735, 703-705, 723-728, 730-734, 900-918, 1362-1383, 1374-1382 |
| `CssReadModel.v` | Model of parts of `CssTransform` in /repo/parce/css.py: the prelude of a rule (857-898), strings (1109-1119, 1184-1205), and of `quote_if_needed` and `escape` (1395-1405) | css.py: 857-898, 873-888, 1109-1119, 1195-1205, 1395-1400, 1403-1405 |
| `CssSheetModel.v` | Model of the style sheets of /repo/parce/css.py with their files: `from_css` (217-275), `filter_conditions` (283-310), `__add__` (277-281) and `filenames` (312-327) | css.py: 217-275, 238-240, 253-273, 277-281, 283-310, 312-327 |
| `CssColorModel.v` | Model of the colors of /repo/parce/css.py: `get_hex_color` (1224-1258), `get_named_color` (1260-1277), `get_rgba_color` (1279-1290), `get_number_value` (1292-1304) and `color2hex` (1386-1392) | css.py: 101-106, 1224-1258, 1260-1277, 1279-1290, 1292-1304, 1386-1392 |
| `TextFormatModel.v` | Model of `TextFormat` in /repo/parce/theme.py (191-528): adding and subtracting formats, reading them from css properties and writing them as such | theme.py: 233-249, 258-260, 266-290, 269-282, 292-297, 299-305, 307-313, 315-322, 324-333, 335-357, 359-364, 366-371, 377-382, 384-389, 391-399, 401-406, 408-412, 414-430, 432-437, 439-450, 452-460, 462-475, 477-483, 485-490, 492-500, 502-528 |
| `ThemeModel.v` | Model of the class `Theme` of /repo/parce/theme.py (103-188) and `css_class` (531-544); the results are cached there, and reading the style sheet is left out | css.py: 454-456, 677-688; standardaction.py: 122-123; theme.py: 146-182, 184-188, 531-544 |
| `ItemListModel.v` | Model of the methods of `ItemList` in parce/transform.py, the list that is given to the methods of a Transform | transform.py: 31-52, 92-104, 106-129, 116-117, 119-129, 131-148 |
| `DocioModel.v` | Model of parce/docio.py: from bytes to text and back | docio.py: 52-53, 160-194, 217-307, 310-327, 330-342 |
| `JsonModel.v` | Model of parce/lang/json.py: the language `Json` and the transform `JsonTransform` | json.py: 43-47, 49-58, 62-102, 66-72, 71, 72, 77, 100, 103-151, 105-107, 109-121, 114-116, 123-124, 126-129, 131-133, 135-136, 138-151, 141-150 |
| `CsvModel.v` | Model of parce/lang/csv.py: the language `Csv` and the transform `CsvTransform` | csv.py: 39-57, 47, 48, 49, 50, 52, 55, 56, 60-106, 75-77, 79-90, 86-90, 92-106, 98-100, 101-102, 103-106; util.py: 737-750 |
| `IniModel.v` | Model of parce/lang/ini.py: the language `Ini` and the transform `IniTransform` | ini.py: 39-42, 47, 53, 58, 63-67, 65, 66, 72-73, 78-148, 86-112, 94-108, 109-112, 114-118, 126-146, 131, 132-137, 138-145; language.py: 55-57 |
| `NumbersModel.v` | Model of parce/lang/numbers.py: the languages `English`, `Nederlands`, `Deutsch` and `Français`, and their transforms | numbers.py: 100-152, 154, 157-162, 165-205, 208-245, 216-218, 220-222, 224-226, 228-239, 248-268, 262-267, 296, 297, 300-317, 312-314, 344, 347-369, 364-366, 401-403, 406-431, 422-427, 461-463 |
| `AncestorModel.v` | Model of parce/tree.py, nodes above other nodes and ranges between two tokens | tree.py: 155-160, 178-183, 185-201, 203-208, 210-220, 222-224, 446-455, 456-460, 464-489, 480-488, 491-500, 960-974 |
| `DocTokenModel.v` | Model of the tokens at a position and in a range of a document: parce/work.py, parce/document.py | document.py: 515-523, 525-536; work.py: 457-476 |
| `CallbackModel.v` | Model of the callbacks given to `Worker.get_root` (parce/work.py), on top of the threads of WorkModel | util.py: 319, 367-396; work.py: 189, 190-192, 244-270, 266 |
| `CssLangModel.v` | Model of the language `Css` in parce/lang/css.py (45-298) and of `CssTransform` in parce/css.py (843-1223) | action.py: 145-151; css.py: 45, 46-49, 51, 79, 92, 151, 163, 185, 250-252, 843-855, 843-1122, 857-898, 900-918, 920-925, 931-938, 940-952, 954-958, 980-1000, 1002-1014, 1020-1041, 1043-1049, 1067-1087, 1089-1094, 1096-1107, 1109-1119, 1125-1164, 1153, 1166-1175, 1184-1193, 1207-1223, 1308-1352; language.py: 55-57; rule.py: 463-497 |
| `RuleTreeModel.v` | Model of `variations_tree` (parce/ruleitem.py) and of parce/introspect.py: the decision tree of a rule, the lexicons of a language, and the actions and languages that its rules can give | introspect.py: 48-58, 61-75, 63-72, 78-84, 87-95; lexicon.py: 206-217, 229-237; ruleitem.py: 550-565, 558-563 |
| `XmlModel.v` | Model of the language `Xml` in parce/lang/xml.py (38-154, 231-239), with the patterns for comments in parce/language.py (46-58) | language.py: 55, 56, 57; xml.py: 38-45, 46, 73, 90, 91, 93, 96, 97, 97-101, 116, 140, 231-239 |
| `LexIdModel.v` | Getting lexicons and derived lexicons (parce/lexicon.py), and building their parse functions | lexicon.py: 101-103, 121-146, 246-258 |
| `SwitchModel.v` | Switches (parce/util.py) as attributes of a class, and looking for an encoding in a text (parce/docio.py) | docio.py: 195-204; util.py: 398-460 |
| `SwapModel.v` | Model of a Worker whose Transformer is exchanged (parce/work.py) | work.py: 108-125, 131-145, 168-217, 190-207, 269-290 |
| `IndentLangModel.v` | Model of `Indenter` in parce/indent.py (316-372), which uses the indenters of the languages, and of those of CSS and LilyPond | css.py: 301-309; indent.py: 332-349, 337-349, 359-372; lilypond.py: 649-663; util.py: 814-820 |
| `TrimModel.v` | Model of `AbstractDocument.trim` in parce/document.py: the operations it performs on the document (see MutableModel.v and ReplaceModel.v) | document.py: 230-255, 257-259, 259 |
| `FthemesModel.v` | Model of the themes of a `Formatter` in parce/formatter.py | formatter.py: 55-86, 109-126, 128-144, 352-358, 369-398, 400-410, 412-414, 416-420 |
| `TranslateModel.v` | Model of `AbstractDocument.translate` in parce/document.py: the operations it performs on the document (see MutableModel.v and ReplaceModel.v) | document.py: 230-255, 261-272 |
| `SchemeModel.v` | Model of the numbers in parce/lang/scheme.py: how the text of a number is lexed, and `scheme_number` | scheme.py: 53, 83, 85-98, 117-133, 120, 133, 213-231, 233-266, 233-272, 249-263, 274-304, 306-326, 328-353, 356-384; util.py: 737-750 |
| `TfcacheModel.v` | Model of how a Transformer finds the transform for a language, with any number of threads: transform.py and the `caching_dict` of util.py | transform.py: 436-451, 453-470; util.py: 556-601, 594-600, 796-820 |
| `PeekModel.v` | Model of the tree that is shown to `TreeBuilder.peek` while the new tree is being built: treebuilder.py:280-371, for a build without restarts and before the old tail is found; and treebuilderutil.py:258-266 | treebuilder.py: 280-371, 303, 305-312, 359-366; treebuilderutil.py: 258-266 |
| `ReportModel.v` | Model of the range that a tree builder reports after processing changes, treebuilder.py:530-586 `process`: when new changes are there after the tree was replaced, the tree is built again, and the ranges are put together | treebuilder.py: 327-330, 474, 530-586, 559-580, 571-572; treebuilderutil.py: 43-58, 110-116 |
| `AliveModel.v` | Model of how a document knows its cursors: the WeakSet `_cursors` in parce/document.py, to which a Cursor adds itself | document.py: 82-100, 451, 477-482, 575-578, 598-614 |
| `SaveModel.v` | Model of `DocumentIOMixin.save` in parce/docio.py, step by step: at every step the program may be stopped, and some steps can raise an exception | docio.py: 125-132, 169, 207-223 |
| `RaiseModel.v` | Model of an edit of a Document when observers raise exceptions: `Observable.emit` (util.py:367-395) does not catch them | document.py: 339-345, 368-381, 378-380, 407-409; mutablestring.py: 95-105, 120-127, 166-177; util.py: 367-395 |
| `ReactModel.v` | Model of a Document with an observer of "text_change" that edits the document itself (for example to complete what is typed) | document.py: 368-381, 407-413, 429-437; mutablestring.py: 95-105, 120-127, 166-177 |
| `OnceModel.v` | Model of emitting one event by an `Observable` (parce/util.py) when handlers raise exceptions or emit the same event themselves | util.py: 194-248, 367-395, 382-389 |

### External things, as variables in the model

* `c_match`, `search`: the regular expression engine: which rule matches where. No assumption beyond those in the theorems
  (for example that a match starts at or after the given position). In `RegexModel` a pattern is a text; what it matches is defined in
  `RegexSpec` by a reader of the subset of the regular expression syntax that the code generates.
* `parse`, `evts`, `sublex`: in the lexer and the tree builder, the items a lexicon yields; the parse functions themselves are modelled in
  `LexiconModel` and the two are connected (C03, C04, C14_lexicons).
* `order`: the order in which Python iterates over a set of strings (any permutation).
* `mro`, `class_dict`, `alive`, `effect`: the classes, weak references and handlers of the user of `Dispatcher` and `Observable`.
* `peq`, `escape_str`, `other`: equality and other functions of the values in rules.
* `lang_of`, `lang_eqb`, `fmt_eqb`: the language of a lexicon, equality of languages and formats.
* `lower`, `fnmatch`, `import`: `str.lower`, file name patterns, importing a lexicon.
* `codecs` (`known`, `enc`, `dec`, `dec_ignore`), `io_get`, `find_encoding`, `default_encoding`: the codecs of Python and the `IO` handler of a language; no encoding error handler other than strict.
* `udigit`, `uword`, `uspace`: what `\d`, `\w` and `\s` match outside ASCII; `float_of`, `is_integer`: `float()` and `float.is_integer`. The regular expressions of
  json.py, csv.py, ini.py, numbers.py and xml.py are written out as functions in `JsonModel`, `CsvModel`, `IniModel`, `NumbersModel` and `XmlModel`.
* `xenv`: what `\s`, `\w` and the two character classes of XML names match from 128 on, with and without ignoring case; `dtd`: the lexicons of `Dtd` and the internal DTD.
* `umatch`, `ulower`: which characters from 128 match a letter of a pattern when case does not matter, and their `str.lower` (in `NumbersModel`, with `uspace`).
* `marks`: the matches of the patterns for e-mail addresses, URLs and words like TODO in the comments of INI files; `odd`: `chr(int(s, 16))` for strings that are not four hexadecimal digits.
* `re.escape` is that of Python 3.7 and later.
* `aeq`, `ieq`: `==` (with equal hashes) of arguments of lexicons and of instances with switches; only that it is an equivalence is assumed in the theorems.

### Not modelled

The language definitions in `parce/lang` (but for json.py, csv.py, ini.py, css.py, numbers.py and the part of xml.py without the lexicons of DTDs), the themes (`themes/`, reading theme files, the caches of `Theme`, `TokenFormatter` factories) and of `css.py` the functions that read values from the token tree (but for preludes, strings and colors), `LxmlElement` and `Style.select_class`, the gui parts (none in
this repository), the files themselves and the search for encodings in html.py and css.py (decoding and encoding are modelled), of `validate.py` the warnings, messages and the functions for whole languages and transforms, `ruleitem` reprs, `Document`'s
`FormatContext`, caching of formats in the formatter, garbage collection (a weakly referenced object is alive or not as an oracle says).
The language specific indenters and the choice between them (`Indenter`): indenting is proved for any events.
Within modelled files: docstrings, `repr`, `dump` and debugging helpers.

## The properties

Status `proved`: the statement in properties.jsonl holds, for the model. Status `partial`: it is false for the code in some cases (a theorem with suffix `_refuted` gives one) or proved in part (suffix `_partial`); the note says what is missing.

**C01 Merged targets act like the separate targets.** TargetFactory as a pair of pop and push; applying the merged target is compared with applying the parts one by one, by induction. *proved*: `C01_merged_target_follows_sequence`, `C01_target_reported_iff_pending`, `C01_rule_target_follows_items` (`Prop_Target.v`).

**C02 Event targets replay to the lexer's own state, root never left.** Invariant over the steps of the event loop, which relates the pending target, the stack a reader of the events has and the stack of the lexer. *proved*: `C02_events_replay_to_lexer_state` (`Prop_Lexer.v`).

**C03 Lexemes are non-empty, in order, non-overlapping slices of the text.** Invariant on positions; the parse functions of a lexicon are proved to yield ordered slices. *proved*: `C03_lexemes_are_ordered_slices` (`Prop_Lexer.v`).

**C04 Default action makes lexing lossless.** Invariant: the text of the lexemes so far is the text up to the position. *proved*: `C04_default_action_lossless` (`Prop_Lexer.v`). no rule may match the empty string (otherwise the circle detection can skip a character)

**C05 Circular default targets do not hang the lexer.** Two languages whose configuration repeats, so that no amount of fuel suffices; a bound on the rounds under conditions. *partial*: `C05_default_target_leaving_root_refuted`, `C05_bounded_circle_refuted`, `C05_circle_ends_partial` (`Prop_Lexer.v`). the claim as stated is false for the code (two counterexamples); proved under the conditions listed in the partial theorem

**C06 Literal fast path equals the regular-expression path.** Induction over the text: the literal search against the general loop. *proved*: `C06_literal_fast_path` (`Prop_Lexer.v`).

**C07 The tree contains exactly the lexed tokens in their lexicon contexts.** The tree is compared with the word of enter, leaf and exit symbols of the events. *proved*: `C07_tree_contains_the_lexemes`, `C07_word_determines_tree` (`Prop_Tree.v`).

**C08 Finding the token at a position.** Bisection lemma and induction over the depth. *proved*: `C08_find_token`, `C08_trails_lead_to_the_token` (`Prop_Tree.v`).

**C09 find_context returns the innermost context at a position.** Bisection lemma and induction over the depth. *proved*: `C09_find_context_innermost` (`Prop_Tree.v`).

**C10 A range of the tree yields exactly the tokens overlapping it.** Slices of the two trails; tokens of a range against a filter of all tokens. *partial*: `C10_range_in_gap_refuted`, `C10_range_tokens_partial` (`Prop_Tree.v`). false for a range in a gap between two contexts (counterexample); proved whenever some token overlaps the range

**C11 Walking tokens forward and backward.** The walks as coded, with an explicit stack, simulate the recursive order of tokens. *proved*: `C11_forward_backward`, `C11_forward_backward_upto`, `C11_tokens_and_parent_index`, `C11_next_token_visits_all` (`Prop_Tree.v`).

**C12 Group membership of tokens.** Induction over the groups of a context. *proved*: `C12_get_group` (`Prop_Tree.v`).

**C13 Copying a context.** Simulation of the copy loop. *proved*: `C13_copy_is_equal` (`Prop_Tree.v`).

**C14 Incremental update equals parsing from scratch.** The incremental builder (lookup of the restart point, lexing until tokens match, replacing) keeps the invariant that the tree is that of the text; for histories by induction. Locality of the language is a hypothesis, proved for lexicons from a condition on the expressions. *proved*: `C14_history`, `C14_lexicons`, `C14_initial` (`Prop_Rebuild.v`). For every history of calls of rebuild without changes arriving meanwhile. The locality hypothesis (local_parse) is proved for lexicons from a condition on the regular expression engine: no lookbehind, at most K <= 9 characters of lookahead, no empty matches, and actions that keep the start of the match (C15 shows that these are needed).

**C15 Incremental update equals parsing from scratch for any pattern.** A concrete language, by computation. *partial*: `C15_refuted`, `C15_skip_refuted`, `C14_lexicons` (`Prop_Rebuild.v`). Refuted: a quote typed 15 characters after an unclosed quote does not give one string token, as only ten tokens are looked back (treebuilderutil.py:150-160). Also refuted with purely local patterns where bygroup() skips the first group. What holds is C14.

**C16 Merging pending edits keeps the changed region covered.** By computation; invariant over the additions for the positive part. *partial*: `C16_refuted`, `C16_partial`, `C16_new_position` (`Prop_Changes.v`). Refuted: an edit before the pending region never lowers its start, because start is overwritten by the maximum before the minimum is taken (treebuilderutil.py:98, 102). Proved when no edit starts before the first pending one.

**C17 The text change notification describes the edit.** List algebra of splices. *proved*: `C17_notification_describes_the_edit`, `C17_notification_of_a_single_edit`, `C17_every_change_is_notified` (`Prop_Document.v`, `Prop_Edit.v`).

**C18 A batch of edits applies all edits to the original text.** Sorting and merging of the edits against a description per position. *proved*: `C18_batch_applies_all_edits`, `C18_useless_edits_do_not_matter`, `C18_single_edit` (`Prop_Edit.v`).

**C19 An exception inside an edit context discards the batch.** Invariant of the edit context. *proved*: `C19_exception_discards_the_batch` (`Prop_Edit.v`).

**C20 Rejected overlapping edits do no lasting harm.** By computation; invariant for the positive part. *partial*: `C20_rejected_batch_refuted`, `C20_rejected_batch_partial` (`Prop_Edit.v`). The code violates the property: after a batch is rejected its edits stay pending, every later batch is rejected too and the text can never change again. Proved: the rejected batch itself leaves the text unchanged.

**C21 Overlapping edits are rejected.** By computation; cuts are found by the check. *partial*: `C21_overlap_at_same_start_refuted`, `C21_overlap_rejected_partial` (`Prop_Edit.v`). The code violates the property: two overlapping edits that start at the same position are merged silently. Proved: an edit that starts strictly inside the piece another one replaces is rejected.

**C22 Undo restores the previous text.** Reversing changes. *proved*: `C22_undo_restores_the_text`, `C22_reversed_changes_lead_back` (`Prop_Document.v`).

**C23 Undo and redo walk a linear history.** Refinement to a list of texts with an index. *partial*: `C23_linear_history_refuted`, `C23_linear_history_partial`, `C23_single_edits_change_the_text`, `C24_modified_follows_the_history` (`Prop_Document.v`). The code violates the property in one corner: a batch of edits that as a whole changes nothing can be undone, but is then forgotten and cannot be redone. Proved: the full property when every batch changes the text; and for all sequences (in C24_modified_follows_the_history) that the only deviation is forgetting a step between two equal texts.

**C24 The modified flag follows the saved text.** Refinement. *proved*: `C24_modified_follows_the_history` (`Prop_Document.v`).

**C25 Disabling undo recording keeps undo sound.** By computation. *partial*: `C25_undo_disabled_refuted`, `C25_clear_makes_undo_sound_partial` (`Prop_Document.v`). The code violates the property: with an edit made while recording was disabled, undo gives a text the document never had. Proved: it holds again after clear_undo_redo().

**C26 Cursors follow a single edit.** Case analysis per edit. *proved*: `C26_cursors_follow_an_edit` (`Prop_Cursor.v`). Cursor.update and the update of all cursors of a document for one change; see DESIGN.md for what is modelled

**C27 Cursors follow a batch of edits.** By computation; induction over the batch. *partial*: `C27_batch_refuted`, `C27_untouched_cursors_partial` (`Prop_Cursor.v`). False as stated: C27_batch_refuted gives batches after which a cursor is in the wrong place although no edit touches it. Proved: when no edit of the batch makes the text shorter, a cursor behind all replaced pieces moves with the text and a selection before all of them stays.

**C28 Blocks partition the document.** Characterisation of str.find; induction over lines. *proved*: `C28_blocks_are_the_lines`, `C28_every_text_has_lines`, `C28_overlapping_separator_refuted` (`Prop_Block.v`). for separators that cannot overlap themselves, as the quantifier says; C28_overlapping_separator_refuted shows why (separator 'aa')

**C29 Blocks by number.** Induction over blocks. *proved*: `C29_blocks_by_number` (`Prop_Block.v`).

**C30 Replacing text in a document region.** The loop against a description of occurrences. *partial*: `C30_replace_partial`, `C30_replace_refuted` (`Prop_Replace.v`). False for a negative start (text is inserted instead of replaced) and for old == '' (endless loop): C30_replace_refuted. Proved for start >= 0 and non-empty old, any end and count.

**C31 Observers are called once each, by priority.** Refinement of the observer lists. *proved*: `C31_observers`, `C31_deterministic` (`Prop_Observer.v`). Refinement of any history to a specification of connections in connection order; functions that do not use the Observable. Return values (context managers) are not modelled.

**C32 Observers may change subscriptions while being notified.** By computation. *partial*: `C32_refuted`, `C32_partial` (`Prop_Observer.v`). Refuted: a handler that disconnects an earlier one makes emit() skip the next handler and disconnect the wrong one. Proved when handlers may do anything except with the event being emitted.

**C33 Merging and clipping of formatted ranges.** Formats per position. *proved*: `C33_merge_clip` (`Prop_Util.v`). For a factory called with separate arguments (a named tuple); the default factory, tuple, cannot be called that way.

**C34 Splitting a list.** Induction. *proved*: `C34_split_list`, `C34_unique` (`Prop_Util.v`).

**C35 Per-object locks exclude each other.** Transition system; a reachable bad state. *partial*: `C35_refuted`, `C35_partial` (`Prop_Lock.v`). Refuted with two threads: the lock is removed from the registry while another thread waits for it. Proved: exclusion per lock, removal never fails, exclusion when no lock is made while an earlier one is in use.

**C36 Byte-order marks select the right encoding.** Computation over the marks. *partial*: `C36_refuted`, `C36_partial` (`Prop_Util.v`). Refuted for UTF-32 little endian, whose mark starts with the one of UTF-16. Proved for the others and for data without mark.

**C37 Word-list patterns match exactly the words.** Trie, tuples and texts: each step keeps the language. *proved*: `C37_words2regexp`, `C37_words_affixes` (`Prop_Regex.v`). For every non-empty list of words and every set iteration order. Reading the pattern is specified by a separate character automaton (RegexSpec). Without words the pattern matches the empty text (C37_no_words_refuted).

**C38 Character classes match exactly the characters.** Character classes. *proved*: `C38_chars` (`Prop_Regex.v`). For every non-empty collection of characters. Without characters the text is no pattern (C38_no_chars_refuted).

**C39 Evaluating rules in two steps.** Items have a denotation; pre-evaluation and evaluation keep it, by induction over nested items. *proved*: `C39`, `C39_subgroup` (`Prop_RuleItem.v`). Stated against a denotation of items (RuleItemSpec.denote). The pre-evaluation is assumed to succeed: it evaluates items that are not chosen, so it can raise where the rule has a meaning (C39_eager_refuted). Items call(...) and TEXT may not stand in a rule themselves; in using(...) such an item is never evaluated (C39_using_call_refuted).

**C40 Listed variations cover every outcome.** Induction over items. *partial*: `C40_partial`, `C40_skip_refuted`, `C40_index_refuted`, `C40_nested_refuted` (`Prop_RuleItem.v`). Proved for rules in which no list or tuple stands directly (the rules of a lexicon are unrolled), without skip, without empty bygroup(), with literal indices in targets. Refuted for rules with skip, with a computed index, and with a list in them.

**C41 No edit is lost by the tree builder.** Calling threads and processes are program counters over shared data (pending edits, flag, lock, state, tree as the list of edits it reflects). Invariants over all schedules: pending edits imply someone who will look; with one caller, tree plus taken edits plus pending edits are all edits. A measure bounds the steps; counterexamples are schedules. *partial*: `C41_nothing_pending_partial`, `C41_tree_reflects_all_edits_partial`, `C41_building_ends`, `C41_no_deadlock_partial`, `C41_exception_refuted`, `C41_two_builds_refuted` (`Prop_Work.v`). For every interleaving of any number of calling threads nothing is left pending, if no exception is raised in a process. False after an exception: the builder stays busy forever (C41_exception_refuted). With edits from one thread the tree reflects them all in order; false when a transformer is set while building, as two processes then work on the tree (C41_two_builds_refuted).

**C42 Waiting for the tree returns an up-to-date tree.** Same model; invariant that a process that works on the tree keeps the state at BUILD or REPLACE, as long as no other process is there. *partial*: `C42_up_to_date_partial`, `C42_refuted` (`Prop_Work.v`). False: a process that is finishing resets the state that the next edit has set (C42_refuted). Proved when a new process is only started after the earlier one has ended.

**C43 Transforming text equals transforming its tree.** Both functions are modelled with their stacks; the text version is shown to run like a machine over the bracket word of the tree (invariant over the event stream), the tree version by induction over the loop with the cache as invariant. *partial*: `C43_text_equals_tree_partial`, `C43_raises_at_the_end`, `C43_refuted` (`Prop_Transform.v`). False for texts that end inside a context without a method: transform_text raises IndexError there (C43_refuted, and C43_raises_at_the_end says exactly when). Proved for all other runs of a lexer.

**C44 Untransformed contexts are complete.** As C43; counterexamples are runs of small languages. *partial*: `C44_refuted` (`Prop_Transform.v`). False: the lexemes of the event that enters an untransformed context are lost, and the event after the context pops one level too many.

**C45 Cached transform results are never stale.** Contexts get an identity; the invariant over histories says that every cached result is the meaning of its context and that the cache is closed downwards. Uses where every context of an updated tree comes from, and that none is there twice. *partial*: `C45_results_are_never_stale_partial`, `C45_every_run_partial`, `C45_refuted` (`Prop_Transform.v`). False for methods that use positions of tokens (C45_refuted). Proved for all others, for every history of updates and runs, interrupted at any point. Runs and updates do not overlap in the model.

**C46 Invalidating a context never fails.** From the same invariant: after a complete run all contexts on a path of contexts with methods are cached. *partial*: `C46_update_after_run_partial`, `C46_refuted` (`Prop_Transform.v`). False: KeyError for a context without method, or for a second update without a complete run before it (C46_refuted). Proved for an update after a complete run when the changed context and its ancestors have methods.

**C47 Formatted output contains the whole text.** The streams of ranges against the format per character. *partial*: `C47_partial`, `C47_formats`, `C47_gap_refuted` (`Prop_Format.v`). With one theme, for regions that have a token or lie before/after all tokens. A region between two tokens of different contexts gives repeated and foreign pieces (C47_gap_refuted); with several themes see C48.

**C48 Formatting with several themes covers each token once.** Simulation of the loop over the contexts. *partial*: `C48_partial`, `C48_refuted` (`Prop_Format.v`). Proved for the whole text; for a region that starts or ends in a context with child contexts, tokens are repeated (C48_refuted).

**C49 HTML escaping is lossless and safe.** Induction over the text with a reader of entities. *proved*: `C49_escape`, `C49_attrescape` (`Prop_Format.v`). Against a small reader of HTML text, attributes and named entities.

**C50 Query navigation.** A node is its path. The loops with a stack are shown to yield the preorder of the subtree; the selectors are filters. *partial*: `C50_all`, `C50_uniq`, `C50_remove`, `C50_selected`, `C50_is_not_partial`, `C50_in_range_refuted`, `C50_range` (`Prop_Query.v`). Proved, except that is_not.in_range is not the complement of in_range (C50_in_range_refuted: a node that overlaps a boundary is in neither).

**C51 Query deletion.** Deletion is compared with pruning the tree recursively. A round that moves nodes up keeps what is pruned and counted (invariant of the dict: the selected nodes are an antichain, grouped by parent); at the end the slices of each parent are exactly its selected children, found by bisection in the tree that is left. *proved*: `C51_delete` (`Prop_Query.v`). The tree, the remaining tokens and the number returned.

**C52 Finding a language by name.** Induction over the entries. *proved*: `C52_qualname`, `C52_class_case_refuted` (`Prop_Registry.v`). lower is any function; names are qualified (module.Class.lexicon). Besides, a class name in the right case is not preferred over one in another case (C52_class_case_refuted).

**C53 Fallback registry is consulted.** By computation; induction over the chain of registries. *partial*: `C53_partial`, `C53_refuted` (`Prop_Registry.v`). The fallback of an empty registry is never asked, and neither are registries after an empty one (C53_refuted). Proved for the registries before the first empty one.

**C54 Increasing and decreasing indent are inverse.** All edits of a call are one change per line; the text is then the join of the changed lines. The cursor after the change is computed line by line to show that the same lines are selected. *partial*: `C54_increase_then_decrease_partial`, `C54_refuted_blank_line`, `C54_refuted_cursor` (`Prop_Indent.v`). Proved for lines with text and a cursor that starts at the beginning of a line or is in one line. Refuted otherwise: a line of only white space gets longer but not shorter, and the cursor itself can move off its first line.

**C55 Standard actions form a hierarchy.** Actions as paths of names; invariant of the interning tables over all creations. *proved*: `C55_hierarchy`, `C55_partial_order` (`Prop_StandardAction.v`). For every history of creations.

**C56 Deleting a node removes just that node and the contexts it leaves empty.** *partial*: `C56_delete_refuted`, `C56_delete_partial` (`Prop_Tree.v`). false when the parent becomes empty (counterexample); proved when the parent keeps other children

**C57 height is the longest distance to a descendant.** *proved*: `C57_height` (`Prop_Tree.v`).

**C58 Siblings of a node.** *proved*: `C58_siblings` (`Prop_Tree.v`).

**C59 One step of the lexer.** *proved*: `C59_lexer_step` (`Prop_Lexer.v`).

**C60 What a lexicon yields.** *proved*: `C60_what_a_lexicon_yields` (`Prop_Lexer.v`). The last clause (no match after the last item) is for lexicons with a default action or without default target; with a default target the generator ends right after following it.

**C61 Availability of undo and redo is announced.** *partial*: `C61_undo_available_refuted`, `C61_undo_available_partial` (`Prop_Document.v`). The code violates the property: no undo() ever emits undo_available and no redo() ever emits redo_available, also when it takes the last step. Proved: all other operations announce exactly the changes.

**C62 Changes of the modified flag are announced.** *proved*: `C62_modified_is_reported` (`Prop_Document.v`).

**C63 The revision number counts text changes.** *proved*: `C63_revision_counts_changes` (`Prop_Document.v`).

**C64 Reading and writing pieces of a document.** *proved*: `C64_reading_a_piece`, `C64_reading_back_an_edit` (`Prop_Edit.v`).

**C65 Substituting matches in a document region.** *partial*: `C65_re_sub_partial`, `C65_re_sub_refuted` (`Prop_Replace.v`). False for a negative start, as in C30. Proved for start >= 0. The matches are given (re is not modelled); they are required not to overlap and to be in order.

**C66 Stripping a selection.** *proved*: `C66_strip_selects_the_stripped_text` (`Prop_Strip.v`).

**C67 Selecting whole lines.** *proved*: `C67_select_whole_lines` (`Prop_Strip.v`).

**C68 Cached results are computed once.** *proved*: `C68_caching_dict` (`Prop_Lock.v`). Small-step model of threads.

**C69 File caches never return outdated values.** *partial*: `C69_refuted`, `C69_partial` (`Prop_Lock.v`). Refuted for a modification time of exactly -1 (an exception). Proved for all other times.

**C70 Dispatchers follow inheritance.** *proved*: `C70_dispatch`, `C70_unique` (`Prop_Dispatch.v`). Classes that change after first use are not covered.

**C71 Unrolling nested lists.** *proved*: `C71_unroll` (`Prop_Util.v`).

**C72 The reported updated range covers everything that changed.** *proved*: `C72_updated_range` (`Prop_Rebuild.v`). For the languages of C14, one edit, no changes meanwhile.

**C73 Changes that arrive while the tree is built are taken into account.** Rocq. `C73_refuted`: a concrete run of the modelled build loop in which a token is lost. `C73_arrivals_partial`, `C73_root_arrivals_partial`: induction over the list of what comes in after each event; the invariant says which part of the tokens up to now equals the tokenization of the newest text, and which tail tokens may be reused. The statement names what is done (`arr1`) and what is still pending (`arr2`, from `changes_left`). *partial*: `C73_refuted`, `C73_arrivals_partial`, `C73_root_arrivals_partial` (`Prop_Rebuild.v`). Refuted: when restarting inside the new tree the last compared token group is removed although the events continue after it (treebuilder.py:277-285), so a token is lost. Proved if every change comes in within 9 events after the (re)start or has at most 11 tokens before it, so that the builder does not restart inside the new tree; several edits pending at once as in C16.

**C74 Setting another root lexicon gives the tree of that lexicon.** *partial*: `C74_refuted`, `C74_root_lexicon_partial` (`Prop_Rebuild.v`). Refuted: a derived lexicon compares equal to the lexicon it derives from, so the root keeps the old one. Proved when the new lexicon does not compare equal to another one in use.

**C75 Helpers for rules choose as documented.** *partial*: `C75_ifeq`, `C75_select`, `C75_ifmember`, `C75_ifgroup`, `C75_gselect`, `C75_dselect`, `C75_findmember`, `C75_derive`, `C75_target_select`, `C75_arg`, `C75_ifarg_partial`, `C75_ifarg_refuted` (`Prop_RuleHelpers.v`). All helpers as documented, but ifarg treats an empty or zero argument as no argument (C75_ifarg_refuted).

**C76 HTML output shows the text and its formats.** *proved*: `C76_html` (`Prop_Format.v`). The html literal and escaping; the pieces are those of C47.

**C77 Standard actions are singletons.** Invariant of the interning tables. *partial*: `C77_actions_are_unique`, `C77_reserved_names_refuted` (`Prop_StandardAction.v`). The names _name and _parent do not give a child action (C77_reserved_names_refuted); proved for all other names.

**C78 Suggested languages and their order.** The weights as functions; stable sorting. *proved*: `C78_suggest`, `C78_filename_first_refuted` (`Prop_Registry.v`). Weights are natural numbers (exact sums). The docstring's claim that the filename decides before the mimetype is false (C78_filename_first_refuted).

**C79 Registering languages.** Invariant over the additions. *proved*: `C79_add` (`Prop_Registry.v`).

**C80 Query relatives.** By computation on paths; parent_index by the bisection lemma. *partial*: `C80_relatives_partial`, `C80_each`, `C80_siblings_of_root_refuted` (`Prop_Query.v`). Proved for all nodes but the root: right, left, right_siblings and left_siblings raise an exception for the root (C80_siblings_of_root_refuted).

**C81 Stripping trailing blanks.** As C54; stripping as a description of prefix and tail. *proved*: `C81_strip` (`Prop_Indent.v`). For any indent events.

**C82 What indent changes.** The loop is one optional edit per line. For the levels the list of indents is shown to be the multiples of the indent string up to the level. *proved*: `C82_indent_changes_white_space`, `C82_indent_levels` (`Prop_Indent.v`). The levels for events without strings (INDENT, DEDENT, NO_DEDENT, BLANK, NO_STRIP, NO_INDENT) that do not depend on earlier indents.

**C83 Indenting twice is indenting once.** The two runs are compared step by step: the list of indents is the same before each line; the counterexample is computed. *partial*: `C83_indent_twice_partial`, `C83_refuted` (`Prop_Indent.v`). Proved if all lines that may be changed have text; refuted for lines of only white space, which get longer every time.

**C84 Part of an indented document.** The list of indents before a line is the same whether lines before it are re-indented or read, if re-indenting changes nothing. *proved*: `C84_part_of_indented` (`Prop_Indent.v`). The indent string and the strings in events are white space without characters of the block separator.

**C85 auto_indent gives what indent gives.** Invariant: the search backwards from a line with depth d finds the indent d below the top of the list that indent has at that line. *partial*: `C85_auto_indent_partial`, `C85_refuted`, `C85_refuted_first_line` (`Prop_Indent.v`). Proved if each earlier line opens at most one thing, brackets match, and the line is not the first. Refuted for two brackets opened in one line, and for the first line.

**C86 Which elements a css selector matches.** The relation `matches` is defined by induction on the selector list with the css meaning of the operators. The greedy search is proved sound by induction, and complete by an exchange argument: a further candidate may be replaced by the nearest. *partial*: `C86_matches_partial`, `C86_no_false_match`, `C86_nearest_only_refuted`, `C86_universal_refuted`, `C86_empty_text_refuted` (`Prop_Css.v`). A match that is found is right. Proved both ways when every selector says something and the nearest candidate is as good as a further one (' ' only after ' ', '~' not after '+'). Refuted for every other pair of operators, for the universal selector and for attribute selectors with an empty text.

**C87 The css cascade.** Declarations carry place, specificity and importance; the winner is the maximum. Invariant over the fold that collects the properties, with the order of the style from C88. *partial*: `C87_cascade_partial`, `C87_every_sheet_listed`, `C87_two_important_refuted`, `C87_unmatched_list_refuted`, `C87_no_value_refuted` (`Prop_Css.v`). Proved if the selector lists of a rule are equally specific, declarations have values and no property has several important ones of which the most specific rule has one. Refuted: of two important declarations the less specific wins; the specificity of a list that does not match counts; a declaration without value makes it fail.

**C88 The rules of a style.** Stable insertion sort on specificities; the rules are tagged with their place. *partial*: `C88_style_order`, `C88_no_selectors_refuted` (`Prop_CssSheet.v`). The order is as stated for every sheet of which all rules have selectors; a single rule without selectors makes the style fail, exactly then.

**C89 Filtering conditions.** A relation gives for every rule the chain of conditions it is behind; filtering commutes with it on the outermost condition. *partial*: `C89_filter_partial`, `C89_filter_nested_refuted`, `C89_every_sheet_behind` (`Prop_CssSheet.v`). Only the outermost conditions are considered: conditions within others are kept whatever they say.

**C90 Imports in style sheets.** Files are an oracle that maps a name to the parsed contents; an inductive relation says what is read, proved equivalent to the recursion with some fuel. For the cycle: induction on the fuel. *partial*: `C90_reads_partial`, `C90_nothing_else`, `C90_plain_import_refuted`, `C90_cycle_refuted`, `C90_second_media_refuted`, `C90_not_allowed_refuted` (`Prop_CssSheet.v`). Proved for imports with a media query where loading ends. Refuted: an import without media query always fails; cycles with media queries never end; of two imports of a file with different queries one is dropped; with imports not allowed files are still read for nested blocks.

**C91 The files a sheet depends on.** An inductive relation for dependency, equivalent to membership in the computed list. *partial*: `C91_filenames_partial`, `C91_add`, `C91_own_name_refuted` (`Prop_CssSheet.v`). Exactly the names the object knows; filtering forgets the sheet's own name. Imports inside nested blocks are not listed.

**C92 Reading the selectors of a rule.** The items are decomposed in parts; the result is a function of the parts. Invariant on the loop. *proved*: `C92_prelude`, `C92_match_never_raises` (`Prop_CssSheet.v`).

**C93 Strings in style sheets.** A decoder for css strings written from the css specification, run on what is written. *partial*: `C93_quote_partial`, `C93_read_string_refuted`, `C93_quote_refuted` (`Prop_CssSheet.v`). Writing is right for every text without newlines that, if it has only word characters and dashes, is an identifier. Reading a string fails unless it is a lone quote at the end of the text.

**C94 Hexadecimal colors.** The digits of a number are related to its value by induction; division by powers of 16 and masks become remainders. The opacity ranges over 256 values, for which the floating point operations are computed in the kernel: an exhaustive check of the whole finite range. *proved*: `C94_hex_read`, `C94_written_read`, `C94_writable` (`Prop_CssColor.v`). Floating point numbers are those of SpecFloat in the standard library, with the parameters of binary64.

**C95 The functions rgb() and rgba().** Rational arithmetic; the arguments that count are filtered first, which is where zeros are lost. *partial*: `C95_rgb_partial`, `C95_in_range`, `C95_zero_refuted`, `C95_red_refuted`, `C95_alpha_percent_refuted`, `C95_fraction_refuted` (`Prop_CssColor.v`). Proved if no number is zero and the opacity is no percentage. Refuted: numbers that are zero are skipped, so that rgb(255, 0, 0) has no green and blue; an opacity of 50% gives 0; fractions stay. Numbers are rational in the model.

**C96 Adding and subtracting text formats.** A format is a partial map from attributes to values. Subtraction is characterised attribute by attribute, by induction over the groups of attributes. *partial*: `C96_subtract`, `C96_add`, `C96_overlay`, `C96_reachable`, `C96_again`, `C96_equal_refuted` (`Prop_TextFormat.v`). All proved for what the attributes look like. Refuted for ==: a unit that is stored as None counts as different from a unit that is missing.

**C97 Writing a text format as css.** Writing gives words, and a relation says how the css reader gives each word back. The written properties are cut in pieces, each of which sets some attributes when read and leaves the others. *partial*: `C97_written_read_partial`, `C97_zero_refuted`, `C97_stretch_refuted`, `C97_families_refuted`, `C97_quotes_refuted`, `C97_unit_refuted` (`Prop_TextFormat.v`). Proved for formats with keywords, colors and non-zero numbers and at most one, generic, family. Refuted: zero sizes, percentages for stretch, more than one family (raises), names of fonts without special characters, and sizes by keyword after a size with a unit.

**C98 Reading a text format from css.** Induction on the list of values for every reader; the shorthand is an invariant on its loop. *partial*: `C98_read_partial`, `C98_topic`, `C98_other`, `C98_color`, `C98_keyword`, `C98_size`, `C98_weight`, `C98_style`, `C98_family`, `C98_font`, `C98_lines`, `C98_comma_refuted`, `C98_empty_refuted`, `C98_stretch_refuted`, `C98_font_refuted` (`Prop_TextFormat.v`). Reading never fails for non-empty lists without delimiters. Refuted: a comma raises, so does an empty list for font-style and font; of font-stretch the last value counts; the shorthand font does not know sizes by keyword.

**C99 The text format for an action.** Two trees that differ in the classes of one element without children are compared: the selection is monotone and extensional in the set of classes (induction over the rules and selector lists). The cascade is C87 for that tree. *partial*: `C99_order`, `C99_derived`, `C99_cascade_partial`, `C99_attribute_refuted` (`Prop_Theme.v`). Order and derived actions are proved for sheets without selectors on attributes, the cascade for sheets as in C87. Refuted: an attribute selector on class sees the order of the names. The hypothesis on lower case does not hold for a capital sigma at the end of a name.

**C100 The text format for a role and a state.** As C99, with one element. *proved*: `C100_unknown_state`, `C100_more_specific`, `C100_selects`, `C100_unused_state` (`Prop_Theme.v`). The rules that apply; more specific states for sheets without attribute selectors.

**C101 Navigating in a query.** A walk over the tree is related to the document order of paths; forward and backward go up along the ancestors, by induction on the path. Slices by induction on the number of steps. *proved*: `C101_forward_backward`, `C101_each`, `C101_slices`, `C101_islice` (`Prop_QueryNav.v`). For every tree; the slices with other negative indices or steps are those of the modelled slice.indices.

**C102 Items in a transform, grouped.** An invariant on the loop over the items (the current row and where it is filled); a specification of groupings, of which there is at most one. *proved*: `C102_groups`, `C102_rows`, `C102_peek` (`Prop_ItemList.v`). The names must be different.

**C103 Loading what was saved.** The codecs are parameters with the law that what is encoded can be decoded; newline translation by induction on the text. The refutations are concrete, with codecs that behave as those of Python on the characters used. *partial*: `C103_roundtrip_partial`, `C103_utf16_refuted`, `C103_mark_lost_refuted`, `C103_late_declaration_refuted`, `C103_unknown_refuted` (`Prop_Docio.v`). Proved when the data does not start with a byte order mark, the declared encoding is found alike in bytes and text, and newlines are treated alike. Refuted: a document loaded with a byte order mark is saved without it; a late declaration; a declared encoding that does not exist while the language has a default.

**C104 The encoding of a loaded document.** Case analysis of the sources of the encoding. *partial*: `C104_reported_partial`, `C104_refuted`, `C104_not_text_refuted` (`Prop_Docio.v`). Proved when there is a byte order mark or a declaration but no conflict. Refuted: nothing is reported if the default was used; with both a mark and a declaration the latter is reported; a codec that is not for text counts as usable.

**C105 JSON is read as the value it stands for.** The rules of Json are modelled as patterns; runs of the lexer are related to a machine that writes the word of the tree, and by induction over the grammar of JSON each value is lexed to nodes of which the transform makes that value. Refuted by computation. *partial*: `C105_json_partial`, `C105_surrogates_refuted` (`Prop_Json.v`). Proved for all documents without characters that are written as two escapes; these are refuted: the string gets two surrogates.

**C106 Integers in JSON are exact.** Rounding to a nearest float is exact for integers that are floats; 2^53+1 is odd and has too many bits to be one. A rounding function is defined and proved to be nearest, to show that the hypothesis can be met. *partial*: `C106_integers_partial`, `C106_large_integers_refuted` (`Prop_Json.v`). Proved for integers between -2^53 and 2^53, if making a float rounds to a nearest one. Refuted for 2^53+1, because numbers are read as floats first.

**C107 Reading JSON never fails.** Invariant over the run: every token has a text that its rule can match, and nothing is entered in a string; then induction over the tree. *proved*: `C107_json_never_raises` (`Prop_Json.v`). Assumes that float() accepts everything the number pattern matches.

**C108 CSV is read as the table it stands for.** CsvModel (patterns and actions of the three lexicons, the methods of the transform), CsvSpec (what a CSV text is). The runs are composed of steps of the machine in MachineProofs; induction over the text of strings, rows and tables (CsvRunProofs). *partial*: `C108_csv_partial`, `C108_csv_round_trip`, `C108_crlf_refuted` (`Prop_Csv.v`). Proved for texts with newlines between the rows. Refuted for the line ends of RFC 4180 (return and newline): the return character becomes part of the last field.

**C109 Reading CSV never fails.** CsvTotalProofs: every item of the lexer is of a known kind; an automaton over the word of the tree says whether a string has only tokens before its text; invariant over runs; the method of a string fails exactly for such strings, which can only be at the end. *partial*: `C109_csv_raises_partial`, `C109_open_string_refuted` (`Prop_Csv.v`). Raises exactly if the last token opens a quoted string; after the complete text that is a text that ends with an opening quote (IndexError).

**C110 At a default target text is skipped only in a circle.** Rocq. `C110_skip_refuted`: computation on a language of three lexicons. `C110_skip_partial`: invariant over the run of the lexer: the remembered (position, depth, pushed) belongs to an earlier moment with the same lexicons, as only simple targets lie between (SkipProofs); a lexicon that starts at the place of an earlier textless match finds it again (SkipLexiconProofs). *partial*: `C110_skip_refuted`, `C110_skip_partial` (`Prop_Skip.v`). Refuted: the lexer compares only position, number of lexicons and number of entered lexicons (lexer.py:156-167), so a default target that leaves one lexicon and enters another, taken right after one that enters a lexicon, is taken for a circle: a character that the new lexicon knows is skipped. Proved if every target that is taken without text either only enters lexicons or leaves exactly one.

**C111 Checking default targets ends and tells the truth.** Rocq. ValidateModel (`check`), ValidateSpec (`chain`: following default targets, not using the model). Ending: lexicographic order of the number of contexts that may still be met and the depth. Verdicts: invariant that a context which was met before still has the same contexts below it, so meeting it again is a repetition. Refuted by computation and with the languages of C05. *partial*: `C111_check_ends`, `C111_verdict`, `C111_unreported_partial`, `C111_runaway_refuted`, `C111_replace_refuted`, `C111_silent_hang_refuted`, `C111_handled_refuted` (`Prop_Validate.v`). Proved: the check ends; what each verdict says about the chain of default targets from the lexicon as root; endless chains from there are reported; from any open lexicons chains do not go on forever if nothing is reported and no default target both leaves and enters. Refuted: more than 100 contexts are reported as circular although the chain ends; lexicons that replace each other are not reported; nothing is reported for a default target that leaves the root, at which the lexer hangs; a circle reported as handled at which the lexer hangs.

**C112 A lexicon that validates has rules that are in order.** Rocq. Induction over the rules; with `C40_partial` for the targets. Refuted by computation. *partial*: `C112_validate_partial`, `C112_targets_partial`, `C112_skip_refuted`, `C112_conflict_refuted` (`Prop_Validate.v`). Proved for default actions that are true values and for rules of which the variations are complete (C40). Refuted: targets of rules with skip are not looked at; a default action that is a false value (None) conflicts with nothing. Warnings about patterns are not modelled; that unpacking a malformed rule of another lexicon raises an exception is not modelled.

**C113 INI files are read as written.** Rocq. IniModel (patterns and actions of the five lexicons, the methods of the transform), IniSpec (what an INI text is and what its value is). Runs are composed of steps of the machine in MachineProofs; induction over texts with escapes, lines and files (IniTextProofs, IniLineProofs, IniFileProofs). The loop over the items is related to a fold over the lines: the dictionary for None is there from the start in the code, and only if it has entries in the specification. Round trip: IniWriteProofs. *partial*: `C113_ini_partial`, `C113_ini_round_trip`, `C113_comment_at_end_refuted` (`Prop_Ini.v`). Proved for transforming the tree of any INI text, and for transforming the text if no comment is open when the last token was seen; the round trip is proved for all dictionaries with section names that are tight, without closing bracket and newline and not starting with a backslash. Refuted: a comment after all entries, even with a newline after it, makes transforming the text raise an exception (see C43). Values with an unescaped colon or open bracket, a backslash before other letters and return characters are not INI texts in the sense of the specification; examples show what becomes of them.

**C114 Reading INI does not fail.** Rocq. IniTotalProofs: every item of the lexer is of a known kind (texts of keys and values are escapes or have no backslash), invariant over runs that at most one lexicon is open above the root; so the tree has two levels, and each method gives a string. *partial*: `C114_ini_raises_partial`, `C114_section_name_refuted` (`Prop_Ini.v`). Proved: a value if all section names are fine (not starting with a backslash that is not the start of an escape), with the exception of C113 for transforming the text; an exception if a section name is a lone backslash, or starts with a backslash and x without a number. Refuted: the text [\\] cannot be read. Missing: an exception for such names after blanks.

**C115 English numerals are read as the numbers they stand for.** Rocq. NumbersModel (patterns as functions, the lexicons of four languages, the methods), NumbersSpec (what a numeral is, how it is written, its value). Runs over a numeral leave the machine in a state from which the lexicons above are left one by one (`pend`); each level (hundred, thousand, million) is proved from the one below, for any language; then induction over the numerals. The escape from circles at other characters is computed for all depths of the stack. *partial*: `C115_english_numerals_partial`, `C115_every_number`, `C115_numerals_apart_refuted` (`Prop_Numbers.v`). Proved for all lists of numerals with a character that is no letter, space or hyphen between them; every number below 10^12 has such a numeral and is read from all ways to write it. Refuted: twenty sixteen is read as 26, though the documentation says that multiple values are detected.

**C116 Reading numerals ends and does not fail.** Rocq. NumbersEndProofs: from every configuration with a stack in descending order a later position is reached, so lexing ends. NumbersTotalProofs: invariant over runs that n99 and p1 are only at the top of the stack and their tokens are words of the dictionary; induction over the tree. Refuted with a text of three characters, for any oracle that says of the long s what Python says. *partial*: `C116_any_text_read_partial`, `C116_lexing_ends`, `C116_long_s_refuted` (`Prop_Numbers.v`). Proved for all texts of characters that, if they match a letter of a word, are that letter in lower case; lexing ends for all texts. Refuted: six with a long s (U+017F) matches and raises KeyError.

**C117 Number words of the other languages are read as the numbers they stand for.** Rocq. Refuted by computation, for all oracles. No positive part. *partial*: `C117_number_words_refuted` (`Prop_Numbers.v`). Refuted for Dutch (vijftig is read as 5), German (vierzig as 4, zwei millionen eins as two numbers) and French (soixante-dix as 60 and 10). Missing: a proof for the other words of these languages.

**C118 The nodes above a node.** Rocq. AncestorModel over the tree of TreeModel; a node is the number of its tree and its path. Above means: proper prefix of the path in the same tree (AncestorSpec). The ancestors are the prefixes in descending length; the first one that is also a prefix of the other path is the longest common one. *partial*: `C118_ancestors`, `C118_common_ancestor`, `C118_upto_partial`, `C118_upto_refuted` (`Prop_Ancestor.v`). Proved in full except for ancestors(upto) with a node that is not above but whose parent is: then iteration stops before the parent, where the documentation says it goes on to the root (refuted). Missing: nothing else; a context without children as upto is outside the model.

**C119 The tokens from one token upto another.** Rocq. The trails returned are the rests of the two paths below the common prefix; then C21 (iterating a range) gives the tokens, and positions in order turn the cut in the list into a filter. *partial*: `C119_tokens_until`, `C119_token_range_partial`, `C119_backwards_refuted` (`Prop_Ancestor.v`). Proved for a token and itself or a later token of the same tree, and for tokens of different trees. Refuted: there is no range either for an earlier token of the same tree.

**C120 The token at a position of a document.** Rocq. DocTokenModel; find_token is characterized in TreeProofs, the previous token is the one before it in the flattened tree; case analysis on the first token that ends after the position. Refuted by computation. *partial*: `C120_token_at_position_partial`, `C120_end_of_text_refuted`, `C120_other_block_refuted` (`Prop_DocToken.v`). The result is determined for every position. Refuted: at the end of the last token nothing is returned, and the token before may be in another block if it ends with the line separator.

**C121 The tokens of a text range.** Rocq. By the characterization of Range.from_tree in TreeRangeProofs. Refuted by computation. *partial*: `C121_tokens_of_range_partial`, `C121_empty_line_refuted` (`Prop_DocToken.v`). Proved for ranges that a token overlaps, empty ranges, and ranges after the last token. Refuted: for an empty line between contexts the tokens of other lines are given.

**C122 The callback given when asking for the tree.** Rocq. CallbackModel adds callbacks to the threads of WorkModel. Invariant over runs from the request on: either the callback is connected and a process that has not yet emitted is there (which, near its end, has put all those edits in the tree), or it was called once; with the invariants of C41 and C42. Refuted with schedules. *partial*: `C122_called_once_partial`, `C122_too_early_refuted`, `C122_exception_refuted` (`Prop_Callback.v`). Proved when processes run one at a time, calls come from one thread, no transformer is set meanwhile and no exception is raised. Refuted otherwise: with a background thread that is about to finish, the callback is called before the new build has begun; when building raises an exception it is never called.

**C123 A style sheet is read as it is written.** Rocq. CssLangModel has all lexicons of Css and all methods of CssTransform, on the lexer, tree builder and transformer that are modelled before. CssTextSpec says what texts stand for. By mutual induction on the texts for selectors and for values: a run of the lexer over such a text, in the lexicons where it can be, gives nodes for which the methods give the objects; white space is where lexicons are left. One meaning follows because lexing is deterministic. Refuted by computation. *partial*: `C123_sheet_read_partial`, `C123_one_meaning`, `C123_media_refuted`, `C123_column_refuted`, `C123_comment_refuted` (`Prop_CssText.v`). Proved for style sheets of rules with selectors (elements, ids, classes, pseudo elements and classes, also with lists of selectors as arguments, combinators, commas) and declarations with names, colors, numbers, units and function calls to any depth. Missing: comments, at-rules, attributes and namespaces in selectors, strings, url( ). Refuted: the rule after @media { } is lost, || without white space before it is not seen as combinator, a comment at the end makes reading fail.

**C124 The properties of a CSS rule.** Rocq. From C123, with lookup in the dictionary of properties. Refuted by computation. *partial*: `C124_properties_read_partial`, `C124_string_refuted`, `C124_parentheses_refuted`, `C124_transparent_refuted` (`Prop_CssText.v`). Proved for the declarations of C123. Refuted: a string as value raises an exception, parentheses within the arguments of a function end the function, 'transparent' gives no color.

**C125 The decision tree of a rule.** Rocq. RuleTreeModel (the tree, on the rule items of RuleItemModel), RuleTreeSpec (the ways through a tree). Induction over nested items: the ways through the tree of an item are its variations; and with the meaning of items of C39, every result is on a way. Refuted by computation. *partial*: `C125_agree_partial`, `C125_covers_partial`, `C125_skip_refuted`, `C125_nested_refuted` (`Prop_RuleTree.v`). Proved: the tree and the variations agree for rules without skip and without items with nothing to choose from; the tree covers all results (also skip) of rules in which no list stands and with literal indices in targets. Refuted: for rules with skip there are no variations at all; choices in a list that stands in a rule are not in the tree.

**C126 Introspection of a language.** Rocq. RuleTreeModel: classes as dictionaries in the method resolution order. The names are sorted with an insertion sort, proved to give each once. What is found in a rule has all entries of its tree (induction over nested items), so C125 gives the results; everything found is written in the rule. Refuted by computation. *partial*: `C126_lexicons`, `C126_found_partial`, `C126_replaced_refuted`, `C126_index_refuted` (`Prop_RuleTree.v`). The list of lexicons is proved in full. The actions and languages are proved for languages in which no lexicon is replaced with something else in a derived class, and rules with literal indices in targets. Refuted: something else in the place of an inherited lexicon is listed as a lexicon and makes the others fail; with a computed index in a target the actions are not found.

**C127 The tree of an XML document.** Rocq. XmlModel (all lexicons of Xml but the internal DTD, the patterns as functions), XmlSpec (documents, their text, and which nodes show them). Every pattern is shown to match exactly the markup it is for; runs are composed of steps of the machine in MachineProofs; induction over attributes, over the text of comments, and over nested items. Refuted by computation. *partial*: `C127_xml_partial`, `C127_url_refuted`, `C127_pi_refuted` (`Prop_Xml.v`). Proved for documents without document type declaration, in which comments do not end with a character that can be in a URL, and processing instructions have attributes or text without quotes, ampersands, question marks and equal signs. Refuted: a URL at the end of a comment takes the end of the comment with it; an apostrophe in a processing instruction starts a string that goes on past its end.

**C128 The encoding of an XML document.** Rocq. From C127: the nodes that show a document determine what is found. Refuted by computation. *partial*: `C128_encoding_partial`, `C128_single_quotes_refuted`, `C128_empty_refuted` (`Prop_Xml.v`). Proved for the documents of C127, with the encoding in double quotes, not empty, and without references. Refuted: an encoding in single quotes is not found, or the value of another attribute is taken instead; of an empty value the quote is taken.

**C129 Which lexicon object one gets.** Rocq. LexIdModel: lexicons as numbered objects with the two caches; LexIdSpec says what each step asks for. Invariant over the history: the caches hold just the objects for what was asked. Refuted by computation. *partial*: `C129_same_lexicon_partial`, `C129_exact_argument_refuted` (`Prop_LexId.v`). Proved for every history, with arguments up to their equality in Python. Refuted: the argument is exactly the given one; after lexicon(1), lexicon(True) gives the lexicon with argument 1.

**C130 The parse function of a lexicon is built once.** Rocq. LexIdModel: the double check with the lock as a transition system for any number of threads. Invariant (who is inside has the lock, built at most once), progress, and a measure that every step lowers. *proved*: `C130_parse_function` (`Prop_LexId.v`). All interleavings of the steps of any number of threads, with builds that fail.

**C131 A switch is on inside its with blocks.** Rocq. SwitchModel: programs of nested blocks on the dictionary of counters; SwitchSpec: the instances whose blocks are open. Induction over programs with the invariant that the counter of an instance is the number of its open blocks. Refuted by computation. *partial*: `C131_switch_partial`, `C131_class_refuted`, `C131_equal_instances_refuted` (`Prop_Switch.v`). Proved for programs that do not ask the class for the switch, for instances up to their equality. Refuted: asking the class (for example by a documentation tool or inspect.getmembers) raises TypeError and forgets the switches of all instances, also those that are on; instances that compare equal share a switch.

**C132 The encoding named in a text.** Rocq. SwitchModel: the pattern as a function, and the search; SwitchSpec says how an encoding is written. Each part of the pattern is characterized, then induction over the text. Refuted by computation. *partial*: `C132_find_encoding_partial`, `C132_coding_refuted` (`Prop_Switch.v`). Proved for encoding: name and encoding="name". Refuted: coding: name without en is announced by the documentation, but not found.

**C133 Setting another transformer.** Rocq. SwapModel: the worker with the caches of all transformers, on top of the model of tree updates with a transformer; and the steps of the background process with set_transformer and update. Induction over histories with the invariant that every cached result is right for its context; invariant over steps for the process, with a measure. Refuted by computation. *partial*: `C133_swap_partial`, `C133_stale_refuted`, `C133_background_partial`, `C133_lost_refuted`, `C133_early_refuted` (`Prop_Swap.v`). Proved one call at a time, for transformers that did not miss an update since they were used; and for a background process when no transformer is taken away and no second process is started. Refuted: a transformer that is taken away, misses an edit and is set again gives its old result; a transformer that is set between taking away another one and the end of the process is never run; there is a moment at which get_transform does not wait for the new transformer.

**C134 Indenters of languages.** Rocq. IndentLangModel: the loop with its indexes, the dictionary of indenters and the search in mro(); IndentLangSpec: maximal pieces as an inductive relation, the last one added, the nearest class. Induction over the pieces and over histories. *proved*: `C134_languages_in_a_line`, `C134_indenter_of_language` (`Prop_IndentLang.v`). Classes are compared by identity; the last two classes of mro() are not considered, as in the code. C134_case shows a line with three languages.

**C135 Indenting CSS and LilyPond by brackets.** Rocq. IndentLangModel: the events of CSS and LilyPond on the tokens of the block (C121), in the model of indent (C82); the specification counts brackets in the tokens of the text. The brackets of the lines before a line are those before its start, by induction over the lines. Refuted by computing with the model of the CSS lexer. *partial*: `C135_brackets_partial`, `C135_white_line_refuted` (`Prop_IndentLang.v`). Proved for all trees, texts and lines if every line that is not empty has a token or comes after the last token, and brackets do not span lines. Refuted: a line of only white space before a comment in an at-rule gets the tokens of the rule before it, and the lines after it are not indented.

**C136 Trimming removes the white space at the ends of lines.** Rocq. TrimModel: the pattern as a function with backtracking, finditer, and the operations of re_sub. Induction over the text: what is left of a line is the line without its trailing blanks and tabs; then C65. Refuted by computation. *partial*: `C136_trim_partial`, `C136_again`, `C136_region_refuted` (`Prop_Trim.v`). Proved for regions that start at a position that is not negative and end at the end of a line or of the text. Refuted: white space before the end of the region is removed also in the middle of a line; with a negative start the end of the text is not trimmed (see C65). A line ends at a newline character; a return before it is not white space for trim.

**C137 Themes of formatters.** Rocq. FthemesModel: any number of formatters with their dictionaries; FthemesSpec reads the history backwards. Induction over histories with the invariant that keys are unique. Refuted for all histories that end with a formatter copying itself, and by computation. *partial*: `C137_themes_partial`, `C137_copy_refuted` (`Prop_Fthemes.v`). Proved when no formatter copies its own themes and the factories make something of the base formats that are added. Refuted: f.copy_themes(f) removes all themes; if a factory gives None for the base format, whoever copies the themes does not add the base format.

**C138 Translating words in a document.** Rocq. TranslateModel: finditer with a regular expression engine as parameter, of which TranslateSpec says what is known; the pattern is that of C37, so that matches are keys. The result is related to the text by an inductive relation, which is shown to be a function for prefix-free keys. Refuted by computation, and for every document for the empty mapping. *partial*: `C138_translate_partial`, `C138_unique`, `C138_refuted` (`Prop_Translate.v`). Python's re is a parameter: of several keys that match at the same position it may find any (C138_engine shows that there is one). Proved for mappings with keys, none of them empty, and regions that start at a position that is not negative and, for whole words, are not next to a word. Refuted: the empty mapping raises KeyError; with whole_words a part of a word is replaced if the region ends there.

**C139 Numbers of Scheme.** Rocq. SchemeModel: the lexicon of numbers and scheme_number; SchemeSpec: how numbers are written and which rational numbers they are. The tokens of every written number are computed by induction over its digits, and then its value. Refuted by computation. *partial*: `C139_numbers_partial`, `C139_unknown_refuted`, `C139_inexact_refuted`, `C139_faulty_refuted` (`Prop_Scheme.v`). Proved for all numbers without unknown digits, but not for integers with both #i and a radix other than ten. Floats are not computed: proved is that Python is asked to round the right number. Refuted: several unknown digits in a fraction or a radix other than ten give a wrong number; integers with unknown digits are exact; #i#xff is exact; faulty input such as 1/2/3, 1e5.2 and --5 is accepted. For complex numbers see C140.

**C140 Complex numbers of Scheme.** Rocq. As C139; the search for the sign of the imaginary part skips the tokens of a real number, because the sign of an exponent is in a group. *proved*: `C140_complex` (`Prop_SchemeComplex.v`). Floats are not computed: proved is that Python is asked for complex(x, y) or cmath.rect(x, y) of the right numbers.

**C141 Which transform is used for a language.** Rocq. TfcacheModel: interleavings of threads that ask for and add transforms, with the lock of caching_dict; TfcacheSpec says from the history what a call may return. Invariant over all schedules. Refuted for every language with a transform of its own by a schedule. *partial*: `C141_transforms_partial`, `C141_same_partial`, `C141_race_refuted` (`Prop_Tfcache.v`). Proved when no transform is added for a language while another thread is asking for the transform of that language. Refuted otherwise: add_transform does not take the lock, and what it stores is overwritten. Storing in and looking up from a dict are atomic steps; the class that is found is a parameter.

**C142 The preview of a tree that is being built.** Rocq. PeekModel: the open contexts as a stack, the events of the lexer, and the removal of empty contexts; PeekSpec: the tokens with their lexicons, computed from the events alone. Invariant: only contexts along the first children can be empty. *proved*: `C142_peek`, `C142_never` (`Prop_Peek.v`). For one run of the loop over the events: restarts because of changes during the build, and finding the old tail (which ends the build), are not part of the model. That tree.copy() copies is taken for granted.

**C143 The range that is reported after several changes.** Rocq. ReportModel: the loop of process with the ranges of the builds; ReportSpec: the set of positions that were touched, moved by every change. Induction over the builds. Refuted by an example. *partial*: `C143_range_partial`, `C143_start`, `C143_during_refuted` (`Prop_Report.v`). Proved when changes arrive between builds, or during the first one; the start is right in every case. Refuted: changes that are taken during a later build do not move the end of the range of the earlier ones. That the range of one build covers the changes it handled is a hypothesis here (see C72).

**C144 Every cursor follows its document.** Rocq. AliveModel: objects at addresses, sets as lists of hash value and address, with the comparison by hash value and equality that a set does when something is added. Invariant: the set of a document has exactly the cursors of that document, each once, with the hash value of its address. Then what is seen of one cursor is a fold over the history that does not know of other cursors. *proved*: `C144_cursors`, `C144_never_fails` (`Prop_Alive.v`). Edits of one change at a time; for batches of changes see C27. That object.__hash__ gives different values for objects that exist at the same time is a hypothesis; it is computed from the address.

**C145 Saving when something fails.** Rocq. SaveModel: save as a list of all states on the way, with encoding, opening and writing (in pieces of any size) as oracles that can fail. Induction over the pieces; counterexamples for every file system that can open the file. *partial*: `C145_files_partial`, `C145_untouched`, `C145_modified`, `C145_saved`, `C145_succeeds`, `C145_crash_refuted`, `C145_encoding_refuted` (`Prop_Save.v`). Proved: other files and the text are never touched, the file has its old contents or a beginning of the new data, nothing is touched if encoding or opening fails, and the document is only marked as not modified when all is written. Refuted: the file is made empty first, so both contents can be lost; and an encoding or url given to a save that failed stays in the document. Encoding is an oracle here, see C103. Signal handlers are not modelled.

**C146 Observers that raise exceptions.** Rocq. RaiseModel: the functions of DocumentModel with exceptions from observers; what comes after one is left out. Compared with DocumentModel by induction over the edits. The refutations by computation, and one for every edit. *partial*: `C146_edits_partial`, `C146_events_partial`, `C146_undo_partial`, `C146_quiet`, `C146_modified_refuted`, `C146_undo_refuted`, `C146_twice_refuted`, `C146_flag_refuted` (`Prop_Raise.v`). Proved for observers of text_change and text_changed: edits, and the text after undo, are as if they did not raise. Refuted for observers of modification_changed (the text is not changed, but the undo stack is), undo_available and redo_available (the edit is done again with the next one); and the modified flag is not restored when text_change raises during undo. Cursors are not in this model.

**C147 Observers that edit the document.** Rocq. ReactModel: the functions of DocumentModel with the edit of an observer at the place where text_change is emitted. Compared with a series of edits; the refutations by computation. *partial*: `C147_edits_partial`, `C147_undo_partial`, `C147_modified_refuted`, `C147_redo_refuted` (`Prop_React.v`). Proved for edits, also those of an edit context: as if the two edits were done one after the other. Refuted for undo: what an observer does then is put on the redo stack, and does not mark the document as modified. One observer that does not react to its own edits; the order in which other observers are told is not stated.

**C148 A handler connected for one call.** Rocq. OnceModel: the loop of emit over the list as it is at every step, with handlers that return, raise or emit again, as a function of the number of earlier calls. Induction over the list for one emit, and over the number of emits. The refutations by computation. *partial*: `C148_once_partial`, `C148_emit_partial`, `C148_exception_partial`, `C148_first_partial`, `C148_raise_refuted`, `C148_nested_refuted` (`Prop_Once.v`). Refuted: when a later handler raises, the handler for one call stays connected and is called again; when a handler emits the event again, the handler for one call is called twice and another handler is disconnected. Proved for handlers that do not emit the event: at most one call, and one more for every emit that failed; and what is called and left connected by every emit. Handlers that connect or disconnect are not in this model (C32).

## Findings

Where the code does not do what its documentation (or a reasonable reading of it) says, there is a theorem with suffix `_refuted` with a
concrete case; the notes above describe them. Other things noticed while reading, without theorem:

* `util.merge_adjacent` with its default factory `tuple` raises a TypeError; `util.fix_boundaries` uses `type(i)((...))`, which fails
  for named tuples, and with an empty window can yield an inverted range.
* With an `_unparsed` format in the theme a region without tokens gets no unparsed format, while the text after a token does.
* An exception in an inner edit context that is caught inside the outer one discards the outer edits too, and later edits of the outer context apply
  immediately.
* `caching_dict` deadlocks if the factory function uses the same dictionary.
* `using(derive(lexicon, TEXT))` inside `bygroup` is never evaluated.
* The fast path of a lexicon for one literal pattern ignores `re.VERBOSE`.
* A lexicon with a default target and a pattern without target that matches the empty string makes the parse function loop forever.
* A file with a UTF-16 byte order mark is written back without it.
* An exception while the tree is built leaves the builder busy for ever; setting a transformer during a build breaks the tree, because
  a process that finishes resets the state of another one.
* `AbstractIndenter.indent` leaves the line with the start of the cursor alone unless the cursor is at its very start, and includes a line that
  starts exactly at the end of the cursor. With `indent_blank_lines`, blank lines before the selection reset the current indent.
* In css a selector `a || b` is treated as `a ~ b`, the argument of `:not()` is ignored, `LxmlElement.get_parent` never gives None, and an escape above
  10FFFF makes reading fail; paths of imports in imported files are relative to the outermost file.
* `Theme.baseformat(state="focus")` raises TypeError: the cache takes positional arguments only.
* In an INI file a value ends at a colon (`url = http://x` gives `http`), an open bracket in a value starts a section, `\n` gives the letter n, a carriage
  return stays in the value, and in a section name only the first character after a leading backslash is kept.
* Numerals: `twenty sixteen` is read as 26; a long s in `six` raises KeyError; the Dutch words for 50, 60, 70 and 90 and most German words for multiples of ten are read as 5, 6, ..., because
  the rule for the ones comes first; French numerals from 70 to 79 and 90 to 99 are read as two numbers.
* `ancestors(upto)` with a node next to an ancestor stops before the root; `Token.range` gives None for an earlier token of the same tree; `token(pos)` gives None at the end of
  the last token, and may give a token of the line before; `tokens()` of an empty line between contexts gives tokens of other lines.
* A callback given to `get_root` is connected while the old build still has to emit "tree_finished": with a second build that is about to start it is called before the new build has begun (C122_too_early_refuted). After an exception in building it is never called (C122_exception_refuted).
* `lang/css.py` lines 219 and 231: `atrule_keyword` replaces itself by `atrule_nested`, on top of `atrule`; the closing brace of the nested block pops two lexicons, `atrule` stays. The rule after `@media ... { }` is read as part of the at-rule, and lost (C123).
* `lang/css.py` line 89: in a selector, `|` is seen as a separator of namespaces, so that `a||b` is read as one selector with two elements (C123).
* `css.py` lines 1109-1119 and 1195-1205: `get_string` uses `items.tokens()` on a slice and the undefined name `String`: a style sheet with a string in a value cannot be read (C124).
* `lang/css.py` line 260: an opening parenthesis enters `function` once more, but a closing one always leaves two lexicons: with parentheses in the arguments of a function, the rest is read outside of it (C124).
* `css.py` line 1083: `transparent` is an identifier with the action `Literal.Color`, but `get_ident_token` returns only actions in `Name`; and it is not in the list of color names: no color (C124).
* `ruleitem.py` `variations` and `variations_tree` do not look into a list that stands directly in a rule, although such lists are unrolled when the rule is used; so `introspect.decision_tree`, which takes the rules as written, does not show the choices in them (C40, C125).
* `introspect.py` `lexicons` lists what stands in the place of an inherited lexicon even if a derived class has replaced it with something that is not a lexicon, e.g. `None`; `standardactions` and `languages` then raise an exception (C126).
* A comment in XML that ends with a URL, like `<!--http://x/-->`, does not end there: the pattern for URLs takes the hyphens (`C127_url_refuted`).
* An apostrophe in the text of an XML processing instruction starts a string that goes on past `?>` (`C127_pi_refuted`).
* `XmlIO.find_encoding` does not find an encoding in single quotes, and then may return the value of another attribute; for an empty value it returns the quote (`C128_single_quotes_refuted`, `C128_empty_refuted`).
* `util.py` line 451-460: asking a class for a `Switch` (`Document._in_undo`, as `inspect.getmembers` does) raises TypeError after replacing the dictionary, so the switches of all instances
  are forgotten, also those that are on; a `with` block that is open then has no effect any more (`C131_class_refuted`). Instances that compare equal share a switch (`C131_equal_instances_refuted`).
* `docio.py` line 202: the pattern has `(?:en)coding` where `(?:en)?coding` seems to be meant; a line like `# coding: latin-1` is not recognized, although the documentation says so (`C132_coding_refuted`).
* `lexicon.py` line 191: derived lexicons are cached by equality of the argument; after `lexicon(1)`, `lexicon(True).arg` is 1 (`C129_exact_argument_refuted`).
* `work.py` `slot_invalidate` tells only the transformer that is set.  A transformer that is taken away, misses an
  edit, and is set again, finds its old results for contexts that were changed in place (`C133_stale_refuted`).
* `work.py` `set_transformer` while a process is running: when the transformer was taken away during the build, the
  state stays at "build", and a transformer set just before the process ends is never run (`C133_lost_refuted`); when a
  transformer is replaced while it is running, there is a moment at which `get_transform` does not wait, although the
  new one was not run (`C133_early_refuted`).
* Indenting CSS: a line of only white space between a rule and a comment inside an at-rule is given the tokens of that
  rule (see C121), so its closing bracket counts twice and the rest of the at-rule loses its indent
  (`C135_white_line_refuted`).
* `trim(start, end)` removes the white space before `end` also if that is in the middle of a line (`C136_region_refuted`).
* `f.copy_themes(f)` removes all themes of `f`; copying the themes of a formatter whose factory gives None for a base
  format forgets that the base format was to be added (`C137_copy_refuted`).
* `translate({})` raises KeyError, as the pattern for no words matches the empty text; `translate(.., whole_words=True)` looks
  for word boundaries in the selected text only, so that a part of a word at an edge of the region is replaced
  (`C138_refuted`).
* `lang/scheme.py` line 227: `v *= radix * len(t.text)` should be a power, so `#x12##` is 576 and not 4608; `#i` has no effect on integers in other radixes; `12##` is exact; `1/2/3`, `1e5.2`, `--5` and `+infx0` are accepted (C139).
* `util.py` `caching_dict` locks looking up, but storing (`add_transform`, `add_indent`) is not locked: a transform that is added while another thread is looking for it is overwritten, for good (C141).
* `treebuilder.py` line 572: the end of the range of earlier builds is moved by the changes taken before the build (`c.new_position`), but not by those that `build_new_tree` takes while building: the reported range can be too short (C143).
* `docio.py` lines 125-132: `save` makes the file empty before the data is written, so that both old and new contents are lost when writing fails; `url` and `encoding` are set before it is known whether they can be used, and stay when saving fails (C145).
* `document.py` lines 339-345: `modification_changed` is emitted before the text is changed, and `undo_available` before the pending edits are cleared: an exception in an observer leaves the undo stack out of step with the text, or makes the edit be done twice (C146).
* `document.py` line 378: `text_change` is emitted while the switch for undo is on, so that edits of an observer during undo are put on the redo stack, and the document is marked as not modified although they were made (C147).
* `util.py` lines 382-394: `emit` disconnects the handlers for one call only after the loop, by index. When a later handler raises they stay connected and are called again. When a handler emits the same event, they are called twice and `del slots[i]` removes another handler (C148).
* `indent.py` line 307 compares (`info.indent == ""`) where it looks like an assignment was meant; it has no effect.

## Trusted base

* The Coq kernel (8.16.1) and its standard library. No axioms: see below.
* The reading of the Python code recorded in the comments of the model files: that the definitions do what the cited lines do,
  and that Python's built-in types behave as the definitions say (slices, dictionaries in insertion order, stable sorting, `str.find`,
  unbounded integers).
* That what is listed above as external only matters through the given variables.

Print Assumptions was run for each theorem named in MANIFEST.json (406); all print "Closed under the global context":

`C01_merged_target_follows_sequence`, `C01_target_reported_iff_pending`, `C01_rule_target_follows_items`, `C02_events_replay_to_lexer_state`, `C03_lexemes_are_ordered_slices`, `C04_default_action_lossless`, `C05_default_target_leaving_root_refuted`, `C05_bounded_circle_refuted`, `C05_circle_ends_partial`, `C06_literal_fast_path`, `C07_tree_contains_the_lexemes`, `C07_word_determines_tree`, `C08_find_token`, `C08_trails_lead_to_the_token`, `C09_find_context_innermost`, `C10_range_in_gap_refuted`, `C10_range_tokens_partial`, `C11_forward_backward`, `C11_forward_backward_upto`, `C11_tokens_and_parent_index`, `C11_next_token_visits_all`, `C12_get_group`, `C13_copy_is_equal`, `C14_history`, `C14_lexicons`, `C14_initial`, `C15_refuted`, `C15_skip_refuted`, `C14_lexicons`, `C16_refuted`, `C16_partial`, `C16_new_position`, `C17_notification_describes_the_edit`, `C17_notification_of_a_single_edit`, `C17_every_change_is_notified`, `C18_batch_applies_all_edits`, `C18_useless_edits_do_not_matter`, `C18_single_edit`, `C19_exception_discards_the_batch`, `C20_rejected_batch_refuted`, `C20_rejected_batch_partial`, `C21_overlap_at_same_start_refuted`, `C21_overlap_rejected_partial`, `C22_undo_restores_the_text`, `C22_reversed_changes_lead_back`, `C23_linear_history_refuted`, `C23_linear_history_partial`, `C23_single_edits_change_the_text`, `C24_modified_follows_the_history`, `C24_modified_follows_the_history`, `C25_undo_disabled_refuted`, `C25_clear_makes_undo_sound_partial`, `C26_cursors_follow_an_edit`, `C27_batch_refuted`, `C27_untouched_cursors_partial`, `C28_blocks_are_the_lines`, `C28_every_text_has_lines`, `C28_overlapping_separator_refuted`, `C29_blocks_by_number`, `C30_replace_partial`, `C30_replace_refuted`, `C31_observers`, `C31_deterministic`, `C32_refuted`, `C32_partial`, `C33_merge_clip`, `C34_split_list`, `C34_unique`, `C35_refuted`, `C35_partial`, `C36_refuted`, `C36_partial`, `C37_words2regexp`, `C37_words_affixes`, `C38_chars`, `C39`, `C39_subgroup`, `C40_partial`, `C40_skip_refuted`, `C40_index_refuted`, `C40_nested_refuted`, `C41_nothing_pending_partial`, `C41_tree_reflects_all_edits_partial`, `C41_building_ends`, `C41_no_deadlock_partial`, `C41_exception_refuted`, `C41_two_builds_refuted`, `C42_up_to_date_partial`, `C42_refuted`, `C43_text_equals_tree_partial`, `C43_raises_at_the_end`, `C43_refuted`, `C44_refuted`, `C45_results_are_never_stale_partial`, `C45_every_run_partial`, `C45_refuted`, `C46_update_after_run_partial`, `C46_refuted`, `C47_partial`, `C47_formats`, `C47_gap_refuted`, `C48_partial`, `C48_refuted`, `C49_escape`, `C49_attrescape`, `C50_all`, `C50_uniq`, `C50_remove`, `C50_selected`, `C50_is_not_partial`, `C50_in_range_refuted`, `C50_range`, `C51_delete`, `C52_qualname`, `C52_class_case_refuted`, `C53_partial`, `C53_refuted`, `C54_increase_then_decrease_partial`, `C54_refuted_blank_line`, `C54_refuted_cursor`, `C55_hierarchy`, `C55_partial_order`, `C56_delete_refuted`, `C56_delete_partial`, `C57_height`, `C58_siblings`, `C59_lexer_step`, `C60_what_a_lexicon_yields`, `C61_undo_available_refuted`, `C61_undo_available_partial`, `C62_modified_is_reported`, `C63_revision_counts_changes`, `C64_reading_a_piece`, `C64_reading_back_an_edit`, `C65_re_sub_partial`, `C65_re_sub_refuted`, `C66_strip_selects_the_stripped_text`, `C67_select_whole_lines`, `C68_caching_dict`, `C69_refuted`, `C69_partial`, `C70_dispatch`, `C70_unique`, `C71_unroll`, `C72_updated_range`, `C73_refuted`, `C73_arrivals_partial`, `C73_root_arrivals_partial`, `C74_refuted`, `C74_root_lexicon_partial`, `C75_ifeq`, `C75_select`, `C75_ifmember`, `C75_ifgroup`, `C75_gselect`, `C75_dselect`, `C75_findmember`, `C75_derive`, `C75_target_select`, `C75_arg`, `C75_ifarg_partial`, `C75_ifarg_refuted`, `C76_html`, `C77_actions_are_unique`, `C77_reserved_names_refuted`, `C78_suggest`, `C78_filename_first_refuted`, `C79_add`, `C80_relatives_partial`, `C80_each`, `C80_siblings_of_root_refuted`, `C81_strip`, `C82_indent_changes_white_space`, `C82_indent_levels`, `C83_indent_twice_partial`, `C83_refuted`, `C84_part_of_indented`, `C85_auto_indent_partial`, `C85_refuted`, `C85_refuted_first_line`, `C86_matches_partial`, `C86_no_false_match`, `C86_nearest_only_refuted`, `C86_universal_refuted`, `C86_empty_text_refuted`, `C87_cascade_partial`, `C87_every_sheet_listed`, `C87_two_important_refuted`, `C87_unmatched_list_refuted`, `C87_no_value_refuted`, `C88_style_order`, `C88_no_selectors_refuted`, `C89_filter_partial`, `C89_filter_nested_refuted`, `C89_every_sheet_behind`, `C90_reads_partial`, `C90_nothing_else`, `C90_plain_import_refuted`, `C90_cycle_refuted`, `C90_second_media_refuted`, `C90_not_allowed_refuted`, `C91_filenames_partial`, `C91_add`, `C91_own_name_refuted`, `C92_prelude`, `C92_match_never_raises`, `C93_quote_partial`, `C93_read_string_refuted`, `C93_quote_refuted`, `C94_hex_read`, `C94_written_read`, `C94_writable`, `C95_rgb_partial`, `C95_in_range`, `C95_zero_refuted`, `C95_red_refuted`, `C95_alpha_percent_refuted`, `C95_fraction_refuted`, `C96_subtract`, `C96_add`, `C96_overlay`, `C96_reachable`, `C96_again`, `C96_equal_refuted`, `C97_written_read_partial`, `C97_zero_refuted`, `C97_stretch_refuted`, `C97_families_refuted`, `C97_quotes_refuted`, `C97_unit_refuted`, `C98_read_partial`, `C98_topic`, `C98_other`, `C98_color`, `C98_keyword`, `C98_size`, `C98_weight`, `C98_style`, `C98_family`, `C98_font`, `C98_lines`, `C98_comma_refuted`, `C98_empty_refuted`, `C98_stretch_refuted`, `C98_font_refuted`, `C99_order`, `C99_derived`, `C99_cascade_partial`, `C99_attribute_refuted`, `C100_unknown_state`, `C100_more_specific`, `C100_selects`, `C100_unused_state`, `C101_forward_backward`, `C101_each`, `C101_slices`, `C101_islice`, `C102_groups`, `C102_rows`, `C102_peek`, `C103_roundtrip_partial`, `C103_utf16_refuted`, `C103_mark_lost_refuted`, `C103_late_declaration_refuted`, `C103_unknown_refuted`, `C104_reported_partial`, `C104_refuted`, `C104_not_text_refuted`, `C105_json_partial`, `C105_surrogates_refuted`, `C106_integers_partial`, `C106_large_integers_refuted`, `C107_json_never_raises`, `C108_csv_partial`, `C108_csv_round_trip`, `C108_crlf_refuted`, `C109_csv_raises_partial`, `C109_open_string_refuted`, `C110_skip_refuted`, `C110_skip_partial`, `C111_check_ends`, `C111_verdict`, `C111_unreported_partial`, `C111_runaway_refuted`, `C111_replace_refuted`, `C111_silent_hang_refuted`, `C111_handled_refuted`, `C112_validate_partial`, `C112_targets_partial`, `C112_skip_refuted`, `C112_conflict_refuted`, `C113_ini_partial`, `C113_ini_round_trip`, `C113_comment_at_end_refuted`, `C114_ini_raises_partial`, `C114_section_name_refuted`, `C115_english_numerals_partial`, `C115_every_number`, `C115_numerals_apart_refuted`, `C116_any_text_read_partial`, `C116_lexing_ends`, `C116_long_s_refuted`, `C117_number_words_refuted`, `C118_ancestors`, `C118_common_ancestor`, `C118_upto_partial`, `C118_upto_refuted`, `C119_tokens_until`, `C119_token_range_partial`, `C119_backwards_refuted`, `C120_token_at_position_partial`, `C120_end_of_text_refuted`, `C120_other_block_refuted`, `C121_tokens_of_range_partial`, `C121_empty_line_refuted`, `C122_called_once_partial`, `C122_too_early_refuted`, `C122_exception_refuted`, `C123_sheet_read_partial`, `C123_one_meaning`, `C123_media_refuted`, `C123_column_refuted`, `C123_comment_refuted`, `C124_properties_read_partial`, `C124_string_refuted`, `C124_parentheses_refuted`, `C124_transparent_refuted`, `C125_agree_partial`, `C125_covers_partial`, `C125_skip_refuted`, `C125_nested_refuted`, `C126_lexicons`, `C126_found_partial`, `C126_replaced_refuted`, `C126_index_refuted`, `C127_xml_partial`, `C127_url_refuted`, `C127_pi_refuted`, `C128_encoding_partial`, `C128_single_quotes_refuted`, `C128_empty_refuted`, `C129_same_lexicon_partial`, `C129_exact_argument_refuted`, `C130_parse_function`, `C131_switch_partial`, `C131_class_refuted`, `C131_equal_instances_refuted`, `C132_find_encoding_partial`, `C132_coding_refuted`, `C133_swap_partial`, `C133_stale_refuted`, `C133_background_partial`, `C133_lost_refuted`, `C133_early_refuted`, `C134_languages_in_a_line`, `C134_indenter_of_language`, `C135_brackets_partial`, `C135_white_line_refuted`, `C136_trim_partial`, `C136_again`, `C136_region_refuted`, `C137_themes_partial`, `C137_copy_refuted`, `C138_translate_partial`, `C138_unique`, `C138_refuted`, `C139_numbers_partial`, `C139_unknown_refuted`, `C139_inexact_refuted`, `C139_faulty_refuted`, `C140_complex`, `C141_transforms_partial`, `C141_same_partial`, `C141_race_refuted`, `C142_peek`, `C142_never`, `C143_range_partial`, `C143_start`, `C143_during_refuted`, `C144_cursors`, `C144_never_fails`, `C145_files_partial`, `C145_untouched`, `C145_modified`, `C145_saved`, `C145_succeeds`, `C145_crash_refuted`, `C145_encoding_refuted`, `C146_edits_partial`, `C146_events_partial`, `C146_undo_partial`, `C146_quiet`, `C146_modified_refuted`, `C146_undo_refuted`, `C146_twice_refuted`, `C146_flag_refuted`, `C147_edits_partial`, `C147_undo_partial`, `C147_modified_refuted`, `C147_redo_refuted`, `C148_once_partial`, `C148_emit_partial`, `C148_exception_partial`, `C148_first_partial`, `C148_raise_refuted`, `C148_nested_refuted`.
