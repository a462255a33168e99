{
 "claims": [
  {
   "property": "C01",
   "status": "proved",
   "theorems": [
    "C01_merged_target_follows_sequence",
    "C01_target_reported_iff_pending",
    "C01_rule_target_follows_items"
   ],
   "note": ""
  },
  {
   "property": "C02",
   "status": "proved",
   "theorems": [
    "C02_events_replay_to_lexer_state"
   ],
   "note": ""
  },
  {
   "property": "C03",
   "status": "proved",
   "theorems": [
    "C03_lexemes_are_ordered_slices"
   ],
   "note": ""
  },
  {
   "property": "C04",
   "status": "proved",
   "theorems": [
    "C04_default_action_lossless"
   ],
   "note": "no rule may match the empty string (otherwise the circle detection can skip a character)"
  },
  {
   "property": "C05",
   "status": "partial",
   "theorems": [
    "C05_default_target_leaving_root_refuted",
    "C05_bounded_circle_refuted",
    "C05_circle_ends_partial"
   ],
   "note": "the claim as stated is false for the code (two counterexamples); proved under the conditions listed in the partial theorem"
  },
  {
   "property": "C06",
   "status": "proved",
   "theorems": [
    "C06_literal_fast_path"
   ],
   "note": ""
  },
  {
   "property": "C07",
   "status": "proved",
   "theorems": [
    "C07_tree_contains_the_lexemes",
    "C07_word_determines_tree"
   ],
   "note": ""
  },
  {
   "property": "C08",
   "status": "proved",
   "theorems": [
    "C08_find_token",
    "C08_trails_lead_to_the_token"
   ],
   "note": ""
  },
  {
   "property": "C09",
   "status": "proved",
   "theorems": [
    "C09_find_context_innermost"
   ],
   "note": ""
  },
  {
   "property": "C10",
   "status": "partial",
   "theorems": [
    "C10_range_in_gap_refuted",
    "C10_range_tokens_partial"
   ],
   "note": "false for a range in a gap between two contexts (counterexample); proved whenever some token overlaps the range"
  },
  {
   "property": "C11",
   "status": "proved",
   "theorems": [
    "C11_forward_backward",
    "C11_forward_backward_upto",
    "C11_tokens_and_parent_index",
    "C11_next_token_visits_all"
   ],
   "note": ""
  },
  {
   "property": "C12",
   "status": "proved",
   "theorems": [
    "C12_get_group"
   ],
   "note": ""
  },
  {
   "property": "C13",
   "status": "proved",
   "theorems": [
    "C13_copy_is_equal"
   ],
   "note": ""
  },
  {
   "property": "C14",
   "status": "proved",
   "theorems": [
    "C14_history",
    "C14_lexicons",
    "C14_initial"
   ],
   "note": "For every history of calls of rebuild without changes arriving meanwhile. The locality hypothesis (local_parse) is proved for lexicons from a condition on the regular expression engine: no lookbehind, at most K <= 9 characters of lookahead, no empty matches, and actions that keep the start of the match (C15 shows that these are needed)."
  },
  {
   "property": "C15",
   "status": "partial",
   "theorems": [
    "C15_refuted",
    "C15_skip_refuted",
    "C14_lexicons"
   ],
   "note": "Refuted: a quote typed 15 characters after an unclosed quote does not give one string token, as only ten tokens are looked back (treebuilderutil.py:150-160). Also refuted with purely local patterns where bygroup() skips the first group. What holds is C14."
  },
  {
   "property": "C16",
   "status": "partial",
   "theorems": [
    "C16_refuted",
    "C16_partial",
    "C16_new_position"
   ],
   "note": "Refuted: an edit before the pending region never lowers its start, because start is overwritten by the maximum before the minimum is taken (treebuilderutil.py:98, 102). Proved when no edit starts before the first pending one."
  },
  {
   "property": "C17",
   "status": "proved",
   "theorems": [
    "C17_notification_describes_the_edit",
    "C17_notification_of_a_single_edit",
    "C17_every_change_is_notified"
   ],
   "note": ""
  },
  {
   "property": "C18",
   "status": "proved",
   "theorems": [
    "C18_batch_applies_all_edits",
    "C18_useless_edits_do_not_matter",
    "C18_single_edit"
   ],
   "note": ""
  },
  {
   "property": "C19",
   "status": "proved",
   "theorems": [
    "C19_exception_discards_the_batch"
   ],
   "note": ""
  },
  {
   "property": "C20",
   "status": "partial",
   "theorems": [
    "C20_rejected_batch_refuted",
    "C20_rejected_batch_partial"
   ],
   "note": "The code violates the property: after a batch is rejected its edits stay pending, every later batch is rejected too and the text can never change again. Proved: the rejected batch itself leaves the text unchanged."
  },
  {
   "property": "C21",
   "status": "partial",
   "theorems": [
    "C21_overlap_at_same_start_refuted",
    "C21_overlap_rejected_partial"
   ],
   "note": "The code violates the property: two overlapping edits that start at the same position are merged silently. Proved: an edit that starts strictly inside the piece another one replaces is rejected."
  },
  {
   "property": "C22",
   "status": "proved",
   "theorems": [
    "C22_undo_restores_the_text",
    "C22_reversed_changes_lead_back"
   ],
   "note": ""
  },
  {
   "property": "C23",
   "status": "partial",
   "theorems": [
    "C23_linear_history_refuted",
    "C23_linear_history_partial",
    "C23_single_edits_change_the_text",
    "C24_modified_follows_the_history"
   ],
   "note": "The code violates the property in one corner: a batch of edits that as a whole changes nothing can be undone, but is then forgotten and cannot be redone. Proved: the full property when every batch changes the text; and for all sequences (in C24_modified_follows_the_history) that the only deviation is forgetting a step between two equal texts."
  },
  {
   "property": "C24",
   "status": "proved",
   "theorems": [
    "C24_modified_follows_the_history"
   ],
   "note": ""
  },
  {
   "property": "C25",
   "status": "partial",
   "theorems": [
    "C25_undo_disabled_refuted",
    "C25_clear_makes_undo_sound_partial"
   ],
   "note": "The code violates the property: with an edit made while recording was disabled, undo gives a text the document never had. Proved: it holds again after clear_undo_redo()."
  },
  {
   "property": "C26",
   "status": "proved",
   "theorems": [
    "C26_cursors_follow_an_edit"
   ],
   "note": "Cursor.update and the update of all cursors of a document for one change; see DESIGN.md for what is modelled"
  },
  {
   "property": "C27",
   "status": "partial",
   "theorems": [
    "C27_batch_refuted",
    "C27_untouched_cursors_partial"
   ],
   "note": "False as stated: C27_batch_refuted gives batches after which a cursor is in the wrong place although no edit touches it. Proved: when no edit of the batch makes the text shorter, a cursor behind all replaced pieces moves with the text and a selection before all of them stays."
  },
  {
   "property": "C28",
   "status": "proved",
   "theorems": [
    "C28_blocks_are_the_lines",
    "C28_every_text_has_lines",
    "C28_overlapping_separator_refuted"
   ],
   "note": "for separators that cannot overlap themselves, as the quantifier says; C28_overlapping_separator_refuted shows why (separator 'aa')"
  },
  {
   "property": "C29",
   "status": "proved",
   "theorems": [
    "C29_blocks_by_number"
   ],
   "note": ""
  },
  {
   "property": "C30",
   "status": "partial",
   "theorems": [
    "C30_replace_partial",
    "C30_replace_refuted"
   ],
   "note": "False for a negative start (text is inserted instead of replaced) and for old == '' (endless loop): C30_replace_refuted. Proved for start >= 0 and non-empty old, any end and count."
  },
  {
   "property": "C31",
   "status": "proved",
   "theorems": [
    "C31_observers",
    "C31_deterministic"
   ],
   "note": "Refinement of any history to a specification of connections in connection order; functions that do not use the Observable. Return values (context managers) are not modelled."
  },
  {
   "property": "C32",
   "status": "partial",
   "theorems": [
    "C32_refuted",
    "C32_partial"
   ],
   "note": "Refuted: a handler that disconnects an earlier one makes emit() skip the next handler and disconnect the wrong one. Proved when handlers may do anything except with the event being emitted."
  },
  {
   "property": "C33",
   "status": "proved",
   "theorems": [
    "C33_merge_clip"
   ],
   "note": "For a factory called with separate arguments (a named tuple); the default factory, tuple, cannot be called that way."
  },
  {
   "property": "C34",
   "status": "proved",
   "theorems": [
    "C34_split_list",
    "C34_unique"
   ],
   "note": ""
  },
  {
   "property": "C35",
   "status": "partial",
   "theorems": [
    "C35_refuted",
    "C35_partial"
   ],
   "note": "Refuted with two threads: the lock is removed from the registry while another thread waits for it. Proved: exclusion per lock, removal never fails, exclusion when no lock is made while an earlier one is in use."
  },
  {
   "property": "C36",
   "status": "partial",
   "theorems": [
    "C36_refuted",
    "C36_partial"
   ],
   "note": "Refuted for UTF-32 little endian, whose mark starts with the one of UTF-16. Proved for the others and for data without mark."
  },
  {
   "property": "C37",
   "status": "proved",
   "theorems": [
    "C37_words2regexp",
    "C37_words_affixes"
   ],
   "note": "For every non-empty list of words and every set iteration order. Reading the pattern is specified by a separate character automaton (RegexSpec). Without words the pattern matches the empty text (C37_no_words_refuted)."
  },
  {
   "property": "C38",
   "status": "proved",
   "theorems": [
    "C38_chars"
   ],
   "note": "For every non-empty collection of characters. Without characters the text is no pattern (C38_no_chars_refuted)."
  },
  {
   "property": "C39",
   "status": "proved",
   "theorems": [
    "C39",
    "C39_subgroup"
   ],
   "note": "Stated against a denotation of items (RuleItemSpec.denote). The pre-evaluation is assumed to succeed: it evaluates items that are not chosen, so it can raise where the rule has a meaning (C39_eager_refuted). Items call(...) and TEXT may not stand in a rule themselves; in using(...) such an item is never evaluated (C39_using_call_refuted)."
  },
  {
   "property": "C40",
   "status": "partial",
   "theorems": [
    "C40_partial",
    "C40_skip_refuted",
    "C40_index_refuted",
    "C40_nested_refuted"
   ],
   "note": "Proved for rules in which no list or tuple stands directly (the rules of a lexicon are unrolled), without skip, without empty bygroup(), with literal indices in targets. Refuted for rules with skip, with a computed index, and with a list in them."
  },
  {
   "property": "C41",
   "status": "partial",
   "theorems": [
    "C41_nothing_pending_partial",
    "C41_tree_reflects_all_edits_partial",
    "C41_building_ends",
    "C41_no_deadlock_partial",
    "C41_exception_refuted",
    "C41_two_builds_refuted"
   ],
   "note": "For every interleaving of any number of calling threads nothing is left pending, if no exception is raised in a process. False after an exception: the builder stays busy forever (C41_exception_refuted). With edits from one thread the tree reflects them all in order; false when a transformer is set while building, as two processes then work on the tree (C41_two_builds_refuted)."
  },
  {
   "property": "C42",
   "status": "partial",
   "theorems": [
    "C42_up_to_date_partial",
    "C42_refuted"
   ],
   "note": "False: a process that is finishing resets the state that the next edit has set (C42_refuted). Proved when a new process is only started after the earlier one has ended."
  },
  {
   "property": "C43",
   "status": "partial",
   "theorems": [
    "C43_text_equals_tree_partial",
    "C43_raises_at_the_end",
    "C43_refuted"
   ],
   "note": "False for texts that end inside a context without a method: transform_text raises IndexError there (C43_refuted, and C43_raises_at_the_end says exactly when). Proved for all other runs of a lexer."
  },
  {
   "property": "C44",
   "status": "partial",
   "theorems": [
    "C44_refuted"
   ],
   "note": "False: the lexemes of the event that enters an untransformed context are lost, and the event after the context pops one level too many."
  },
  {
   "property": "C45",
   "status": "partial",
   "theorems": [
    "C45_results_are_never_stale_partial",
    "C45_every_run_partial",
    "C45_refuted"
   ],
   "note": "False for methods that use positions of tokens (C45_refuted). Proved for all others, for every history of updates and runs, interrupted at any point. Runs and updates do not overlap in the model."
  },
  {
   "property": "C46",
   "status": "partial",
   "theorems": [
    "C46_update_after_run_partial",
    "C46_refuted"
   ],
   "note": "False: KeyError for a context without method, or for a second update without a complete run before it (C46_refuted). Proved for an update after a complete run when the changed context and its ancestors have methods."
  },
  {
   "property": "C47",
   "status": "partial",
   "theorems": [
    "C47_partial",
    "C47_formats",
    "C47_gap_refuted"
   ],
   "note": "With one theme, for regions that have a token or lie before/after all tokens. A region between two tokens of different contexts gives repeated and foreign pieces (C47_gap_refuted); with several themes see C48."
  },
  {
   "property": "C48",
   "status": "partial",
   "theorems": [
    "C48_partial",
    "C48_refuted"
   ],
   "note": "Proved for the whole text; for a region that starts or ends in a context with child contexts, tokens are repeated (C48_refuted)."
  },
  {
   "property": "C49",
   "status": "proved",
   "theorems": [
    "C49_escape",
    "C49_attrescape"
   ],
   "note": "Against a small reader of HTML text, attributes and named entities."
  },
  {
   "property": "C50",
   "status": "partial",
   "theorems": [
    "C50_all",
    "C50_uniq",
    "C50_remove",
    "C50_selected",
    "C50_is_not_partial",
    "C50_in_range_refuted",
    "C50_range"
   ],
   "note": "Proved, except that is_not.in_range is not the complement of in_range (C50_in_range_refuted: a node that overlaps a boundary is in neither)."
  },
  {
   "property": "C51",
   "status": "proved",
   "theorems": [
    "C51_delete"
   ],
   "note": "The tree, the remaining tokens and the number returned."
  },
  {
   "property": "C52",
   "status": "proved",
   "theorems": [
    "C52_qualname",
    "C52_class_case_refuted"
   ],
   "note": "lower is any function; names are qualified (module.Class.lexicon). Besides, a class name in the right case is not preferred over one in another case (C52_class_case_refuted)."
  },
  {
   "property": "C53",
   "status": "partial",
   "theorems": [
    "C53_partial",
    "C53_refuted"
   ],
   "note": "The fallback of an empty registry is never asked, and neither are registries after an empty one (C53_refuted). Proved for the registries before the first empty one."
  },
  {
   "property": "C54",
   "status": "partial",
   "theorems": [
    "C54_increase_then_decrease_partial",
    "C54_refuted_blank_line",
    "C54_refuted_cursor"
   ],
   "note": "Proved for lines with text and a cursor that starts at the beginning of a line or is in one line. Refuted otherwise: a line of only white space gets longer but not shorter, and the cursor itself can move off its first line."
  },
  {
   "property": "C55",
   "status": "proved",
   "theorems": [
    "C55_hierarchy",
    "C55_partial_order"
   ],
   "note": "For every history of creations."
  },
  {
   "property": "C56",
   "status": "partial",
   "theorems": [
    "C56_delete_refuted",
    "C56_delete_partial"
   ],
   "note": "false when the parent becomes empty (counterexample); proved when the parent keeps other children"
  },
  {
   "property": "C57",
   "status": "proved",
   "theorems": [
    "C57_height"
   ],
   "note": ""
  },
  {
   "property": "C58",
   "status": "proved",
   "theorems": [
    "C58_siblings"
   ],
   "note": ""
  },
  {
   "property": "C59",
   "status": "proved",
   "theorems": [
    "C59_lexer_step"
   ],
   "note": ""
  },
  {
   "property": "C60",
   "status": "proved",
   "theorems": [
    "C60_what_a_lexicon_yields"
   ],
   "note": "The last clause (no match after the last item) is for lexicons with a default action or without default target; with a default target the generator ends right after following it."
  },
  {
   "property": "C61",
   "status": "partial",
   "theorems": [
    "C61_undo_available_refuted",
    "C61_undo_available_partial"
   ],
   "note": "The code violates the property: no undo() ever emits undo_available and no redo() ever emits redo_available, also when it takes the last step. Proved: all other operations announce exactly the changes."
  },
  {
   "property": "C62",
   "status": "proved",
   "theorems": [
    "C62_modified_is_reported"
   ],
   "note": ""
  },
  {
   "property": "C63",
   "status": "proved",
   "theorems": [
    "C63_revision_counts_changes"
   ],
   "note": ""
  },
  {
   "property": "C64",
   "status": "proved",
   "theorems": [
    "C64_reading_a_piece",
    "C64_reading_back_an_edit"
   ],
   "note": ""
  },
  {
   "property": "C65",
   "status": "partial",
   "theorems": [
    "C65_re_sub_partial",
    "C65_re_sub_refuted"
   ],
   "note": "False for a negative start, as in C30. Proved for start >= 0. The matches are given (re is not modelled); they are required not to overlap and to be in order."
  },
  {
   "property": "C66",
   "status": "proved",
   "theorems": [
    "C66_strip_selects_the_stripped_text"
   ],
   "note": ""
  },
  {
   "property": "C67",
   "status": "proved",
   "theorems": [
    "C67_select_whole_lines"
   ],
   "note": ""
  },
  {
   "property": "C68",
   "status": "proved",
   "theorems": [
    "C68_caching_dict"
   ],
   "note": "Small-step model of threads."
  },
  {
   "property": "C69",
   "status": "partial",
   "theorems": [
    "C69_refuted",
    "C69_partial"
   ],
   "note": "Refuted for a modification time of exactly -1 (an exception). Proved for all other times."
  },
  {
   "property": "C70",
   "status": "proved",
   "theorems": [
    "C70_dispatch",
    "C70_unique"
   ],
   "note": "Classes that change after first use are not covered."
  },
  {
   "property": "C71",
   "status": "proved",
   "theorems": [
    "C71_unroll"
   ],
   "note": ""
  },
  {
   "property": "C72",
   "status": "proved",
   "theorems": [
    "C72_updated_range"
   ],
   "note": "For the languages of C14, one edit, no changes meanwhile."
  },
  {
   "property": "C73",
   "status": "partial",
   "theorems": [
    "C73_refuted",
    "C73_arrivals_partial",
    "C73_root_arrivals_partial"
   ],
   "note": "Refuted: when restarting inside the new tree the last compared token group is removed although the events continue after it (treebuilder.py:277-285), so a token is lost. Proved if every change comes in within 9 events after the (re)start or has at most 11 tokens before it, so that the builder does not restart inside the new tree; several edits pending at once as in C16."
  },
  {
   "property": "C74",
   "status": "partial",
   "theorems": [
    "C74_refuted",
    "C74_root_lexicon_partial"
   ],
   "note": "Refuted: a derived lexicon compares equal to the lexicon it derives from, so the root keeps the old one. Proved when the new lexicon does not compare equal to another one in use."
  },
  {
   "property": "C75",
   "status": "partial",
   "theorems": [
    "C75_ifeq",
    "C75_select",
    "C75_ifmember",
    "C75_ifgroup",
    "C75_gselect",
    "C75_dselect",
    "C75_findmember",
    "C75_derive",
    "C75_target_select",
    "C75_arg",
    "C75_ifarg_partial",
    "C75_ifarg_refuted"
   ],
   "note": "All helpers as documented, but ifarg treats an empty or zero argument as no argument (C75_ifarg_refuted)."
  },
  {
   "property": "C76",
   "status": "proved",
   "theorems": [
    "C76_html"
   ],
   "note": "The html literal and escaping; the pieces are those of C47."
  },
  {
   "property": "C77",
   "status": "partial",
   "theorems": [
    "C77_actions_are_unique",
    "C77_reserved_names_refuted"
   ],
   "note": "The names _name and _parent do not give a child action (C77_reserved_names_refuted); proved for all other names."
  },
  {
   "property": "C78",
   "status": "proved",
   "theorems": [
    "C78_suggest",
    "C78_filename_first_refuted"
   ],
   "note": "Weights are natural numbers (exact sums). The docstring's claim that the filename decides before the mimetype is false (C78_filename_first_refuted)."
  },
  {
   "property": "C79",
   "status": "proved",
   "theorems": [
    "C79_add"
   ],
   "note": ""
  },
  {
   "property": "C80",
   "status": "partial",
   "theorems": [
    "C80_relatives_partial",
    "C80_each",
    "C80_siblings_of_root_refuted"
   ],
   "note": "Proved for all nodes but the root: right, left, right_siblings and left_siblings raise an exception for the root (C80_siblings_of_root_refuted)."
  },
  {
   "property": "C81",
   "status": "proved",
   "theorems": [
    "C81_strip"
   ],
   "note": "For any indent events."
  },
  {
   "property": "C82",
   "status": "proved",
   "theorems": [
    "C82_indent_changes_white_space",
    "C82_indent_levels"
   ],
   "note": "The levels for events without strings (INDENT, DEDENT, NO_DEDENT, BLANK, NO_STRIP, NO_INDENT) that do not depend on earlier indents."
  },
  {
   "property": "C83",
   "status": "partial",
   "theorems": [
    "C83_indent_twice_partial",
    "C83_refuted"
   ],
   "note": "Proved if all lines that may be changed have text; refuted for lines of only white space, which get longer every time."
  },
  {
   "property": "C84",
   "status": "proved",
   "theorems": [
    "C84_part_of_indented"
   ],
   "note": "The indent string and the strings in events are white space without characters of the block separator."
  },
  {
   "property": "C85",
   "status": "partial",
   "theorems": [
    "C85_auto_indent_partial",
    "C85_refuted",
    "C85_refuted_first_line"
   ],
   "note": "Proved if each earlier line opens at most one thing, brackets match, and the line is not the first. Refuted for two brackets opened in one line, and for the first line."
  },
  {
   "property": "C86",
   "status": "partial",
   "theorems": [
    "C86_matches_partial",
    "C86_no_false_match",
    "C86_nearest_only_refuted",
    "C86_universal_refuted",
    "C86_empty_text_refuted"
   ],
   "note": "A match that is found is right. Proved both ways when every selector says something and the nearest candidate is as good as a further one (' ' only after ' ', '~' not after '+'). Refuted for every other pair of operators, for the universal selector and for attribute selectors with an empty text."
  },
  {
   "property": "C87",
   "status": "partial",
   "theorems": [
    "C87_cascade_partial",
    "C87_every_sheet_listed",
    "C87_two_important_refuted",
    "C87_unmatched_list_refuted",
    "C87_no_value_refuted"
   ],
   "note": "Proved if the selector lists of a rule are equally specific, declarations have values and no property has several important ones of which the most specific rule has one. Refuted: of two important declarations the less specific wins; the specificity of a list that does not match counts; a declaration without value makes it fail."
  },
  {
   "property": "C88",
   "status": "partial",
   "theorems": [
    "C88_style_order",
    "C88_no_selectors_refuted"
   ],
   "note": "The order is as stated for every sheet of which all rules have selectors; a single rule without selectors makes the style fail, exactly then."
  },
  {
   "property": "C89",
   "status": "partial",
   "theorems": [
    "C89_filter_partial",
    "C89_filter_nested_refuted",
    "C89_every_sheet_behind"
   ],
   "note": "Only the outermost conditions are considered: conditions within others are kept whatever they say."
  },
  {
   "property": "C90",
   "status": "partial",
   "theorems": [
    "C90_reads_partial",
    "C90_nothing_else",
    "C90_plain_import_refuted",
    "C90_cycle_refuted",
    "C90_second_media_refuted",
    "C90_not_allowed_refuted"
   ],
   "note": "Proved for imports with a media query where loading ends. Refuted: an import without media query always fails; cycles with media queries never end; of two imports of a file with different queries one is dropped; with imports not allowed files are still read for nested blocks."
  },
  {
   "property": "C91",
   "status": "partial",
   "theorems": [
    "C91_filenames_partial",
    "C91_add",
    "C91_own_name_refuted"
   ],
   "note": "Exactly the names the object knows; filtering forgets the sheet's own name. Imports inside nested blocks are not listed."
  },
  {
   "property": "C92",
   "status": "proved",
   "theorems": [
    "C92_prelude",
    "C92_match_never_raises"
   ],
   "note": ""
  },
  {
   "property": "C93",
   "status": "partial",
   "theorems": [
    "C93_quote_partial",
    "C93_read_string_refuted",
    "C93_quote_refuted"
   ],
   "note": "Writing is right for every text without newlines that, if it has only word characters and dashes, is an identifier. Reading a string fails unless it is a lone quote at the end of the text."
  },
  {
   "property": "C94",
   "status": "proved",
   "theorems": [
    "C94_hex_read",
    "C94_written_read",
    "C94_writable"
   ],
   "note": "Floating point numbers are those of SpecFloat in the standard library, with the parameters of binary64."
  },
  {
   "property": "C95",
   "status": "partial",
   "theorems": [
    "C95_rgb_partial",
    "C95_in_range",
    "C95_zero_refuted",
    "C95_red_refuted",
    "C95_alpha_percent_refuted",
    "C95_fraction_refuted"
   ],
   "note": "Proved if no number is zero and the opacity is no percentage. Refuted: numbers that are zero are skipped, so that rgb(255, 0, 0) has no green and blue; an opacity of 50% gives 0; fractions stay. Numbers are rational in the model."
  },
  {
   "property": "C96",
   "status": "partial",
   "theorems": [
    "C96_subtract",
    "C96_add",
    "C96_overlay",
    "C96_reachable",
    "C96_again",
    "C96_equal_refuted"
   ],
   "note": "All proved for what the attributes look like. Refuted for ==: a unit that is stored as None counts as different from a unit that is missing."
  },
  {
   "property": "C97",
   "status": "partial",
   "theorems": [
    "C97_written_read_partial",
    "C97_zero_refuted",
    "C97_stretch_refuted",
    "C97_families_refuted",
    "C97_quotes_refuted",
    "C97_unit_refuted"
   ],
   "note": "Proved for formats with keywords, colors and non-zero numbers and at most one, generic, family. Refuted: zero sizes, percentages for stretch, more than one family (raises), names of fonts without special characters, and sizes by keyword after a size with a unit."
  },
  {
   "property": "C98",
   "status": "partial",
   "theorems": [
    "C98_read_partial",
    "C98_topic",
    "C98_other",
    "C98_color",
    "C98_keyword",
    "C98_size",
    "C98_weight",
    "C98_style",
    "C98_family",
    "C98_font",
    "C98_lines",
    "C98_comma_refuted",
    "C98_empty_refuted",
    "C98_stretch_refuted",
    "C98_font_refuted"
   ],
   "note": "Reading never fails for non-empty lists without delimiters. Refuted: a comma raises, so does an empty list for font-style and font; of font-stretch the last value counts; the shorthand font does not know sizes by keyword."
  },
  {
   "property": "C99",
   "status": "partial",
   "theorems": [
    "C99_order",
    "C99_derived",
    "C99_cascade_partial",
    "C99_attribute_refuted"
   ],
   "note": "Order and derived actions are proved for sheets without selectors on attributes, the cascade for sheets as in C87. Refuted: an attribute selector on class sees the order of the names. The hypothesis on lower case does not hold for a capital sigma at the end of a name."
  },
  {
   "property": "C100",
   "status": "proved",
   "theorems": [
    "C100_unknown_state",
    "C100_more_specific",
    "C100_selects",
    "C100_unused_state"
   ],
   "note": "The rules that apply; more specific states for sheets without attribute selectors."
  },
  {
   "property": "C101",
   "status": "proved",
   "theorems": [
    "C101_forward_backward",
    "C101_each",
    "C101_slices",
    "C101_islice"
   ],
   "note": "For every tree; the slices with other negative indices or steps are those of the modelled slice.indices."
  },
  {
   "property": "C102",
   "status": "proved",
   "theorems": [
    "C102_groups",
    "C102_rows",
    "C102_peek"
   ],
   "note": "The names must be different."
  },
  {
   "property": "C103",
   "status": "partial",
   "theorems": [
    "C103_roundtrip_partial",
    "C103_utf16_refuted",
    "C103_mark_lost_refuted",
    "C103_late_declaration_refuted",
    "C103_unknown_refuted"
   ],
   "note": "Proved when the data does not start with a byte order mark, the declared encoding is found alike in bytes and text, and newlines are treated alike. Refuted: a document loaded with a byte order mark is saved without it; a late declaration; a declared encoding that does not exist while the language has a default."
  },
  {
   "property": "C104",
   "status": "partial",
   "theorems": [
    "C104_reported_partial",
    "C104_refuted",
    "C104_not_text_refuted"
   ],
   "note": "Proved when there is a byte order mark or a declaration but no conflict. Refuted: nothing is reported if the default was used; with both a mark and a declaration the latter is reported; a codec that is not for text counts as usable."
  },
  {
   "property": "C105",
   "status": "partial",
   "theorems": [
    "C105_json_partial",
    "C105_surrogates_refuted"
   ],
   "note": "Proved for all documents without characters that are written as two escapes; these are refuted: the string gets two surrogates."
  },
  {
   "property": "C106",
   "status": "partial",
   "theorems": [
    "C106_integers_partial",
    "C106_large_integers_refuted"
   ],
   "note": "Proved for integers between -2^53 and 2^53, if making a float rounds to a nearest one. Refuted for 2^53+1, because numbers are read as floats first."
  },
  {
   "property": "C107",
   "status": "proved",
   "theorems": [
    "C107_json_never_raises"
   ],
   "note": "Assumes that float() accepts everything the number pattern matches."
  },
  {
   "property": "C108",
   "status": "partial",
   "theorems": [
    "C108_csv_partial",
    "C108_csv_round_trip",
    "C108_crlf_refuted"
   ],
   "note": "Proved for texts with newlines between the rows. Refuted for the line ends of RFC 4180 (return and newline): the return character becomes part of the last field."
  },
  {
   "property": "C109",
   "status": "partial",
   "theorems": [
    "C109_csv_raises_partial",
    "C109_open_string_refuted"
   ],
   "note": "Raises exactly if the last token opens a quoted string; after the complete text that is a text that ends with an opening quote (IndexError)."
  },
  {
   "property": "C110",
   "status": "partial",
   "theorems": [
    "C110_skip_refuted",
    "C110_skip_partial"
   ],
   "note": "Refuted: the lexer compares only position, number of lexicons and number of entered lexicons (lexer.py:156-167), so a default target that leaves one lexicon and enters another, taken right after one that enters a lexicon, is taken for a circle: a character that the new lexicon knows is skipped. Proved if every target that is taken without text either only enters lexicons or leaves exactly one."
  },
  {
   "property": "C111",
   "status": "partial",
   "theorems": [
    "C111_check_ends",
    "C111_verdict",
    "C111_unreported_partial",
    "C111_runaway_refuted",
    "C111_replace_refuted",
    "C111_silent_hang_refuted",
    "C111_handled_refuted"
   ],
   "note": "Proved: the check ends; what each verdict says about the chain of default targets from the lexicon as root; endless chains from there are reported; from any open lexicons chains do not go on forever if nothing is reported and no default target both leaves and enters. Refuted: more than 100 contexts are reported as circular although the chain ends; lexicons that replace each other are not reported; nothing is reported for a default target that leaves the root, at which the lexer hangs; a circle reported as handled at which the lexer hangs."
  },
  {
   "property": "C112",
   "status": "partial",
   "theorems": [
    "C112_validate_partial",
    "C112_targets_partial",
    "C112_skip_refuted",
    "C112_conflict_refuted"
   ],
   "note": "Proved for default actions that are true values and for rules of which the variations are complete (C40). Refuted: targets of rules with skip are not looked at; a default action that is a false value (None) conflicts with nothing. Warnings about patterns are not modelled; that unpacking a malformed rule of another lexicon raises an exception is not modelled."
  },
  {
   "property": "C113",
   "status": "partial",
   "theorems": [
    "C113_ini_partial",
    "C113_ini_round_trip",
    "C113_comment_at_end_refuted"
   ],
   "note": "Proved for transforming the tree of any INI text, and for transforming the text if no comment is open when the last token was seen; the round trip is proved for all dictionaries with section names that are tight, without closing bracket and newline and not starting with a backslash. Refuted: a comment after all entries, even with a newline after it, makes transforming the text raise an exception (see C43). Values with an unescaped colon or open bracket, a backslash before other letters and return characters are not INI texts in the sense of the specification; examples show what becomes of them."
  },
  {
   "property": "C114",
   "status": "partial",
   "theorems": [
    "C114_ini_raises_partial",
    "C114_section_name_refuted"
   ],
   "note": "Proved: a value if all section names are fine (not starting with a backslash that is not the start of an escape), with the exception of C113 for transforming the text; an exception if a section name is a lone backslash, or starts with a backslash and x without a number. Refuted: the text [\\\\] cannot be read. Missing: an exception for such names after blanks."
  },
  {
   "property": "C115",
   "status": "partial",
   "theorems": [
    "C115_english_numerals_partial",
    "C115_every_number",
    "C115_numerals_apart_refuted"
   ],
   "note": "Proved for all lists of numerals with a character that is no letter, space or hyphen between them; every number below 10^12 has such a numeral and is read from all ways to write it. Refuted: twenty sixteen is read as 26, though the documentation says that multiple values are detected."
  },
  {
   "property": "C116",
   "status": "partial",
   "theorems": [
    "C116_any_text_read_partial",
    "C116_lexing_ends",
    "C116_long_s_refuted"
   ],
   "note": "Proved for all texts of characters that, if they match a letter of a word, are that letter in lower case; lexing ends for all texts. Refuted: six with a long s (U+017F) matches and raises KeyError."
  },
  {
   "property": "C117",
   "status": "partial",
   "theorems": [
    "C117_number_words_refuted"
   ],
   "note": "Refuted for Dutch (vijftig is read as 5), German (vierzig as 4, zwei millionen eins as two numbers) and French (soixante-dix as 60 and 10). Missing: a proof for the other words of these languages."
  },
  {
   "property": "C118",
   "status": "partial",
   "theorems": [
    "C118_ancestors",
    "C118_common_ancestor",
    "C118_upto_partial",
    "C118_upto_refuted"
   ],
   "note": "Proved in full except for ancestors(upto) with a node that is not above but whose parent is: then iteration stops before the parent, where the documentation says it goes on to the root (refuted). Missing: nothing else; a context without children as upto is outside the model."
  },
  {
   "property": "C119",
   "status": "partial",
   "theorems": [
    "C119_tokens_until",
    "C119_token_range_partial",
    "C119_backwards_refuted"
   ],
   "note": "Proved for a token and itself or a later token of the same tree, and for tokens of different trees. Refuted: there is no range either for an earlier token of the same tree."
  },
  {
   "property": "C120",
   "status": "partial",
   "theorems": [
    "C120_token_at_position_partial",
    "C120_end_of_text_refuted",
    "C120_other_block_refuted"
   ],
   "note": "The result is determined for every position. Refuted: at the end of the last token nothing is returned, and the token before may be in another block if it ends with the line separator."
  },
  {
   "property": "C121",
   "status": "partial",
   "theorems": [
    "C121_tokens_of_range_partial",
    "C121_empty_line_refuted"
   ],
   "note": "Proved for ranges that a token overlaps, empty ranges, and ranges after the last token. Refuted: for an empty line between contexts the tokens of other lines are given."
  },
  {
   "property": "C122",
   "status": "partial",
   "theorems": [
    "C122_called_once_partial",
    "C122_too_early_refuted",
    "C122_exception_refuted"
   ],
   "note": "Proved when processes run one at a time, calls come from one thread, no transformer is set meanwhile and no exception is raised. Refuted otherwise: with a background thread that is about to finish, the callback is called before the new build has begun; when building raises an exception it is never called."
  },
  {
   "property": "C123",
   "status": "partial",
   "theorems": [
    "C123_sheet_read_partial",
    "C123_one_meaning",
    "C123_media_refuted",
    "C123_column_refuted",
    "C123_comment_refuted"
   ],
   "note": "Proved for style sheets of rules with selectors (elements, ids, classes, pseudo elements and classes, also with lists of selectors as arguments, combinators, commas) and declarations with names, colors, numbers, units and function calls to any depth. Missing: comments, at-rules, attributes and namespaces in selectors, strings, url( ). Refuted: the rule after @media { } is lost, || without white space before it is not seen as combinator, a comment at the end makes reading fail."
  },
  {
   "property": "C124",
   "status": "partial",
   "theorems": [
    "C124_properties_read_partial",
    "C124_string_refuted",
    "C124_parentheses_refuted",
    "C124_transparent_refuted"
   ],
   "note": "Proved for the declarations of C123. Refuted: a string as value raises an exception, parentheses within the arguments of a function end the function, 'transparent' gives no color."
  },
  {
   "property": "C125",
   "status": "partial",
   "theorems": [
    "C125_agree_partial",
    "C125_covers_partial",
    "C125_skip_refuted",
    "C125_nested_refuted"
   ],
   "note": "Proved: the tree and the variations agree for rules without skip and without items with nothing to choose from; the tree covers all results (also skip) of rules in which no list stands and with literal indices in targets. Refuted: for rules with skip there are no variations at all; choices in a list that stands in a rule are not in the tree."
  },
  {
   "property": "C126",
   "status": "partial",
   "theorems": [
    "C126_lexicons",
    "C126_found_partial",
    "C126_replaced_refuted",
    "C126_index_refuted"
   ],
   "note": "The list of lexicons is proved in full. The actions and languages are proved for languages in which no lexicon is replaced with something else in a derived class, and rules with literal indices in targets. Refuted: something else in the place of an inherited lexicon is listed as a lexicon and makes the others fail; with a computed index in a target the actions are not found."
  },
  {
   "property": "C127",
   "status": "partial",
   "theorems": [
    "C127_xml_partial",
    "C127_url_refuted",
    "C127_pi_refuted"
   ],
   "note": "Proved for documents without document type declaration, in which comments do not end with a character that can be in a URL, and processing instructions have attributes or text without quotes, ampersands, question marks and equal signs. Refuted: a URL at the end of a comment takes the end of the comment with it; an apostrophe in a processing instruction starts a string that goes on past its end."
  },
  {
   "property": "C128",
   "status": "partial",
   "theorems": [
    "C128_encoding_partial",
    "C128_single_quotes_refuted",
    "C128_empty_refuted"
   ],
   "note": "Proved for the documents of C127, with the encoding in double quotes, not empty, and without references. Refuted: an encoding in single quotes is not found, or the value of another attribute is taken instead; of an empty value the quote is taken."
  },
  {
   "property": "C129",
   "status": "partial",
   "theorems": [
    "C129_same_lexicon_partial",
    "C129_exact_argument_refuted"
   ],
   "note": "Proved for every history, with arguments up to their equality in Python. Refuted: the argument is exactly the given one; after lexicon(1), lexicon(True) gives the lexicon with argument 1."
  },
  {
   "property": "C130",
   "status": "proved",
   "theorems": [
    "C130_parse_function"
   ],
   "note": "All interleavings of the steps of any number of threads, with builds that fail."
  },
  {
   "property": "C131",
   "status": "partial",
   "theorems": [
    "C131_switch_partial",
    "C131_class_refuted",
    "C131_equal_instances_refuted"
   ],
   "note": "Proved for programs that do not ask the class for the switch, for instances up to their equality. Refuted: asking the class (for example by a documentation tool or inspect.getmembers) raises TypeError and forgets the switches of all instances, also those that are on; instances that compare equal share a switch."
  },
  {
   "property": "C132",
   "status": "partial",
   "theorems": [
    "C132_find_encoding_partial",
    "C132_coding_refuted"
   ],
   "note": "Proved for encoding: name and encoding=\"name\". Refuted: coding: name without en is announced by the documentation, but not found."
  },
  {
   "property": "C133",
   "status": "partial",
   "theorems": [
    "C133_swap_partial",
    "C133_stale_refuted",
    "C133_background_partial",
    "C133_lost_refuted",
    "C133_early_refuted"
   ],
   "note": "Proved one call at a time, for transformers that did not miss an update since they were used; and for a background process when no transformer is taken away and no second process is started. Refuted: a transformer that is taken away, misses an edit and is set again gives its old result; a transformer that is set between taking away another one and the end of the process is never run; there is a moment at which get_transform does not wait for the new transformer."
  },
  {
   "property": "C134",
   "status": "proved",
   "theorems": [
    "C134_languages_in_a_line",
    "C134_indenter_of_language"
   ],
   "note": "Classes are compared by identity; the last two classes of mro() are not considered, as in the code. C134_case shows a line with three languages."
  },
  {
   "property": "C135",
   "status": "partial",
   "theorems": [
    "C135_brackets_partial",
    "C135_white_line_refuted"
   ],
   "note": "Proved for all trees, texts and lines if every line that is not empty has a token or comes after the last token, and brackets do not span lines. Refuted: a line of only white space before a comment in an at-rule gets the tokens of the rule before it, and the lines after it are not indented."
  },
  {
   "property": "C136",
   "status": "partial",
   "theorems": [
    "C136_trim_partial",
    "C136_again",
    "C136_region_refuted"
   ],
   "note": "Proved for regions that start at a position that is not negative and end at the end of a line or of the text. Refuted: white space before the end of the region is removed also in the middle of a line; with a negative start the end of the text is not trimmed (see C65). A line ends at a newline character; a return before it is not white space for trim."
  },
  {
   "property": "C137",
   "status": "partial",
   "theorems": [
    "C137_themes_partial",
    "C137_copy_refuted"
   ],
   "note": "Proved when no formatter copies its own themes and the factories make something of the base formats that are added. Refuted: f.copy_themes(f) removes all themes; if a factory gives None for the base format, whoever copies the themes does not add the base format."
  },
  {
   "property": "C138",
   "status": "partial",
   "theorems": [
    "C138_translate_partial",
    "C138_unique",
    "C138_refuted"
   ],
   "note": "Python's re is a parameter: of several keys that match at the same position it may find any (C138_engine shows that there is one). Proved for mappings with keys, none of them empty, and regions that start at a position that is not negative and, for whole words, are not next to a word. Refuted: the empty mapping raises KeyError; with whole_words a part of a word is replaced if the region ends there."
  },
  {
   "property": "C139",
   "status": "partial",
   "theorems": [
    "C139_numbers_partial",
    "C139_unknown_refuted",
    "C139_inexact_refuted",
    "C139_faulty_refuted"
   ],
   "note": "Proved for all numbers without unknown digits, but not for integers with both #i and a radix other than ten. Floats are not computed: proved is that Python is asked to round the right number. Refuted: several unknown digits in a fraction or a radix other than ten give a wrong number; integers with unknown digits are exact; #i#xff is exact; faulty input such as 1/2/3, 1e5.2 and --5 is accepted. For complex numbers see C140."
  },
  {
   "property": "C140",
   "status": "proved",
   "theorems": [
    "C140_complex"
   ],
   "note": "Floats are not computed: proved is that Python is asked for complex(x, y) or cmath.rect(x, y) of the right numbers."
  },
  {
   "property": "C141",
   "status": "partial",
   "theorems": [
    "C141_transforms_partial",
    "C141_same_partial",
    "C141_race_refuted"
   ],
   "note": "Proved when no transform is added for a language while another thread is asking for the transform of that language. Refuted otherwise: add_transform does not take the lock, and what it stores is overwritten. Storing in and looking up from a dict are atomic steps; the class that is found is a parameter."
  },
  {
   "property": "C142",
   "status": "proved",
   "theorems": [
    "C142_peek",
    "C142_never"
   ],
   "note": "For one run of the loop over the events: restarts because of changes during the build, and finding the old tail (which ends the build), are not part of the model. That tree.copy() copies is taken for granted."
  },
  {
   "property": "C143",
   "status": "partial",
   "theorems": [
    "C143_range_partial",
    "C143_start",
    "C143_during_refuted"
   ],
   "note": "Proved when changes arrive between builds, or during the first one; the start is right in every case. Refuted: changes that are taken during a later build do not move the end of the range of the earlier ones. That the range of one build covers the changes it handled is a hypothesis here (see C72)."
  },
  {
   "property": "C144",
   "status": "proved",
   "theorems": [
    "C144_cursors",
    "C144_never_fails"
   ],
   "note": "Edits of one change at a time; for batches of changes see C27. That object.__hash__ gives different values for objects that exist at the same time is a hypothesis; it is computed from the address."
  },
  {
   "property": "C145",
   "status": "partial",
   "theorems": [
    "C145_files_partial",
    "C145_untouched",
    "C145_modified",
    "C145_saved",
    "C145_succeeds",
    "C145_crash_refuted",
    "C145_encoding_refuted"
   ],
   "note": "Proved: other files and the text are never touched, the file has its old contents or a beginning of the new data, nothing is touched if encoding or opening fails, and the document is only marked as not modified when all is written. Refuted: the file is made empty first, so both contents can be lost; and an encoding or url given to a save that failed stays in the document. Encoding is an oracle here, see C103. Signal handlers are not modelled."
  },
  {
   "property": "C146",
   "status": "partial",
   "theorems": [
    "C146_edits_partial",
    "C146_events_partial",
    "C146_undo_partial",
    "C146_quiet",
    "C146_modified_refuted",
    "C146_undo_refuted",
    "C146_twice_refuted",
    "C146_flag_refuted"
   ],
   "note": "Proved for observers of text_change and text_changed: edits, and the text after undo, are as if they did not raise. Refuted for observers of modification_changed (the text is not changed, but the undo stack is), undo_available and redo_available (the edit is done again with the next one); and the modified flag is not restored when text_change raises during undo. Cursors are not in this model."
  },
  {
   "property": "C147",
   "status": "partial",
   "theorems": [
    "C147_edits_partial",
    "C147_undo_partial",
    "C147_modified_refuted",
    "C147_redo_refuted"
   ],
   "note": "Proved for edits, also those of an edit context: as if the two edits were done one after the other. Refuted for undo: what an observer does then is put on the redo stack, and does not mark the document as modified. One observer that does not react to its own edits; the order in which other observers are told is not stated."
  },
  {
   "property": "C148",
   "status": "partial",
   "theorems": [
    "C148_once_partial",
    "C148_emit_partial",
    "C148_exception_partial",
    "C148_first_partial",
    "C148_raise_refuted",
    "C148_nested_refuted"
   ],
   "note": "Refuted: when a later handler raises, the handler for one call stays connected and is called again; when a handler emits the event again, the handler for one call is called twice and another handler is disconnected. Proved for handlers that do not emit the event: at most one call, and one more for every emit that failed; and what is called and left connected by every emit. Handlers that connect or disconnect are not in this model (C32)."
  }
 ]
}