{"id": "C01", "title": "Merged targets act like the separate targets", "statement": "Collecting any series of targets (pop n lexicons / push lexicons) and following the single combined target leaves the same open-lexicon stack as following the targets one by one; a combined target is reported exactly when something is pending, and collecting starts afresh after it is reported.", "quantifier": "every sequence of targets, every starting stack deep enough to perform the pops one by one", "why_tests_cant": "sequences and stack depths are unbounded; the interesting cases are long mixes of pops that reach below earlier pushes", "anchors": ["parce/target.py: TargetFactory.add, TargetFactory.get, TargetFactory.push, TargetFactory.pop, TargetFactory.make"]}
{"id": "C02", "title": "Event targets replay to the lexer's own state, root never left", "statement": "Whoever consumes the event stream of a lexer can follow the targets of the events on their own stack starting from the same lexicons: the stack never becomes empty, its first lexicon is never removed, and after each event the stack is the one in which the event's lexemes were found.", "quantifier": "every language (any rule set, any regex behaviour), every text, every start position and start stack, every prefix of the event stream", "why_tests_cant": "languages, texts and nesting are unbounded and the pending targets are merged over arbitrarily many silent steps", "anchors": ["parce/lexer.py: Lexer.events", "parce/target.py: TargetFactory"]}
{"id": "C03", "title": "Lexemes are non-empty, in order, non-overlapping slices of the text", "statement": "Every event carries at least one lexeme; every lexeme's text is non-empty and is the slice of the parsed text at its position; lexemes never overlap, come in increasing position order and stay within the text after the start position.", "quantifier": "every language without text-rewriting dynamic actions, every text and start position, every prefix of the stream", "why_tests_cant": "holds over unbounded texts and languages; a single overlapping lexeme would only appear for rare rule combinations", "anchors": ["parce/lexer.py: Lexer.events", "parce/lexicon.py: Lexicon._get_parse_function"]}
{"id": "C04", "title": "Default action makes lexing lossless", "statement": "When every lexicon reachable has a default action (and no rule skips or drops text or matches the empty string), the lexeme texts concatenated are exactly the text from the start position to the end.", "quantifier": "every such language, every text, every start position", "why_tests_cant": "every text and every interleaving of matches, gaps and lexicon switches is covered; tests only sample texts", "anchors": ["parce/lexicon.py: Lexicon._get_parse_function (default_action variants)", "parce/lexer.py: Lexer.events"]}
{"id": "C05", "title": "Circular default targets do not hang the lexer", "statement": "When default targets lead the lexer round in a circle at one text position while the number of open lexicons stays bounded, the lexer notices, advances the position and eventually finishes the text.", "quantifier": "every language whose default targets never open more than a bounded number of lexicons, every text", "why_tests_cant": "non-termination cannot be observed by a finite test; the circle detector keys on depths, so only an argument over all target combinations settles it", "anchors": ["parce/lexer.py: Lexer.events (circular)", "parce/validate.py: LexiconValidator.check_default_target"]}
{"id": "C06", "title": "Literal fast path equals the regular-expression path", "statement": "A lexicon with a single plain-string pattern that is matched with plain string search yields the same pieces (pos, text, action, target) as matching that string as a regular expression would.", "quantifier": "every needle, text, position and kind of default (action, target, none)", "why_tests_cant": "all texts and all overlaps of the needle with itself are covered", "anchors": ["parce/lexicon.py: Lexicon._get_parse_function lines 313-367 vs 369-437", "parce/regex.py: to_string"]}
{"id": "C07", "title": "The tree contains exactly the lexed tokens in their lexicon contexts", "statement": "The tokens of a freshly built tree, left to right, are exactly the lexemes of the event stream; the lexicons of the ancestors of each token are exactly the open lexicons when its event was produced; no context except the root is empty.", "quantifier": "every language, every text", "why_tests_cant": "needs all event streams (any pops/pushes), unbounded depth", "anchors": ["parce/treebuilder.py: build_tree", "parce/tree.py: make_tokens, GroupToken.make_group"]}
{"id": "C08", "title": "Finding the token at a position", "statement": "find_token(pos) returns the first token ending after pos (None if there is none); find_token_left(pos) the last token starting before pos; find_token_after(pos) the first token starting at or after pos; find_token_before(pos) the last token ending at or before pos; the returned trails of indices lead to that token.", "quantifier": "every well-formed tree (no empty contexts below the root, tokens ordered and non-overlapping), every position", "why_tests_cant": "binary search at every level of an unbounded tree; boundary positions between contexts are easily missed by tests", "anchors": ["parce/tree.py: Context.find, find_left, find_token, find_token_with_trail, find_token_left, find_token_left_with_trail, find_token_after, find_token_before"]}
{"id": "C09", "title": "find_context returns the innermost context at a position", "statement": "find_context(pos) returns the innermost context whose token span starts at or before pos and ends after pos, or the context itself when no child context covers pos.", "quantifier": "every well-formed tree, every position", "why_tests_cant": "unbounded trees and positions", "anchors": ["parce/tree.py: Context.find_context"]}
{"id": "C10", "title": "A range of the tree yields exactly the tokens overlapping it", "statement": "range(start, end).tokens() yields, in order, exactly the tokens that overlap the text range start..end.", "quantifier": "every well-formed tree, every start < end", "why_tests_cant": "whether it holds depends on where start and end fall relative to all context boundaries", "anchors": ["parce/tree.py: Context.range, Range.from_tree, Range.slices, Range.tokens", "parce/document.py: AbstractTextRange.tokens"]}
{"id": "C11", "title": "Walking tokens forward and backward", "statement": "From any token, forward() yields exactly the tokens after it and backward() exactly the tokens before it, nearest first; repeatedly taking next_token() from the first token visits all tokens of the tree once, in order; the position-based parent_index() is the true child index.", "quantifier": "every well-formed tree, every token in it", "why_tests_cant": "unbounded trees and depths", "anchors": ["parce/tree.py: Node.forward, Node.backward, Node.next_token, Node.previous_token, Node.parent_index, Context.tokens", "parce/util.py: tokens"]}
{"id": "C12", "title": "Group membership of tokens", "statement": "For every token that came from a multi-token match, get_group() returns exactly the tokens created from that match, and get_group_start()/get_group_end() its first and last token.", "quantifier": "every tree built from events, every grouped token", "why_tests_cant": "arbitrary neighbouring groups and group sizes", "anchors": ["parce/tree.py: GroupToken.make_group, get_group, get_group_start, get_group_end"]}
{"id": "C13", "title": "Copying a context", "statement": "copy() of a context yields a tree with the same lexicons, tokens (pos, text, action, group) and structure as the original.", "quantifier": "every tree, any depth and width", "why_tests_cant": "the loop is a hand-written non-recursive traversal over unbounded trees", "anchors": ["parce/tree.py: Context.copy, Token.copy, GroupToken.copy"]}
{"id": "C14", "title": "Incremental update equals parsing from scratch", "statement": "After a text edit, updating the existing tree for the edited region gives the same tree (tokens, positions, contexts) as building a new tree from the whole new text, provided that what the lexer finds at a point depends only on the lexicon stack and the text from that point on, up to a bounded lookahead.", "quantifier": "every language in that class, every old text, every single-region edit", "why_tests_cant": "every text, edit and tree shape; the reuse of head and tail tokens is decided by comparing unbounded token streams", "anchors": ["parce/treebuilder.py: TreeBuilder.build_new_tree, TreeBuilder.replace_tree", "parce/treebuilderutil.py: get_prepared_lexer, events_with_tokens, new_tree, same_events"]}
{"id": "C15", "title": "Incremental update equals parsing from scratch for any pattern", "statement": "After a text edit the updated tree equals a fresh parse of the new text, also for lexicons whose patterns look ahead arbitrarily far (like a quoted string matched by one pattern).", "quantifier": "every language definable with regular expressions, every text and edit", "why_tests_cant": "the failing inputs need long lookahead combined with an edit far away", "anchors": ["parce/treebuilderutil.py: get_prepared_lexer (go back 10 tokens)", "parce/treebuilder.py: TreeBuilder.build_new_tree"]}
{"id": "C16", "title": "Merging pending edits keeps the changed region covered", "statement": "Merging a new change into pending changes gives one region (start, removed, added) such that the old and new text agree outside it: equal prefixes up to start and equal suffixes after it.", "quantifier": "every old text, every sequence of edits merged before the tree builder gets to them", "why_tests_cant": "needs every relative placement of two edits over all texts", "anchors": ["parce/treebuilderutil.py: Changes.add", "parce/treebuilder.py: TreeBuilder.get_changes"]}
{"id": "C17", "title": "The text change notification describes the edit", "statement": "The (position, removed, added) reported after a batch of edits is faithful: new text = old text with `removed` characters at `position` replaced by `added` new characters, and everything before and after is unchanged.", "quantifier": "every text, every batch of non-overlapping edits", "why_tests_cant": "all batches and texts", "anchors": ["parce/mutablestring.py: AbstractMutableString._apply_changes, _get_changes"]}
{"id": "C18", "title": "A batch of edits applies all edits to the original text", "statement": "Edits made inside one edit context, given in terms of the original text and not overlapping, all take effect exactly once when the context ends: the new text is the original with each edited slice replaced by its text; insertions at one spot appear in the order they were made.", "quantifier": "every text, every list of non-overlapping edits in any order, any nesting of edit contexts", "why_tests_cant": "orders and placements of edits are unbounded", "anchors": ["parce/mutablestring.py: __setitem__, __enter__, __exit__, _parse_key, _get_changes, MutableString._update_text"]}
{"id": "C19", "title": "An exception inside an edit context discards the batch", "statement": "When an exception leaves an edit context, no edit of the batch is applied, the text is unchanged and the document is usable again as if the batch never started.", "quantifier": "every text, every list of pending edits, every nesting level", "why_tests_cant": "every history of edits before the exception", "anchors": ["parce/mutablestring.py: AbstractMutableString.__exit__"]}
{"id": "C20", "title": "Rejected overlapping edits do no lasting harm", "statement": "When a batch is rejected because edits overlap, the text is unchanged and the document can be edited normally afterwards.", "quantifier": "every text, every overlapping batch, every later edit", "why_tests_cant": "concerns every later operation, not only the rejected one", "anchors": ["parce/mutablestring.py: _apply_changes, _get_changes"]}
{"id": "C21", "title": "Overlapping edits are rejected", "statement": "A batch in which two edits replace overlapping parts of the original text is rejected and never applied.", "quantifier": "every text and batch", "why_tests_cant": "all relative placements of two edits", "anchors": ["parce/mutablestring.py: _get_changes"]}
{"id": "C22", "title": "Undo restores the previous text", "statement": "Directly after any edit or batch of edits, undo() restores the text from before it exactly, and a redo() after that restores the edited text.", "quantifier": "every text, every batch of edits", "why_tests_cant": "the inverse batch is computed in shifted coordinates; all batches must be covered", "anchors": ["parce/document.py: Document._reverse_changes, _store_undo, _apply_undo_redo, undo, redo"]}
{"id": "C23", "title": "Undo and redo walk a linear history", "statement": "Over any sequence of edits, undos and redos the document behaves like a list of texts with a current position: undo and redo move to the neighbouring text, an edit drops what could be redone, can_undo/can_redo tell whether a neighbour exists.", "quantifier": "every sequence of edit/undo/redo operations", "why_tests_cant": "unbounded histories", "anchors": ["parce/document.py: Document._store_undo, _apply_undo_redo, undo, redo, can_undo, can_redo"]}
{"id": "C24", "title": "The modified flag follows the saved text", "statement": "After marking the document unmodified, undoing and redoing back to that same point in history reports unmodified again, and every other point in the history reports modified.", "quantifier": "every sequence of edit/undo/redo/mark-unmodified operations", "why_tests_cant": "unbounded histories", "anchors": ["parce/document.py: Document.modified, _set_all_undo_redo_modified, _store_undo"]}
{"id": "C25", "title": "Disabling undo recording keeps undo sound", "statement": "undo() restores a text the document actually had, also when some edits were made with undo recording disabled.", "quantifier": "every sequence of edits with recording switched on and off, then undo", "why_tests_cant": "needs histories mixing both modes", "anchors": ["parce/document.py: Document.undo_redo_enabled, _update_text, undo"]}
{"id": "C26", "title": "Cursors follow a single edit", "statement": "After one edit every cursor still satisfies 0 <= pos <= end <= length, text before an edit does not move, positions after the edited slice move along with their text, text inserted at the cursor start is included in the selection's tail, and untouched selected text stays selected.", "quantifier": "every text, every edit, every set of cursors with valid positions", "why_tests_cant": "all relative positions of edit and cursors", "anchors": ["parce/document.py: AbstractDocument._update_cursors"]}
{"id": "C27", "title": "Cursors follow a batch of edits", "statement": "After a batch of edits every cursor is where it would be had the same edits been applied one after another (last first).", "quantifier": "every text, batch and set of cursors", "why_tests_cant": "failures need particular combinations of several edits and cursors", "anchors": ["parce/document.py: AbstractDocument._update_cursors"]}
{"id": "C28", "title": "Blocks partition the document", "statement": "Iterating blocks() yields text lines that joined by the separator give the document text, none contains the separator, block_count() is their number, and find_block(pos) returns the block containing pos.", "quantifier": "every text and every non-empty separator that cannot overlap itself (a single character, CR LF)", "why_tests_cant": "all texts, including ones where separators touch or overlap positions", "anchors": ["parce/document.py: find_start_of_block, find_end_of_block, find_block, blocks, block_count, Block.next_block, Block.previous_block"]}
{"id": "C29", "title": "Blocks by number", "statement": "find_block_by_number(n) returns the n-th block of the blocks() iteration (counted from the end for negative n), or None when there is no such block, and block_number of each block is its index.", "quantifier": "every text, every integer n, every separator that cannot overlap itself", "why_tests_cant": "all texts and numbers", "anchors": ["parce/document.py: find_block_by_number, Block.block_number"]}
{"id": "C30", "title": "Replacing text in a document region", "statement": "replace(old, new, start, end, count) changes the document as if the selected region were replaced by the result of string replacement, with at most count replacements if count > 0.", "quantifier": "every text, old, new, region and count", "why_tests_cant": "all regions including ones given by negative positions", "anchors": ["parce/document.py: AbstractDocument.replace"]}
{"id": "C31", "title": "Observers are called once each, by priority", "statement": "emit() calls every connected handler exactly once, in order of priority and then connection order; a handler connected for a single call is called once and then gone; disconnected handlers are not called.", "quantifier": "every sequence of connect/disconnect/emit operations made outside of handlers", "why_tests_cant": "unbounded histories", "anchors": ["parce/util.py: Observable.connect, disconnect, emit"]}
{"id": "C32", "title": "Observers may change subscriptions while being notified", "statement": "Handlers that connect or disconnect handlers during emit() never cause another handler to be lost or a one-time handler to stay connected.", "quantifier": "every behaviour of handlers", "why_tests_cant": "the failure needs particular index shifts", "anchors": ["parce/util.py: Observable.emit"]}
{"id": "C33", "title": "Merging and clipping of formatted ranges", "statement": "Merging adjacent ranges with the same format and clipping to a window never changes which format each character position gets, keeps order, yields no empty or out-of-window range, and no two touching ranges with the same format remain.", "quantifier": "every ordered non-overlapping list of ranges, every window", "why_tests_cant": "all lists", "anchors": ["parce/util.py: merge_adjacent, fix_boundaries"]}
{"id": "C34", "title": "Splitting a list", "statement": "split_list(l, sep) returns pieces that joined by sep give l back, none of which contains sep.", "quantifier": "every list and separator", "why_tests_cant": "all lists", "anchors": ["parce/util.py: split_list"]}
{"id": "C35", "title": "Per-object locks exclude each other", "statement": "Two threads never are inside the protected section for the same object at once.", "quantifier": "every number of threads and every interleaving", "why_tests_cant": "needs a particular interleaving of three threads", "anchors": ["parce/util.py: object_locker, cached_method"]}
{"id": "C36", "title": "Byte-order marks select the right encoding", "statement": "Data that starts with the byte-order mark of one of the supported encodings is recognised as that encoding with the mark removed.", "quantifier": "every supported encoding, every payload", "why_tests_cant": "overlap of marks (one a prefix of another) for particular payloads", "anchors": ["parce/util.py: get_bom_encoding"]}
{"id": "C37", "title": "Word-list patterns match exactly the words", "statement": "The regular expression made from a list of words matches a text in full exactly if the text is one of the words.", "quantifier": "every non-empty list of words over any characters", "why_tests_cant": "all word sets: shared prefixes, suffixes and characters needing grouping are unbounded", "anchors": ["parce/regex.py: words2regexp, make_trie, trie_to_regexp_tuple, build_regexp"]}
{"id": "C38", "title": "Character classes match exactly the characters", "statement": "The character class made from a set of characters matches exactly those characters.", "quantifier": "every set of characters", "why_tests_cant": "all sets, with runs and special characters", "anchors": ["parce/regex.py: make_charclass"]}
{"id": "C39", "title": "Evaluating rules in two steps", "statement": "Evaluating the argument-dependent parts of a rule first and the match-dependent parts later gives the same result as evaluating all at once; nothing dynamic remains.", "quantifier": "every rule built from the documented building blocks, every argument and match", "why_tests_cant": "unbounded nesting of rule items", "anchors": ["parce/ruleitem.py: pre_evaluate, evaluate, Item, RuleItem", "parce/rule.py"]}
{"id": "C40", "title": "Listed variations cover every outcome", "statement": "Whatever a dynamic rule evaluates to is among the variations that introspection and validation list for it.", "quantifier": "every rule built from the building blocks, every argument and match", "why_tests_cant": "unbounded nesting", "anchors": ["parce/ruleitem.py: variations, Item.variations", "parce/validate.py: LexiconValidator.validate_rule"]}
{"id": "C41", "title": "No edit is lost by the tree builder", "statement": "When edits arrive from other threads while a build is running or finishing, every edit is processed: once building has stopped, no edit is left pending unprocessed.", "quantifier": "every interleaving of edits with the building thread", "why_tests_cant": "race between the check for more work and clearing the busy flag", "anchors": ["parce/treebuilder.py: TreeBuilder.rebuild, add_changes, process, get_changes"]}
{"id": "C42", "title": "Waiting for the tree returns an up-to-date tree", "statement": "get_root(wait=True) called after an edit returns a tree that reflects that edit.", "quantifier": "every interleaving of editing and background building", "why_tests_cant": "needs a particular interleaving of two worker threads", "anchors": ["parce/work.py: Worker, BackgroundWorker", "parce/treebuilder.py: process"]}
{"id": "C43", "title": "Transforming text equals transforming its tree", "statement": "Transforming a text directly gives the same result as building its tree and transforming that, when transform methods do not ask for untransformed contexts.", "quantifier": "every language, every transform, every text", "why_tests_cant": "all event streams with lexicons that have no method, popped several at once", "anchors": ["parce/transform.py: Transformer.transform_text, Transformer.transform_tree"]}
{"id": "C44", "title": "Untransformed contexts are complete", "statement": "When a transform method asks for untransformed child contexts, transforming a text directly hands it the same contexts as transforming the tree does.", "quantifier": "every language, transform and text", "why_tests_cant": "depends on event merging in streams", "anchors": ["parce/transform.py: Transformer.transform_text (build_tree), add_untransformed"]}
{"id": "C45", "title": "Cached transform results are never stale", "statement": "After an incremental update of the tree, re-transforming with the cache gives the same result as transforming without any cache.", "quantifier": "every tree, every replaced context, every set of cached results", "why_tests_cant": "all update histories", "anchors": ["parce/transform.py: Transformer.transform_tree, invalidate_node"]}
{"id": "C46", "title": "Invalidating a context never fails", "statement": "A tree update with a connected transformer completes whichever context changed.", "quantifier": "every tree, transform and changed context", "why_tests_cant": "needs contexts without cached results", "anchors": ["parce/transform.py: Transformer.invalidate_node, connect_treebuilder"]}
{"id": "C47", "title": "Formatted output contains the whole text", "statement": "The pieces yielded by format_text for a region, concatenated, are exactly the text of that region.", "quantifier": "every tree, theme, region", "why_tests_cant": "all combinations of gaps, unformatted tokens and region boundaries", "anchors": ["parce/formatter.py: AbstractFormatter.format_ranges, format_text"]}
{"id": "C48", "title": "Formatting with several themes covers each token once", "statement": "With language-specific themes, format_ranges yields each token of the region once, in order, with the format of the theme of its own language.", "quantifier": "every tree, region and theme assignment", "why_tests_cant": "depends on where the region starts relative to contexts", "anchors": ["parce/formatter.py: AbstractFormatter.format_ranges (multi-theme tokens())"]}
{"id": "C49", "title": "HTML escaping is lossless and safe", "statement": "The escaped text contains no raw < or > (and no quote for attributes) and unescaping gives the original text.", "quantifier": "every text", "why_tests_cant": "all texts, including ones that look escaped already", "anchors": ["parce/out/html.py: escape, attrescape"]}
{"id": "C50", "title": "Query navigation", "statement": "query.all yields the node and all descendants in document order; alltokens and allcontexts are its token and context parts; is_not selects exactly the complement for the invertible selectors; remove_descendants/remove_ancestors keep exactly the nodes without ancestors/descendants in the set; uniq keeps first occurrences.", "quantifier": "every tree and every selection of nodes", "why_tests_cant": "unbounded trees and selections", "anchors": ["parce/query.py: Query.all, alltokens, allcontexts, is_not, uniq, remove_descendants, remove_ancestors"]}
{"id": "C51", "title": "Query deletion", "statement": "delete() removes exactly the selected nodes with their descendants (plus contexts that become empty) and leaves all other tokens in place, in order.", "quantifier": "every tree and selection", "why_tests_cant": "all selections, several in one parent, nested, emptied parents", "anchors": ["parce/query.py: Query.delete"]}
{"id": "C52", "title": "Finding a language by name", "statement": "qualname(name) returns an exact name match first, then an alias match, then a case-insensitive match, then a class-name match, each in registration order, and None only if there is none.", "quantifier": "every registry contents and name", "why_tests_cant": "all registries", "anchors": ["parce/registry.py: Registry.qualname"]}
{"id": "C53", "title": "Fallback registry is consulted", "statement": "If no language is found in a registry, its fallback registry is consulted.", "quantifier": "every registry contents including an empty one", "why_tests_cant": "edge case of registries", "anchors": ["parce/registry.py: Registry.find"]}
{"id": "C54", "title": "Increasing and decreasing indent are inverse", "statement": "increase_indent followed by decrease_indent restores the lines.", "quantifier": "every text and selected lines", "why_tests_cant": "all line contents including blank lines", "anchors": ["parce/indent.py: AbstractIndenter.increase_indent, decrease_indent, indent_info"]}
{"id": "C55", "title": "Standard actions form a hierarchy", "statement": "x in y holds exactly if y is x or an ancestor of x, this is a partial order, and x & y is the deepest action both belong to (None if there is none).", "quantifier": "every pair/triple of actions", "why_tests_cant": "unbounded hierarchies", "anchors": ["parce/standardaction.py: StandardAction.__contains__, __iter__, __and__"]}
{"id": "C56", "title": "Deleting a node removes just that node and the contexts it leaves empty", "statement": "node.delete() removes exactly that node from the tree, together with the ancestors that would otherwise become empty contexts; every other token and context stays, in the same order.", "quantifier": "every well-formed tree, every node in it that is not the root", "why_tests_cant": "depends on the position of each emptied ancestor among its siblings, at unbounded depth", "anchors": ["parce/tree.py: Node.delete, Node.ancestors_with_index, Node.parent_index"]}
{"id": "C57", "title": "height is the longest distance to a descendant", "statement": "context.height() is the number of edges on the longest path from the context to a descendant.", "quantifier": "every tree without empty sub-contexts, any depth and width", "why_tests_cant": "hand-written non-recursive traversal over unbounded trees", "anchors": ["parce/tree.py: Context.height"]}
{"id": "C58", "title": "Siblings of a node", "statement": "left_sibling()/right_sibling() return the adjacent child of the parent or None at the edge; left_siblings()/right_siblings() yield all children before (nearest first) and after the node.", "quantifier": "every well-formed context, every child", "why_tests_cant": "the index is found by binary search on positions, over unbounded numbers of children", "anchors": ["parce/tree.py: Node.left_sibling, Node.right_sibling, Node.left_siblings, Node.right_siblings"]}
{"id": "C59", "title": "One step of the lexer", "statement": "For each item the current lexicon yields, the lexer yields at most one event, with exactly the item's lexemes (none when the item has no text or no lexemes); it follows the item's target but never leaves the root lexicon; the event is reported in the old lexicons unless the lexicon that becomes current has the consume flag; and it continues with the next item, or after a target at the end of the item's text in the new lexicon.", "quantifier": "every set of lexicons and parse functions, every text, every reachable lexer state", "why_tests_cant": "the state space (lexicon stacks, positions) is unbounded; tests only see a few states of a few languages", "anchors": ["parce/lexer.py: Lexer.events", "parce/lexicon.py: lexicon (consume)"]}
{"id": "C60", "title": "What a lexicon yields", "statement": "Every item a lexicon yields is a match of one of its patterns with the action and target of the rule that matched (also for rules evaluated at match time), or unmatched text with the default action, or the default target at a place where nothing matches; and nothing that matches is skipped between two items or after the last one.", "quantifier": "every regular expression engine result, every rule set, every text and start position", "why_tests_cant": "needs all combinations of patterns, rules, default action/target and texts", "anchors": ["parce/lexicon.py: Lexicon.parse, Lexicon._get_instance_and_parse", "parce/rule.py"]}
{"id": "C61", "title": "Availability of undo and redo is announced", "statement": "Every change of what can_undo()/can_redo() return is announced by an undo_available/redo_available event with the new value, and nothing else is.", "quantifier": "every document state, every operation", "why_tests_cant": "needs all histories, in particular the first and last step of each stack", "anchors": ["parce/document.py: Document._check_undo_state, _update_text, _apply_undo_redo, undo, redo, clear_undo_redo"]}
{"id": "C62", "title": "Changes of the modified flag are announced", "statement": "Every operation emits modification_changed with the new value if it changes the modified flag, exactly once, and not otherwise.", "quantifier": "every document state, every operation", "why_tests_cant": "needs all histories of edits, undo, redo and saving", "anchors": ["parce/document.py: Document.modified, _apply_undo_redo"]}
{"id": "C63", "title": "The revision number counts text changes", "statement": "The revision number grows by exactly one with every text_change event and never otherwise.", "quantifier": "every sequence of operations", "why_tests_cant": "unbounded histories, with batches, rejected batches, undo and redo", "anchors": ["parce/document.py: AbstractDocument._update_text, revision"]}
{"id": "C64", "title": "Reading and writing pieces of a document", "statement": "d[k] returns the piece of text the key stands for in Python (negative numbers, missing or out of range slice bounds, IndexError for a bad index), and after d[k] = t outside a context t can be read back at that place.", "quantifier": "every text, every integer or slice key", "why_tests_cant": "all combinations of bounds and lengths", "anchors": ["parce/mutablestring.py: AbstractMutableString.__getitem__, _parse_key, __setitem__"]}
{"id": "C65", "title": "Substituting matches in a document region", "statement": "re_sub(pattern, replacement, start, end, count) changes the document as if the selected region were replaced by the result of re.sub on it, with at most count replacements if count > 0, in one text change.", "quantifier": "every text, region, count and every list of matches finditer can find", "why_tests_cant": "all regions, all patterns including ones with empty matches next to other matches", "anchors": ["parce/document.py: AbstractDocument.re_sub"]}
{"id": "C66", "title": "Stripping a selection", "statement": "After lstrip(), rstrip() or strip() a cursor selects the text it selected before without the strippable characters at that end or both ends.", "quantifier": "every text, every cursor (also with an open end or reaching past the end of the text), every set of strippable characters", "why_tests_cant": "all cursors and texts, including ones with only white space", "anchors": ["parce/document.py: Cursor.lstrip, Cursor.rstrip, Cursor.strip"]}
{"id": "C67", "title": "Selecting whole lines", "statement": "select_start_of_block() and select_end_of_block() extend a selection to the start of the line it starts in and the end of the line it ends in; move_start_of_block() and move_end_of_block() go there.", "quantifier": "every text, every cursor in it, every separator that cannot overlap itself", "why_tests_cant": "all positions, including those at or in separators", "anchors": ["parce/document.py: Cursor.select_start_of_block, select_end_of_block, move_start_of_block, move_end_of_block"]}
{"id": "C68", "title": "Cached results are computed once", "statement": "A caching dictionary runs its factory function for at most one thread at a time; everything it returns for a key is what the function returned for that key; once a value is kept the function is not called for that key again and the same value is returned ever after; an exception in the function leaves the dictionary usable.", "quantifier": "every number of threads, every interleaving of their requests, every behaviour of the function (values, None, exceptions)", "why_tests_cant": "needs all interleavings", "anchors": ["parce/util.py: caching_dict, cached_func"]}
{"id": "C69", "title": "File caches never return outdated values", "statement": "Asking a file cache for a file succeeds and gives the value of the file as it was at a moment during the request, also when the file is changed while it is being read, provided the modification time shows changes.", "quantifier": "every history of requests and changes of the file, every modification time", "why_tests_cant": "needs changes at particular moments between two system calls", "anchors": ["parce/util.py: file_cache"]}
{"id": "C70", "title": "Dispatchers follow inheritance", "statement": "Calling a dispatcher with a key calls the instance's own version of the function registered for that key by the nearest class that registers the key, or the default function when no class registers it.", "quantifier": "every class hierarchy (any method resolution order), every set of registrations and overrides, every key", "why_tests_cant": "all hierarchies and combinations of registrations and overrides", "anchors": ["parce/util.py: Dispatcher.__call__, Dispatcher.__get__, _Dispatcher.__call__"]}
{"id": "C71", "title": "Unrolling nested lists", "statement": "unroll(obj) yields the members of arbitrarily nested lists and tuples in order, and the object itself when it is neither.", "quantifier": "every nesting", "why_tests_cant": "unbounded depth and width", "anchors": ["parce/util.py: unroll"]}
{"id": "C72", "title": "The reported updated range covers everything that changed", "statement": "After an incremental update the reported range (start, end) covers the edited region and every token that is new or has another position, text, action or context, apart from the tokens after it that only moved along with the text.", "quantifier": "every language in the class of C14, every old text and edit", "why_tests_cant": "every text, edit and tree shape", "anchors": ["parce/treebuilder.py: TreeBuilder.process, TreeBuilder.build_new_tree, TreeBuilder.start, TreeBuilder.end"]}
{"id": "C73", "title": "Changes that arrive while the tree is built are taken into account", "statement": "When the text is changed again while a tree is being built, the result is the tree of the newest text, whatever event the builder was at when the change came in.", "quantifier": "every language, every text, every schedule of further changes", "why_tests_cant": "depends on the moment the change comes in and on how many tokens are finished by then", "anchors": ["parce/treebuilder.py: TreeBuilder.build_new_tree (restart within the new tree)"]}
{"id": "C74", "title": "Setting another root lexicon gives the tree of that lexicon", "statement": "After a rebuild with another root lexicon the root context has that lexicon and the tree is the one obtained by tokenizing the text with it.", "quantifier": "every text, tree and root lexicon, also a derived lexicon", "why_tests_cant": "every text and pair of lexicons; equality of lexicons ignores the argument of derived lexicons", "anchors": ["parce/treebuilder.py: TreeBuilder.rebuild, TreeBuilder.build_new_tree, TreeBuilder.replace_tree", "parce/lexicon.py: Lexicon.__eq__"]}
{"id": "C75", "title": "Helpers for rules choose as documented", "statement": "ifeq, ifneq, ifmember, ifgroup, gselect, dselect and findmember give the documented one of their results for every value, match or mapping; derive gives the lexicon derived with the argument; arg and ifarg give the pattern for the argument.", "quantifier": "every value of the variables, every match, mapping and list of sequences, every nesting of the results", "why_tests_cant": "unbounded mappings, sequences and groups; results may be any rule items", "anchors": ["parce/rule.py: ifeq, ifneq, ifmember, ifgroup, gselect, dselect, derive, findmember, arg, ifarg, target"]}
{"id": "C76", "title": "HTML output shows the text and its formats", "statement": "Reading the HTML that is made of formatted text gives back every piece of text, with its format as the value of the attribute of the span around it, whatever characters the text and the formats have.", "quantifier": "every list of formatted pieces", "why_tests_cant": "all texts and formats, including ones with quotes, markup and entities", "anchors": ["parce/out/html.py: HtmlFormatter.html, SimpleHtmlFormatter.html, escape, attrescape"]}
{"id": "C77", "title": "Standard actions are singletons", "statement": "Making a standard action, by call or attribute access, with the same name and parent always gives the same action, with another name or parent always another one; actions made earlier are not affected.", "quantifier": "every sequence (interleaving) of creations", "why_tests_cant": "Depends on the whole history of creations by any threads.", "anchors": ["parce/standardaction.py: StandardAction.__new__, __getattr__"]}
{"id": "C78", "title": "Suggested languages and their order", "statement": "suggest() returns exactly the languages with a positive weight for file name or mime type, or for the contents if there are none, sorted by total weight (contents counting only when no single language is on top), with ties in a fixed order.", "quantifier": "every registry, file name, mime type and contents", "why_tests_cant": "All combinations of weights, ties and matching patterns.", "anchors": ["parce/registry.py: Registry.suggest"]}
{"id": "C79", "title": "Registering languages", "statement": "After any sequence of registrations names are unique and every entry is complete; registering replaces, inheriting merges and removes the inherited entry and cannot fail halfway, a failing registration changes nothing; by_section lists every entry exactly in its section.", "quantifier": "every sequence of registrations", "why_tests_cant": "Histories of any length.", "anchors": ["parce/registry.py: Registry.add, by_section"]}
{"id": "C80", "title": "Query relatives", "statement": "children, [n] (also negative n), first, last, parent, ancestors, right, left, right_siblings and left_siblings yield, for each node in turn, exactly the children, the n-th child, ..., the siblings to the left (nearest first); nodes that have no such relative add nothing.", "quantifier": "every tree and every list of nodes", "why_tests_cant": "positions in arbitrary trees; parent_index is a binary search on positions", "anchors": ["parce/query.py: Query.children, __getitem__, first, last, parent, ancestors, right, left, right_siblings, left_siblings", "parce/tree.py: Node.right_sibling, left_sibling, right_siblings, left_siblings, parent_index"]}
{"id": "C81", "title": "Stripping trailing blanks", "statement": "strip_trailing_blanks removes the blanks (or given characters) at the end of every selected line that may be stripped, all of them, and changes nothing else; doing it again changes nothing.", "quantifier": "every text, block separator, selection, set of characters and indenter", "why_tests_cant": "every number of lines and all line contents; the edits of all lines are combined in one edit", "anchors": ["parce/indent.py: AbstractIndenter.strip_trailing_blanks, indent_info", "parce/document.py: AbstractDocument.__exit__, Cursor.blocks"]}
{"id": "C82", "title": "What indent changes", "statement": "indent() only replaces the white space at the beginning of selected lines that may be indented by other white space; indenting a whole document gives each line the indent string once for everything that is open where the line begins, not counting what the line itself closes first.", "quantifier": "every text, selection and sequence of indent events per line", "why_tests_cant": "nesting of any depth over any number of lines, unbalanced brackets included", "anchors": ["parce/indent.py: AbstractIndenter.indent, indent_info"]}
{"id": "C83", "title": "Indenting twice is indenting once", "statement": "If the events of the lines stay the same, indenting the same lines a second time changes nothing.", "quantifier": "every text, selection and sequence of indent events per line", "why_tests_cant": "all combinations of existing indent, events and blank lines", "anchors": ["parce/indent.py: AbstractIndenter.indent, indent_info"]}
{"id": "C84", "title": "Part of an indented document", "statement": "If indenting the whole document changes nothing, indenting any part of it changes nothing.", "quantifier": "every text, indent events and selection", "why_tests_cant": "the state of the indenter before the selection is computed from the existing white space there, for any number of lines", "anchors": ["parce/indent.py: AbstractIndenter.indent"]}
{"id": "C85", "title": "auto_indent gives what indent gives", "statement": "auto_indent() on a line does the same as indent() with that line selected.", "quantifier": "every text, line and sequence of indent events per line", "why_tests_cant": "two different algorithms, one going forward over all lines, the other searching backwards until depth zero", "anchors": ["parce/indent.py: AbstractIndenter.auto_indent, indent"]}
{"id": "C86", "title": "Which elements a css selector matches", "statement": "An element matches a selector list exactly when there are elements for all its selectors that are related as the operators say (child, descendant, next sibling, later sibling), each meeting all conditions of its selector.", "quantifier": "every tree of elements, every selector list", "why_tests_cant": "backtracking over any number of ancestors and siblings", "anchors": ["parce/css.py: AbstractElement.match_selectors, match_selector, Element"]}
{"id": "C87", "title": "The css cascade", "statement": "The value of a property for an element is that of the declaration that wins by importance, specificity and place among all declarations of the rules that match the element.", "quantifier": "every style sheet, element tree and property", "why_tests_cant": "all combinations of matching rules, specificities and !important marks", "anchors": ["parce/css.py: StyleSheet.style, Style.select_element, Style.properties, calculate_specificity"]}
{"id": "C88", "title": "The rules of a style", "statement": "The style of a sheet has every rule of the sheet once, also those behind conditions, ordered by specificity, the most specific first, and of equally specific rules the last one first.", "quantifier": "every style sheet", "why_tests_cant": "nesting of conditions and number of rules are not bounded", "anchors": ["parce/css.py: StyleSheet.style, calculate_specificity"]}
{"id": "C89", "title": "Filtering conditions", "statement": "Filtering a sheet on a condition keeps exactly the rules that are not behind a rejected condition of that kind, in the same order.", "quantifier": "every style sheet, keyword and predicate", "why_tests_cant": "conditions may be nested to any depth", "anchors": ["parce/css.py: StyleSheet.filter_conditions"]}
{"id": "C90", "title": "Imports in style sheets", "statement": "Loading a sheet that imports others gives the rules of all those files in the place of the @import rules, behind a condition when there is a media query, each file once; also when files import each other. If imports are not allowed, no file is read.", "quantifier": "every set of files and references between them", "why_tests_cant": "the import graph may be of any shape, with cycles", "anchors": ["parce/css.py: StyleSheet.from_css"]}
{"id": "C91", "title": "The files a sheet depends on", "statement": "filenames() gives the names of exactly the files the sheet was read from and still has rules of; filtering and adding sheets keeps them.", "quantifier": "every sheet, made by loading, filtering and adding", "why_tests_cant": "nesting of imports is not bounded", "anchors": ["parce/css.py: StyleSheet.filenames, filter_conditions, __add__"]}
{"id": "C92", "title": "Reading the selectors of a rule", "statement": "However selectors, operators and commas follow each other in the text, a rule gets the parts between commas that contain a selector, each an alternation of selectors and operators, so that matching never fails.", "quantifier": "every sequence of tokens and selectors", "why_tests_cant": "malformed input has no bound", "anchors": ["parce/css.py: CssTransform.prelude, AbstractElement.match"]}
{"id": "C93", "title": "Strings in style sheets", "statement": "A quoted string is read as its contents with escapes replaced; a text that is written with quotes when needed is read back as that text.", "quantifier": "every string", "why_tests_cant": "every character may need an escape", "anchors": ["parce/css.py: CssTransform.dqstring, sqstring, get_string, quote_if_needed, escape"]}
{"id": "C94", "title": "Hexadecimal colors", "statement": "A color in hexadecimal notation with 3, 4, 6 or 8 digits is read as css says; every color that is read that way or has a name is written in hexadecimal notation that is read back as exactly the same color, opacity included.", "quantifier": "every text of hexadecimal digits, every color", "why_tests_cant": "16^8 colors, and floating point arithmetic for the opacity", "anchors": ["parce/css.py: CssTransform.get_hex_color, get_named_color, color2hex"]}
{"id": "C95", "title": "The functions rgb() and rgba()", "statement": "The numbers between the parentheses are the components of the color, kept within 0 to 255 and 0 to 1 for the opacity; a percentage is taken of that maximum.", "quantifier": "every list of arguments", "why_tests_cant": "all combinations of numbers, units and delimiters", "anchors": ["parce/css.py: CssTransform.get_rgba_color, get_number_value"]}
{"id": "C96", "title": "Adding and subtracting text formats", "statement": "Subtracting a text format leaves exactly the attributes of the css properties in which both differ; what is left, added to the subtracted format, looks the same as the whole format added to it; nothing is left of a format subtracted from itself. Adding is associative, and the format added wins.", "quantifier": "every two or three text formats, attribute by attribute", "why_tests_cant": "seventeen attributes with unbounded values, in all combinations", "anchors": ["parce/theme.py: TextFormat.__sub__, __add__, __eq__"]}
{"id": "C97", "title": "Writing a text format as css", "statement": "A text format read from css properties and written as css properties is the same when read again.", "quantifier": "every text format", "why_tests_cant": "all combinations of values, families, units", "anchors": ["parce/theme.py: TextFormat.css_properties, write_color, write_text_decoration, write_font, read_*"]}
{"id": "C98", "title": "Reading a text format from css", "statement": "Reading css properties never fails; every property sets the attributes it is about, to the first acceptable value, and no other attributes; the shorthand for fonts sets style, weight, size and family.", "quantifier": "every list of css properties with every list of values", "why_tests_cant": "unbounded lists of values of all kinds", "anchors": ["parce/theme.py: TextFormat.__init__, read_*"]}
{"id": "C99", "title": "The text format for an action", "statement": "The text format a theme gives for an action does not depend on the order of the names of the action. All style rules for an action also apply to actions derived from it. The properties are those that win in the css cascade, for a piece of text that has the names as classes, in a window with class parce.", "quantifier": "every style sheet and every action", "why_tests_cant": "unbounded style sheets and action names", "anchors": ["parce/theme.py: Theme.textformat, css_class", "parce/css.py: Element.__init__, Style.select_element"]}
{"id": "C100", "title": "The text format for a role and a state", "statement": "An unknown state means the default state; the rules that apply in the default state also apply in the other states; a state that is not mentioned in the theme makes no difference; selecting the rules never fails.", "quantifier": "every style sheet, role and state", "why_tests_cant": "unbounded style sheets", "anchors": ["parce/theme.py: Theme.baseformat"]}
{"id": "C101", "title": "Navigating in a query", "statement": "Going forward in a query yields precisely the tokens that come after a node in the document, in order; backward those before it, in reverse order; next and previous yield the nearest of them. Slicing in a query yields the children that slicing a Python list would; slicing the query itself yields the results at the asked positions.", "quantifier": "every tree, every node and every slice", "why_tests_cant": "unbounded trees and positions", "anchors": ["parce/query.py: Query.forward, backward, next, previous, __getitem__, slice", "parce/tree.py: Node.forward, backward, next_token, previous_token"]}
{"id": "C102", "title": "Items in a transform, grouped", "statement": "Grouping items by names gives rows that have one place for every name; reading the rows gives all items with these names, in order; a new row is only started when an item does not fit after those in the current row. Peeking is true when the names or actions occur at that place.", "quantifier": "every list of items and tokens, all names", "why_tests_cant": "unbounded lists of items", "anchors": ["parce/transform.py: ItemList.grouped_objects, items, peek"]}
{"id": "C103", "title": "Loading what was saved", "statement": "When a document is saved and then loaded again with the same arguments, it has the same text.", "quantifier": "every text, language, encoding and way of treating newlines", "why_tests_cant": "unbounded texts and all encodings", "anchors": ["parce/docio.py: decode_data, encode_text, DocumentIOMixin.load, save", "parce/util.py: get_bom_encoding"]}
{"id": "C104", "title": "The encoding of a loaded document", "statement": "The encoding that is reported after loading is the one that was specified, or if none was specified, the one that was finally used to read the text. An encoding that is not usable is not used.", "quantifier": "all data, languages and encodings", "why_tests_cant": "unbounded data and all encodings", "anchors": ["parce/docio.py: decode_data, _validate_encoding"]}
{"id": "C105", "title": "JSON is read as the value it stands for", "statement": "Lexing a JSON document ends, and transforming the text, or the tree that was built from it, gives the Python value of the document: strings with their escapes, arrays as lists, objects as dictionaries in the order of their keys where the last one of equal keys counts, and numbers as what their float is.", "quantifier": "every JSON document (RFC 8259), with any nesting, strings, white space and numbers", "why_tests_cant": "unbounded documents and nesting; all characters", "anchors": ["parce/lang/json.py: Json, JsonTransform", "parce/transform.py: Transformer.transform_text, transform_tree", "parce/lexer.py: Lexer.events"]}
{"id": "C106", "title": "Integers in JSON are exact", "statement": "An integer in a JSON document is read as that integer.", "quantifier": "every JSON document", "why_tests_cant": "unbounded integers", "anchors": ["parce/lang/json.py: JsonTransform.values"]}
{"id": "C107", "title": "Reading JSON never fails", "statement": "Transforming any text as JSON, also one that is not JSON or that ends in the middle, does not raise an exception.", "quantifier": "every text, and every point where the lexer may be stopped", "why_tests_cant": "all texts", "anchors": ["parce/lang/json.py: Json, JsonTransform", "parce/transform.py: Transformer.transform_text"]}
{"id": "C108", "title": "CSV is read as the table it stands for", "statement": "Lexing a CSV text ends, and transforming the text, or the tree that was built from it, gives a list with a tuple for every row that is not empty: strings without their quotes, doubled quotes as one, and None for fields that are empty. Every table that was written with quoted strings is read back as it was.", "quantifier": "every table, and every CSV text (RFC 4180) with plain and quoted fields", "why_tests_cant": "unbounded rows, fields and strings; all characters", "anchors": ["parce/lang/csv.py: Csv, CsvTransform", "parce/transform.py: Transformer.transform_text, transform_tree", "parce/lexer.py: Lexer.events"]}
{"id": "C109", "title": "Reading CSV never fails", "statement": "Transforming any text as CSV, also one with text beside quoted strings or that ends in the middle, does not raise an exception.", "quantifier": "every text, and every point where the lexer may be stopped", "why_tests_cant": "all texts", "anchors": ["parce/lang/csv.py: Csv, CsvTransform", "parce/transform.py: Transformer.transform_text"]}
{"id": "C110", "title": "At a default target text is skipped only in a circle", "statement": "A lexer that follows default targets at unknown text skips a character only if it came back to where it was before: the same open lexicons at the same position. Otherwise it goes on at that position with the lexicons that the target enters, so that text which one of them knows is not lost.", "quantifier": "every language, every text, every list of lexicons to start with, every number of default targets in a row", "why_tests_cant": "unbounded chains of default targets, all languages and texts", "anchors": ["parce/lexer.py: Lexer.events", "parce/lexicon.py: Lexicon.parse"]}
{"id": "C111", "title": "Checking default targets ends and tells the truth", "statement": "Validating the default target of a lexicon always ends. If nothing is reported, following the default targets at unknown text comes to an end, also for a lexer that uses the lexicon; if they go on forever that is reported; the warning that a circle is handled is given only if it is, and the error that default targets are circular only if they are.", "quantifier": "every set of lexicons with any default targets, every list of open lexicons", "why_tests_cant": "unbounded numbers of lexicons and chains of targets", "anchors": ["parce/validate.py: LexiconValidator.check_default_target", "parce/lexer.py: Lexer.events"]}
{"id": "C112", "title": "A lexicon that validates has rules that are in order", "statement": "Validating a lexicon gives no errors exactly if every rule has a pattern and an action, there is at most one default action or default target, all regular expressions compile and all targets are numbers or lexicons; so when lexing, for any argument, text and match, a rule of it gives only numbers and lexicons as targets.", "quantifier": "every list of rules, with any nesting of dynamic rule items, every argument, text and match", "why_tests_cant": "unbounded rules and nesting of items, all texts and matches", "anchors": ["parce/validate.py: LexiconValidator.validate, validate_rule, validate_pattern", "parce/ruleitem.py: variations"]}
{"id": "C113", "title": "INI files are read as written", "statement": "Reading an INI text gives the sections with their entries: blanks around names, keys and values do not matter, escapes stand for their characters, an entry without value gets None, entries before the first section are under None, a later entry with the same key wins, and a section that is given again starts empty. Transforming the text gives the same as transforming the tree. Every dictionary of sections, with any keys and values, can be written so that it is read back.", "quantifier": "every INI text with any number of sections, entries and comments; every dictionary", "why_tests_cant": "unbounded texts, all strings as keys and values", "anchors": ["parce/lang/ini.py: Ini, IniTransform"]}
{"id": "C114", "title": "Reading INI does not fail", "statement": "Reading a text as INI gives a value and does not raise an exception, whatever the text is.", "quantifier": "every text, every moment at which lexing stops", "why_tests_cant": "all texts, also those that are not INI", "anchors": ["parce/lang/ini.py: Ini, IniTransform.section, IniTransform.values"]}
{"id": "C115", "title": "English numerals are read as the numbers they stand for", "statement": "Reading a text of English numerals gives the list of their values, in order: each number below a million million, with or without white space and hyphens, in capitals or small letters. Multiple values are detected.", "quantifier": "every list of numerals, every way to write them with gaps and capitals, all characters between numerals", "why_tests_cant": "10^12 numbers, unboundedly many texts", "anchors": ["parce/lang/numbers.py: English, EnglishTransform, NumbersTransform"]}
{"id": "C116", "title": "Reading numerals ends and does not fail", "statement": "Whatever the text is, in each of the four languages: lexing ends, and transforming gives a list of numbers and raises no exception. Transforming the text gives the same as transforming the tree.", "quantifier": "every text, every language of the module", "why_tests_cant": "all texts", "anchors": ["parce/lang/numbers.py: English, Nederlands, Deutsch, Français, NumbersTransform"]}
{"id": "C117", "title": "Number words of the other languages are read as the numbers they stand for", "statement": "The Dutch, German and French words for numbers are read as those numbers.", "quantifier": "every number word and numeral", "why_tests_cant": "unboundedly many numerals", "anchors": ["parce/lang/numbers.py: Nederlands.n99, Deutsch.n99, Français.n99"]}
{"id": "C118", "title": "The nodes above a node", "statement": "The ancestors of a node are the contexts it is in, the nearest one first, upto and including a given one, or the root; the depth is their number. The common ancestor of two nodes is the lowest context both are in, and there is none if they are in different trees.", "quantifier": "every pair of nodes of every list of trees", "why_tests_cant": "all trees and nodes", "anchors": ["parce/tree.py: Node.ancestors, Node.root, Node.is_ancestor_of, Node.common_ancestor, Node.depth"]}
{"id": "C119", "title": "The tokens from one token upto another", "statement": "The range from a token to another one in the same tree starts and ends with these tokens, and iterating gives exactly the tokens between them and them, in order. There is no range only if the tokens are in different trees.", "quantifier": "every tree with tokens in order, every pair of tokens", "why_tests_cant": "all trees and pairs of tokens", "anchors": ["parce/tree.py: Token.range, Token.common_ancestor_with_trail, Token.forward_until_including, Range.pos, Range.end"]}
{"id": "C120", "title": "The token at a position of a document", "statement": "Asking a document for the token at a position gives the token the position is in, or else the token that ends there, or else the next token; never a token of a different block.", "quantifier": "every text, every tree with tokens in order, every position", "why_tests_cant": "all documents and positions", "anchors": ["parce/work.py: WorkerDocumentMixin.token", "parce/document.py: AbstractTextRange.token"]}
{"id": "C121", "title": "The tokens of a text range", "statement": "The tokens of a cursor or block are those tokens of the document that overlap its range, in order.", "quantifier": "every tree with tokens in order, every range", "why_tests_cant": "all documents and ranges", "anchors": ["parce/document.py: AbstractTextRange.tokens, Block.tokens", "parce/tree.py: Range.from_tree, Range.tokens"]}
{"id": "C122", "title": "The callback given when asking for the tree", "statement": "A callback that is given when asking for the tree while it is being built, is called exactly once, when the tree is ready: then it reflects all edits that were made before asking.", "quantifier": "every interleaving of edits, processes and requests", "why_tests_cant": "all schedules", "anchors": ["parce/work.py: Worker.get_root, Worker.finish_build, Worker.process", "parce/util.py: Observable.connect, Observable.emit"]}
{"id": "C123", "title": "A style sheet is read as it is written", "statement": "Reading a CSS text gives its rules in order, each with its selectors and its properties, as in the text: names with escapes, selectors with combinators, classes, ids and pseudo classes, numbers with units, colors and function calls. A text stands for one list of rules only.", "quantifier": "every text of a style sheet", "why_tests_cant": "all texts, nested to any depth", "anchors": ["parce/lang/css.py: Css", "parce/css.py: CssTransform"]}
{"id": "C124", "title": "The properties of a CSS rule", "statement": "In the rule that is read, each property has the values of its last declaration in the text, and there are no other properties.", "quantifier": "every list of declarations, every text for it", "why_tests_cant": "all texts", "anchors": ["parce/lang/css.py: Css.rule, Css.declaration, Css.common, Css.identifier, Css.function", "parce/css.py: CssTransform.inline, CssTransform.declaration, CssTransform.common, CssTransform.identifier, CssTransform.function, CssTransform.dqstring"]}
{"id": "C125", "title": "The decision tree of a rule", "statement": "The decision tree that is made of a rule has as ways through it exactly the variations that are listed for the rule, and for everything that the rule can give when it matches there is a way through the tree that has it.", "quantifier": "every rule, every argument, every match", "why_tests_cant": "all rules, with items nested to any depth, and all values the items can take", "anchors": ["parce/ruleitem.py: variations_tree, variations", "parce/introspect.py: decision_tree"]}
{"id": "C126", "title": "Introspection of a language", "statement": "The list of the lexicons of a language has each of its lexicons once, sorted by name, also the inherited ones. The set of standard actions has every action that a rule of the language can give, and the set of languages has every other language of which a rule can give a lexicon; both have only what is written in the rules.", "quantifier": "every hierarchy of language classes, every rule, every argument, every match", "why_tests_cant": "all languages, and all results of their rules", "anchors": ["parce/introspect.py: lexicons, rule_items, standardactions, languages", "parce/lexicon.py: Lexicon.__iter__"]}
{"id": "C127", "title": "The tree of an XML document", "statement": "When an XML document is lexed with the XML language, the tree shows the document: every element is a context inside the context of the element it is in, with the names, attributes and values that are written; and references, comments, CDATA sections and processing instructions are there as they are written, each ending where it ends in the document.", "quantifier": "every XML document, with elements nested to any depth, any names, attributes, values and white space, in any order", "why_tests_cant": "all documents; nesting and lengths have no bound", "anchors": ["parce/lang/xml.py: Xml", "parce/language.py: Language.comment_common"]}
{"id": "C128", "title": "The encoding of an XML document", "statement": "The encoding that is found in the text of an XML document is the value of the encoding attribute of the first processing instruction that has one; none is found if no processing instruction at the top of the document has one.", "quantifier": "every XML document, every processing instruction and all attributes in it", "why_tests_cant": "all documents", "anchors": ["parce/lang/xml.py: XmlIO.find_encoding"]}
{"id": "C129", "title": "Which lexicon object one gets", "statement": "Asking a language class for a lexicon, and calling a lexicon with an argument (also one that was derived already), always gives the same object for the same lexicon, class and argument, and different objects otherwise; the argument of the lexicon is the one it was called with. Lexicons compare equal just if they are the same lexicon of the same class, whatever their arguments.", "quantifier": "every history of asking for lexicons and calling them, with arguments of any type that can be keys of a dictionary", "why_tests_cant": "all histories", "anchors": ["parce/lexicon.py: LexiconDescriptor.__get__, Lexicon.__call__, Lexicon._derive, Lexicon.__eq__, Lexicon.__ne__"]}
{"id": "C130", "title": "The parse function of a lexicon is built once", "statement": "When any number of threads use a lexicon for the first time at the same time, its parse function is built at most once, all of them get that one, none waits for ever, and if building fails the exception is seen by the thread that was building only, and the next one tries again.", "quantifier": "every number of threads and every order of their steps, where each build may fail", "why_tests_cant": "all schedules", "anchors": ["parce/lexicon.py: Lexicon.__getattr__"]}
{"id": "C131", "title": "A switch is on inside its with blocks", "statement": "A switch in a class is on for an instance just while a with block with the switch of that instance is open, with blocks nested in any way and also when exceptions leave them; in the end all switches are off.", "quantifier": "every program of with blocks, tests, exceptions and handlers, on any instances", "why_tests_cant": "all programs; nesting has no bound", "anchors": ["parce/util.py: Switch"]}
{"id": "C132", "title": "The encoding named in a text", "statement": "The encoding that is found in a text by the default handler is the first one that is written in the text, as (en)coding: name or encoding=\"name\"; nothing is found just if there is none.", "quantifier": "every text", "why_tests_cant": "all texts", "anchors": ["parce/docio.py: IO.find_encoding"]}
{"id": "C133", "title": "Setting another transformer", "statement": "After set_transformer the result one gets is that of the new transformer for the current tree, whatever transformers were set and whatever edits were made before, and also when the tree is being built in the background at that moment.", "quantifier": "every history of updates and of setting transformers (or none), where results of all transformers are kept; and every order of the steps of a background process, updates and settings", "why_tests_cant": "all histories and schedules", "anchors": ["parce/work.py: Worker.set_transformer, Worker.process, Worker.get_transform, Worker.slot_invalidate", "parce/transform.py: Transformer.process"]}
{"id": "C134", "title": "Indenters of languages", "statement": "When a line has tokens of several languages, every maximal piece of tokens of the same language is given, in order, to the indenter of that language, every token once. The indenter of a language is the one that was added last for it, or else an instance of the Indent class that belongs to the language or to the nearest of its base classes; without one, the piece yields no events. What was asked before makes no difference.", "quantifier": "every list of tokens with their languages, every history of adding and asking for indenters, every class hierarchy", "why_tests_cant": "all token lists and histories", "anchors": ["parce/indent.py: Indenter.indent_events, Indenter.get_indent, Indenter.add_indent, Indenter.find_indent", "parce/util.py: language_sister_class"]}
{"id": "C135", "title": "Indenting CSS and LilyPond by brackets", "statement": "Indenting a whole CSS or LilyPond document gives each line the indent string once for every bracket that is open where the line starts, less those that are closed at the start of the line; a closing bracket too many is ignored.", "quantifier": "every text in lines with the tokens of its tree, every line separator and indent string", "why_tests_cant": "all texts and trees", "anchors": ["parce/lang/css.py: CssIndent.events", "parce/lang/lilypond.py: LilyPondIndent.events", "parce/indent.py: Indenter, AbstractIndenter.indent", "parce/document.py: Block.tokens"]}
{"id": "C136", "title": "Trimming removes the white space at the ends of lines", "statement": "Document.trim(start, end) removes the blanks and tabs at the end of every line of the region and nothing else, in one change; trimming again changes nothing.", "quantifier": "every text, every region", "why_tests_cant": "all texts and regions", "anchors": ["parce/document.py: AbstractDocument.trim, AbstractDocument.re_sub"]}
{"id": "C137", "title": "Themes of formatters", "statement": "After any history of adding, removing and copying themes, a formatter has for each language the theme that was last given to it (by add_theme or by copy_themes from a formatter that had it), and none after remove_theme; text formats and base formats are what the formatter's own factory makes of the formats of that theme, with the base format added if that was asked for when the theme was added.", "quantifier": "every number of formatters, every factory, every history of operations", "why_tests_cant": "all histories", "anchors": ["parce/formatter.py: Formatter.add_theme, Formatter.get_theme, Formatter.remove_theme, Formatter.copy_themes, AbstractFormatter.textformat, AbstractFormatter.baseformat"]}
{"id": "C138", "title": "Translating words in a document", "statement": "Document.translate(mapping) replaces, from left to right, each key of the mapping that occurs in the region by its value, at most count times, and leaves all other text as it is, in one change; with whole_words only keys that are whole words in the document. If no key is the beginning of another the result is determined by that.", "quantifier": "every text, mapping, region and count", "why_tests_cant": "all texts and mappings", "anchors": ["parce/document.py: AbstractDocument.translate, AbstractDocument.re_sub", "parce/regex.py: words2regexp"]}
{"id": "C139", "title": "Numbers of Scheme", "statement": "scheme_number_from_text reads every integer, fraction and decimal number, with or without sign, exponent, radix prefix and exactness prefix, as the number that it stands for, exact (int or Fraction) or inexact (float) as Scheme says, whatever delimiter and text follow; faulty input raises ValueError.", "quantifier": "every number, of any length, in the four radixes, with every prefix; every text that follows", "why_tests_cant": "all numbers of any length", "anchors": ["parce/lang/scheme.py: Scheme.common, Scheme.number, scheme_number, scheme_number_from_text", "parce/util.py: split_list"]}
{"id": "C140", "title": "Complex numbers of Scheme", "statement": "scheme_number_from_text reads a+bi, a-bi, +bi, -bi, a+i, a-i, +i, -i and r@phi, where the parts are integers, fractions or decimal numbers (perhaps with exponents that have signs themselves, but without unknown digits), with every prefix, as the complex number with these parts.", "quantifier": "every complex number with parts of any length, in the four radixes, with every prefix; every text that follows", "why_tests_cant": "all numbers of any length", "anchors": ["parce/lang/scheme.py: Scheme.number, scheme_number (get_complex, get_real), scheme_number_from_text"]}
{"id": "C141", "title": "Which transform is used for a language", "statement": "With any number of threads, Transformer.get_transform(language) returns the transform that was last added with add_transform before the call (None too), or, if none was added, an instance of the class that belongs to the language: one and the same instance for all calls and threads.", "quantifier": "every number of threads, every schedule of calls of get_transform and add_transform", "why_tests_cant": "all interleavings of threads", "anchors": ["parce/transform.py: Transformer.get_transform, Transformer.add_transform, Transformer.find_transform", "parce/util.py: caching_dict, language_sister_class"]}
{"id": "C142", "title": "The preview of a tree that is being built", "statement": "If peek_threshold is set, TreeBuilder.peek is called once during a build (that is not restarted), as soon as a token lies more than the threshold beyond the start of the build, and never if there is no such token. It gets the position where the build started and a tree with exactly the tokens that were found so far, in order and each in the right contexts, without empty contexts; making that tree never fails.", "quantifier": "every place in a tree where a build can start, every sequence of events of the lexer, every threshold", "why_tests_cant": "all sequences of events", "anchors": ["parce/treebuilder.py: TreeBuilder.build_new_tree, TreeBuilder.peek", "parce/treebuilderutil.py: new_tree"]}
{"id": "C143", "title": "The range that is reported after several changes", "statement": "When changes arrive while a tree builder is processing, and the tree is built again, the range (start, end) that is reported at the end covers all positions of the final text that are new or belonged to a new part of the tree in any of the builds.", "quantifier": "every number of builds, every change, every moment at which it arrives", "why_tests_cant": "all histories of changes and moments of arrival", "anchors": ["parce/treebuilder.py: TreeBuilder.process, TreeBuilder.build_new_tree", "parce/treebuilderutil.py: Changes.new_position"]}
{"id": "C144", "title": "Every cursor follows its document", "statement": "As long as a cursor exists, it is moved once by every edit of its own document since it was created, and by no edit of another document; also when there are other cursors at the same positions (which compare equal), when cursors were moved by hand, and when other cursors have ceased to exist.", "quantifier": "every history of creating, moving and dropping cursors and editing documents, every number of cursors and documents", "why_tests_cant": "all histories of cursors and edits; which objects get the same address is up to the runtime", "anchors": ["parce/document.py: Cursor.__init__, AbstractTextRange.__eq__, AbstractTextRange.__hash__, AbstractDocument._update_cursors, Cursor.select"]}
{"id": "C145", "title": "Saving when something fails", "statement": "When saving a document fails, or the program is stopped while saving, the file has its old or its new contents, other files are untouched, and the document is as before; it is only marked as not modified when the file has all the data, and saving does not fail without a reason.", "quantifier": "every text, encoding, file and moment at which the program is stopped or an operation of the system fails", "why_tests_cant": "all crash points and failures of the file system", "anchors": ["parce/docio.py: DocumentIOMixin.save, DocumentIOMixin.to_bytes, localfile"]}
{"id": "C146", "title": "Observers that raise exceptions", "statement": "When an observer of a document raises an exception during an edit or undo, the document is consistent afterwards: the edit is either done or not done, it is not done again later, and undo restores what was there.", "quantifier": "every observer, event, document and series of edits", "why_tests_cant": "all histories and all moments at which an exception can come", "anchors": ["parce/document.py: Document._update_text, Document._check_undo_state, Document.modified, Document._apply_undo_redo, Document.text_changed", "parce/mutablestring.py: AbstractMutableString._apply_changes", "parce/util.py: Observable.emit"]}
{"id": "C147", "title": "Observers that edit the document", "statement": "When an observer of text_change edits the document, the result is that of the two edits one after the other, for the text, for undo and redo, and for the modified flag; also when it does so during undo or redo.", "quantifier": "every observer, document, edit and edit context", "why_tests_cant": "all documents and all observers", "anchors": ["parce/document.py: Document.text_changed, Document._store_undo, Document._apply_undo_redo, Document.modified", "parce/mutablestring.py: AbstractMutableString._apply_changes, __exit__"]}
{"id": "C148", "title": "A handler connected for one call", "statement": "A handler that is connected to an event for one call is called at most once, and no other handler is disconnected with it; also when handlers raise exceptions or emit the same event.", "quantifier": "every list of handlers, everything the handlers do (return, raise, emit the event, different in every call), and any number of emits", "why_tests_cant": "which handler raises or emits, and in which call, has no bound", "anchors": ["parce/util.py: Observable.emit, Observable.connect, _Observer"]}
