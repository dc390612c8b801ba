{
 "claims": [
  {
   "property": "C01",
   "status": "proved",
   "theorems": [
    "C01_scan_total",
    "C01_work_bounded"
   ],
   "note": ""
  },
  {
   "property": "C02",
   "status": "proved",
   "theorems": [
    "C02_token_order"
   ],
   "note": ""
  },
  {
   "property": "C03",
   "status": "proved",
   "theorems": [
    "C03_document_range"
   ],
   "note": ""
  },
  {
   "property": "C04",
   "status": "partial",
   "theorems": [
    "C04_html_no_tokens_partial",
    "C04_html_tail_partial",
    "C04_outside_partial",
    "C04_html_no_tokens_refuted"
   ],
   "note": "False in full: a heredoc opener in HTML yields tokens or fails the file (refuted); proved for texts without <<<."
  },
  {
   "property": "C05",
   "status": "partial",
   "theorems": [
    "C05_keyword_case_partial",
    "C05_keywords_recognised",
    "C05_tokens",
    "C05_keyword_case_refuted"
   ],
   "note": "False for INF/NAN and for the word from behind yield (refuted); proved for all other words."
  },
  {
   "property": "C06",
   "status": "proved",
   "theorems": [
    "C06_quoted"
   ],
   "note": "Bodies without carriage returns (they are dropped by the code; C39 covers them)."
  },
  {
   "property": "C07",
   "status": "partial",
   "theorems": [
    "C07_crlf_partial",
    "C07_crlf_refuted"
   ],
   "note": "False for files with a heredoc (refuted); proved for all texts without <<<."
  },
  {
   "property": "C08",
   "status": "partial",
   "theorems": [
    "C08_line_comment_partial",
    "C08_block_comment",
    "C08_hash_line_refuted"
   ],
   "note": "False for a number sign directly followed by the line end (refuted for every following line); proved otherwise."
  },
  {
   "property": "C09",
   "status": "partial",
   "theorems": [
    "C09_token_end_partial",
    "C09_token_end_refuted"
   ],
   "note": "False for a heredoc with empty marker (refuted); proved for all other tokens."
  },
  {
   "property": "C10",
   "status": "partial",
   "theorems": [
    "C10_no_panic_partial",
    "C10_always_a_tree",
    "C10_refuted"
   ],
   "note": "Parsing never panics and never returns Err, for every source text that tokenises and every bound, except when the file contains a heredoc without a name; there the parser panics (C10_refuted)."
  },
  {
   "property": "C11",
   "status": "partial",
   "theorems": [
    "C11_finishes_partial",
    "C11_refuted_global",
    "C11_refuted_trait_use",
    "C11_refuted_closure_use",
    "C11_refuted_echo_tag",
    "C11_refuted_do_while",
    "C11_refuted_valid_program",
    "C11_fuel_is_time"
   ],
   "note": "False as stated: six programs, one of them valid, on which the parser never finishes (divergence shown for every fuel). Proved with a linear bound for every token list, broken or not, that avoids the constructs listed in SpecCalm.v."
  },
  {
   "property": "C12",
   "status": "proved",
   "theorems": [
    "C12_tree_tokens"
   ],
   "note": "All token lists. Parts of doc comments are covered by the second half: they are read from the text of a comment token of the file."
  },
  {
   "property": "C13",
   "status": "proved",
   "theorems": [
    "C13_no_silent_placeholder"
   ],
   "note": "All source texts that tokenise."
  },
  {
   "property": "C14",
   "status": "partial",
   "theorems": [
    "C14_error_positions_partial",
    "C14_refuted"
   ],
   "note": "Every error carries a token of the file or a placeholder behind a token, at (0,0) or at the end of the file with line and column exchanged; the exchanged position refutes the full claim."
  },
  {
   "property": "C15",
   "status": "partial",
   "theorems": [
    "C15_precedence_partial",
    "C15_pair_partial",
    "C15_refuted_concat",
    "C15_refuted_and",
    "C15_refuted_or",
    "C15_trees_partial",
    "C15_trees_pair_partial",
    "C15_trees_ternary_partial",
    "C15_trees_side_partial"
   ],
   "note": "Chains of any length over literals, variables and parenthesised chains of any depth are grouped by the precedence table of the PHP manual, provided that `.` does not meet `+`, `-`, `<<`, `>>`. The full statement is false: those four bind weaker than or as tight as `.` (PHP 8 has them tighter), and `and`/`or` are read as `&&`/`||`. For all operands: in every tree of every text, correct or not, the operator applied last is one of the loosest of the expression (C15_trees_partial), `a op1 b op2 c` is never grouped around the looser one (C15_trees_pair_partial), and the ternary operator is between `??` and the assignments; one in the last part of another is never read as such."
  },
  {
   "property": "C16",
   "status": "partial",
   "theorems": [
    "C16_left_refuted",
    "C16_right_refuted",
    "C16_trees_left_refuted",
    "C16_trees_right_refuted"
   ],
   "note": "The statement is false of every operator: chains of left-associative operators are grouped to the right, chains of right-associative ones to the left, at any length. Both refutations are universal. For all operands: no text has a tree in which such a chain is grouped as PHP does (C16_trees_left_refuted, C16_trees_right_refuted)."
  },
  {
   "property": "C17",
   "status": "partial",
   "theorems": [
    "C17_refuted",
    "C17_weaker_partial",
    "C17_power_partial",
    "C17_trees_refuted",
    "C17_trees_partial"
   ],
   "note": "False for every arithmetic operator: -a + b is read as -(a + b) for all operands. Proved for the operators weaker than + and for **. For all operands: no text has a tree in which a signed operand is a side of an arithmetic operator or of `**` (C17_trees_refuted, C17_trees_partial)."
  },
  {
   "property": "C18",
   "status": "partial",
   "theorems": [
    "C18_ranges_partial",
    "C18_refuted_static",
    "C18_refuted_switch",
    "C18_refuted_use"
   ],
   "note": "The range is defined for every node below which no static statement, switch branch or class use is empty; each of the three exceptions does make the computation panic."
  },
  {
   "property": "C19",
   "status": "proved",
   "theorems": [
    "C19_position_test"
   ],
   "note": "For all positions and ranges."
  },
  {
   "property": "C20",
   "status": "partial",
   "theorems": [
    "C20_innermost_partial",
    "C20_reachable_partial",
    "C20_tame_partial",
    "C20_refuted"
   ],
   "note": "Proved for every reachable state (and file that is still alive; after tame histories all are): there is an answer, it is a symbol of the file that contains the position (or the file itself), and no child of it contains the position unless it is a namespace or ::class. Those are never answered, which refutes the full statement."
  },
  {
   "property": "C21",
   "status": "partial",
   "theorems": [
    "C21_index_partial",
    "C21_without_var_comments_partial",
    "C21_refuted"
   ],
   "note": "Proved for all tame histories: no @var comment is about a variable that is called like a declared thing (in particular: all histories without @var comments). Refuted in general: such a comment can move a class below a closure, and removing the class later leaves a dead entry."
  },
  {
   "property": "C22",
   "status": "partial",
   "theorems": [
    "C22_edit_partial",
    "C22_watched_partial",
    "C22_refuted"
   ],
   "note": "Proved for tame histories and names that are not at the top level of the edited file, neither before nor after. Refuted in general: a variable $foo of the edited file takes the function foo of another file out of the index."
  },
  {
   "property": "C23",
   "status": "proved",
   "theorems": [
    "C23_reindex",
    "C23_latest_content"
   ],
   "note": "For every reachable state: the tree of symbols after re-indexing is isomorphic to that of indexing into an empty workspace. After did_change the analysis that follows adds local variables to that tree."
  },
  {
   "property": "C24",
   "status": "partial",
   "theorems": [
    "C24_alive_partial",
    "C24_definition_partial",
    "C24_hover_partial",
    "C24_highlight",
    "C24_refuted",
    "C24_open_refuted"
   ],
   "note": "Proved for histories in which at most one file is open at a time and nobody searches for references or renames: all recorded references are alive and definition and hover requests do not crash; highlights never do. Both restrictions are needed. A search for references throws away variables that are still recorded, and the next definition request crashes (C24_refuted); with two open files the same happens after a change, without any search, if a class body mentions a variable (C24_open_refuted)."
  },
  {
   "property": "C25",
   "status": "partial",
   "theorems": [
    "C25_no_edit_refuted",
    "C25_refuted",
    "C25_edits_partial"
   ],
   "note": "Refuted: in every workspace with a single file, renaming a variable yields no edit at all, because the search throws the variable away before looking for it. C25_edits_partial: the edits are exactly the places that the analyses of the files with the name in them record for the symbol at the cursor."
  },
  {
   "property": "C26",
   "status": "partial",
   "theorems": [
    "C26_edited_partial",
    "C26_piles_up_refuted",
    "C26_refuted"
   ],
   "note": "Proved: the diagnostics of the edited file do not depend on earlier ones. Refuted: those of every other file are only ever added to; a concrete history grows by one with each edit."
  },
  {
   "property": "C27",
   "status": "partial",
   "theorems": [
    "C27_open_partial",
    "C27_text_ignored_refuted",
    "C27_refuted"
   ],
   "note": "The text sent by the editor is ignored, the disk is read instead: refuted universally and by a concrete state. Proved if the editor shows what is on the disk and the file is not open yet."
  },
  {
   "property": "C28",
   "status": "partial",
   "theorems": [
    "C28_watched_partial",
    "C28_start_partial",
    "C28_dropped_refuted",
    "C28_refuted"
   ],
   "note": "Proved for the files named before the first open one. Refuted: if a file is open, it and all files named behind it are ignored (universally, and by a concrete state)."
  },
  {
   "property": "C29",
   "status": "proved",
   "theorems": [
    "C29_close"
   ],
   "note": "For every state."
  },
  {
   "property": "C30",
   "status": "partial",
   "theorems": [
    "C30_found_partial",
    "C30_unknown_partial",
    "C30_case_insensitive",
    "C30_fallback_refuted",
    "C30_refuted",
    "C30_imports_partial",
    "C30_imports_refuted"
   ],
   "note": "A name that the index holds under the namespace and imports of its file is found, an unknown one is not, and lookups ignore case. The imports of a file are exactly those its top-level `use` statements write, in order, with aliases and group prefixes (C30_imports_partial; function and constant imports, imports inside the braces of a namespace and traits of anonymous classes are excluded). The full claim is false of the code: an unknown name in a namespace falls back to the global class of the same name, `use \\A\\B` is not found, and a class called Generator is never found; function imports serve class names, the traits of an anonymous class become imports of the file, and classes in a braced namespace are not analysed (C30_imports_refuted)."
  },
  {
   "property": "C31",
   "status": "partial",
   "theorems": [
    "C31_balanced",
    "C31_function_balanced",
    "C31_isolated_partial",
    "C31_closure_refuted",
    "C31_refuted",
    "C31_place",
    "C31_top_level"
   ],
   "note": "Every traversal restores the stack of scopes, and variables of one function are not visible in another. The full claim is false of the code: closures share the surrounding scope and two conditional functions of the same name share their variables. C31_place, C31_top_level: after every construct the analysis is back in the container it came from, and every top level statement is analysed outside of all classes and with one scope."
  },
  {
   "property": "C32",
   "status": "partial",
   "theorems": [
    "C32_members_partial",
    "C32_child_partial",
    "C32_refuted"
   ],
   "note": "Collecting members and testing for a parent class end whenever no class is its own ancestor and the current class does not inherit from `parent`. The full claim is false of the code: mutually inheriting classes, and a class that extends `parent`, make the lookup recurse without end."
  },
  {
   "property": "C33",
   "status": "partial",
   "theorems": [
    "C33_own_partial",
    "C33_parent_wins_refuted",
    "C33_refuted",
    "C33_inherited_partial"
   ],
   "note": "False of the code: whatever the parent contributes overwrites the class's own member of the same name (C33_parent_wins_refuted for every class, C33_refuted on a reachable state). Proved part: a member that neither an ancestor nor a trait declares or renames is found with the last own declaration. A member that exactly one of the class, its ancestors and its traits declares is found on the class as it is declared there, however far up it stands (C33_inherited_partial)."
  },
  {
   "property": "C34",
   "status": "partial",
   "theorems": [
    "C34_rules_partial",
    "C34_as_partial",
    "C34_refuted"
   ],
   "note": "Proved: how the traits' members are combined under insteadof rules, and what the last as-rule adds. False in general (C34_refuted): a rule can leave no candidate, which crashes the server, and rules do not apply to members a trait takes from another trait."
  },
  {
   "property": "C35",
   "status": "partial",
   "theorems": [
    "C35_checked_partial",
    "C35_partial",
    "C35_refuted"
   ],
   "note": "Every offered member is public, made public by an `as` rule, or has the name of a member that the innermost class around the cursor may use (own, from its traits, or a non-private one of its parents). Where names tell members apart and no `as` rules are in play this is the claim itself. Refuted in general: access is checked by name only, so a private member of an unrelated class is offered when the current class has a member of the same name."
  },
  {
   "property": "C36",
   "status": "partial",
   "theorems": [
    "C36_search_partial",
    "C36_tame_partial",
    "C36_refuted"
   ],
   "note": "Proved after tame histories for queries that are not empty: exactly the symbols with a kind in the protocol. Refuted in general: parameters are indexed but never found and an empty query has no answer."
  },
  {
   "property": "C37",
   "status": "partial",
   "theorems": [
    "C37_finishes_partial",
    "C37_runs",
    "C37_blocked_refuted",
    "C37_order_partial",
    "C37_order_refuted"
   ],
   "note": "Start-up as a transition system (walkers, channel, consumer task, caller). Under every schedule it ends if each file can be indexed alone and either the runtime has a worker for the consumer or at most 1000 results are waiting; the final states are exactly those of indexing one by one in some order; with unique names the index is the same up to ids for all schedules and hash orders. Refuted: without a free worker and with more than 1000 results it never ends; with duplicate names the schedule decides."
  },
  {
   "property": "C38",
   "status": "partial",
   "theorems": [
    "C38_errors",
    "C38_whole",
    "C38_trees_partial",
    "C38_expressions_partial",
    "C38_uncommented_partial",
    "C38_refuted_comments",
    "C38_refuted",
    "C38_refuted_abort",
    "C38_refuted_html"
   ],
   "note": "Refuted in full: every line comment is lost (proved for all files of expression statements), 18 other constructs lose or change tokens, HTML is lost, and 13 constructs abort the server (C38_refuted, C38_refuted_html, C38_refuted_abort). Proved: for every tree of SpecFormat.v (any size and depth) the formatted text scans to exactly the tokens of the tree (C38_trees_partial); and from the source text on, every file of expression statements over operators, literals, variables and parentheses, with any line breaks, is formatted to a text with the same tokens (C38_expressions_partial, C38_uncommented_partial). Missing: the constructs outside SpecFormat.v, for which the claim is mostly false. Files with errors are left alone and an edit replaces the whole text (C38_errors, C38_whole)."
  },
  {
   "property": "C39",
   "status": "proved",
   "theorems": [
    "C39_tokens_true"
   ],
   "note": ""
  },
  {
   "property": "C40",
   "status": "partial",
   "theorems": [
    "C40_prefix_partial",
    "C40_refuted_negation",
    "C40_trees_partial",
    "C40_trees_refuted_negation"
   ],
   "note": "Proved for all pairs but `!` before `instanceof`, for which it is refuted. For all operands: in every tree of every text, `**` is the only infix operator applied before such a prefix operator, and it always is (C40_trees_partial)."
  },
  {
   "property": "C41",
   "status": "proved",
   "theorems": [
    "C41_highlight",
    "C41_order"
   ],
   "note": "For all reachable states and all iteration orders."
  },
  {
   "property": "C42",
   "status": "partial",
   "theorems": [
    "C42_partial",
    "C42_refuted",
    "C42_traits_partial",
    "C42_offered_partial",
    "C42_position_partial",
    "C42_inherited_partial",
    "C42_inherited_position_partial",
    "C42_arrow_partial",
    "C42_arrow_position_partial"
   ],
   "note": "Every offered member starts with the name at the cursor and is marked static if `:` triggered the request. Refuted the other way round: constants (and static properties) are never marked static, so they are not offered after `::`. In the `use` of a class body exactly the traits of the index that start with the typed name are offered (C42_traits_partial). Behind `$this`, a variable of known class, a property or a call of a method (also one that returns `$this`), every accessible own member of the class that starts with the typed name is offered (C42_offered_partial; from the cursor position: C42_position_partial). The same for members that the class inherits or takes from a trait at any distance, including protected ones where the class around the cursor may use them (C42_inherited_partial, C42_inherited_position_partial). Missing: names that several of the class, its ancestors and its traits declare. With the cursor on the arrow itself: C42_arrow_partial."
  },
  {
   "property": "C43",
   "status": "partial",
   "theorems": [
    "C43_no_range_refuted",
    "C43_refuted",
    "C43_answered_partial"
   ],
   "note": "Refuted: in a file whose first statement has no range (`static $a;`) every completion request at any position panics.  Positive part: C43_answered_partial proves that in every state of a tame history, in an open file whose text has no nameless heredoc and no construct without a range, at any position that is not the name of a member, completion is answered and leaves the state unchanged, given enough fuel. Missing: names of members; the hypothesis that recorded imports have names is checked for the case but not derived from the parser."
  },
  {
   "property": "C44",
   "status": "partial",
   "theorems": [
    "C44_partial",
    "C44_refuted",
    "C44_use_refuted"
   ],
   "note": "Exactly the classes that are neither global, of the file's namespace nor imported come with one edit `use <full name>;` in front of the first import or on the fourth line. Refuted: a global class offered in a namespace or a class imported under another name comes without import and stands for something else; the file symbol has no namespace, so classes of the same namespace get an import, possibly beyond the end of the file. In an import (`use F`) the class comes under its short name with a second import put before the start of the file, and with `use M\\F` typed nothing is offered (C44_use_refuted)."
  },
  {
   "property": "C45",
   "status": "partial",
   "theorems": [
    "C45_direct_partial",
    "C45_method_partial",
    "C45_above_partial",
    "C45_sound_partial",
    "C45_method_sound_partial",
    "C45_exact_partial",
    "C45_refuted",
    "C45_refuted_end"
   ],
   "note": "Proved for all states: every indexed class that names the interface after implements (by PHP's rules read in its file, under a name that differs from its own) is listed, and its method of the name; classes whose named interface extends it in any number of steps are listed (C45_above_partial); everything listed is such a class or one that reaches the interface through parents of the named interface; for names without interfaces above them the list is exact. Refuted in general: classes that implement through their parent class, classes named like the interface, classes in a namespace block and inherited methods are missing; two extends clauses at the same place of two files make the request recurse without end."
  },
  {
   "property": "C46",
   "status": "partial",
   "theorems": [
    "C46_no_false_errors_partial",
    "C46_refuted"
   ],
   "note": "Proved for every text whose tokens (without comments and line breaks, which may be anywhere) form a file of the grammar in SpecGrammar.v: the parser ends without an error and its tree is one the grammar gives. The grammar covers names, types, expressions, closures, classes, traits, interfaces, attributes, all statements in both notations, namespaces and imports. Missing: what the parser rejects (refuted with valid files, among them constructor promotion, a comma behind the last parameter, catch without a variable), statements ended by ?>, echo tags, yield without a value, heredocs without a name; which of several trees of an ambiguous expression it takes is C15 to C17 and C40."
  },
  {
   "property": "C47",
   "status": "partial",
   "theorems": [
    "C47_usual_order_partial",
    "C47_refuted"
   ],
   "note": "Proved for every method with modifiers in the order abstract, final, visibility, static (each may be missing): all of them are in the node. Refuted for every other order: at least one modifier is lost without a report (static public function is not static). Properties and constants: what SpecGrammar.v says about Modifiers, by C46."
  },
  {
   "property": "C48",
   "status": "partial",
   "theorems": [
    "C48_call_partial",
    "C48_variable",
    "C48_member_refuted",
    "C48_refuted_property",
    "C48_refuted_constant",
    "C48_refuted_interface",
    "C48_refuted_local",
    "C48_refuted_alias",
    "C48_this"
   ],
   "note": "Proved: variables and parameters are inserted as $name; methods and functions as name(placeholders), one numbered placeholder per symbol declared in them, in order. Refuted: properties, constants and interfaces are always inserted with a dollar sign; local variables of the body count as parameters; a renamed trait method inserts its original name."
  },
  {
   "property": "C49",
   "status": "partial",
   "theorems": [
    "C49_known_partial",
    "C49_unknown_partial",
    "C49_hidden_partial",
    "C49_refuted",
    "C49_inherited_partial",
    "C49_inherited_hidden_partial",
    "C49_inherited_unknown_partial",
    "C49_chain_partial",
    "C49_chain_hidden_partial",
    "C49_chain_unknown_partial"
   ],
   "note": "Proved for chains of any length on `$this`, `self`, `static` and variables of known class, with members that the class itself declares and types `self`, `static` or `$this` in between (C49_known_partial); unknown members and hidden ones are reported (C49_unknown_partial, C49_hidden_partial). The same for members that are inherited from a class, an interface or a trait at any distance (C49_inherited_partial, C49_inherited_hidden_partial, C49_inherited_unknown_partial). The same for chains through any number of classes, where a member of one class has another class as its type, also one of the types of a union or `parent`, and for chains that start at `parent`, at the name of a class, at `new` or at `clone` (C49_chain_partial, C49_chain_hidden_partial, C49_chain_unknown_partial). Missing: names declared several times in the ancestry, elements of arrays and results of functions as start, arguments of calls. The full claim is false of the code (C49_refuted): `A::f()` inside A and protected members through a variable are reported as not accessible, `$this->$x` as unresolvable; private members of another class at the end of a `$this` chain and private members of the parent are accepted."
  },
  {
   "property": "C50",
   "status": "partial",
   "theorems": [
    "C50_definition_partial",
    "C50_single_partial",
    "C50_recorded"
   ],
   "note": "For histories with one open file and without reference searches (the histories of C24): the answer is the file and the name range of a symbol that the cursor is on a recorded occurrence of, and there is no answer only if no such symbol lies in a file; with one candidate the answer does not depend on the order of the map. C50_recorded: the recorded occurrences are exactly those the resolver finds. Missing: the other histories, which can make the request panic (C24_refuted)."
  },
  {
   "property": "C51",
   "status": "partial",
   "theorems": [
    "C51_hover_partial",
    "C51_top_refuted",
    "C51_refuted"
   ],
   "note": "C51_hover_partial: what is shown are the lines of the declaration (from the file on the disk) of the innermost symbol when the cursor is on its name, otherwise of a symbol that the cursor is on an occurrence of. The full claim is false of the code: in code outside of all declarations the whole file is shown (C51_top_refuted), and the text comes from the disk instead of the editor (C51_refuted)."
  },
  {
   "property": "C52",
   "status": "partial",
   "theorems": [
    "C52_outline_partial",
    "C52_complete_partial",
    "C52_refuted"
   ],
   "note": "Proved for all reachable states in which the types of the variables still exist. The full claim is false of the code (C52_refuted): after the file of a class was read again, the outline of another file that has a variable of that class panics."
  },
  {
   "property": "C53",
   "status": "partial",
   "theorems": [
    "C53_walk_partial",
    "C53_only",
    "C53_refuted"
   ],
   "note": "Exact for directories that can be read completely, and nothing else is ever found (C53_only). C53_refuted: one entry that cannot be read hides everything in its directory."
  },
  {
   "property": "C54",
   "status": "partial",
   "theorems": [
    "C54_refuted",
    "C54_names_partial"
   ],
   "note": "The claim is false of the code: the checks parse the name of the file instead of its contents, so that every ordinary name passes. C54_names_partial says exactly what they report: one complaint per path whose name does not parse."
  },
  {
   "property": "C55",
   "status": "partial",
   "theorems": [
    "C55_texts_partial",
    "C55_symbols_partial",
    "C55_watched_partial",
    "C55_static_refuted",
    "C55_magic_refuted"
   ],
   "note": "Proved for all syntax trees and all reachable states: the tree below the file mirrors the declarations (inductive relation declares), node by node and in order, with kind, name, ranges, namespace, parents, types, visibility, deprecation and, for methods, the static flag. Refuted for two attributes: static properties are recorded as not static, and @property members as private. C55_texts_partial has no hypothesis about the tree except for names: every tree that the parser makes of any text, with or without mistakes, has declarations (ParserKinds.v), if the names of its namespaces are words with separators between them and names in `define` have a text."
  },
  {
   "property": "C56",
   "status": "partial",
   "theorems": [
    "C56_places_partial",
    "C56_refuted"
   ],
   "note": "Proved for all reachable states: all indexed files whose content has the name in it are analysed, and the answer is exactly the set of places these analyses record for the symbol at the cursor. Refuted in full: a use of a class in another letter case is recorded (go to definition works) but not listed, because the files are filtered by a case-sensitive text search."
  },
  {
   "property": "C57",
   "status": "partial",
   "theorems": [
    "C57_one_symbol_partial",
    "C57_known_partial",
    "C57_function_partial",
    "C57_highlight_partial",
    "C57_refuted"
   ],
   "note": "Proved for any tree, any depth and any state: all places that are visited (and, after the variable occurred or when it is known already, also places read on the right of an assignment or as the receiver of a member) are recorded for one symbol; at the level of a file for the bodies of its functions; and highlighting one shows all. Missing: bodies that rebind the name (catch, foreach, closures), places that the analysis never visits. Refuted in full: the first place on the right of an assignment is not recorded at all."
  },
  {
   "property": "C58",
   "status": "partial",
   "theorems": [
    "C58_stays_partial",
    "C58_body_partial",
    "C58_parameter_partial",
    "C58_function_partial",
    "C58_assigned_partial",
    "C58_item_partial",
    "C58_caught_partial",
    "C58_first_type_partial",
    "C58_refuted"
   ],
   "note": "Proved for any tree, depth and state: a parameter, a variable with its first assignment of an object (new, $this, another variable, a fluent chain), an element of a collection has the class; it keeps it through any code that does not bind the name again, and every part of the code is analysed with that knowledge; caught exceptions have the types that are written and evaluate to the class of the first of them. Missing: second and further types, later assignments. Refuted in full: a variable keeps its first class although an object of another class is assigned later."
  },
  {
   "property": "C59",
   "status": "partial",
   "theorems": [
    "C59_node_found",
    "C59_variables",
    "C59_dollar",
    "C59_keywords",
    "C59_imports",
    "C59_names",
    "C59_modifiers",
    "C59_traits",
    "C59_import_refuted"
   ],
   "note": "Proved in both directions for any tree, state and position: the deepest node under the cursor is found, and what is offered at a variable, after `$`, outside of everything, in an import (cursor not on the name), in the `use` of a class, directly in a class body and at any other name is exactly what the statement says. Refuted for imports: with the cursor on the name itself the branch for other names is taken, so nothing is offered for `use M\\F` although `M\\Foo` exists."
  },
  {
   "property": "C60",
   "status": "partial",
   "theorems": [
    "C60_partial",
    "C60_parameter",
    "C60_refuted"
   ],
   "note": "Proved for every doc comment in which each tag stands on its line and has types made of names, `\\`, `[]` and `|`: the result is exactly the list of tags with types, names, descriptions and places (C60_partial); the description of a parameter (C60_parameter). The full claim is false of the code (C60_refuted): a tag behind a `@return Foo` or `@var Foo` that ends its line is lost; `?Foo` and `array<int>` hide the name of the parameter; `@property-read Foo $x` is a property without name."
  },
  {
   "property": "C61",
   "status": "partial",
   "theorems": [
    "C61_type_partial",
    "C61_outside",
    "C61_inside",
    "C61_parent",
    "C61_import",
    "C61_once",
    "C61_member_partial"
   ],
   "note": "Proved for names of classes that are known (C61_type_partial; unknown ones are C30), for imports (C61_import), for self, static and parent (C61_outside, C61_inside, C61_parent: the messages for `parent` are only about the name of the parent in the declaration of the class; in a class without a parent nothing is said), for repeated lookups of any type (C61_once), and for every member of a chain of any length, own, inherited or of a trait (C61_member_partial). Missing: names declared several times in the ancestry, chains through array elements and results of functions; names of functions and constants are never checked by the code."
  },
  {
   "property": "C62",
   "status": "partial",
   "theorems": [
    "C62_changed",
    "C62_opened",
    "C62_valid_partial",
    "C62_start",
    "C62_unreadable_refuted",
    "C62_others_refuted"
   ],
   "note": "Proved for changed and opened files whose text can be read, and for the start: the list told is exactly the complaints of the parser followed by the messages that the analysis of the file (after a change: the analyses of all open files, with the new tree) finds about the file. C62_valid_partial: for the grammar of C46, not for all of PHP. Refuted: a text that does not tokenise leaves the problems of the text before (C62_unreadable_refuted, for all states); problems that a change gives to other open files are not told (C62_others_refuted). Not covered: a file that is opened while the server holds it open already."
  },
  {
   "property": "C63",
   "status": "partial",
   "theorems": [
    "C63_questions",
    "C63_search_partial",
    "C63_refuted"
   ],
   "note": "Proved in full for the seven kinds of questions. For searches: everything but the variables, the types of symbols and the diagnostics stays (C63_search_partial); diagnostics are only added to. Refuted for the diagnostics: a search adds the messages about names of the files it looks at once more (C63_refuted). That it throws away variables is C24_refuted."
  },
  {
   "property": "C64",
   "status": "partial",
   "theorems": [
    "C64_alone",
    "C64_sequential",
    "C64_covers",
    "C64_tame_covers",
    "C64_forest",
    "C64_index_partial",
    "C64_answers",
    "C64_no_deadlock",
    "C64_threads",
    "C64_exclusive",
    "C64_refuted",
    "C64_rename_refuted",
    "C64_places",
    "C64_answered",
    "C64_references"
   ],
   "note": "Transition system with the requests in flight; all states of the sequential model are among its states (C64_covers). Proved for all interleavings: the forest, the index for tame texts (as in C21), where the parts of an answer come from (C64_answers), a search alone gives the result of some order of the files and every order of the hash map is one of them (C64_alone, C64_sequential); locks: no deadlock, mutual exclusion, every run ends. Refuted: a didChange with the same text while a search is under way makes the answer empty (C64_refuted); between the two locks of rename the symbol can vanish and the request crashes (C64_rename_refuted). Not covered: tasks that panic while others go on. C64_places, C64_answered: the answer of a search is made of exactly the places found for its target, each in a text with the name; C64_references: the answer of references to a server that does nothing else is one of those."
  },
  {
   "property": "C65",
   "status": "partial",
   "theorems": [
    "C65_gone",
    "C65_found",
    "C65_change",
    "C65_search_refuted",
    "C65_rename_refuted"
   ],
   "note": "The first two sentences are proved for all interleavings (C65_gone, C65_found), and that a change throws away everything declared in the file (C65_change). The last part is refuted for all states: a search that has not found anything when the file is changed answers with an empty list whatever follows (C65_search_refuted), and a rename that has chosen the symbol crashes (C65_rename_refuted). That numbers are not handed out twice rests on the model of the arena (Arena.v)."
  },
  {
   "property": "C66",
   "status": "partial",
   "theorems": [
    "C66_token_partial",
    "C66_selection_partial",
    "C66_highlight_partial",
    "C66_refuted"
   ],
   "note": "Proved for names of visible ASCII characters: every token of a name or variable of every text (C66_token_partial), the selection ranges of declarations (C66_selection_partial, with named_at as in C55), and all highlighted places of a local variable of a function or method, from the text to the answer (C66_highlight_partial). Refuted for other names: lengths are counted in bytes, so the range of a name with an accent ends too far right (C66_refuted). Columns are counted in characters, as the scanner does; the protocol counts UTF-16 units, which differs behind characters above U+FFFF."
  },
  {
   "property": "C67",
   "status": "partial",
   "theorems": [
    "C67_spans_partial",
    "C67_exact_partial",
    "C67_statements_partial",
    "C67_refuted"
   ],
   "note": "Proved for every expression of the grammar of C46 (SpecGrammar.v): the range is defined, goes from the first to the last token, and leaves out at most parentheses around the expression, the marks of a heredoc, the keyword of a function that returns a reference, and the brace of ->{...}, and these only where the expression starts or ends with them (C67_spans_partial; C67_exact_partial for all others). Nothing is said about the start of match and of functions and classes with attributes. Refuted: match starts with its brace, function & with the &, parentheses and the brace of ->{...} are left out (C67_refuted). C67_statements_partial: the same for statements, without the semicolon, for those without lists and without statements as bodies (covered): expressions, print, return, throw, goto, labels, break, unset, die, define, declare, blocks, do, switch, functions with a body, namespaces, traits, interfaces and classes without a comment. Not covered: if, while, for, foreach, try, echo, const, global, static, use, and members of classes."
  }
 ]
}