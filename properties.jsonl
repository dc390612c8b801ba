{"id": "C01", "title": "Tokenising always finishes", "statement": "For every source text, tokenising it finishes with either a token list or an error message; it never crashes, and the work is bounded by the length of the text.", "quantifier": "all source texts (any characters, any length)", "why_tests_cant": "an infinite loop or crash may hide behind any unterminated construct; tests only sample texts", "anchors": ["src/parser/scanner.rs: Scanner::scan, advance, tokenize_here_doc"]}
{"id": "C02", "title": "Tokens come in document order with true positions", "statement": "For every source text, the (line, column) stored in every token is the position of some character boundary of the text, positions never decrease along the token list, and the n-th token carries offset n.", "quantifier": "all source texts", "why_tests_cant": "all mixes of strings, heredocs, comments, casts and line ends", "anchors": ["src/parser/scanner.rs: Scanner::scan, push_token, push_named_token, advance"]}
{"id": "C03", "title": "The reported document range is the end of the text", "statement": "After a successful tokenisation, the end of the reported document range is (columns of the last line, number of line feeds) of the text, with carriage returns not counted, and the Eof token, if there is one, sits there.", "quantifier": "all source texts that tokenise", "why_tests_cant": "positions are accumulated over the whole text", "anchors": ["src/parser/scanner.rs: document_range, advance, scan"]}
{"id": "C04", "title": "Text outside PHP tags yields no tokens", "statement": "A text that contains no `<?` opening tag yields no token at all: HTML around scripts is never mistaken for code.", "quantifier": "all texts without the two characters `<?` in sequence", "why_tests_cant": "HTML is arbitrary text", "anchors": ["src/parser/scanner.rs: Scanner::scan, tokenize_here_doc, push_named_token"]}
{"id": "C05", "title": "Keywords are recognised whatever their letter case", "statement": "Two spellings of an identifier that differ only in ASCII letter case are either both recognised as the same PHP keyword or both recognised as plain identifiers.", "quantifier": "all identifiers and all case variants", "why_tests_cant": "2^n case variants per keyword", "anchors": ["src/parser/scanner.rs: map_keyword, scan"]}
{"id": "C06", "title": "String literals end at the first unescaped quote", "statement": "Scanning a single-quoted, backtick or double-quoted literal whose body contains only escaped quotes gives exactly one string token whose label is the body, and continues right behind the closing quote.", "quantifier": "all bodies, all continuations", "why_tests_cant": "bodies with arbitrary runs of backslashes and quotes", "anchors": ["src/parser/scanner.rs: collect_until_escaped, collect_encapsed_and_whitespace_string"]}
{"id": "C07", "title": "Line ending style does not matter", "statement": "Replacing every line feed of a file by carriage return + line feed changes neither the success of tokenising nor the kinds, labels and positions of the tokens.", "quantifier": "all source texts", "why_tests_cant": "the two styles must agree on every construct that may span lines", "anchors": ["src/parser/scanner.rs: advance, consume_line_comment, tokenize_here_doc"]}
{"id": "C08", "title": "Comments swallow nothing but themselves", "statement": "A `//` or `#` comment ends right before the next line end or right after the next `?>`; text on the following line is tokenised.", "quantifier": "all comment texts and continuations", "why_tests_cant": "arbitrary comment text", "anchors": ["src/parser/scanner.rs: consume_line_comment, scan"]}
{"id": "C09", "title": "Every scanned token can be displayed and measured", "statement": "For every source text, rendering any produced token as text and computing the position of its end never crashes the server.", "quantifier": "all source texts, all produced tokens", "why_tests_cant": "the rendering has an unreachable arm and an unwrap whose reachability depends on every scanner path", "anchors": ["src/parser/token.rs: Display for TokenType, Display for Token, Token::end", "src/parser/mod.rs: Parser::next"]}
{"id": "C10", "title": "Parsing never crashes", "statement": "For every token list produced by the tokeniser, building the syntax tree does not hit an unwrap, an unreachable arm or an index out of bounds.", "quantifier": "all source texts that tokenise", "why_tests_cant": "the crash sites are guarded by conditions on arbitrary token sequences", "anchors": ["src/parser/mod.rs: Parser::ast, next, peek", "src/parser/ast/"]}
{"id": "C11", "title": "Parsing always finishes", "statement": "For every token list, building the syntax tree finishes: every edit of a user, however incomplete the code, gets an answer.", "quantifier": "all token lists, in particular all prefixes of programs", "why_tests_cant": "each recovery loop must make progress on every possible rest of the input", "anchors": ["src/parser/mod.rs: Parser::ast, error_fast_forward, block", "src/parser/ast/variables.rs: global_variables", "src/parser/ast/functions.rs: non_empty_lexical_variables_list", "src/parser/ast/classes.rs / namespaces.rs: trait use group"]}
{"id": "C12", "title": "The tree contains only tokens of the file", "statement": "Every token stored in the produced syntax tree is a token of the scanned file or a placeholder marking a missing token; the parts of doc comments, which hold names and types written inside a comment, are read from the text of a comment of the file.", "quantifier": "all token lists", "why_tests_cant": "the tree is built by about seventy mutually recursive functions", "anchors": ["src/parser/mod.rs: Parser::ast", "src/parser/ast/"]}
{"id": "C13", "title": "No placeholder without a diagnostic", "statement": "If parsing reports no error, then no part of the produced tree is a placeholder for a missing token.", "quantifier": "all token lists", "why_tests_cant": "every recovery path must record an error", "anchors": ["src/parser/mod.rs: consume, consume_identifier, consume_or_ff_after, consume_end_of_statement"]}
{"id": "C14", "title": "Syntax errors point into the file", "statement": "Every reported syntax error carries a token of the file, or - at the end of the input - the position of the end of the file.", "quantifier": "all token lists", "why_tests_cant": "all error sites", "anchors": ["src/parser/mod.rs: consume*, Token::missing", "src/parser/token.rs: Token::missing", "src/backend/mod.rs: Diagnostic::from(ParserError)"]}
{"id": "C15", "title": "Operators group by PHP precedence", "statement": "For all operands and any two infix operators of different PHP precedence classes, `a op1 b op2 c` is grouped around the tighter operator.", "quantifier": "all pairs of infix operators, all operands and continuations", "why_tests_cant": "operator pairs times operand shapes times continuations", "anchors": ["src/parser/ast/expressions.rs: expression", "src/parser/token.rs: infix_binding_power"]}
{"id": "C16", "title": "Operators associate as in PHP", "statement": "A chain `a op b op c` of one left-associative operator is grouped to the left; of a right-associative operator (assignment, `**`, `??`) to the right.", "quantifier": "all infix operators, chains of any length", "why_tests_cant": "chains have any length", "anchors": ["src/parser/ast/expressions.rs: expression", "src/parser/token.rs: infix_binding_power"]}
{"id": "C17", "title": "Prefix operators bind as in PHP", "statement": "Unary minus and plus bind tighter than every binary arithmetic operator except `**`: `-a + b` means `(-a) + b`.", "quantifier": "all operands, all binary operators", "why_tests_cant": "operator pairs times operand shapes", "anchors": ["src/parser/ast/expressions.rs: expression, primary", "src/parser/token.rs: prefix_binding_power"]}
{"id": "C18", "title": "Source ranges of syntax nodes can always be computed", "statement": "For every tree the parser produces, computing the source range of any node of it never crashes.", "quantifier": "all trees produced from all token lists", "why_tests_cant": "range computation indexes the first or last element of lists that the parser may leave empty", "anchors": ["src/parser/node.rs: Node::range", "src/parser/mod.rs: Parser::ast"]}
{"id": "C19", "title": "Position test is the closed interval test", "statement": "A position is considered inside a source range exactly if it is not before the start and not behind the end in reading order (both ends included).", "quantifier": "all positions and ranges", "why_tests_cant": "two-component comparison with per-line special cases", "anchors": ["src/environment/mod.rs: in_range"]}
{"id": "C20", "title": "Symbol at position is the innermost one", "statement": "Asking for the symbol at a position returns a declared symbol of that file whose range contains the position, and no child of it contains the position.", "quantifier": "all symbol trees and positions", "why_tests_cant": "arbitrary nesting and overlapping", "anchors": ["src/environment/symbol.rs: symbol_at"]}
{"id": "C21", "title": "The global index only points to living symbols under their own name", "statement": "After any history of indexing, opening, editing and closing, every entry of the global symbol index refers to an existing symbol of a currently indexed file, and the key is that symbol's lower-cased fully qualified name.", "quantifier": "all histories of editor and watcher notifications", "why_tests_cant": "dangling entries appear only after particular sequences of edits", "anchors": ["src/backend/mod.rs: collect_symbols, init_workspace, refresh_file"]}
{"id": "C22", "title": "Editing one file leaves the symbols of other files alone", "statement": "Re-indexing a file never removes or redirects the global index entry of a symbol declared in another file.", "quantifier": "all workspaces, all edits", "why_tests_cant": "needs a collision of names across files and kinds", "anchors": ["src/backend/mod.rs: collect_symbols"]}
{"id": "C23", "title": "The index reflects the latest content", "statement": "After a file has been re-indexed with a new content that tokenises, the symbols recorded for it are exactly those of indexing that content into an empty workspace.", "quantifier": "all previous contents, all new contents", "why_tests_cant": "stale symbols survive only for particular pairs of contents", "anchors": ["src/backend/mod.rs: collect_symbols, refresh_file"]}
{"id": "C24", "title": "Stored references point to living symbols", "statement": "After any history, each recorded reference of an open file points to a symbol that still exists, so go-to-definition, hover and highlight never touch a deleted symbol.", "quantifier": "all histories of requests and notifications", "why_tests_cant": "a reference dangles only after a particular sequence of requests", "anchors": ["src/backend/mod.rs: collect_references, references_of_symbol_under_cursor", "src/backend/goto_definition.rs", "src/backend/hover.rs"]}
{"id": "C25", "title": "Renaming a local variable edits all its occurrences", "statement": "A rename request on a variable returns an edit for each of its recorded occurrences.", "quantifier": "all workspaces with a variable under the cursor", "why_tests_cant": "depends on identity of symbols across a re-analysis", "anchors": ["src/backend/mod.rs: rename, references_of_symbol_under_cursor, collect_references"]}
{"id": "C26", "title": "Diagnostics do not pile up", "statement": "The list of diagnostics of an open file after an edit of any file is determined by the contents of the workspace, not by the number of edits made before.", "quantifier": "all histories of edits", "why_tests_cant": "needs more than one open file and repeated edits", "anchors": ["src/backend/mod.rs: refresh_file, collect_references"]}
{"id": "C27", "title": "Opening a file analyses what the editor shows", "statement": "After an open notification the analysed content is the text sent by the editor.", "quantifier": "all texts and disk contents", "why_tests_cant": "only visible if disk and buffer differ", "anchors": ["src/backend/did_open.rs"]}
{"id": "C28", "title": "Every watched change is applied", "statement": "A notification with several changed files re-indexes each changed file that is not open in the editor.", "quantifier": "all lists of changes, all sets of open files", "why_tests_cant": "needs an open file before others in the list", "anchors": ["src/backend/did_change_watched_files.rs"]}
{"id": "C29", "title": "Closing a file forgets its editor state and nothing else", "statement": "After a close notification no version, tree or references of that file are kept; all other files' data and the symbol index are unchanged; closing twice is harmless.", "quantifier": "all states and files", "why_tests_cant": "state space is unbounded", "anchors": ["src/backend/did_close.rs"]}
{"id": "C30", "title": "Names resolve by PHP rules, ignoring case", "statement": "A type name resolves to the symbol obtained by PHP's name resolution (fully qualified; imported alias; current namespace) and resolution does not depend on ASCII letter case.", "quantifier": "all workspaces, imports, namespaces and spellings", "why_tests_cant": "combinations of imports, namespaces and spellings", "anchors": ["src/environment/visitor/name_resolver.rs: resolve_type_ref"]}
{"id": "C31", "title": "Local scopes are balanced and isolated", "statement": "Analysing any syntax tree leaves the stack of local scopes as it was; a variable of one function body is never resolved to a variable of another function body.", "quantifier": "all syntax trees", "why_tests_cant": "arbitrary nesting", "anchors": ["src/environment/visitor/name_resolver.rs: push_scope, pop_scope, before, after"]}
{"id": "C32", "title": "Member lookup terminates", "statement": "Collecting the members of a class, for completion or to resolve a member access, finishes for every workspace.", "quantifier": "all inheritance graphs", "why_tests_cant": "cycles of any length through classes, interfaces and traits", "anchors": ["src/environment/symbol.rs: get_all_symbols, get_inherited_symbols, get_imports, is_child_of"]}
{"id": "C33", "title": "A class's own member hides the inherited one", "statement": "If a class declares a member that its ancestor declares too, looking it up on the class yields the declaration of the class.", "quantifier": "all inheritance chains", "why_tests_cant": "chains have any length", "anchors": ["src/environment/symbol.rs: get_all_symbols"]}
{"id": "C34", "title": "Trait conflict rules are applied without crashing", "statement": "`insteadof` and `as` rules select and rename exactly the named members and never crash, whatever the traits declare.", "quantifier": "all trait usages and rules", "why_tests_cant": "combinations of rules and members", "anchors": ["src/environment/symbol.rs: get_imports"]}
{"id": "C35", "title": "Only accessible members are offered", "statement": "A member offered after `->` or `::` is public, or protected and requested from a related class, or private and requested from the class itself.", "quantifier": "all classes, members and request sites", "why_tests_cant": "visibility is compared by an order relation", "anchors": ["src/environment/symbol.rs: Visibility", "src/suggester/mod.rs: suggest_members_of_symbol"]}
{"id": "C36", "title": "Workspace symbol search is a case-insensitive prefix search", "statement": "The answer to a workspace symbol query contains exactly the indexed symbols whose name starts with the query, ignoring case.", "quantifier": "all workspaces and queries", "why_tests_cant": "the query is arbitrary", "anchors": ["src/backend/symbol.rs"]}
{"id": "C37", "title": "Start-up indexing does not depend on the walking order and does not hang", "statement": "Indexing a folder finishes under every schedule of the walker threads and of the runtime, and - if fully qualified names are unique - the resulting index does not depend on the schedule.", "quantifier": "all folders, schedules and numbers of workers", "why_tests_cant": "interleavings", "anchors": ["src/backend/mod.rs: init_workspace"]}
{"id": "C38", "title": "Formatting keeps the program", "statement": "Formatting a file that parses without errors returns a text with the same tokens, including comments.", "quantifier": "all programs", "why_tests_cant": "all syntax constructs", "anchors": ["src/formatter/mod.rs", "src/backend/formatting.rs"]}
{"id": "C39", "title": "Every token stands for the text at its position", "statement": "For every source text that tokenises, each token is spelled at its own position in the text: keywords and operators by their spelling (in any letter case), names, numbers, strings and comments by their label, identifiers are maximal and never spell a keyword.", "quantifier": "all source texts, all produced tokens", "why_tests_cant": "about 200 token kinds in all contexts and combinations", "anchors": ["src/parser/scanner.rs: Scanner::scan, push_token, push_named_token, map_keyword, map_cast"]}
{"id": "C40", "title": "The other prefix operators bind as in PHP", "statement": "`!`, `~`, `@` and the casts apply to their operand before every infix operator other than `**` is applied, except that `!` applies after `instanceof`: `!$a instanceof B` means `!($a instanceof B)`.", "quantifier": "all prefix operators of that kind, all infix operators, all operands", "why_tests_cant": "prefix operators times infix operators times operand shapes", "anchors": ["src/parser/ast/expressions.rs: expression", "src/parser/token.rs: prefix_binding_power, infix_binding_power"]}
{"id": "C41", "title": "Highlighting marks the occurrences of the symbol under the cursor", "statement": "Whatever the history of the server and the order in which the recorded references are visited, highlighting at a position answers all recorded occurrences of one symbol, in that file and no others, and one of them contains the position; it answers nothing only if no recorded occurrence contains the position.", "quantifier": "all reachable server states, files, positions and iteration orders", "why_tests_cant": "references change with every edit, the hash map order is random", "anchors": ["src/backend/document_highlight.rs: exec", "src/backend/mod.rs: collect_references"]}
{"id": "C42", "title": "Offered members fit what is typed", "statement": "A member offered after `->` or `::` starts with the name that is typed at the cursor; after `::` it is static; and the accessible static members and constants that start with that name are offered.", "quantifier": "all server states, files, positions and trigger characters", "why_tests_cant": "tests ask at a few positions of a few classes", "anchors": ["src/suggester/mod.rs: suggest_members_of_symbol, get_suggestions_at, find"]}
{"id": "C43", "title": "Completion does not crash", "statement": "A completion request in an open file is answered, whatever the file contains and wherever the cursor is.", "quantifier": "all reachable server states, positions and trigger characters", "why_tests_cant": "half-written statements come in any shape", "anchors": ["src/suggester/mod.rs: find, get_suggestions_at", "src/parser/node.rs: Node::range", "src/backend/completion.rs: completion"]}
{"id": "C44", "title": "A completed class name means the class that was offered", "statement": "Accepting an offered class or trait, with the edits that come along, leaves a file in which the inserted name stands for that class; an import is added only if it is needed, and inside the file.", "quantifier": "all files, namespaces, imports and offered classes", "why_tests_cant": "depends on the namespace and imports of both files", "anchors": ["src/backend/completion.rs: completion"]}
{"id": "C45", "title": "Go to implementation answers with the implementing classes", "statement": "With the cursor in an interface, the answer lists exactly the classes of the workspace that implement the interface: those that name it after implements, and those that implement it through an interface or class above them. With the cursor on a method of an interface it lists the methods of that name of these classes. The request always ends.", "quantifier": "all workspaces, interfaces, methods and cursor positions", "why_tests_cant": "the answer depends on the imports, namespaces and interface hierarchies of all files of the workspace", "anchors": ["src/backend/goto_implementation.rs: goto_implementation, implementing_interfaces", "src/environment/symbol.rs: is_child_of"]}
{"id": "C46", "title": "Valid PHP is read without errors", "statement": "Every file that is valid PHP is read without a reported error, and the tree the parser makes is the syntax tree of the file: every statement, declaration and expression stands in it, with the tokens it is made of, in its place.", "quantifier": "all texts that are files of the PHP grammar, with comments and line breaks anywhere between tokens, of any length and nesting depth", "why_tests_cant": "the language is infinite and the parser's lookahead and recovery interact with whatever stands behind a construct; tests cover a few dozen snippets", "anchors": ["src/parser/mod.rs: ast, statement", "src/parser/ast/expressions.rs, functions.rs, classes.rs, conditionals.rs, loops.rs, arrays.rs, calls.rs, keywords.rs, variables.rs, types.rs, namespaces.rs, exception_handling.rs, attributes.rs"]}
{"id": "C47", "title": "The modifiers of a member are recorded", "statement": "All modifiers (abstract, final, public, protected, private, var, static) that are written before a member of a class are recorded with the member, in whatever order they are written.", "quantifier": "all members of classes and all lists of modifiers", "why_tests_cant": "the existing tests use one order; the modifiers are collected in a loop that can run any number of rounds", "anchors": ["src/parser/ast/classes.rs: class_block_statement"]}
{"id": "C48", "title": "Accepting a suggestion writes code that means it", "statement": "When a suggestion is accepted, what the editor inserts (the item's insert text, or its label) is what has to be written at the cursor to use the suggested symbol: variables and parameters with a dollar sign; properties, constants and interfaces by their bare name; methods and functions by the name they have at that place, followed by parentheses with one placeholder per parameter, in the order of the parameters.", "quantifier": "all suggestions of all completion requests in all reachable states, methods with any number of parameters", "why_tests_cant": "the tests check that suggestions are found, not what is inserted; the text depends on everything the analysis has declared inside the method so far", "anchors": ["src/backend/completion.rs: completion", "src/environment/symbol.rs: completion_item, parameters_as_snippets"]}
{"id": "C49", "title": "Uses of members are linked to their declarations and wrong ones are reported", "statement": "In a chain of member accesses such as `$this->a()->b` each member name is recorded as a reference to the member of that name of the object's class. No error is reported for a member that exists and may be used from the surrounding code; a member that does not exist, or is private or protected and used from outside, is reported at its name. A member of type `self`, `static` or `$this` stands for an object of the same class for the next link of the chain.", "quantifier": "for all analyser states, all chains of member accesses of any length, all receivers and all member declarations", "why_tests_cant": "Tests see a few chains on fixed classes; the claim is about chains of any length, any class hierarchy and any visibility, and about the absence of false reports.", "anchors": ["src/environment/visitor/name_resolver.rs:783-1157", "src/environment/symbol.rs:612-649"]}
{"id": "C50", "title": "Go to definition leads to the declaration of what is under the cursor", "statement": "A request to go to the definition is answered with the file and the place of the name of a symbol that the cursor is on an occurrence of, and without an answer only if the cursor is on no occurrence of a symbol that is declared in a file. If the occurrence belongs to one symbol only, the answer is determined.", "quantifier": "all reachable states, files, positions and orders in which the map of references is walked", "why_tests_cant": "the answer depends on the whole history of edits, on the order of a hash map and on any number of overlapping references", "anchors": ["src/backend/goto_definition.rs", "src/environment/mod.rs:14-33"]}
{"id": "C51", "title": "A hover shows the declaration of what is under the cursor", "statement": "A hover over the name of a declaration or over an occurrence of a symbol shows the lines of that declaration, as they are in the editor; a hover over anything else shows nothing.", "quantifier": "all reachable states, files and positions", "why_tests_cant": "the text depends on the disk, on the ranges of the symbols and on all previous edits", "anchors": ["src/backend/hover.rs", "src/environment/symbol.rs:783-808", "src/environment/fs.rs:47-60"]}
{"id": "C52", "title": "The outline of a file lists its declarations", "statement": "The outline of an indexed file has one entry for each symbol of the file of a kind that is shown, nested like the symbols and in their order, with name, kind, range and range of the name of the symbol; it has no other entries and the request does not panic.", "quantifier": "all reachable states and files, symbols nested to any depth", "why_tests_cant": "nesting depth and number of declarations are unbounded; whether the types of variables still exist depends on the history", "anchors": ["src/backend/document_symbol.rs", "src/environment/symbol.rs:721-781"]}
{"id": "C53", "title": "Walking a directory finds exactly the PHP files that are not ignored", "statement": "The walk over a directory yields exactly the files at any depth whose name ends in .php (with something before it) such that neither the file nor a directory on the way ends with an ignored path.", "quantifier": "all directory trees of any depth and size, all ignore lists", "why_tests_cant": "directory trees are unbounded and contain unreadable entries", "anchors": ["src/environment/fs.rs:4-41"]}
{"id": "C54", "title": "The command line checks look at the contents of the files", "statement": "With --file, \"Parsed ok\" is printed for a file exactly if its contents are scanned and parsed without errors; with --dir, the errors of each file below the directory are printed.", "quantifier": "all files and contents", "why_tests_cant": "no test runs the command line; the wrong result looks like success", "anchors": ["src/main.rs:63-86"]}
{"id": "C55", "title": "The symbols of a file are its declarations", "statement": "After a file is indexed, its symbol tree holds exactly one symbol for each namespace, class, trait, interface, constant, property, method, function and parameter it declares, nested and ordered as written, each with its kind, name, namespace, ranges, visibility, static flag, types, parents and deprecation.", "quantifier": "all syntax trees and all states of the server", "why_tests_cant": "tests look at single symbols; what is added elsewhere, dropped or put under another parent is not looked at", "anchors": ["src/environment/visitor/workspace_symbol.rs:27-530", "src/environment/traverser.rs:7-30", "src/backend/mod.rs:406-456"]}
{"id": "C56", "title": "Find references lists all uses of the symbol", "statement": "The answer to a references request lists every place of the workspace where the symbol at the cursor is used, in all indexed files, and no other place.", "quantifier": "all reachable server states, file contents, positions and iteration orders", "why_tests_cant": "depends on all files of the workspace, on the order in which they are analysed and on how names are spelled in them", "anchors": ["src/backend/mod.rs:190-285", "src/backend/mod.rs:702-754"]}
{"id": "C57", "title": "All places of a local variable are one symbol", "statement": "Within the body of a function or method, all places where the same variable is written are recorded for one and the same symbol, so that highlighting, finding references and renaming cover all of them.", "quantifier": "all syntax trees of function bodies, all states of the analysis, all variable names", "why_tests_cant": "the places can be nested in arbitrarily deep expressions and statements, and other variables and scopes may come between them", "anchors": ["src/environment/visitor/name_resolver.rs:455-1010", "src/environment/traverser.rs:8-24"]}
{"id": "C58", "title": "The classes of the objects that variables hold are known", "statement": "When a variable is a parameter with a class as its type, gets a new object or another expression of which the class is known, is an element of a collection of objects, or is a caught exception, then the analysis of all code after that in the function knows the class, so that members behind the variable are looked up in it.", "quantifier": "all syntax trees of function bodies, all states of the analysis, all variable names and classes", "why_tests_cant": "the code between the place where the variable gets its object and the place where it is used is unbounded, nested and may contain other scopes", "anchors": ["src/environment/visitor/name_resolver.rs:455-1010", "src/environment/traverser.rs:8-24"]}
{"id": "C59", "title": "Completion offers all names that fit the place and no others", "statement": "At a variable, or after a typed `$`, exactly the variables and parameters of the enclosing scope and `$this` are offered; in an import exactly the names of the index, with namespace, that start with the typed name; in the `use` of a class exactly the traits that start with it; directly in the body of a class exactly the visibility modifiers; outside of everything the keywords of declarations; at any other name exactly the declarations of the index that start with it.", "quantifier": "all syntax trees, states, positions, trigger characters and references", "why_tests_cant": "what is offered depends on the deepest node under the cursor in a tree of unbounded depth and on all declarations of all files", "anchors": ["src/suggester/mod.rs: find, get_suggestions_at, suggest_variables", "src/environment/mod.rs: in_range"]}
{"id": "C60", "title": "Doc comments are read as they are written", "statement": "From a doc comment exactly the tags @param, @var, @property, @return and @deprecated are taken, in their order, with the types, names and descriptions that are written there; every word of a type and every name has its place in the file; words such as `int` or `Boolean` are built-in types, all others are names; a parameter is described by the first @param with its name.", "quantifier": "all doc comments: any number of tags, words and lines, names of any length, unions of any size, at any place of the file", "why_tests_cant": "the scanner walks over free text of unbounded length; blanks, line ends and tags can be combined in any order, and the existing tests look at single tags", "anchors": ["src/parser/ast/comments.rs: DocBlockScanner, param_comment_for"]}
{"id": "C61", "title": "Names are checked where they are used", "statement": "A name of a class, an import or a member that is written with other letters (upper or lower case) than its declaration gets a warning at the place where it is written; one that is written as declared gets none; self, static and parent outside of classes are errors, inside they are not; a name at a place is checked only once, however often it is looked up.", "quantifier": "all names, namespaces, imports, all states of the resolver, chains of members of any length through any number of classes with inherited and trait members", "why_tests_cant": "the warnings depend on the case of every letter of names of any length, on aliases and namespaces, on the cache filled by all earlier lookups, and on chains through any number of classes", "anchors": ["src/environment/visitor/name_resolver.rs: resolve_type_ref, visit, resolve_member_type", "src/environment/symbol.rs: fqdn_matches"]}
{"id": "C62", "title": "The editor is told the problems of a file", "statement": "After a file was changed or opened the editor is told the problems of its new text: every complaint of the parser, in its order and at its place, then the messages about names, and no problem of an older text; the list is told even if it is empty. After the start the editor is told about exactly the files with complaints, each once and with all complaints. A file that is valid PHP is never complained about. If a change gives another open file a problem, the editor is told.", "quantifier": "all states of the server, all texts, all sets of files on disk, all orders of the hash maps", "why_tests_cant": "the diagnostics of a file are kept from event to event and are added to by the analysis of every open file; which files are told after the start depends on all files of the project", "anchors": ["src/backend/mod.rs:642-664: initialized", "src/backend/mod.rs:838-873: did_change, did_open", "src/backend/mod.rs:531-559: refresh_file"]}
{"id": "C63", "title": "Asking does not change what the server knows", "statement": "A request for a definition, hover text, highlights, implementations, completion, symbols or the outline leaves the state of the server as it is. A search for the uses of a symbol, also the one made for renaming, leaves it as it is too: the files, the index, the texts and trees of the editor, the recorded uses, all symbols and all diagnostics.", "quantifier": "all states of the server, all requests at all positions, all contents of the disk, all orders of the hash maps", "why_tests_cant": "a search analyses every file that contains the name anew, with the same symbols that all other requests use; what is damaged shows only in later requests", "anchors": ["src/backend/mod.rs:666-823: symbol, document_symbol, document_highlight, goto_implementation, references, rename", "src/backend/mod.rs:823-888: goto_definition, hover, completion", "src/backend/mod.rs:221-285: references_of_symbol_under_cursor", "src/backend/mod.rs:458-529: collect_references"]}
{"id": "C64", "title": "Requests that are served at the same time", "statement": "While searches for uses and renames are under way, other requests are served and the tasks of the searches run in any order. Whatever the interleaving: the symbols stay a forest with the indexed files as roots of kind file, every entry of the index is a living top-level symbol, the locks neither block each other for ever nor are held twice, and a search answers what it would have answered without the other requests if these change no text. A search that runs alone gives what it gives when it looks at the files one after the other.", "quantifier": "all interleavings of the steps of any number of requests and tasks, all contents of the disk at each step", "why_tests_cant": "the interleavings of handlers and one task per file are chosen by the runtime; a test sees one of them", "anchors": ["src/backend/mod.rs:221-285: references_of_symbol_under_cursor", "src/backend/mod.rs:702-821: references, rename", "src/backend/mod.rs:642-700, 823-887: the other handlers"]}
{"id": "C65", "title": "A symbol that is gone is never found again", "statement": "Once a symbol has been thrown away its number is not used again: whatever requests follow or are under way, it does not come back and nothing that is found later is about it. Changing a file throws away everything declared in it, but a search or a rename that was started before still finds the occurrences.", "quantifier": "all interleavings of any number of requests and tasks, all texts, all symbols", "why_tests_cant": "needs every history and interleaving after the removal, and every search that may be under way", "anchors": ["src/backend/mod.rs:221-285: references_of_symbol_under_cursor", "src/backend/mod.rs:406-456: collect_symbols", "src/backend/mod.rs:531-559: refresh_file", "src/backend/mod.rs:756-790: rename"]}
{"id": "C66", "title": "The range sent for a name selects exactly the name", "statement": "Whenever the server sends the editor the range of a name or a variable (as the place of a declaration, or as a highlighted occurrence), the text between the two ends of the range in the file is exactly that name, with the dollar sign of a variable.", "quantifier": "all source texts, all tokens of names and variables, all places of a local variable", "why_tests_cant": "off-by-one errors and wrong units show only for some positions, names and texts; the claim joins scanner, parser, analysis and answer", "anchors": ["src/parser/token.rs:461-486: start, end, range", "src/environment/mod.rs:36-47: get_range", "src/backend/mod.rs: document_highlight", "src/environment/symbol.rs: selection_range"]}
{"id": "C67", "title": "The range of an expression spans what is written for it", "statement": "The range computed for an expression starts where its first token starts and ends where its last token ends, so that the cursor is inside of the range exactly when it is inside of the expression.", "quantifier": "all source texts, all expressions of the grammar, nested to any depth", "why_tests_cant": "the range of an expression is put together from the ranges of its parts; a wrong end in one kind of node shows only in expressions that end with it", "anchors": ["src/parser/node.rs:1387-1832: range", "src/parser/token.rs:461-486: start, end, range", "src/parser/node.rs:53-142: conversions to NodeRange"]}
