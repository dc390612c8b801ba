# A formal model of phpls-rs

Source: /repo (read as text only; never built or run). Model and proofs: `rocq/theories`, Coq 8.16.1.

## Approach

* The model is a set of total Gallina functions, transcribed function by function from the Rust code;
  every definition cites file and lines. `&mut self` methods take and return the state. `Result`/`Option`
  stay data. `unwrap` on `None`, `unreachable!`, `unimplemented!` and index errors are an explicit panic value
  (the release profile has `panic = "abort"`, so a panic ends the server).
* Loops that are not obviously bounded, and the recursion of the parser, run on explicit fuel; "out of fuel" is a
  value of its own. A "finishes" theorem says that a stated fuel always suffices; a "hangs" theorem says that *no*
  fuel suffices (ParserFuel.v shows that more fuel never changes an answer).
* Library functions that consult Unicode tables are exact on ASCII and a type-class parameter (`Runtime`)
  elsewhere; the iteration order of `HashMap` is a parameter too (`Hashing`: some permutation). Theorems hold for
  every choice of them. No axioms are declared.
* Where a claim is false of the code, a `..._refuted` theorem gives the counterexample (or, better, a whole
  family of them: "for every operand", "for every file of this shape") and, where possible, a second theorem proves
  the claim under the precondition that makes it true (`..._partial`).
* Model files contain no proofs. The vocabulary of the theorems is in `Spec*.v` (independent of the model where
  possible) and at the top of the `Prop_*.v` files, which hold the property theorems, non-vacuity examples and
  `Print Assumptions`.

## Files

| model | code |
|---|---|
| Base.v | characters, strings, the used parts of Rust's std |
| Token.v | parser/token.rs, NodeRange of parser/node.rs |
| Scanner.v | parser/scanner.rs (complete) |
| Node.v | parser/node.rs: tree type, children, range, and the accessors that are used |
| DocBlock.v | parser/ast/comments.rs |
| Parser.v | parser/mod.rs and parser/ast/*.rs (complete) |
| Assoc.v, Arena.v | HashMap; the crate indextree as far as it is used |
| Symbol.v | environment/symbol.rs, scope.rs, import.rs, mod.rs |
| EnvMonad.v | computations over the arena |
| Workspace.v | environment/visitor/workspace_symbol.rs, visitor/mod.rs, traverser.rs, import.rs |
| Resolver.v | environment/visitor/name_resolver.rs and the parts of symbol.rs that need a resolver |
| Backend.v | backend/mod.rs and the handlers did_open, did_change, did_close, did_change_watched_files, hover, goto_definition, document_highlight, document_symbol, symbol, references, rename |
| Startup.v | backend/mod.rs:287-360 as a transition system |
| Files.v | environment/fs.rs, the text of hovers (symbol.rs:783-808, backend/hover.rs), the checks of main.rs:63-86 |
| Suggester.v | suggester/mod.rs, backend/completion.rs |
| Implementation.v | backend/goto_implementation.rs |
| Formatter.v | formatter/mod.rs, backend/formatting.rs |

| specification | about |
|---|---|
| SpecScanner.v | when a list of tokens describes a text |
| ParserSpec.v | well-made trees and errors |
| SpecCalm.v | token lists that avoid the constructs known to hang the parser |
| SpecExpr.v | operator table of the PHP manual, grouping |
| SpecGrammar.v | a grammar of PHP over tokens, with trees |
| SpecNames.v, SpecServer.v | what a text declares; reachable states, histories |
| SpecFormat.v | the tokens a syntax tree stands for |

Proof libraries: TokenFacts, ScannerFacts, ScannerCrlf, ScannerMore, ScannerTags, ScannerHere, Respell (texts made of
spellings scan back), DocFacts, ParserBase/Inv/Ast (invariant), NodeFacts, ParserFuel, ParserHang, ParserTerm/TermG
(termination), PrattFacts, ScannerEof, GrammarBase/Names/Expr/Class/Pratt/Use/Stmt/File (the parser reads the
grammar), AssocFacts, ArenaFacts, EnvFacts, ResolverFacts, WorkspaceFacts, WorkspaceSim,
BackendFacts, ServerInv, IndexFacts, FormatFacts, FormatTree, FormatParse.

## Properties

Status and notes are in MANIFEST.json; the English statements in properties.jsonl.

| id | title | status | file |
|---|---|---|---|
| C01 | Tokenising always finishes | proved | Prop_Scanner.v |
| C02 | Tokens come in document order with true positions | proved | Prop_Scanner.v |
| C03 | The reported document range is the end of the text | proved | Prop_Scanner.v |
| C04 | Text outside PHP tags yields no tokens | partial | Prop_Scanner.v |
| C05 | Keywords are recognised whatever their letter case | partial | Prop_Scanner.v |
| C06 | String literals end at the first unescaped quote | proved | Prop_Scanner.v |
| C07 | Line ending style does not matter | partial | Prop_Scanner.v |
| C08 | Comments swallow nothing but themselves | partial | Prop_Scanner.v |
| C09 | Every scanned token can be displayed and measured | partial | Prop_Scanner.v |
| C10 | Parsing never crashes | partial | Prop_Parser.v |
| C11 | Parsing always finishes | partial | Prop_Termination.v |
| C12 | The tree contains only tokens of the file | proved | Prop_Parser.v |
| C13 | No placeholder without a diagnostic | proved | Prop_Parser.v |
| C14 | Syntax errors point into the file | partial | Prop_Parser.v |
| C15 | Operators group by PHP precedence | partial | Prop_Expr.v, Prop_Trees.v |
| C16 | Operators associate as in PHP | partial | Prop_Expr.v, Prop_Trees.v |
| C17 | Prefix operators bind as in PHP | partial | Prop_Expr.v, Prop_Trees.v |
| C18 | Source ranges of syntax nodes can always be computed | partial | Prop_Parser.v |
| C19 | Position test is the closed interval test | proved | Prop_Symbols.v |
| C20 | Symbol at position is the innermost one | partial | Prop_Symbols.v, Prop_Watched.v |
| C21 | The global index only points to living symbols under their own name | partial | Prop_Server.v |
| C22 | Editing one file leaves the symbols of other files alone | partial | Prop_Server.v |
| C23 | The index reflects the latest content | proved | Prop_Edits.v |
| C24 | Stored references point to living symbols | partial, refuted in full | Prop_References.v |
| C25 | Renaming a local variable edits all its occurrences | partial | Prop_References.v |
| C26 | Diagnostics do not pile up | partial | Prop_References.v |
| C27 | Opening a file analyses what the editor shows | partial | Prop_Edits.v |
| C28 | Every watched change is applied | partial | Prop_Watched.v |
| C29 | Closing a file forgets its editor state and nothing else | proved | Prop_Edits.v |
| C30 | Names resolve by PHP rules, ignoring case | partial | Prop_Names.v, Prop_Imports.v |
| C31 | Local scopes are balanced and isolated | partial | Prop_Scopes.v |
| C32 | Member lookup terminates | partial | Prop_Members.v |
| C33 | A class's own member hides the inherited one | partial | Prop_Overrides.v, Prop_Inherit.v |
| C34 | Trait conflict rules are applied without crashing | partial | Prop_Overrides.v |
| C35 | Only accessible members are offered | partial | Prop_Suggest.v |
| C36 | Workspace symbol search is a case-insensitive prefix search | partial | Prop_Symbols.v, Prop_Watched.v |
| C37 | Start-up indexing does not depend on the walking order and does not hang | partial | Prop_Startup.v |
| C38 | Formatting keeps the program | partial | Prop_Format.v |
| C39 | Every token stands for the text at its position | proved | Prop_Scanner.v |
| C40 | The other prefix operators bind as in PHP | partial | Prop_Expr.v, Prop_Trees.v |
| C41 | Highlighting marks the occurrences of the symbol under the cursor | proved | Prop_Highlight.v |
| C42 | Offered members fit what is typed | partial | Prop_Suggest.v, Prop_Offered.v, Prop_Complete.v, Prop_OfferedAbove.v |
| C43 | Completion does not crash | partial | Prop_Suggest.v, Prop_NoCrash.v |
| C44 | A completed class name means the class that was offered | partial | Prop_Suggest.v |
| C45 | Go to implementation answers with the implementing classes | partial | Prop_Implementation.v |
| C46 | Valid PHP is read without errors | partial | Prop_Grammar.v |
| C47 | The modifiers of a member are recorded | partial | Prop_Grammar.v |
| C48 | Accepting a suggestion writes code that means it | partial | Prop_Insert.v |
| C49 | Uses of members are linked to their declarations and wrong ones are reported | partial | Prop_Access.v, Prop_Inherit.v, Prop_Chains.v |
| C50 | Go to definition leads to the declaration of what is under the cursor | partial | Prop_Definition.v |
| C51 | A hover shows the declaration of what is under the cursor | partial, refuted in full | Prop_Definition.v |
| C52 | The outline of a file lists its declarations | partial, refuted in full | Prop_Outline.v |
| C53 | Walking a directory finds exactly the PHP files that are not ignored | partial, refuted in full | Prop_Files.v |
| C54 | The command line checks look at the contents of the files | refuted | Prop_Files.v |
| C55 | The symbols of a file are its declarations | partial, refuted in full | Prop_Declarations.v, Prop_Sources.v |
| C56 | Find references lists all uses of the symbol | partial, refuted in full | Prop_Find.v |
| C57 | All places of a local variable are one symbol | partial, refuted in full | Prop_Locals.v |
| C58 | The classes of the objects that variables hold are known | partial, refuted in full | Prop_Types.v |
| C59 | Completion offers all names that fit the place and no others | partial, refuted for names of imports | Prop_Complete.v |
| C60 | Doc comments are read as they are written | partial, refuted in full | Prop_DocComments.v |
| C61 | Names are checked where they are used | partial | Prop_Spelling.v |
| C62 | The editor is told the problems of a file | partial, refuted in full | Prop_Publish.v |
| C63 | Asking does not change what the server knows | partial, refuted in full | Prop_Questions.v |
| C64 | Requests that are served at the same time | partial, refuted in full | Prop_Concurrent.v |
| C65 | A symbol that is gone is never found again | partial, refuted in full | Prop_Gone.v |
| C66 | The range sent for a name selects exactly the name | partial, refuted in full | Prop_Places.v |
| C67 | The range of an expression spans what is written for it | partial, refuted in full | Prop_Spans.v |

How they are proved: scanner properties by an invariant over scanner steps (source = consumed ++ rest, position =
position of the consumed text); parser properties by a Hoare-style invariant over every function of the grammar
(C10, C12–C14, C18), by total correctness on the number of remaining tokens (C11), and by running the parser forwards
on chains of operators of any length (C15–C17, C40) and on every file of a grammar of PHP (C46, C47: mutual induction
on the number of tokens, with a normal form of expressions for the operator loop); index and references by invariants over all histories of
notifications and requests (C20–C29, C36, C41); name and member lookup by comparison with small inductive
specifications (C30–C35, C42–C45, C49); start-up as a transition system under every schedule (C37); the formatter by
induction over trees, composed with a lemma that respelled tokens scan back (C38).

## Findings

False claims, each with a `_refuted` theorem:

* Scanner: `<<<` in HTML starts a heredoc (C04); `INF`/`NAN` and `yield from` are case sensitive (C05); a heredoc
  with CRLF line ends fails the file (C07); `#` directly before the line end swallows the next line (C08); a heredoc
  with an empty marker has a token without end (C09).
* Parser: panic on a nameless heredoc (C10); six programs on which it never ends, one of them valid (C11); syntax
  errors at the end of the file have line and column exchanged (C14); `Node::range` panics for `static $a;`, an empty
  `case` and an empty `use` (C18).
* Operators: `.` binds as tight as `+`; `and`/`or` are `&&`/`||`; associativity is inverted for *all* operators;
  `-a + b` is `-(a + b)`; `!$a instanceof B` is `(!$a) instanceof B` (C15–C17, C40).
* Valid PHP with errors: constructor promotion, a comma behind the last parameter, `catch (E)`, `throw` and `print` in
  expressions, `(yield)`, `if ($a) unset($b); else`, `do unset($a); while`, `[1 => &$a->b]`, `die;`, `1_000`,
  `namespace\f()`, `endforeach ?>`, `return 1 ?>` (C46). Modifiers in an unusual order are lost: `static public
  function` is not static (C47).
* Index: namespaces and `::class` are never the symbol at a position (C20); a `@var` comment can leave a dead entry
  (C21); `$foo` of one file takes the function `foo` of another out of the index (C22).
* References: a variable mentioned in a class body (`public $p = $y;`) becomes a member of the class that other files are
  linked to; the next change while both files are open leaves a dead link, and a definition request there crashes (C24).
* References: a search for references throws away recorded variables, the next definition request crashes (C24);
  renaming a variable in a single-file workspace yields no edit (C25); diagnostics of other files pile up (C26).
* Notifications: the text sent with did_open is ignored (C27); watched changes behind an open file are dropped (C28).
* Names: unknown names fall back to the global namespace, `use \A\B` is not found, a class `Generator` is never
  found; `use function A\foo` serves the class name `foo`, the traits of an anonymous class become imports of the
  file, classes in `namespace N { }` are not analysed (C30); closures share the surrounding scope (C31).
* Members: cyclic inheritance and `extends parent` recurse without end (C32); the parent's member overwrites the
  class's own (C33); `insteadof` can crash the server (C34).
* Member access: `A::f()` in the class `A` itself and protected members through a variable are reported as not
  accessible, `$this->$x` as unresolvable; private members of other classes are accepted at the end of a chain that
  starts with `$this`, and so are those of the parent (C49).
* Completion: access is checked by name only (C35); constants are not offered after `::` (C42); a file that starts
  with `static $a;` makes every request panic (C43); imports are added where none is needed and missing where one
  is (C44). In an import, `use F` is completed to `use Foo` with a second import before `<?php`, and `use M\F` not at
  all (C44). Properties, constants and interfaces are inserted with a `$`; local variables of a method become
  placeholders of its call; a renamed trait method inserts its old name (C48).
* Go to implementation: classes that implement through their parent class, that are named like the interface, or that
  stand in a namespace block are missing; names are cached by place without their file, so that `J extends K` and
  `K extends I` at the same place of two files make the server recurse without end (C45).
* Hovers: over code outside of all declarations the whole file is shown, because the range of the name of a file symbol
  is the whole text; the text is read from the disk, not from the editor (C51).
* Outline: the request panics when a variable's class was in a file that has been read again (C52).
* Files: an entry that cannot be read hides all of its directory (C53). `--file` and `--dir` parse the name of the file
  and never its contents, so they accept everything (C54).
* Symbols: static properties are recorded as not static, `@property` members as private (C55).
* Variables: in `$z = $y;` a `$y` that did not occur before is not recorded (C57).
* Variables: a variable that is assigned an object of another class keeps its first class; members of the second are reported as unknown (C58).
* Completion: with the cursor on the name in `use M\F` the branch for imports is not taken; nothing is offered although `M\Foo` exists (C59).
* Doc comments: behind `@return Foo` or `@var Foo` at the end of a line the next line is taken for its description, so that a `@param` or `@deprecated` there is lost; `@param ?Foo $x` and `@param array<int> $x` have no name; `@property-read Foo $x` is a property without name (C60).
* Types: types of inherited members are looked up from the class of the receiver, not from the class that declares them, so that the imports of the wrong file apply.
* Concurrency: a search for uses remembers the number of the symbol and gives up the lock; if the file is read again meanwhile (didChange, also with the same text), the number is dead and the answer empty; rename looks the symbol up again under a second lock and crashes if it is gone (C64).
* Ranges: the start of a token is counted in characters, its length in bytes; names with characters outside of ASCII get ranges that end too far to the right (C66).
* Ranges of nodes: the range of `match ($x) { ... }` starts with the brace, so the cursor on `$x` is outside of the node; the range of a function that returns a reference starts with the `&`; parentheses and the brace of `->{...}` are not part of the range (C67).
* Searches: every search for uses adds the messages about names of the files it analyses to their diagnostics again, so they pile up until the file is changed (C63).
* Diagnostics that are sent: a text that does not tokenise leaves the diagnostics of the text before, and they are sent again with further messages about names; the diagnostics of other open files that a change leads to are not sent; closing a file and changes on disk send nothing (C62).
* Spelling: `$o->Name` for a property `$name` gets a warning and is linked, although names of properties and constants are case sensitive in PHP and it is another property; names of functions and constants are not checked (C61).
* References: uses of a class in another letter case are not found (C56).
* Search: parameters are never found, an empty query has no answer (C36).
* Start-up: more than 1000 results without a free worker never end; with duplicate names the schedule decides (C37).
* Formatter: comments and 17 constructs lose tokens, HTML is lost, 13 constructs (among them the empty file) abort
  the server (C38).

Seen while reading, outside the theorems: scan failures leave the old tree in place; functions have no namespace in
index keys; the ignore patterns are handed to the server but its walk does not use them; methods are labelled `$name` in completion.

## Trusted base

* Coq's kernel (8.16.1), `vm_compute` included.
* `Print Assumptions` says "Closed under the global context" for every theorem named in MANIFEST.json: no axioms at
  all, not even of the standard library. (`vcheck` lists seven constants of `Coq.ssr.ssrunder` under
  `library_axioms`; they are declared in a library file that is loaded and no theorem depends on them.)
* The transcription from Rust to Gallina (by hand, citations in every definition).

## Simplifications and what is not modelled

* Lines, columns and offsets are unbounded numbers (`u32`/`usize` in the code); memory and stack depth are unbounded.
* Strings are lists of code points; byte lengths are computed where the code uses them.
* Arena: following an id that was removed is a panic; the crate panics only while the slot is free and otherwise
  yields a foreign symbol.
* A document is its path: URIs that are no paths, and percent encoding, are left out. The file system is an input.
* Each notification or request is atomic; the code takes its locks for the whole handler, with the exception of
  start-up, which is modelled step by step.
* Start-up: directory walking is a list of files per thread; whether the runtime has a free worker is a parameter.
* Completion items are their label, text to insert and additional edits.
* The formatter's evaluation order and `dbg!` output are left out; formatter/v2.rs, expressions.rs, loops.rs and
  classes/ contain only tests or unused code.
* `Publish.v`: what `initialized`, `did_change` and `did_open` send to the editor (mod.rs:642-664, 838-873), without the version number.
* `Concurrent.v`: requests in flight. A step is what happens between taking and leaving the lock of the state; searches and renames take several steps and have one task per file; any interleaving. A second small model has the locks themselves (state, results of each search) and what each handler does with them. Left out: tasks that panic while the server goes on, waiting for the editor (publishing diagnostics) while holding the lock, the start (C37 has a transition system of its own).
* Not modelled: the LSP transport (tower-lsp), JSON encoding, capabilities, main.rs apart from the two checks.

## Testing the theorems

`seeded/LOG.jsonl` records edits of the model that imitate realistic bugs, the theorems that failed and the theorems
that were tightened because an edit went unnoticed.
