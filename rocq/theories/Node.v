(** The syntax tree: /repo/src/parser/node.rs.

    Constructor [NFoo] is [Node::Foo]; the arguments are the fields of the
    variant in the order of their declaration.  [Box] is transparent.
    [Node::ClassStatement(ClassStatement)] is inlined. *)

From Verif Require Import Base Token.

(** node.rs:7-13 *)
Record TypeRef := mkTypeRef { kind : list Token; multiple : bool }.

(** node.rs:16-26 and 334-918 *)
Inductive Node :=
| NDocComment (comment : Token) (return_type : list Node) (description : str) (is_deprecated : bool) (params : list Node) (var_docs : list Node) (properties : list Node)
| NDocCommentParam (name : Token) (types : option (list TypeRef)) (description : str)
| NDocCommentProperty (name : Token) (types : option (list TypeRef)) (description : str)
| NDocCommentVar (name : Token) (types : option (list TypeRef)) (description : str)
| NDocCommentReturn (types : option (list TypeRef)) (description : str)
| NUnary (expr : Node) (token : Token)
| NPostUnary (expr : Node) (token : Token)
| NConst (name : Token) (token : Token) (value : Node)
| NBinary (left_ : Node) (token : Token) (right_ : Node)
| NTernary (check : Node) (qm : Token) (true_arm : option Node) (colon : Token) (false_arm : Node)
| NMissing (token : Token)
| NLiteral (token : Token)
| NVariable (token : Token)
| NLexicalVariable (reference : option Token) (variable : Token)
| NAliasedVariable (variable : Token) (expr : Node)
| NDynamicVariable (variable : Token) (oc : Token) (expr : Node) (cc : Token)
| NStaticVariable (variable : Token) (assignment : option Token) (value : option Node)
| NIdentifier (token : Token)
| NGrouping (node : Node)
| NArray (ob : Token) (elements : list Node) (cb : Token)
| NOldArray (token : Token) (op : Token) (elements : list Node) (cp : Token)
| NArrayElement (key : option Node) (arrow : option Token) (value : Node)
| NList (token : Token) (op : Token) (elements : list Node) (cp : Token)
| NCall (callee : Node) (op : Token) (parameters : list Node) (cp : Token)
| NIsset (isset : Token) (op : Token) (parameters : list Node) (cp : Token)
| NEmpty (empty : Token) (op : Token) (parameters : list Node) (cp : Token)
| NExit (exit : Token) (op : option Token) (parameters : option (list Node)) (cp : option Token)
| NHaltCompiler (hc : Token) (op : option Token) (parameters : option (list Node)) (cp : option Token)
| NDie (die : Token) (op : option Token) (parameters : option (list Node)) (cp : option Token)
| NNew (token : Token) (class_ : Node)
| NClone (token : Token) (object : Node)
| NMember (object : Node) (arrow : Token) (oc : option Token) (member : Node) (cc : option Token)
| NStaticMember (object : Node) (pn : Token) (oc : option Token) (member : Node) (cc : option Token)
| NField (array : Node) (ob : Token) (index : option Node) (cb : Token)
| NMatch (mtch : Token) (oc : Token) (op : Token) (condition : Node) (cp : Token) (body : list Node) (cc : Token)
| NMatchArm (patterns : option (list Node)) (arrow : Token) (expression : Node)
| NStatic (token : Token) (expr : list Node)
| NFunction (is_static : option Token) (by_ref : option Token) (token : Token) (op : Token) (arguments : option (list Node)) (cp : Token) (uses : option (list Node)) (return_type : option Node) (body : Node) (attributes : list Node)
| NArrowFunction (is_static : option Token) (by_ref : option Token) (token : Token) (op : Token) (arguments : option (list Node)) (cp : Token) (arrow : Token) (return_type : option Node) (body : Node) (attributes : list Node)
| NNamedParameter (name : Token) (colon : Token) (expr : Node)
| NFunctionArgument (argument_type : option Node) (name : Token) (has_default : option Token) (default_value : option Node) (spread : option Token) (reference : option Token) (doc_comment : option Node) (attributes : list Node)
| NDataType (nullable : option Token) (type_refs : list Node)
| NReturnType (token : Token) (data_type : Node)
| NTypeRef (type_ref : TypeRef)
| NClass (token : Token) (arguments : option (list Node)) (extends : option Node) (implements : option (list Node)) (body : Node) (attributes : list Node)
| NYield (token : Token) (expr : option Node)
| NYieldFrom (token : Token) (expr : Node)
| NFileInclude (token : Token) (resource : Node)
| NUseDeclaration (token : option Token) (declaration : Node) (aliased : option Token) (alias : option Token)
| NUseConst (token : option Token) (constant : Node) (aliased : option Token) (alias : option Token)
| NUseFunction (token : option Token) (function : Node) (aliased : option Token) (alias : option Token)
| NGroupedUse (token : Token) (parent : Node) (oc : Token) (uses : list Node) (cc : Token)
| NExpressionStatement (expression : Node)
| NEchoStatement (token : Token) (expressions : list Node)
| NConstStatement (token : Token) (constants : list Node)
| NPrintStatement (token : Token) (expressions : list Node)
| NGotoStatement (token : Token) (label : Token)
| NLabelStatement (label : Token) (colon : Token)
| NThrowStatement (token : Token) (expression : Node)
| NDeclareStatement (directive : Token) (value : Token) (assignment : Token) (op : Token) (cp : Token) (token : Token)
| NDefineStatement (name : Node) (value : Node) (op : Token) (cp : Token) (token : Token) (is_caseinsensitive : option Token)
| NUnsetStatement (token : Token) (op : Token) (vars : list Node) (cp : Token)
| NDieStatement (token : Token) (op : Token) (expr : option Node) (cp : Token)
| NReturnStatement (token : Token) (expression : option Node)
| NNamespaceStatement (token : Token) (type_ref : Node)
| NNamespaceBlock (token : Token) (type_ref : option Node) (block : Node)
| NUseStatement (token : Token) (imports : list Node)
| NUseFunctionStatement (token : Token) (imports : list Node)
| NUseConstStatement (token : Token) (imports : list Node)
| NUseTraitStatement (token : Token) (traits_usages : list Node)
| NUseTrait (type_ref : Node)
| NUseTraitAlterationBlock (alteration_group_type_refs : list Node) (oc : Token) (alterations : list Node) (cc : Token)
| NUseTraitInsteadOf (left_ : option Node) (paa : option Token) (member : Node) (insteadof : Token) (insteadof_list : list Node)
| NUseTraitAs (left_ : option Node) (paa : option Token) (member : Node) (as_token : Token) (visibility : option Token) (as_name : option Token)
| NClassStatement (token : Token) (name : Token) (is_abstract : option Token) (is_final : option Token) (implements : option (list Node)) (extends : option Node) (body : Node) (doc_comment : option Node) (attributes : list Node)
| NTraitStatement (token : Token) (name : Token) (body : Node) (doc_comment : option Node)
| NInterface (token : Token) (name : Token) (extends : option (list Node)) (body : Node) (doc_comment : option Node)
| NClassConstantDefinitionStatement (token : Token) (consts : list Node) (doc_comment : option Node) (visibility : option Token) (attributes : list Node)
| NClassConstant (visibility : option Token) (name : Token) (value : Node)
| NProperty (name : Token) (value : option Node)
| NPropertyDefinitionStatement (properties : list Node) (doc_comment : option Node) (visibility : option Token) (data_type : option Node) (is_static : option Token) (is_abstract : option Token) (attributes : list Node)
| NMethodDefinitionStatement (token : Token) (is_final : option Token) (by_ref : option Token) (name : Token) (visibility : option Token) (is_abstract : option Token) (function : Node) (is_static : option Token) (doc_comment : option Node) (attributes : list Node)
| NFunctionDefinitionStatement (op : Token) (arguments : option (list Node)) (cp : Token) (return_type : option Node) (body : option Node) (doc_comment : option Node)
| NNamedFunctionDefinitionStatement (token : Token) (by_ref : option Token) (name : Token) (function : Node) (attributes : list Node)
| NWhileStatement (token : Token) (op : Token) (condition : Node) (cp : Token) (body : Node)
| NDoWhileStatement (do_token : Token) (op : Token) (cp : Token) (while_token : Token) (condition : Node) (body : Node)
| NForStatement (token : Token) (init : list Node) (condition : list Node) (step : list Node) (body : Node)
| NForEachStatement (token : Token) (op : Token) (collection : Node) (as_token : Token) (kv : Node) (cp : Token) (body : Node)
| NBlock (oc : Token) (statements : list Node) (cc : Token)
| NAlternativeBlock (colon : Token) (statements : list Node) (terminator : Token)
| NIfBranch (token : Token) (op : Token) (condition : Node) (cp : Token) (body : Node)
| NElseBranch (token : Token) (body : Node)
| NIfStatement (if_branch : Node) (elseif_branches : list Node) (else_branch : option Node)
| NSwitchBranch (cases : list (option Node)) (body : list Node)
| NSwitchCase (token : Token) (op : Token) (expr : Node) (cp : Token) (body : Node)
| NSwitchBody (start : Token) (branches : list Node) (end_ : Token)
| NTokenStatement (token : Token) (expr : option Node)
| NCatchBlock (token : Token) (op : Token) (types : list Node) (var : Token) (cp : Token) (body : Node)
| NFinallyBlock (token : Token) (body : Node)
| NTryCatch (token : Token) (try_block : Node) (catch_blocks : list Node) (finally_block : option Node)
| NStaticVariablesStatement (token : Token) (assignments : list Node)
| NGlobalVariablesStatement (token : Token) (vars : list Node)
| NInlineHtml (start : Token) (end_ : option Token)
| NAttribute (ats : Token) (expressions : list Node) (cb : Token)
| NEmptyScript.

(** Number of constructors of a tree; only used to justify recursion. *)
Fixpoint node_size (n : Node) : nat :=
  let osz := fun o => match o with Some x => node_size x | None => O end in
  let lsz := fun l => list_sum (map node_size l) in
  let olsz := fun o => match o with Some l => list_sum (map node_size l) | None => O end in
  let losz := fun l =>
    list_sum (map (fun o => match o with Some x => node_size x | None => O end) l) in
  (match n with
  | NDocComment _ return_type _ _ params var_docs properties => S (lsz return_type + lsz params + lsz var_docs + lsz properties)
  | NDocCommentParam _ _ _ => S (0)
  | NDocCommentProperty _ _ _ => S (0)
  | NDocCommentVar _ _ _ => S (0)
  | NDocCommentReturn _ _ => S (0)
  | NUnary expr _ => S (node_size expr)
  | NPostUnary expr _ => S (node_size expr)
  | NConst _ _ value => S (node_size value)
  | NBinary left_ _ right_ => S (node_size left_ + node_size right_)
  | NTernary check _ true_arm _ false_arm => S (node_size check + osz true_arm + node_size false_arm)
  | NMissing _ => S (0)
  | NLiteral _ => S (0)
  | NVariable _ => S (0)
  | NLexicalVariable _ _ => S (0)
  | NAliasedVariable _ expr => S (node_size expr)
  | NDynamicVariable _ _ expr _ => S (node_size expr)
  | NStaticVariable _ _ value => S (osz value)
  | NIdentifier _ => S (0)
  | NGrouping node => S (node_size node)
  | NArray _ elements _ => S (lsz elements)
  | NOldArray _ _ elements _ => S (lsz elements)
  | NArrayElement key _ value => S (osz key + node_size value)
  | NList _ _ elements _ => S (lsz elements)
  | NCall callee _ parameters _ => S (node_size callee + lsz parameters)
  | NIsset _ _ parameters _ => S (lsz parameters)
  | NEmpty _ _ parameters _ => S (lsz parameters)
  | NExit _ _ parameters _ => S (olsz parameters)
  | NHaltCompiler _ _ parameters _ => S (olsz parameters)
  | NDie _ _ parameters _ => S (olsz parameters)
  | NNew _ class_ => S (node_size class_)
  | NClone _ object => S (node_size object)
  | NMember object _ _ member _ => S (node_size object + node_size member)
  | NStaticMember object _ _ member _ => S (node_size object + node_size member)
  | NField array _ index _ => S (node_size array + osz index)
  | NMatch _ _ _ condition _ body _ => S (node_size condition + lsz body)
  | NMatchArm patterns _ expression => S (olsz patterns + node_size expression)
  | NStatic _ expr => S (lsz expr)
  | NFunction _ _ _ _ arguments _ uses return_type body attributes => S (olsz arguments + olsz uses + osz return_type + node_size body + lsz attributes)
  | NArrowFunction _ _ _ _ arguments _ _ return_type body attributes => S (olsz arguments + osz return_type + node_size body + lsz attributes)
  | NNamedParameter _ _ expr => S (node_size expr)
  | NFunctionArgument argument_type _ _ default_value _ _ doc_comment attributes => S (osz argument_type + osz default_value + osz doc_comment + lsz attributes)
  | NDataType _ type_refs => S (lsz type_refs)
  | NReturnType _ data_type => S (node_size data_type)
  | NTypeRef _ => S (0)
  | NClass _ arguments extends implements body attributes => S (olsz arguments + osz extends + olsz implements + node_size body + lsz attributes)
  | NYield _ expr => S (osz expr)
  | NYieldFrom _ expr => S (node_size expr)
  | NFileInclude _ resource => S (node_size resource)
  | NUseDeclaration _ declaration _ _ => S (node_size declaration)
  | NUseConst _ constant _ _ => S (node_size constant)
  | NUseFunction _ function _ _ => S (node_size function)
  | NGroupedUse _ parent _ uses _ => S (node_size parent + lsz uses)
  | NExpressionStatement expression => S (node_size expression)
  | NEchoStatement _ expressions => S (lsz expressions)
  | NConstStatement _ constants => S (lsz constants)
  | NPrintStatement _ expressions => S (lsz expressions)
  | NGotoStatement _ _ => S (0)
  | NLabelStatement _ _ => S (0)
  | NThrowStatement _ expression => S (node_size expression)
  | NDeclareStatement _ _ _ _ _ _ => S (0)
  | NDefineStatement name value _ _ _ _ => S (node_size name + node_size value)
  | NUnsetStatement _ _ vars _ => S (lsz vars)
  | NDieStatement _ _ expr _ => S (osz expr)
  | NReturnStatement _ expression => S (osz expression)
  | NNamespaceStatement _ type_ref => S (node_size type_ref)
  | NNamespaceBlock _ type_ref block => S (osz type_ref + node_size block)
  | NUseStatement _ imports => S (lsz imports)
  | NUseFunctionStatement _ imports => S (lsz imports)
  | NUseConstStatement _ imports => S (lsz imports)
  | NUseTraitStatement _ traits_usages => S (lsz traits_usages)
  | NUseTrait type_ref => S (node_size type_ref)
  | NUseTraitAlterationBlock alteration_group_type_refs _ alterations _ => S (lsz alteration_group_type_refs + lsz alterations)
  | NUseTraitInsteadOf left_ _ member _ insteadof_list => S (osz left_ + node_size member + lsz insteadof_list)
  | NUseTraitAs left_ _ member _ _ _ => S (osz left_ + node_size member)
  | NClassStatement _ _ _ _ implements extends body doc_comment attributes => S (olsz implements + osz extends + node_size body + osz doc_comment + lsz attributes)
  | NTraitStatement _ _ body doc_comment => S (node_size body + osz doc_comment)
  | NInterface _ _ extends body doc_comment => S (olsz extends + node_size body + osz doc_comment)
  | NClassConstantDefinitionStatement _ consts doc_comment _ attributes => S (lsz consts + osz doc_comment + lsz attributes)
  | NClassConstant _ _ value => S (node_size value)
  | NProperty _ value => S (osz value)
  | NPropertyDefinitionStatement properties doc_comment _ data_type _ _ attributes => S (lsz properties + osz doc_comment + osz data_type + lsz attributes)
  | NMethodDefinitionStatement _ _ _ _ _ _ function _ doc_comment attributes => S (node_size function + osz doc_comment + lsz attributes)
  | NFunctionDefinitionStatement _ arguments _ return_type body doc_comment => S (olsz arguments + osz return_type + osz body + osz doc_comment)
  | NNamedFunctionDefinitionStatement _ _ _ function attributes => S (node_size function + lsz attributes)
  | NWhileStatement _ _ condition _ body => S (node_size condition + node_size body)
  | NDoWhileStatement _ _ _ _ condition body => S (node_size condition + node_size body)
  | NForStatement _ init condition step body => S (lsz init + lsz condition + lsz step + node_size body)
  | NForEachStatement _ _ collection _ kv _ body => S (node_size collection + node_size kv + node_size body)
  | NBlock _ statements _ => S (lsz statements)
  | NAlternativeBlock _ statements _ => S (lsz statements)
  | NIfBranch _ _ condition _ body => S (node_size condition + node_size body)
  | NElseBranch _ body => S (node_size body)
  | NIfStatement if_branch elseif_branches else_branch => S (node_size if_branch + lsz elseif_branches + osz else_branch)
  | NSwitchBranch cases body => S (losz cases + lsz body)
  | NSwitchCase _ _ expr _ body => S (node_size expr + node_size body)
  | NSwitchBody _ branches _ => S (lsz branches)
  | NTokenStatement _ expr => S (osz expr)
  | NCatchBlock _ _ types _ _ body => S (lsz types + node_size body)
  | NFinallyBlock _ body => S (node_size body)
  | NTryCatch _ try_block catch_blocks finally_block => S (node_size try_block + lsz catch_blocks + osz finally_block)
  | NStaticVariablesStatement _ assignments => S (lsz assignments)
  | NGlobalVariablesStatement _ vars => S (lsz vars)
  | NInlineHtml _ _ => S (0)
  | NAttribute _ expressions _ => S (lsz expressions)
  | NEmptyScript => S (0)
  end)%nat.

Definition opt_nodes (o : option (list Node)) : list Node :=
  match o with Some l => l | None => [] end.

(** All immediate sub-trees, whatever [Node::children] does with them. *)
Definition subnodes (n : Node) : list Node :=
  match n with
  | NDocComment _ return_type _ _ params var_docs properties => return_type ++ params ++ var_docs ++ properties
  | NDocCommentParam _ _ _ => []
  | NDocCommentProperty _ _ _ => []
  | NDocCommentVar _ _ _ => []
  | NDocCommentReturn _ _ => []
  | NUnary expr _ => [expr]
  | NPostUnary expr _ => [expr]
  | NConst _ _ value => [value]
  | NBinary left_ _ right_ => [left_] ++ [right_]
  | NTernary check _ true_arm _ false_arm => [check] ++ opt_list true_arm ++ [false_arm]
  | NMissing _ => []
  | NLiteral _ => []
  | NVariable _ => []
  | NLexicalVariable _ _ => []
  | NAliasedVariable _ expr => [expr]
  | NDynamicVariable _ _ expr _ => [expr]
  | NStaticVariable _ _ value => opt_list value
  | NIdentifier _ => []
  | NGrouping node => [node]
  | NArray _ elements _ => elements
  | NOldArray _ _ elements _ => elements
  | NArrayElement key _ value => opt_list key ++ [value]
  | NList _ _ elements _ => elements
  | NCall callee _ parameters _ => [callee] ++ parameters
  | NIsset _ _ parameters _ => parameters
  | NEmpty _ _ parameters _ => parameters
  | NExit _ _ parameters _ => opt_nodes parameters
  | NHaltCompiler _ _ parameters _ => opt_nodes parameters
  | NDie _ _ parameters _ => opt_nodes parameters
  | NNew _ class_ => [class_]
  | NClone _ object => [object]
  | NMember object _ _ member _ => [object] ++ [member]
  | NStaticMember object _ _ member _ => [object] ++ [member]
  | NField array _ index _ => [array] ++ opt_list index
  | NMatch _ _ _ condition _ body _ => [condition] ++ body
  | NMatchArm patterns _ expression => opt_nodes patterns ++ [expression]
  | NStatic _ expr => expr
  | NFunction _ _ _ _ arguments _ uses return_type body attributes => opt_nodes arguments ++ opt_nodes uses ++ opt_list return_type ++ [body] ++ attributes
  | NArrowFunction _ _ _ _ arguments _ _ return_type body attributes => opt_nodes arguments ++ opt_list return_type ++ [body] ++ attributes
  | NNamedParameter _ _ expr => [expr]
  | NFunctionArgument argument_type _ _ default_value _ _ doc_comment attributes => opt_list argument_type ++ opt_list default_value ++ opt_list doc_comment ++ attributes
  | NDataType _ type_refs => type_refs
  | NReturnType _ data_type => [data_type]
  | NTypeRef _ => []
  | NClass _ arguments extends implements body attributes => opt_nodes arguments ++ opt_list extends ++ opt_nodes implements ++ [body] ++ attributes
  | NYield _ expr => opt_list expr
  | NYieldFrom _ expr => [expr]
  | NFileInclude _ resource => [resource]
  | NUseDeclaration _ declaration _ _ => [declaration]
  | NUseConst _ constant _ _ => [constant]
  | NUseFunction _ function _ _ => [function]
  | NGroupedUse _ parent _ uses _ => [parent] ++ uses
  | NExpressionStatement expression => [expression]
  | NEchoStatement _ expressions => expressions
  | NConstStatement _ constants => constants
  | NPrintStatement _ expressions => expressions
  | NGotoStatement _ _ => []
  | NLabelStatement _ _ => []
  | NThrowStatement _ expression => [expression]
  | NDeclareStatement _ _ _ _ _ _ => []
  | NDefineStatement name value _ _ _ _ => [name] ++ [value]
  | NUnsetStatement _ _ vars _ => vars
  | NDieStatement _ _ expr _ => opt_list expr
  | NReturnStatement _ expression => opt_list expression
  | NNamespaceStatement _ type_ref => [type_ref]
  | NNamespaceBlock _ type_ref block => opt_list type_ref ++ [block]
  | NUseStatement _ imports => imports
  | NUseFunctionStatement _ imports => imports
  | NUseConstStatement _ imports => imports
  | NUseTraitStatement _ traits_usages => traits_usages
  | NUseTrait type_ref => [type_ref]
  | NUseTraitAlterationBlock alteration_group_type_refs _ alterations _ => alteration_group_type_refs ++ alterations
  | NUseTraitInsteadOf left_ _ member _ insteadof_list => opt_list left_ ++ [member] ++ insteadof_list
  | NUseTraitAs left_ _ member _ _ _ => opt_list left_ ++ [member]
  | NClassStatement _ _ _ _ implements extends body doc_comment attributes => opt_nodes implements ++ opt_list extends ++ [body] ++ opt_list doc_comment ++ attributes
  | NTraitStatement _ _ body doc_comment => [body] ++ opt_list doc_comment
  | NInterface _ _ extends body doc_comment => opt_nodes extends ++ [body] ++ opt_list doc_comment
  | NClassConstantDefinitionStatement _ consts doc_comment _ attributes => consts ++ opt_list doc_comment ++ attributes
  | NClassConstant _ _ value => [value]
  | NProperty _ value => opt_list value
  | NPropertyDefinitionStatement properties doc_comment _ data_type _ _ attributes => properties ++ opt_list doc_comment ++ opt_list data_type ++ attributes
  | NMethodDefinitionStatement _ _ _ _ _ _ function _ doc_comment attributes => [function] ++ opt_list doc_comment ++ attributes
  | NFunctionDefinitionStatement _ arguments _ return_type body doc_comment => opt_nodes arguments ++ opt_list return_type ++ opt_list body ++ opt_list doc_comment
  | NNamedFunctionDefinitionStatement _ _ _ function attributes => [function] ++ attributes
  | NWhileStatement _ _ condition _ body => [condition] ++ [body]
  | NDoWhileStatement _ _ _ _ condition body => [condition] ++ [body]
  | NForStatement _ init condition step body => init ++ condition ++ step ++ [body]
  | NForEachStatement _ _ collection _ kv _ body => [collection] ++ [kv] ++ [body]
  | NBlock _ statements _ => statements
  | NAlternativeBlock _ statements _ => statements
  | NIfBranch _ _ condition _ body => [condition] ++ [body]
  | NElseBranch _ body => [body]
  | NIfStatement if_branch elseif_branches else_branch => [if_branch] ++ elseif_branches ++ opt_list else_branch
  | NSwitchBranch cases body => flat_map opt_list cases ++ body
  | NSwitchCase _ _ expr _ body => [expr] ++ [body]
  | NSwitchBody _ branches _ => branches
  | NTokenStatement _ expr => opt_list expr
  | NCatchBlock _ _ types _ _ body => types ++ [body]
  | NFinallyBlock _ body => [body]
  | NTryCatch _ try_block catch_blocks finally_block => [try_block] ++ catch_blocks ++ opt_list finally_block
  | NStaticVariablesStatement _ assignments => assignments
  | NGlobalVariablesStatement _ vars => vars
  | NInlineHtml _ _ => []
  | NAttribute _ expressions _ => expressions
  | NEmptyScript => []
  end.

(** The tokens stored in a node itself.  The parts of a doc comment carry
    tokens the doc-block scanner makes up from the text of the comment; they
    are not tokens of the document and are left out. *)
Definition own_toks (n : Node) : list Token :=
  match n with
  | NDocComment comment _ _ _ _ _ _ => [comment]
  | NDocCommentParam _ _ _ => []
  | NDocCommentProperty _ _ _ => []
  | NDocCommentVar _ _ _ => []
  | NDocCommentReturn _ _ => []
  | NUnary _ token => [token]
  | NPostUnary _ token => [token]
  | NConst name token _ => [name] ++ [token]
  | NBinary _ token _ => [token]
  | NTernary _ qm _ colon _ => [qm] ++ [colon]
  | NMissing token => [token]
  | NLiteral token => [token]
  | NVariable token => [token]
  | NLexicalVariable reference variable => opt_list reference ++ [variable]
  | NAliasedVariable variable _ => [variable]
  | NDynamicVariable variable oc _ cc => [variable] ++ [oc] ++ [cc]
  | NStaticVariable variable assignment _ => [variable] ++ opt_list assignment
  | NIdentifier token => [token]
  | NGrouping _ => []
  | NArray ob _ cb => [ob] ++ [cb]
  | NOldArray token op _ cp => [token] ++ [op] ++ [cp]
  | NArrayElement _ arrow _ => opt_list arrow
  | NList token op _ cp => [token] ++ [op] ++ [cp]
  | NCall _ op _ cp => [op] ++ [cp]
  | NIsset isset op _ cp => [isset] ++ [op] ++ [cp]
  | NEmpty empty op _ cp => [empty] ++ [op] ++ [cp]
  | NExit exit op _ cp => [exit] ++ opt_list op ++ opt_list cp
  | NHaltCompiler hc op _ cp => [hc] ++ opt_list op ++ opt_list cp
  | NDie die op _ cp => [die] ++ opt_list op ++ opt_list cp
  | NNew token _ => [token]
  | NClone token _ => [token]
  | NMember _ arrow oc _ cc => [arrow] ++ opt_list oc ++ opt_list cc
  | NStaticMember _ pn oc _ cc => [pn] ++ opt_list oc ++ opt_list cc
  | NField _ ob _ cb => [ob] ++ [cb]
  | NMatch mtch oc op _ cp _ cc => [mtch] ++ [oc] ++ [op] ++ [cp] ++ [cc]
  | NMatchArm _ arrow _ => [arrow]
  | NStatic token _ => [token]
  | NFunction is_static by_ref token op _ cp _ _ _ _ => opt_list is_static ++ opt_list by_ref ++ [token] ++ [op] ++ [cp]
  | NArrowFunction is_static by_ref token op _ cp arrow _ _ _ => opt_list is_static ++ opt_list by_ref ++ [token] ++ [op] ++ [cp] ++ [arrow]
  | NNamedParameter name colon _ => [name] ++ [colon]
  | NFunctionArgument _ name has_default _ spread reference _ _ => [name] ++ opt_list has_default ++ opt_list spread ++ opt_list reference
  | NDataType nullable _ => opt_list nullable
  | NReturnType token _ => [token]
  | NTypeRef type_ref => kind type_ref
  | NClass token _ _ _ _ _ => [token]
  | NYield token _ => [token]
  | NYieldFrom token _ => [token]
  | NFileInclude token _ => [token]
  | NUseDeclaration token _ aliased alias => opt_list token ++ opt_list aliased ++ opt_list alias
  | NUseConst token _ aliased alias => opt_list token ++ opt_list aliased ++ opt_list alias
  | NUseFunction token _ aliased alias => opt_list token ++ opt_list aliased ++ opt_list alias
  | NGroupedUse token _ oc _ cc => [token] ++ [oc] ++ [cc]
  | NExpressionStatement _ => []
  | NEchoStatement token _ => [token]
  | NConstStatement token _ => [token]
  | NPrintStatement token _ => [token]
  | NGotoStatement token label => [token] ++ [label]
  | NLabelStatement label colon => [label] ++ [colon]
  | NThrowStatement token _ => [token]
  | NDeclareStatement directive value assignment op cp token => [directive] ++ [value] ++ [assignment] ++ [op] ++ [cp] ++ [token]
  | NDefineStatement _ _ op cp token is_caseinsensitive => [op] ++ [cp] ++ [token] ++ opt_list is_caseinsensitive
  | NUnsetStatement token op _ cp => [token] ++ [op] ++ [cp]
  | NDieStatement token op _ cp => [token] ++ [op] ++ [cp]
  | NReturnStatement token _ => [token]
  | NNamespaceStatement token _ => [token]
  | NNamespaceBlock token _ _ => [token]
  | NUseStatement token _ => [token]
  | NUseFunctionStatement token _ => [token]
  | NUseConstStatement token _ => [token]
  | NUseTraitStatement token _ => [token]
  | NUseTrait _ => []
  | NUseTraitAlterationBlock _ oc _ cc => [oc] ++ [cc]
  | NUseTraitInsteadOf _ paa _ insteadof _ => opt_list paa ++ [insteadof]
  | NUseTraitAs _ paa _ as_token visibility as_name => opt_list paa ++ [as_token] ++ opt_list visibility ++ opt_list as_name
  | NClassStatement token name is_abstract is_final _ _ _ _ _ => [token] ++ [name] ++ opt_list is_abstract ++ opt_list is_final
  | NTraitStatement token name _ _ => [token] ++ [name]
  | NInterface token name _ _ _ => [token] ++ [name]
  | NClassConstantDefinitionStatement token _ _ visibility _ => [token] ++ opt_list visibility
  | NClassConstant visibility name _ => opt_list visibility ++ [name]
  | NProperty name _ => [name]
  | NPropertyDefinitionStatement _ _ visibility _ is_static is_abstract _ => opt_list visibility ++ opt_list is_static ++ opt_list is_abstract
  | NMethodDefinitionStatement token is_final by_ref name visibility is_abstract _ is_static _ _ => [token] ++ opt_list is_final ++ opt_list by_ref ++ [name] ++ opt_list visibility ++ opt_list is_abstract ++ opt_list is_static
  | NFunctionDefinitionStatement op _ cp _ _ _ => [op] ++ [cp]
  | NNamedFunctionDefinitionStatement token by_ref name _ _ => [token] ++ opt_list by_ref ++ [name]
  | NWhileStatement token op _ cp _ => [token] ++ [op] ++ [cp]
  | NDoWhileStatement do_token op cp while_token _ _ => [do_token] ++ [op] ++ [cp] ++ [while_token]
  | NForStatement token _ _ _ _ => [token]
  | NForEachStatement token op _ as_token _ cp _ => [token] ++ [op] ++ [as_token] ++ [cp]
  | NBlock oc _ cc => [oc] ++ [cc]
  | NAlternativeBlock colon _ terminator => [colon] ++ [terminator]
  | NIfBranch token op _ cp _ => [token] ++ [op] ++ [cp]
  | NElseBranch token _ => [token]
  | NIfStatement _ _ _ => []
  | NSwitchBranch _ _ => []
  | NSwitchCase token op _ cp _ => [token] ++ [op] ++ [cp]
  | NSwitchBody start _ end_ => [start] ++ [end_]
  | NTokenStatement token _ => [token]
  | NCatchBlock token op _ var cp _ => [token] ++ [op] ++ [var] ++ [cp]
  | NFinallyBlock token _ => [token]
  | NTryCatch token _ _ _ => [token]
  | NStaticVariablesStatement token _ => [token]
  | NGlobalVariablesStatement token _ => [token]
  | NInlineHtml start end_ => [start] ++ opt_list end_
  | NAttribute ats _ cb => [ats] ++ [cb]
  | NEmptyScript => []
  end.

(** All tokens of a tree, in the order of the fields. *)
Fixpoint node_toks (n : Node) : list Token :=
  match n with
  | NDocComment comment _ _ _ _ _ _ => [comment]
  | NDocCommentParam _ _ _ => []
  | NDocCommentProperty _ _ _ => []
  | NDocCommentVar _ _ _ => []
  | NDocCommentReturn _ _ => []
  | NUnary expr token => node_toks expr ++ [token]
  | NPostUnary expr token => node_toks expr ++ [token]
  | NConst name token value => [name] ++ [token] ++ node_toks value
  | NBinary left_ token right_ => node_toks left_ ++ [token] ++ node_toks right_
  | NTernary check qm true_arm colon false_arm => node_toks check ++ [qm] ++ (match true_arm with Some x => node_toks x | None => [] end) ++ [colon] ++ node_toks false_arm
  | NMissing token => [token]
  | NLiteral token => [token]
  | NVariable token => [token]
  | NLexicalVariable reference variable => opt_list reference ++ [variable]
  | NAliasedVariable variable expr => [variable] ++ node_toks expr
  | NDynamicVariable variable oc expr cc => [variable] ++ [oc] ++ node_toks expr ++ [cc]
  | NStaticVariable variable assignment value => [variable] ++ opt_list assignment ++ (match value with Some x => node_toks x | None => [] end)
  | NIdentifier token => [token]
  | NGrouping node => node_toks node
  | NArray ob elements cb => [ob] ++ flat_map node_toks elements ++ [cb]
  | NOldArray token op elements cp => [token] ++ [op] ++ flat_map node_toks elements ++ [cp]
  | NArrayElement key arrow value => (match key with Some x => node_toks x | None => [] end) ++ opt_list arrow ++ node_toks value
  | NList token op elements cp => [token] ++ [op] ++ flat_map node_toks elements ++ [cp]
  | NCall callee op parameters cp => node_toks callee ++ [op] ++ flat_map node_toks parameters ++ [cp]
  | NIsset isset op parameters cp => [isset] ++ [op] ++ flat_map node_toks parameters ++ [cp]
  | NEmpty empty op parameters cp => [empty] ++ [op] ++ flat_map node_toks parameters ++ [cp]
  | NExit exit op parameters cp => [exit] ++ opt_list op ++ (match parameters with Some l => flat_map node_toks l | None => [] end) ++ opt_list cp
  | NHaltCompiler hc op parameters cp => [hc] ++ opt_list op ++ (match parameters with Some l => flat_map node_toks l | None => [] end) ++ opt_list cp
  | NDie die op parameters cp => [die] ++ opt_list op ++ (match parameters with Some l => flat_map node_toks l | None => [] end) ++ opt_list cp
  | NNew token class_ => [token] ++ node_toks class_
  | NClone token object => [token] ++ node_toks object
  | NMember object arrow oc member cc => node_toks object ++ [arrow] ++ opt_list oc ++ node_toks member ++ opt_list cc
  | NStaticMember object pn oc member cc => node_toks object ++ [pn] ++ opt_list oc ++ node_toks member ++ opt_list cc
  | NField array ob index cb => node_toks array ++ [ob] ++ (match index with Some x => node_toks x | None => [] end) ++ [cb]
  | NMatch mtch oc op condition cp body cc => [mtch] ++ [oc] ++ [op] ++ node_toks condition ++ [cp] ++ flat_map node_toks body ++ [cc]
  | NMatchArm patterns arrow expression => (match patterns with Some l => flat_map node_toks l | None => [] end) ++ [arrow] ++ node_toks expression
  | NStatic token expr => [token] ++ flat_map node_toks expr
  | NFunction is_static by_ref token op arguments cp uses return_type body attributes => opt_list is_static ++ opt_list by_ref ++ [token] ++ [op] ++ (match arguments with Some l => flat_map node_toks l | None => [] end) ++ [cp] ++ (match uses with Some l => flat_map node_toks l | None => [] end) ++ (match return_type with Some x => node_toks x | None => [] end) ++ node_toks body ++ flat_map node_toks attributes
  | NArrowFunction is_static by_ref token op arguments cp arrow return_type body attributes => opt_list is_static ++ opt_list by_ref ++ [token] ++ [op] ++ (match arguments with Some l => flat_map node_toks l | None => [] end) ++ [cp] ++ [arrow] ++ (match return_type with Some x => node_toks x | None => [] end) ++ node_toks body ++ flat_map node_toks attributes
  | NNamedParameter name colon expr => [name] ++ [colon] ++ node_toks expr
  | NFunctionArgument argument_type name has_default default_value spread reference doc_comment attributes => (match argument_type with Some x => node_toks x | None => [] end) ++ [name] ++ opt_list has_default ++ (match default_value with Some x => node_toks x | None => [] end) ++ opt_list spread ++ opt_list reference ++ (match doc_comment with Some x => node_toks x | None => [] end) ++ flat_map node_toks attributes
  | NDataType nullable type_refs => opt_list nullable ++ flat_map node_toks type_refs
  | NReturnType token data_type => [token] ++ node_toks data_type
  | NTypeRef type_ref => kind type_ref
  | NClass token arguments extends implements body attributes => [token] ++ (match arguments with Some l => flat_map node_toks l | None => [] end) ++ (match extends with Some x => node_toks x | None => [] end) ++ (match implements with Some l => flat_map node_toks l | None => [] end) ++ node_toks body ++ flat_map node_toks attributes
  | NYield token expr => [token] ++ (match expr with Some x => node_toks x | None => [] end)
  | NYieldFrom token expr => [token] ++ node_toks expr
  | NFileInclude token resource => [token] ++ node_toks resource
  | NUseDeclaration token declaration aliased alias => opt_list token ++ node_toks declaration ++ opt_list aliased ++ opt_list alias
  | NUseConst token constant aliased alias => opt_list token ++ node_toks constant ++ opt_list aliased ++ opt_list alias
  | NUseFunction token function aliased alias => opt_list token ++ node_toks function ++ opt_list aliased ++ opt_list alias
  | NGroupedUse token parent oc uses cc => [token] ++ node_toks parent ++ [oc] ++ flat_map node_toks uses ++ [cc]
  | NExpressionStatement expression => node_toks expression
  | NEchoStatement token expressions => [token] ++ flat_map node_toks expressions
  | NConstStatement token constants => [token] ++ flat_map node_toks constants
  | NPrintStatement token expressions => [token] ++ flat_map node_toks expressions
  | NGotoStatement token label => [token] ++ [label]
  | NLabelStatement label colon => [label] ++ [colon]
  | NThrowStatement token expression => [token] ++ node_toks expression
  | NDeclareStatement directive value assignment op cp token => [directive] ++ [value] ++ [assignment] ++ [op] ++ [cp] ++ [token]
  | NDefineStatement name value op cp token is_caseinsensitive => node_toks name ++ node_toks value ++ [op] ++ [cp] ++ [token] ++ opt_list is_caseinsensitive
  | NUnsetStatement token op vars cp => [token] ++ [op] ++ flat_map node_toks vars ++ [cp]
  | NDieStatement token op expr cp => [token] ++ [op] ++ (match expr with Some x => node_toks x | None => [] end) ++ [cp]
  | NReturnStatement token expression => [token] ++ (match expression with Some x => node_toks x | None => [] end)
  | NNamespaceStatement token type_ref => [token] ++ node_toks type_ref
  | NNamespaceBlock token type_ref block => [token] ++ (match type_ref with Some x => node_toks x | None => [] end) ++ node_toks block
  | NUseStatement token imports => [token] ++ flat_map node_toks imports
  | NUseFunctionStatement token imports => [token] ++ flat_map node_toks imports
  | NUseConstStatement token imports => [token] ++ flat_map node_toks imports
  | NUseTraitStatement token traits_usages => [token] ++ flat_map node_toks traits_usages
  | NUseTrait type_ref => node_toks type_ref
  | NUseTraitAlterationBlock alteration_group_type_refs oc alterations cc => flat_map node_toks alteration_group_type_refs ++ [oc] ++ flat_map node_toks alterations ++ [cc]
  | NUseTraitInsteadOf left_ paa member insteadof insteadof_list => (match left_ with Some x => node_toks x | None => [] end) ++ opt_list paa ++ node_toks member ++ [insteadof] ++ flat_map node_toks insteadof_list
  | NUseTraitAs left_ paa member as_token visibility as_name => (match left_ with Some x => node_toks x | None => [] end) ++ opt_list paa ++ node_toks member ++ [as_token] ++ opt_list visibility ++ opt_list as_name
  | NClassStatement token name is_abstract is_final implements extends body doc_comment attributes => [token] ++ [name] ++ opt_list is_abstract ++ opt_list is_final ++ (match implements with Some l => flat_map node_toks l | None => [] end) ++ (match extends with Some x => node_toks x | None => [] end) ++ node_toks body ++ (match doc_comment with Some x => node_toks x | None => [] end) ++ flat_map node_toks attributes
  | NTraitStatement token name body doc_comment => [token] ++ [name] ++ node_toks body ++ (match doc_comment with Some x => node_toks x | None => [] end)
  | NInterface token name extends body doc_comment => [token] ++ [name] ++ (match extends with Some l => flat_map node_toks l | None => [] end) ++ node_toks body ++ (match doc_comment with Some x => node_toks x | None => [] end)
  | NClassConstantDefinitionStatement token consts doc_comment visibility attributes => [token] ++ flat_map node_toks consts ++ (match doc_comment with Some x => node_toks x | None => [] end) ++ opt_list visibility ++ flat_map node_toks attributes
  | NClassConstant visibility name value => opt_list visibility ++ [name] ++ node_toks value
  | NProperty name value => [name] ++ (match value with Some x => node_toks x | None => [] end)
  | NPropertyDefinitionStatement properties doc_comment visibility data_type is_static is_abstract attributes => flat_map node_toks properties ++ (match doc_comment with Some x => node_toks x | None => [] end) ++ opt_list visibility ++ (match data_type with Some x => node_toks x | None => [] end) ++ opt_list is_static ++ opt_list is_abstract ++ flat_map node_toks attributes
  | NMethodDefinitionStatement token is_final by_ref name visibility is_abstract function is_static doc_comment attributes => [token] ++ opt_list is_final ++ opt_list by_ref ++ [name] ++ opt_list visibility ++ opt_list is_abstract ++ node_toks function ++ opt_list is_static ++ (match doc_comment with Some x => node_toks x | None => [] end) ++ flat_map node_toks attributes
  | NFunctionDefinitionStatement op arguments cp return_type body doc_comment => [op] ++ (match arguments with Some l => flat_map node_toks l | None => [] end) ++ [cp] ++ (match return_type with Some x => node_toks x | None => [] end) ++ (match body with Some x => node_toks x | None => [] end) ++ (match doc_comment with Some x => node_toks x | None => [] end)
  | NNamedFunctionDefinitionStatement token by_ref name function attributes => [token] ++ opt_list by_ref ++ [name] ++ node_toks function ++ flat_map node_toks attributes
  | NWhileStatement token op condition cp body => [token] ++ [op] ++ node_toks condition ++ [cp] ++ node_toks body
  | NDoWhileStatement do_token op cp while_token condition body => [do_token] ++ [op] ++ [cp] ++ [while_token] ++ node_toks condition ++ node_toks body
  | NForStatement token init condition step body => [token] ++ flat_map node_toks init ++ flat_map node_toks condition ++ flat_map node_toks step ++ node_toks body
  | NForEachStatement token op collection as_token kv cp body => [token] ++ [op] ++ node_toks collection ++ [as_token] ++ node_toks kv ++ [cp] ++ node_toks body
  | NBlock oc statements cc => [oc] ++ flat_map node_toks statements ++ [cc]
  | NAlternativeBlock colon statements terminator => [colon] ++ flat_map node_toks statements ++ [terminator]
  | NIfBranch token op condition cp body => [token] ++ [op] ++ node_toks condition ++ [cp] ++ node_toks body
  | NElseBranch token body => [token] ++ node_toks body
  | NIfStatement if_branch elseif_branches else_branch => node_toks if_branch ++ flat_map node_toks elseif_branches ++ (match else_branch with Some x => node_toks x | None => [] end)
  | NSwitchBranch cases body => flat_map (fun o => match o with Some x => node_toks x | None => [] end) cases ++ flat_map node_toks body
  | NSwitchCase token op expr cp body => [token] ++ [op] ++ node_toks expr ++ [cp] ++ node_toks body
  | NSwitchBody start branches end_ => [start] ++ flat_map node_toks branches ++ [end_]
  | NTokenStatement token expr => [token] ++ (match expr with Some x => node_toks x | None => [] end)
  | NCatchBlock token op types var cp body => [token] ++ [op] ++ flat_map node_toks types ++ [var] ++ [cp] ++ node_toks body
  | NFinallyBlock token body => [token] ++ node_toks body
  | NTryCatch token try_block catch_blocks finally_block => [token] ++ node_toks try_block ++ flat_map node_toks catch_blocks ++ (match finally_block with Some x => node_toks x | None => [] end)
  | NStaticVariablesStatement token assignments => [token] ++ flat_map node_toks assignments
  | NGlobalVariablesStatement token vars => [token] ++ flat_map node_toks vars
  | NInlineHtml start end_ => [start] ++ opt_list end_
  | NAttribute ats expressions cb => [ats] ++ flat_map node_toks expressions ++ [cb]
  | NEmptyScript => []
  end.

(** * [Node::children], node.rs:930-1370.

    [DieStatement] answers with the children of its expression (1027-1033);
    variants that are not listed have no children (1368). *)
Fixpoint children (n : Node) : list Node :=
  match n with
  | (NBinary left_ _ right_) => [left_; right_]
  | (NUnary expr _) | (NPostUnary expr _) | (NAliasedVariable _ expr)
  | (NDynamicVariable _ _ expr _) | (NNamedParameter _ _ expr) | (NYieldFrom _ expr) => [expr]
  | (NTernary check _ true_arm _ false_arm) =>
      match true_arm with
      | Some true_arm => [check; true_arm; false_arm]
      | None => [check; false_arm]
      end
  | (NUnsetStatement _ _ expr _) | (NGlobalVariablesStatement _ expr)
  | (NArray _ expr _) | (NOldArray _ _ expr _) | (NList _ _ expr _)
  | (NEchoStatement _ expr) | (NPrintStatement _ expr)
  | (NConstStatement _ expr) | (NStatic _ expr) => expr
  | (NArrayElement key _ value) =>
      match key with Some key => [key; value] | None => [value] end
  | (NCall callee _ parameters _) => parameters ++ [callee]
  | (NIsset _ _ parameters _) | (NEmpty _ _ parameters _) => parameters
  | (NExit _ _ parameters _) | (NDie _ _ parameters _) => opt_nodes parameters
  | (NClone _ class_) | (NNew _ class_) => [class_]
  | (NMember class_ _ _ member _) | (NStaticMember class_ _ _ member _) => [class_; member]
  | (NField array _ index _) =>
      match index with Some index => [array; index] | None => [array] end
  | (NArrowFunction _ _ _ _ arguments _ _ _ body _) => opt_nodes arguments ++ [body]
  | (NYield _ expr) => opt_list expr
  | (NFileInclude _ resource) => [resource]
  | (NExpressionStatement expression) | (NThrowStatement _ expression) => [expression]
  | (NDieStatement _ _ expr _) =>
      match expr with Some expr => children expr | None => [] end
  | (NReturnStatement _ expression) => opt_list expression
  | (NNamespaceStatement _ type_ref) => [type_ref]
  | (NStaticVariable _ _ value) => opt_list value
  | (NFunction _ _ _ _ arguments _ uses return_type body _) =>
      opt_nodes arguments ++ opt_nodes uses ++ opt_list return_type ++ [body]
  | (NFunctionArgument argument_type _ _ default_value _ _ _ _) =>
      opt_list argument_type ++ opt_list default_value
  | (NClass _ arguments extends implements body _) =>
      opt_nodes arguments ++ opt_list extends ++ opt_nodes implements ++ [body]
  | (NNamespaceBlock _ type_ref block) => opt_list type_ref ++ [block]
  | (NClassStatement _ _ _ _ implements extends body doc_comment _) =>
      opt_list doc_comment ++ opt_list extends ++ opt_nodes implements ++ [body]
  | (NTraitStatement _ _ body _) => [body]
  | (NClassConstantDefinitionStatement _ consts _ _ attributes) => consts ++ attributes
  | (NConst _ _ value) | (NClassConstant _ _ value) => [value]
  | (NProperty _ value) => opt_list value
  | (NPropertyDefinitionStatement properties _ _ data_type _ _ attributes) =>
      opt_list data_type ++ properties ++ attributes
  | (NMethodDefinitionStatement _ _ _ _ _ _ function _ _ attributes)
  | (NNamedFunctionDefinitionStatement _ _ _ function attributes) => attributes ++ [function]
  | (NFunctionDefinitionStatement _ arguments _ return_type body _) =>
      opt_nodes arguments ++ opt_list return_type ++ opt_list body
  | (NInterface _ _ extends body _) => opt_nodes extends ++ [body]
  | (NWhileStatement _ _ condition _ body) | (NDoWhileStatement _ _ _ _ condition body) =>
      [condition; body]
  | (NForStatement _ init condition step body) => init ++ condition ++ step ++ [body]
  | (NForEachStatement _ _ collection _ kv _ body) => [collection; kv; body]
  | (NBlock _ statements _) | (NAlternativeBlock _ statements _) => statements
  | (NIfBranch _ _ condition _ body) => [condition; body]
  | (NElseBranch _ body) => [body]
  | (NIfStatement if_branch elseif_branches else_branch) =>
      [if_branch] ++ elseif_branches ++ opt_list else_branch
  | (NSwitchBranch cases body) => flat_map opt_list cases ++ body
  | (NSwitchCase _ _ expr _ body) => [expr; body]
  | (NSwitchBody _ branches _) => branches
  | (NTokenStatement _ expr) => opt_list expr
  | (NCatchBlock _ _ _ _ _ body) | (NFinallyBlock _ body) => [body]
  | (NTryCatch _ try_block catch_blocks finally_block) =>
      [try_block] ++ catch_blocks ++ opt_list finally_block
  | (NStaticVariablesStatement _ assignments) => assignments
  | (NUseDeclaration _ declaration _ _) => [declaration]
  | (NUseStatement _ imports) | (NUseFunctionStatement _ imports)
  | (NUseConstStatement _ imports) => imports
  | (NUseTraitStatement _ traits_usages) => traits_usages
  | (NDocComment _ _ _ _ _ var_docs properties) => var_docs ++ properties
  | (NGrouping node) => [node]
  | (NAttribute _ expressions _) => expressions
  | (NDataType _ type_refs) => type_refs
  | (NMatch _ _ _ condition _ body _) => [condition] ++ body
  | (NMatchArm patterns _ expression) => opt_nodes patterns ++ [expression]
  | _ => []
  end.

(** * Ranges.  [None] is a panic: an [unwrap] on an empty list, or the end of
    a token with an empty multi-line label ([token_end]). *)

Definition obind {A B} (o : option A) (f : A -> option B) : option B :=
  match o with Some a => f a | None => None end.

Definition first_opt {A} (l : list A) : option A :=
  match l with [] => None | a :: _ => Some a end.
Definition last_opt {A} (l : list A) : option A :=
  match rev l with [] => None | a :: _ => Some a end.

(** node.rs:53-57 is [token_range]; 59-63 is [mkRange]; 65-75, 77-89, 91-97
    and 115-127 below, with the range of the node as an argument. *)
Definition rng_tok_node (t : Token) (r : option NodeRange) : option NodeRange :=
  obind r (fun r => Some (mkRange (t_col t) (t_line t) (end_col r) (end_line r))).
Definition rng_node_node (a b : option NodeRange) : option NodeRange :=
  obind a (fun a => obind b (fun b =>
    Some (mkRange (start_col a) (start_line a) (end_col b) (end_line b)))).
Definition rng_tok_tok (a b : Token) : option NodeRange :=
  obind (token_end b) (fun e => Some (mkRange (t_col a) (t_line a) (fst e) (snd e))).
Definition rng_node_tok (a : option NodeRange) (b : Token) : option NodeRange :=
  obind a (fun a => obind (token_end b) (fun e =>
    Some (mkRange (start_col a) (start_line a) (fst e) (snd e)))).
(** node.rs:108-113 *)
Definition rng_tok_tref (t : Token) (tr : TypeRef) : option NodeRange :=
  obind (last_opt (kind tr)) (fun l => rng_tok_tok t l).
(** node.rs:187-192 *)
Definition tref_range (tr : TypeRef) : option NodeRange :=
  obind (first_opt (kind tr)) (fun a => obind (last_opt (kind tr)) (fun b =>
    obind (token_range a) (fun ra => obind (token_range b) (fun rb =>
      Some (from_range ra rb))))).
(** node.rs:140-142 on options *)
Definition rng_from (a b : option NodeRange) : option NodeRange :=
  obind a (fun a => obind b (fun b => Some (from_range a b))).
(** The range of the last / first node of a list, given the ranges of all. *)
Definition rng_last (l : list (option NodeRange)) : option NodeRange := obind (last_opt l) (fun r => r).
Definition rng_first (l : list (option NodeRange)) : option NodeRange := obind (first_opt l) (fun r => r).

(** node.rs:1387-1832 *)
Fixpoint node_range (n : Node) : option NodeRange :=
  let rl := map node_range in
  match n with
  | (NUnary expr token) => rng_tok_node token (node_range expr)
  | (NPostUnary expr token) => rng_node_tok (node_range expr) token
  | (NConst _ token value) => rng_tok_node token (node_range value)
  | (NBinary left_ _ right_) => rng_node_node (node_range left_) (node_range right_)
  | (NTernary check _ _ _ false_arm) => rng_node_node (node_range check) (node_range false_arm)
  | (NLexicalVariable reference variable) =>
      match reference with
      | Some reference => rng_tok_tok reference variable
      | None => token_range variable
      end
  | (NAliasedVariable variable expr) => rng_tok_node variable (node_range expr)
  | (NDynamicVariable variable _ _ cc) => rng_tok_tok variable cc
  | (NStaticVariable variable _ value) =>
      match value with
      | Some value => rng_tok_node variable (node_range value)
      | None => token_range variable
      end
  | (NArray ob _ cb) => rng_tok_tok ob cb
  | (NOldArray token _ _ cp) => rng_tok_tok token cp
  | (NArrayElement key _ value) =>
      match key with
      | Some key => rng_node_node (node_range key) (node_range value)
      | None => node_range value
      end
  | (NList token _ _ cp) => rng_tok_tok token cp
  | (NCall callee _ _ cp) => rng_node_tok (node_range callee) cp
  | (NIsset isset _ _ cp) => rng_tok_tok isset cp
  | (NEmpty empty _ _ cp) => rng_tok_tok empty cp
  | (NExit exit _ _ cp) =>
      match cp with Some cp => rng_tok_tok exit cp | None => token_range exit end
  | (NHaltCompiler hc _ _ cp) =>
      match cp with Some cp => rng_tok_tok hc cp | None => token_range hc end
  | (NDie die _ _ cp) =>
      match cp with Some cp => rng_tok_tok die cp | None => token_range die end
  | (NNew token class_) => rng_tok_node token (node_range class_)
  | (NClone token object) => rng_tok_node token (node_range object)
  | (NMember object _ _ member _) => rng_node_node (node_range object) (node_range member)
  | (NStaticMember class_ _ _ member cc) =>
      match cc with
      | Some cc => rng_node_tok (node_range class_) cc
      | None => rng_node_node (node_range class_) (node_range member)
      end
  | (NField array _ _ cb) => rng_node_tok (node_range array) cb
  | (NStatic token expr) => rng_tok_node token (rng_last (rl expr))
  | (NFunction is_static by_ref token _ _ _ _ _ body _) =>
      match is_static, by_ref with
      | Some is_static, _ => rng_tok_node is_static (node_range body)
      | None, Some by_ref => rng_tok_node by_ref (node_range body)
      | None, None => rng_tok_node token (node_range body)
      end
  | (NArrowFunction is_static by_ref token _ _ _ _ _ body _) =>
      match is_static, by_ref with
      | Some is_static, _ => rng_tok_node is_static (node_range body)
      | None, Some by_ref => rng_tok_node by_ref (node_range body)
      | None, None => rng_tok_node token (node_range body)
      end
  | (NFunctionArgument argument_type name _ default_value spread reference _ _) =>
      let start :=
        match reference, argument_type, spread with
        | Some reference, _, _ => token_range reference
        | None, Some argument_type, _ => node_range argument_type
        | None, None, Some spread => token_range spread
        | None, None, None => token_range name
        end in
      match default_value with
      | Some default_value => rng_from start (node_range default_value)
      | None => rng_from start (token_range name)
      end
  | (NDataType nullable type_refs) =>
      match nullable with
      | Some nullable => rng_tok_node nullable (rng_last (rl type_refs))
      | None => rng_node_node (rng_first (rl type_refs)) (rng_last (rl type_refs))
      end
  | (NReturnType _ data_type) => node_range data_type
  | (NClass token _ _ _ body _) => rng_tok_node token (node_range body)
  | (NYield token expr) =>
      match expr with
      | Some expr => rng_tok_node token (node_range expr)
      | None => token_range token
      end
  | (NYieldFrom token expr) => rng_tok_node token (node_range expr)
  | (NFileInclude token resource) => rng_tok_node token (node_range resource)
  | (NUseDeclaration token declaration _ alias) =>
      let start :=
        match token with
        | Some token => token_range token
        | None => node_range declaration
        end in
      match alias with
      | Some alias => rng_from start (token_range alias)
      | None => rng_from start (node_range declaration)
      end
  | (NUseConst token thing _ alias)
  | (NUseFunction token thing _ alias) =>
      let start :=
        match token with
        | Some token => token_range token
        | None => node_range thing
        end in
      (* [start] is evaluated in both cases *)
      obind start (fun _ =>
      match alias with
      | Some alias => rng_from start (token_range alias)
      | None => node_range thing
      end)
  | (NGroupedUse token _ _ _ cc) => rng_tok_tok token cc
  | (NExpressionStatement expression) => node_range expression
  | (NEchoStatement token expressions) => rng_tok_node token (rng_last (rl expressions))
  | (NConstStatement token constants) => rng_tok_node token (rng_last (rl constants))
  | (NPrintStatement token expressions) => rng_tok_node token (rng_last (rl expressions))
  | (NGotoStatement token label) => rng_tok_tok token label
  | (NLabelStatement label colon) => rng_tok_tok label colon
  | (NThrowStatement token expression) => rng_tok_node token (node_range expression)
  | (NDeclareStatement _ _ _ _ cp token) => rng_tok_tok token cp
  | (NUnsetStatement token _ _ cp) => rng_tok_tok token cp
  | (NDieStatement token _ _ cp) => rng_tok_tok token cp
  | (NReturnStatement token expression) =>
      match expression with
      | Some expr => rng_tok_node token (node_range expr)
      | None => token_range token
      end
  | (NNamespaceStatement token type_ref) => rng_tok_node token (node_range type_ref)
  | (NNamespaceBlock token _ block) => rng_tok_node token (node_range block)
  | (NUseStatement token imports) => rng_tok_node token (rng_last (rl imports))
  | (NUseFunctionStatement token imports) => rng_tok_node token (rng_last (rl imports))
  | (NUseConstStatement token imports) => rng_tok_node token (rng_last (rl imports))
  | (NUseTraitStatement token traits_usages) => rng_tok_node token (rng_last (rl traits_usages))
  | (NUseTrait type_ref) => node_range type_ref
  | (NUseTraitAlterationBlock _ oc _ cc) => rng_tok_tok oc cc
  | (NUseTraitInsteadOf left_ _ member _ insteadof_list) =>
      match left_ with
      | Some left_ => rng_node_node (node_range left_) (rng_last (rl insteadof_list))
      | None => rng_node_node (node_range member) (rng_last (rl insteadof_list))
      end
  | (NUseTraitAs left_ _ member _ visibility as_name) =>
      match left_, as_name, visibility with
      | Some left_, Some as_name, _ => rng_node_tok (node_range left_) as_name
      | Some left_, None, Some visibility => rng_node_tok (node_range left_) visibility
      | Some left_, None, None => node_range left_
      | None, Some as_name, _ => rng_node_tok (node_range member) as_name
      | None, None, Some visibility => rng_node_tok (node_range member) visibility
      | None, None, None => node_range member
      end
  | (NClassStatement token _ is_abstract is_final _ _ body doc_comment _) =>
      match doc_comment, is_abstract, is_final with
      | Some doc_comment, _, _ => rng_node_node (node_range doc_comment) (node_range body)
      | None, Some is_abstract, _ => rng_tok_node is_abstract (node_range body)
      | None, None, Some is_final => rng_tok_node is_final (node_range body)
      | None, None, None => rng_tok_node token (node_range body)
      end
  | (NTraitStatement token _ body _) => rng_tok_node token (node_range body)
  | (NInterface token _ _ body _) => rng_tok_node token (node_range body)
  | (NClassConstant _ name value) => rng_tok_node name (node_range value)
  | (NClassConstantDefinitionStatement _ consts _ _ _) =>
      rng_node_node (rng_first (rl consts)) (rng_last (rl consts))
  | (NProperty name value) =>
      match value with
      | Some value => rng_tok_node name (node_range value)
      | None => token_range name
      end
  | (NPropertyDefinitionStatement properties _ _ data_type _ _ _) =>
      match data_type with
      | Some data_type => rng_node_node (node_range data_type) (rng_last (rl properties))
      | None => rng_node_node (rng_first (rl properties)) (rng_last (rl properties))
      end
  | (NMethodDefinitionStatement token is_final _ _ visibility is_abstract function _ _ _) =>
      match is_abstract, is_final, visibility with
      | Some is_abstract, _, _ => rng_tok_node is_abstract (node_range function)
      | None, Some is_final, _ => rng_tok_node is_final (node_range function)
      | None, None, Some visibility => rng_tok_node visibility (node_range function)
      | None, None, None => rng_tok_node token (node_range function)
      end
  | (NFunctionDefinitionStatement op _ cp return_type body _) =>
      match body, return_type with
      | Some body, _ => rng_tok_node op (node_range body)
      | None, Some return_type => rng_tok_node op (node_range return_type)
      | None, None => rng_tok_tok op cp
      end
  | (NNamedFunctionDefinitionStatement token by_ref _ function _) =>
      match by_ref with
      | Some by_ref => rng_tok_node by_ref (node_range function)
      | None => rng_tok_node token (node_range function)
      end
  | (NWhileStatement token _ _ _ body) => rng_tok_node token (node_range body)
  | (NDoWhileStatement do_token _ cp _ _ _) => rng_tok_tok do_token cp
  | (NForStatement token _ _ _ body) => rng_tok_node token (node_range body)
  | (NForEachStatement token _ _ _ _ _ body) => rng_tok_node token (node_range body)
  | (NBlock oc _ cc) => rng_tok_tok oc cc
  | (NAlternativeBlock colon _ terminator) => rng_tok_tok colon terminator
  | (NIfBranch token _ _ _ body) => rng_tok_node token (node_range body)
  | (NElseBranch token body) => rng_tok_node token (node_range body)
  | (NIfStatement if_branch elseif_branches else_branch) =>
      match else_branch, elseif_branches with
      | Some else_branch, _ => rng_node_node (node_range if_branch) (node_range else_branch)
      | None, _ :: _ => rng_node_node (node_range if_branch) (rng_last (rl elseif_branches))
      | None, [] => node_range if_branch
      end
  | (NSwitchBranch _ body) => rng_node_node (rng_first (rl body)) (rng_last (rl body))
  | (NSwitchCase token _ _ _ body) => rng_tok_node token (node_range body)
  | (NSwitchBody start _ end_) => rng_tok_tok start end_
  | (NTokenStatement token expr) =>
      match expr with
      | Some expr => rng_tok_node token (node_range expr)
      | None => token_range token
      end
  | (NCatchBlock token _ _ _ _ body) => rng_tok_node token (node_range body)
  | (NFinallyBlock token body) => rng_tok_node token (node_range body)
  | (NTryCatch token try_block catch_blocks finally_block) =>
      match finally_block, catch_blocks with
      | Some finally_block, _ => rng_tok_node token (node_range finally_block)
      | None, _ :: _ => rng_tok_node token (rng_last (rl catch_blocks))
      | None, [] => rng_tok_node token (node_range try_block)
      end
  | (NStaticVariablesStatement token assignments) => rng_tok_node token (rng_last (rl assignments))
  | (NGlobalVariablesStatement token vars) => rng_tok_node token (rng_last (rl vars))
  | (NTypeRef type_ref) => tref_range type_ref
  | (NLiteral token) | (NVariable token) => token_range token
  | (NMissing token) => token_range token
  | (NDefineStatement _ _ _ cp token _) => rng_tok_tok token cp
  | (NDocComment comment _ _ _ _ _ _) => token_range comment
  | (NDocCommentProperty name types _) =>
      match types with
      | Some types => obind (last_opt types) (fun t => rng_tok_tref name t)
      | None => token_range name
      end
  | (NGrouping node) => node_range node
  | (NMatch _ oc _ _ _ _ cc) => rng_tok_tok oc cc
  | (NMatchArm patterns _ expression) =>
      match patterns with
      | Some patterns => rng_node_node (rng_first (rl patterns)) (node_range expression)
      | None => node_range expression
      end
  | _ => Some (mkRange 1 1 1 1)
  end.

(** node.rs:1373-1385; [None] is the panic of the [unimplemented!] arm. *)
Fixpoint node_end (n : Node) : option Token :=
  match n with
  | (NBlock _ _ cc) => Some cc
  | (NFunctionDefinitionStatement _ _ cp _ body _) =>
      match body with Some body => node_end body | None => Some cp end
  | _ => None
  end.

(** ** [impl TypeRef], node.rs:154-330 *)
Definition tref_one (k : list Token) : TypeRef := mkTypeRef k false.
Definition tref_many (k : list Token) : TypeRef := mkTypeRef k true.
Definition tref_to_collection_item (t : TypeRef) : TypeRef := mkTypeRef (kind t) false.
Definition tref_append (orig appendix : TypeRef) : TypeRef :=
  mkTypeRef (kind orig ++ kind appendix) (multiple orig).
Definition tref_is_fully_qualified (t : TypeRef) : bool :=
  match kind t with
  | f :: _ => tt_eqb (t_type f) TNamespaceSeparator
  | [] => false
  end.
(** node.rs:203-242 *)
Definition tt_is_builtin (t : TokenType) : bool :=
  match t with
  | TTypeString | TTypeSelf | TStatic | TMixed | TTypeArray | TTypeBool | TTypeInt
  | TTypeFloat | TNull | TTypeObject | TConstFile | TConstDir | TConstClass
  | TConstFunction | TConstMethod | TCallable | TConstLine | TConstTrait | TBinaryNumber
  | TDecimalNumber | TExponentialNumber | THexNumber | TLongNumber | TGenerator
  | TResource | TVoid => true
  | _ => false
  end.
Definition tref_is_builtin (t : TypeRef) : bool :=
  match kind t with
  | [a] => tt_is_builtin (t_type a)
  | _ => false
  end.
(** node.rs:297-299 *)
Definition tref_is_empty (t : TypeRef) : bool :=
  match kind t with
  | [] => true
  | [_] => tref_is_fully_qualified t
  | _ => false
  end.
(** node.rs:278-286; a token is displayed by [display_token], [None] = panic *)
Fixpoint display_tokens (l : list Token) : option str :=
  match l with
  | [] => Some []
  | t :: r => obind (display_token t) (fun a => obind (display_tokens r) (fun b => Some (a ++ b)))
  end.
Definition tref_to_fqdn (t : TypeRef) : option str := display_tokens (kind t).
(** node.rs:246-256.  Outer [None] = panic, inner = Rust [None]. *)
Definition tref_root (t : TypeRef) : option (option str) :=
  if tref_is_empty t then Some None
  else
    let k := kind t in
    let tok := if tref_is_fully_qualified t then nth_error k 1 else nth_error k 0 in
    obind tok (fun tok => obind (display_token tok) (fun s => Some (Some s))).
(** node.rs:260-266 *)
Definition tref_stem (t : TypeRef) : list Token :=
  if tref_is_fully_qualified t then skipn 2 (kind t) else skipn 1 (kind t).
(** node.rs:268-270, [None] = panic *)
Definition tref_root_token_type (t : TypeRef) : option TokenType :=
  match kind t with f :: _ => Some (t_type f) | [] => None end.
(** node.rs:276-284 *)
Definition tref_tip (t : TypeRef) : option str :=
  obind (last_opt (kind t)) t_label.

(** node.rs:1834-1841; outer [None] = panic of [Display] *)
Definition node_name (n : Node) : option str :=
  match n with
  | (NNamedFunctionDefinitionStatement _ _ name _ _) => display_token name
  | (NVariable token) | (NLiteral token) => display_token token
  | (NTypeRef type_ref) => tref_to_fqdn type_ref
  | _ => Some []
  end.

(** node.rs:1848-1850 *)
Definition scope_boundary (n : Node) : bool :=
  match n with (NFunction _ _ _ _ _ _ _ _ _ _) => true | _ => false end.

(** node.rs:1853-1862.  The fuel only makes the recursion structural: every
    child is smaller than its parent (NodeFacts.v). *)
Fixpoint descendants_f (fuel : nat) (n : Node) : list Node :=
  match fuel with
  | O => []
  | S fuel => flat_map (fun c => c :: descendants_f fuel c) (children n)
  end.
Definition descendants (n : Node) : list Node := descendants_f (node_size n) n.
