(** Which tokens a syntax tree stands for, independent of the formatter: the
    tokens of a PHP program with that tree, from left to right.

    [expr n ks], [stmt n ks] and so on say that [n] is the tree of an
    expression, a statement, ... written with the tokens [ks].  They cover a part
    of PHP: literals, names, operators, conditional expressions, calls, members,
    arrays, closures without imported variables, the usual statements with
    bodies in braces, functions and classes with methods, properties and
    constants.  What is left out of the relation on purpose, because the
    formatter loses it, is listed in Prop_Format.v.  Tokens that the tree does
    not keep, such as commas and closing parentheses, are those the grammar asks
    for; a comma behind the last element of a list, which PHP also accepts, is
    not counted. *)

From Verif Require Import Base Token Node SpecExpr SpecScanner Respell.

(** punctuation and keywords *)
Definition sym (k : TokenType) : key := (k, None).

(** A string or number that is complete: a string has its closing quote, a
    number in scientific notation has an exponent.  [NAN] and [INF] are left
    out. *)
Definition closed (q : char) (t : Token) : Prop :=
  exists b, t_label t = Some b /\ quoted_body q b /\ ~ In 13 b.
Definition complete (t : Token) : Prop :=
  match t_type t with
  | TConstantEncapsedString => closed 39 t
  | TEncapsedAndWhitespaceString => closed 34 t
  | TShellEscape => closed 96 t
  | TExponentialNumber => exists l c, t_label t = Some (l ++ [c]) /\ c <> 101
  | TConstNan | TConstInf => False
  | _ => True
  end.

(** Keywords that also serve as names of members or classes. *)
Definition name_words : list TokenType :=
  [ TTypeSelf; TStatic; TParent; TClass; TList; TNew; TClone; TEmpty; TIsset; TPrint; TEcho; TReturn;
    TFor; TForeach; TIf; TElse; TWhile; TDo; TSwitch; TCase; TDefault; TBreak; TContinue; TFunction;
    TFn; TConst; TUse; TAs; TAbstract; TFinal; TPrivate; TProtected; TPublic; TVar; TTry; TCatch;
    TFinally; TThrow; TNull; TTrue; TFalse; TExtends; TImplements; TInterface; TTrait; TNamespace;
    TRequire; TInclude; TMatch; TCallable; TVoid ].
(** Keywords that name a type. *)
Definition type_words : list TokenType :=
  [ TTypeBool; TTypeInt; TTypeString; TTypeArray; TTypeObject; TTypeFloat ].

Definition prefix_operators : list TokenType :=
  [ TPlus; TMinus; TNegation; TBitwiseNegation; TSilencer; TIncrement; TDecrement; TBinaryAnd; TElipsis;
    TNew; TClone ].

Section Trees.
  (** the tokens of the file *)
  Variable ts : list Token.

  (** a token of the file, of one of the given kinds *)
  Definition tok (k : TokenType) (t : Token) : Prop := In t ts /\ t_type t = k.
  Definition one_of (l : list TokenType) (t : Token) : Prop := In t ts /\ In (t_type t) l.
  Definition name (t : Token) : Prop := tok TIdentifier t \/ one_of name_words t.

  (** [A], [\A], [A\B], ... *)
  Inductive path (ok : Token -> Prop) : list Token -> Prop :=
  | P_one : forall t, ok t -> path ok [t]
  | P_root : forall s l, tok TNamespaceSeparator s -> path ok l ->
      (forall s' l', l = s' :: l' -> t_type s' <> TNamespaceSeparator) -> path ok (s :: l)
  | P_more : forall t s l, ok t -> tok TNamespaceSeparator s -> path ok l ->
      (forall s' l', l = s' :: l' -> t_type s' <> TNamespaceSeparator) -> path ok (t :: s :: l).

  (** [?A|B] *)
  Definition type_name (t : Token) : Prop := name t \/ one_of type_words t.
  Inductive types : list Node -> list key -> Prop :=
  | T_one : forall l, path type_name l -> types [NTypeRef (tref_one l)] (map key_of l)
  | T_more : forall l r ks, path type_name l -> types r ks ->
      types (NTypeRef (tref_one l) :: r) (map key_of l ++ sym TBinaryOr :: ks).
  Inductive data_type : Node -> list key -> Prop :=
  | T_plain : forall l ks, types l ks -> data_type (NDataType None l) ks
  | T_nullable : forall q l ks, tok TQuestionMark q -> types l ks ->
      data_type (NDataType (Some q) l) (sym TQuestionMark :: ks).
  Inductive return_type : option Node -> list key -> Prop :=
  | T_none : return_type None []
  | T_some : forall c n ks, tok TColon c -> data_type n ks ->
      return_type (Some (NReturnType c n)) (sym TColon :: ks).

  Inductive param_type : option Node -> list key -> Prop :=
  | A_untyped : param_type None []
  | A_typed : forall n k, data_type n k -> param_type (Some n) k.

  (** [A, B] *)
  Inductive names : list Node -> list key -> Prop :=
  | N_one : forall l, path name l -> names [NTypeRef (tref_one l)] (map key_of l)
  | N_more : forall l r ks, path name l -> names r ks ->
      names (NTypeRef (tref_one l) :: r) (map key_of l ++ sym TComma :: ks).

  Inductive extending : option Node -> list key -> Prop :=
  | X_none : extending None []
  | X_some : forall l, path name l -> extending (Some (NTypeRef (tref_one l))) (sym TExtends :: map key_of l).
  Inductive implementing : option (list Node) -> list key -> Prop :=
  | X_nothing : implementing None []
  | X_list : forall l k, names l k -> implementing (Some l) (sym TImplements :: k).

  (** at most one of the words in front of a declaration *)
  Inductive modifier (k : list TokenType) : option Token -> list key -> Prop :=
  | M_none : modifier k None []
  | M_some : forall t, one_of k t -> modifier k (Some t) [sym (t_type t)].
  Definition visibilities : list TokenType := [TPublic; TProtected; TPrivate; TVar].

  Inductive expr : Node -> list key -> Prop :=
  | E_literal : forall t, In t ts -> literal (t_type t) = true -> complete t -> expr (NLiteral t) [key_of t]
  | E_name : forall t, name t -> expr (NLiteral t) [key_of t]
  | E_variable : forall t, tok TVariable t -> expr (NVariable t) [key_of t]
  | E_path : forall l, path name l -> expr (NTypeRef (tref_one l)) (map key_of l)
  | E_group : forall n k, expr n k ->
      expr (NGrouping n) (sym TOpenParenthesis :: k ++ [sym TCloseParenthesis])
  | E_binary : forall a t b k l, expr a k -> In t ts -> infix_operator t -> expr b l ->
      expr (NBinary a t b) (k ++ sym (t_type t) :: l)
  | E_prefix : forall a t k, one_of prefix_operators t -> expr a k ->
      expr (NUnary a t) (sym (t_type t) :: k)
  | E_postfix : forall a t k, one_of [TIncrement; TDecrement] t -> expr a k ->
      expr (NPostUnary a t) (k ++ [sym (t_type t)])
  | E_conditional : forall a q b c d k l m, expr a k -> tok TQuestionMark q -> expr b l -> tok TColon c ->
      expr d m ->
      expr (NTernary a q (Some b) c d) (k ++ sym TQuestionMark :: l ++ sym TColon :: m)
  | E_call : forall f o l c k ks, expr f k -> tok TOpenParenthesis o -> exprs l ks -> tok TCloseParenthesis c ->
      expr (NCall f o l c) (k ++ sym TOpenParenthesis :: ks ++ [sym TCloseParenthesis])
  | E_argument : forall t c n k, name t -> tok TColon c -> expr n k ->
      expr (NNamedParameter t c n) (key_of t :: sym TColon :: k)
  | E_member : forall a t b k l, expr a k -> one_of [TObjectOperator; TNullsafeObjectOperator] t -> expr b l ->
      expr (NMember a t None b None) (k ++ sym (t_type t) :: l)
  | E_static_member : forall a t b k l, expr a k -> tok TPaamayimNekudayim t -> expr b l ->
      expr (NStaticMember a t None b None) (k ++ sym TPaamayimNekudayim :: l)
  | E_index : forall a o i c k l, expr a k -> tok TOpenBrackets o -> expr i l -> tok TCloseBrackets c ->
      expr (NField a o (Some i) c) (k ++ sym TOpenBrackets :: l ++ [sym TCloseBrackets])
  | E_append : forall a o c k, expr a k -> tok TOpenBrackets o -> tok TCloseBrackets c ->
      expr (NField a o None c) (k ++ [sym TOpenBrackets; sym TCloseBrackets])
  | E_array : forall o l c ks, tok TOpenBrackets o -> exprs l ks -> tok TCloseBrackets c ->
      expr (NArray o l c) (sym TOpenBrackets :: ks ++ [sym TCloseBrackets])
  | E_value : forall n k, expr n k -> expr (NArrayElement None None n) k
  | E_pair : forall a t b k l, expr a k -> tok TDoubleArrow t -> expr b l ->
      expr (NArrayElement (Some a) (Some t) b) (k ++ sym TDoubleArrow :: l)
  | E_new : forall t n k, tok TNew t -> expr n k -> expr (NNew t n) (sym TNew :: k)
  | E_clone : forall t n k, tok TClone t -> expr n k -> expr (NClone t n) (sym TClone :: k)
  | E_isset : forall t o l c ks, tok TIsset t -> tok TOpenParenthesis o -> exprs l ks -> tok TCloseParenthesis c ->
      expr (NIsset t o l c) (sym TIsset :: sym TOpenParenthesis :: ks ++ [sym TCloseParenthesis])
  | E_empty : forall t o l c ks, tok TEmpty t -> tok TOpenParenthesis o -> exprs l ks -> tok TCloseParenthesis c ->
      expr (NEmpty t o l c) (sym TEmpty :: sym TOpenParenthesis :: ks ++ [sym TCloseParenthesis])
  | E_old_array : forall t o l c ks, tok TTypeArray t -> tok TOpenParenthesis o -> exprs l ks ->
      tok TCloseParenthesis c ->
      expr (NOldArray t o l c) (sym TTypeArray :: sym TOpenParenthesis :: ks ++ [sym TCloseParenthesis])
  | E_include : forall t n k, one_of [TRequire; TRequireOnce; TInclude; TIncludeOnce] t -> expr n k ->
      expr (NFileInclude t n) (sym (t_type t) :: k)
  | E_arrow : forall t o ps c a r n k rk l, tok TFn t -> tok TOpenParenthesis o -> params ps k ->
      tok TCloseParenthesis c -> return_type r rk -> tok TDoubleArrow a -> expr n l ->
      expr (NArrowFunction None None t o ps c a r n [])
        (sym TFn :: sym TOpenParenthesis :: k ++ sym TCloseParenthesis :: rk ++ sym TDoubleArrow :: l)
  | E_closure : forall t o ps c r b k rk l, tok TFunction t -> tok TOpenParenthesis o -> params ps k ->
      tok TCloseParenthesis c -> return_type r rk -> block b l ->
      expr (NFunction None None t o ps c None r b [])
        (sym TFunction :: sym TOpenParenthesis :: k ++ sym TCloseParenthesis :: rk ++ l)

  (** [a, b, c], possibly empty *)
  with exprs : list Node -> list key -> Prop :=
  | L_none : exprs [] []
  | L_one : forall n k, expr n k -> exprs [n] k
  | L_more : forall n m l k ks, expr n k -> exprs (m :: l) ks -> exprs (n :: m :: l) (k ++ sym TComma :: ks)

  (** [int $a, &$b = 1, ...$c] *)
  with param : Node -> list key -> Prop :=
  | A_plain : forall ty tk v d dk, param_type ty tk -> tok TVariable v -> t_label v <> None -> default d dk ->
      param (NFunctionArgument ty v (option_map fst d) (option_map snd d) None None None []) (tk ++ key_of v :: dk)
  | A_reference : forall ty tk v r d dk, param_type ty tk -> tok TVariable v -> t_label v <> None ->
      tok TBinaryAnd r -> default d dk ->
      param (NFunctionArgument ty v (option_map fst d) (option_map snd d) None (Some r) None [])
        (tk ++ sym TBinaryAnd :: key_of v :: dk)
  | A_spread : forall ty tk v s, param_type ty tk -> tok TVariable v -> t_label v <> None -> tok TElipsis s ->
      param (NFunctionArgument ty v None None (Some s) None None []) (tk ++ sym TElipsis :: [key_of v])
  with default : option (Token * Node) -> list key -> Prop :=
  | A_required : default None []
  | A_default : forall t n k, tok TAssignment t -> expr n k -> default (Some (t, n)) (sym TAssignment :: k)
  with params : option (list Node) -> list key -> Prop :=
  | A_none : params None []
  | A_some : forall l ks, param_list l ks -> params (Some l) ks
  with param_list : list Node -> list key -> Prop :=
  | A_one : forall n k, param n k -> param_list [n] k
  | A_more : forall n l k ks, param n k -> param_list l ks -> param_list (n :: l) (k ++ sym TComma :: ks)

  (** [{ ... }] *)
  with block : Node -> list key -> Prop :=
  | B_block : forall o l c ks, tok TOpenCurly o -> stmts l ks -> tok TCloseCurly c ->
      block (NBlock o l c) (sym TOpenCurly :: ks ++ [sym TCloseCurly])

  (** [(...) : T { ... }] and, for abstract methods, [(...) : T;] *)
  with function_rest : Node -> list key -> Prop :=
  | F_body : forall o ps c r b k rk l, tok TOpenParenthesis o -> params ps k -> tok TCloseParenthesis c ->
      return_type r rk -> block b l ->
      function_rest (NFunctionDefinitionStatement o ps c r (Some b) None)
        (sym TOpenParenthesis :: k ++ sym TCloseParenthesis :: rk ++ l)
  | F_abstract : forall o ps c r k rk, tok TOpenParenthesis o -> params ps k -> tok TCloseParenthesis c ->
      return_type r rk ->
      function_rest (NFunctionDefinitionStatement o ps c r None None)
        (sym TOpenParenthesis :: k ++ sym TCloseParenthesis :: rk ++ [sym TSemicolon])

  (** the branches of an [if] *)
  with branches : list Node -> list key -> Prop :=
  | I_none : branches [] []
  | I_more : forall t o n c b l k bk ks, tok TElseIf t -> tok TOpenParenthesis o -> expr n k ->
      tok TCloseParenthesis c -> block b bk -> branches l ks ->
      branches (NIfBranch t o n c b :: l)
        (sym TElseIf :: sym TOpenParenthesis :: k ++ sym TCloseParenthesis :: bk ++ ks)
  with else_branch : option Node -> list key -> Prop :=
  | I_end : else_branch None []
  | I_else : forall t b k, tok TElse t -> block b k -> else_branch (Some (NElseBranch t b)) (sym TElse :: k)

  with stmt : Node -> list key -> Prop :=
  | S_expr : forall n k, expr n k -> stmt (NExpressionStatement n) (k ++ [sym TSemicolon])
  | S_echo : forall t n l ks, tok TEcho t -> exprs (n :: l) ks ->
      stmt (NEchoStatement t (n :: l)) (sym TEcho :: ks ++ [sym TSemicolon])
  | S_print : forall t n k, tok TPrint t -> expr n k ->
      stmt (NPrintStatement t [n]) (sym TPrint :: k ++ [sym TSemicolon])
  | S_return : forall t, tok TReturn t -> stmt (NReturnStatement t None) [sym TReturn; sym TSemicolon]
  | S_return_value : forall t n k, tok TReturn t -> expr n k ->
      stmt (NReturnStatement t (Some n)) (sym TReturn :: k ++ [sym TSemicolon])
  | S_jump : forall t, one_of [TBreak; TContinue] t ->
      stmt (NTokenStatement t None) [sym (t_type t); sym TSemicolon]
  | S_if : forall t o n c b l e k bk ks ek, tok TIf t -> tok TOpenParenthesis o -> expr n k ->
      tok TCloseParenthesis c -> block b bk -> branches l ks -> else_branch e ek ->
      stmt (NIfStatement (NIfBranch t o n c b) l e)
        (sym TIf :: sym TOpenParenthesis :: k ++ sym TCloseParenthesis :: bk ++ ks ++ ek)
  | S_while : forall t o n c b k bk, tok TWhile t -> tok TOpenParenthesis o -> expr n k ->
      tok TCloseParenthesis c -> block b bk ->
      stmt (NWhileStatement t o n c b) (sym TWhile :: sym TOpenParenthesis :: k ++ sym TCloseParenthesis :: bk)
  | S_do : forall t o c w n b k bk, tok TDo t -> tok TOpenParenthesis o -> tok TCloseParenthesis c ->
      tok TWhile w -> expr n k -> block b bk ->
      stmt (NDoWhileStatement t o c w n b)
        (sym TDo :: bk ++ sym TWhile :: sym TOpenParenthesis :: k ++ [sym TCloseParenthesis; sym TSemicolon])
  | S_for : forall t i c s b ik ck sk bk, tok TFor t -> exprs i ik -> exprs c ck -> exprs s sk -> block b bk ->
      stmt (NForStatement t i c s b)
        (sym TFor :: sym TOpenParenthesis :: ik ++ sym TSemicolon :: ck ++ sym TSemicolon :: sk
          ++ sym TCloseParenthesis :: bk)
  | S_foreach : forall t o n a v c b k vk bk, tok TForeach t -> tok TOpenParenthesis o -> expr n k -> tok TAs a ->
      expr v vk -> tok TCloseParenthesis c -> block b bk ->
      stmt (NForEachStatement t o n a v c b)
        (sym TForeach :: sym TOpenParenthesis :: k ++ sym TAs :: vk ++ sym TCloseParenthesis :: bk)
  | S_function : forall t n f k, tok TFunction t -> tok TIdentifier n -> function_rest f k ->
      stmt (NNamedFunctionDefinitionStatement t None n f []) (sym TFunction :: key_of n :: k)
  | S_namespace : forall t l, tok TNamespace t -> path name l ->
      stmt (NNamespaceStatement t (NTypeRef (tref_one l))) (sym TNamespace :: map key_of l ++ [sym TSemicolon])
  | S_class : forall t n m mk x xk i ik b bk, tok TClass t -> tok TIdentifier n -> modifier [TAbstract] m mk ->
      extending x xk -> implementing i ik -> members b bk ->
      stmt (NClassStatement t n m None i x b None []) (mk ++ sym TClass :: key_of n :: xk ++ ik ++ bk)
  | S_final_class : forall t n m mk x xk i ik b bk, tok TClass t -> tok TIdentifier n -> modifier [TFinal] m mk ->
      extending x xk -> implementing i ik -> members b bk ->
      stmt (NClassStatement t n None m i x b None []) (mk ++ sym TClass :: key_of n :: xk ++ ik ++ bk)

  with members : Node -> list key -> Prop :=
  | C_body : forall o l c ks, tok TOpenCurly o -> member_list l ks -> tok TCloseCurly c ->
      members (NBlock o l c) (sym TOpenCurly :: ks ++ [sym TCloseCurly])
  with member_list : list Node -> list key -> Prop :=
  | C_none : member_list [] []
  | C_more : forall n l k ks, member n k -> member_list l ks -> member_list (n :: l) (k ++ ks)
  (** visibility first, then [static] *)
  with member : Node -> list key -> Prop :=
  | C_method : forall t n v vk s sk f k, tok TFunction t -> name n -> modifier visibilities v vk ->
      modifier [TStatic] s sk -> function_rest f k ->
      member (NMethodDefinitionStatement t None None n v None f s None [])
        (vk ++ sk ++ sym TFunction :: key_of n :: k)
  | C_property : forall n v s sk, tok TVariable n -> t_label n <> None -> one_of visibilities v ->
      modifier [TStatic] s sk ->
      member (NPropertyDefinitionStatement [NProperty n None] None (Some v) None s None [])
        (sym (t_type v) :: sk ++ [key_of n; sym TSemicolon])
  | C_property_value : forall n e k v s sk, tok TVariable n -> t_label n <> None -> one_of visibilities v ->
      modifier [TStatic] s sk -> expr e k ->
      member (NPropertyDefinitionStatement [NProperty n (Some e)] None (Some v) None s None [])
        (sym (t_type v) :: sk ++ key_of n :: sym TAssignment :: k ++ [sym TSemicolon])
  | C_constant : forall t n e k v vk, tok TConst t -> name n -> modifier visibilities v vk -> expr e k ->
      member (NClassConstantDefinitionStatement t [NClassConstant v n e] None v [])
        (vk ++ sym TConst :: key_of n :: sym TAssignment :: k ++ [sym TSemicolon])

  with stmts : list Node -> list key -> Prop :=
  | S_none : stmts [] []
  | S_more : forall n l k ks, stmt n k -> stmts l ks -> stmts (n :: l) (k ++ ks).
End Trees.
