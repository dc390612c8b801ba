(** A grammar of PHP, written down from the language reference
    (https://www.php.net/manual/en/langref.php) and independent of the parser:
    which lists of tokens are expressions, statements, classes and files, and
    what their trees are.  The trees use the nodes of Node.v.

    Comments and line breaks are not part of the lists.  Expressions are given
    by an ambiguous grammar, as usual for a grammar that leaves precedence to a
    table: [Expr w e] says that [e] is one way to read [w].  (Which of them the
    parser chooses is the subject of C15, C16, C17 and C40.)

    Where the tree of the code leaves something out that is written, this is
    said at the rule. *)

From Verif Require Import Base Token Node SpecExpr.

(** [t] is a token of the kind [k] *)
Definition is (k : TokenType) (t : Token) : Prop := t_type t = k.
Definition one_of_kinds (l : list TokenType) (t : Token) : Prop := In (t_type t) l.

(** [w] is one token of the kind [k] or nothing, and [o] says which *)
Definition maybe (k : TokenType) (w : list Token) (o : option Token) : Prop :=
  (w = [] /\ o = None) \/ (exists t, w = [t] /\ o = Some t /\ is k t).

(** * Names and types *)

(** Names and reserved words.  Reserved words are allowed as names of members,
    and in qualified names. *)
Definition words : list TokenType :=
  [TIdentifier; TAbstract; TLogicAnd; TTypeArray; TAs; TBreak; TCallable; TCase; TCatch; TClass; TClone; TConst;
   TContinue; TDeclare; TDefault; TDie; TDo; TEcho; TElse; TElseIf; TEmpty; TEndDeclare; TEndFor;
   TEndForeach; TEndIf; TEndSwitch; TEndWhile; TExit; TExtends; TFinal; TFinally; TFn; TFor; TForeach;
   TFunction; TGlobal; TGoto; TIf; TImplements; TInclude; TIncludeOnce; TInstanceOf; TInsteadof;
   TInterface; TIsset; TList; TMatch; TNamespace; TNew; TLogicOr; TPrint; TPrivate; TProtected; TPublic;
   TRequire; TRequireOnce; TReturn; TStatic; TSwitch; TThrow; TTrait; TTry; TUnset; TUse; TVar; TWhile;
   TLogicXor; TYield; TTypeSelf; TParent; TTrue; TFalse; TNull; TVoid; TTypeBool; TTypeInt; TTypeFloat;
   TTypeString; TTypeObject; TGenerator; TDefine; THaltCompiler; TConstLine; TConstFile; TConstDir;
   TConstClass; TConstTrait; TConstMethod; TConstFunction].
Definition word : Token -> Prop := one_of_kinds words.

(** [A\B\C] *)
Inductive Path : list Token -> Prop :=
| Path_one : forall i, word i -> Path [i]
| Path_more : forall i s p, word i -> is TNamespaceSeparator s -> Path p -> Path (i :: s :: p).
(** [A\B\C] or [\A\B\C] *)
Inductive Qualified : list Token -> Prop :=
| Q_relative : forall p, Path p -> Qualified p
| Q_absolute : forall s p, is TNamespaceSeparator s -> Path p -> Qualified (s :: p).
Definition named (w : list Token) : Node := NTypeRef (tref_one w).

(** [A|B|C] *)
Inductive Union : list Token -> list Node -> Prop :=
| U_one : forall w, Qualified w -> Union w [named w]
| U_more : forall w b v l, Qualified w -> is TBinaryOr b -> Union v l -> Union (w ++ b :: v) (named w :: l).
(** [?A|B] *)
Inductive Type_ : list Token -> Node -> Prop :=
| Ty : forall wq q w l, maybe TQuestionMark wq q -> Union w l -> Type_ (wq ++ w) (NDataType q l).
Inductive OptType : list Token -> option Node -> Prop :=
| OT_none : OptType [] None
| OT_some : forall w n, Type_ w n -> OptType w (Some n).
(** [: A] *)
Inductive Returns : list Token -> option Node -> Prop :=
| R_none : Returns [] None
| R_some : forall c w n, is TColon c -> Type_ w n -> Returns (c :: w) (Some (NReturnType c n)).
(** [A, B, C] *)
Inductive Names : list Token -> list Node -> Prop :=
| Ns_one : forall w, Qualified w -> Names w [named w]
| Ns_more : forall w c v l, Qualified w -> is TComma c -> Names v l -> Names (w ++ c :: v) (named w :: l).

(** [extends A] and [implements A, B] *)
Inductive Extends : list Token -> option Node -> Prop :=
| Ex_none : Extends [] None
| Ex_some : forall t w, is TExtends t -> Qualified w -> Extends (t :: w) (Some (named w)).
Inductive NameClause (k : TokenType) : list Token -> option (list Node) -> Prop :=
| NC_none : NameClause k [] None
| NC_some : forall t w l, is k t -> Names w l -> NameClause k (t :: w) (Some l).

(** * Operators *)

Definition prefix_operator : Token -> Prop :=
  one_of_kinds [TPlus; TMinus; TNegation; TBitwiseNegation; TSilencer; TBinaryAnd; TIncrement; TDecrement; TNew;
                TClone; TElipsis; TBoolCast; TIntCast; TStringCast; TArrayCast; TObjectCast; TDoubleCast;
                TUnsetCast; TBadCast].
Definition postfix_operator : Token -> Prop := one_of_kinds [TIncrement; TDecrement].

(** * Variables *)

(** [$a] and [$$a] *)
Inductive Variable_ : list Token -> Node -> Prop :=
| V_named : forall t, is TVariable t -> t_label t <> None -> Variable_ [t] (NVariable t)
| V_variable : forall t w v, is TVariable t -> t_label t = None -> Variable_ w v ->
    Variable_ (t :: w) (NAliasedVariable t v).
Definition simple_variable (t : Token) : Prop := is TVariable t.
(** [&$a, $b], the variables of a closure *)
Inductive Lexical : list Token -> Node -> Prop :=
| Lx : forall wr r v, maybe TBinaryAnd wr r -> is TVariable v -> Lexical (wr ++ [v]) (NLexicalVariable r v).
Inductive Lexicals : list Token -> list Node -> Prop :=
| Lxs_one : forall w n, Lexical w n -> Lexicals w [n]
| Lxs_trail : forall w n c, Lexical w n -> is TComma c -> Lexicals (w ++ [c]) [n]
| Lxs_more : forall w n c v l, Lexical w n -> is TComma c -> Lexicals v l -> Lexicals (w ++ c :: v) (n :: l).
Inductive Uses : list Token -> option (list Node) -> Prop :=
| Us_none : Uses [] None
| Us_some : forall t a w l b, is TUse t -> is TOpenParenthesis a -> Lexicals w l -> is TCloseParenthesis b ->
    Uses (t :: a :: w ++ [b]) (Some l).

(** * Expressions, statements and classes *)

(** The kinds of tokens no expression statement starts with: reserved words of
    other statements, and tokens no expression starts with. *)
Definition statement_kinds : list TokenType :=
  [TScriptEnd; TFunction; TNamespace; TUse; TConst; TGlobal; TEcho; TPrint; TGoto; TReturn; TThrow; TClass;
   TTrait; TAbstract; TFinal; TInterface; TWhile; TDo; TFor; TForeach; TIf; TOpenCurly; TSwitch; TSemicolon;
   TBreak; TContinue; TTry; TDeclare; TUnset; TDie; TDefine; TAttributeStart;
   TElse; TElseIf; TCatch; TFinally; TCase; TDefault; TEndIf; TEndFor; TEndForeach; TEndWhile; TEndSwitch;
   TComma; TAssignment; TColon; TCloseCurly; TScriptStart Regular; TScriptStart Short; TScriptStart EchoTag].
(** The statement is neither one of those, nor a label, nor [static $a]. *)
Definition expression_start (w : list Token) : Prop :=
  match w with
  | t :: u :: _ =>
      ~ one_of_kinds statement_kinds t /\ (is TIdentifier t -> ~ is TColon u) /\ (is TStatic t -> ~ is TVariable u)
  | _ => False
  end.
(** An argument that is not named. *)
Definition positional (w : list Token) : Prop :=
  match w with t :: u :: _ => ~ is TColon u | _ => True end.

(** The modifiers of a member.  The usual order is [abstract], [final], the
    visibility, [static]. *)
Definition visibility_kinds : list TokenType := [TPublic; TVar; TPrivate; TProtected].
Definition modifier_kinds : list TokenType := [TAbstract; TFinal; TPublic; TVar; TPrivate; TProtected; TStatic].
Definition maybe_of (l : list TokenType) (w : list Token) (o : option Token) : Prop :=
  (w = [] /\ o = None) \/ (exists t, w = [t] /\ o = Some t /\ one_of_kinds l t).
Definition Usual (w : list Token) (ab fi vis st : option Token) : Prop :=
  exists w1 w2 w3 w4, w = w1 ++ w2 ++ w3 ++ w4 /\
    maybe_of [TAbstract] w1 ab /\ maybe_of [TFinal] w2 fi /\ maybe_of visibility_kinds w3 vis /\ maybe_of [TStatic] w4 st.
(** PHP allows every order.  Modifiers in the usual order are all in the tree of
    the code; otherwise only some of those that are written may be (C47). *)
Definition Modifiers (w : list Token) (ab fi vis st : option Token) : Prop :=
  Forall (one_of_kinds modifier_kinds) w /\
  (exists v u, w = v ++ u /\ Usual u ab fi vis st) /\
  (forall ab' fi' vis' st', Usual w ab' fi' vis' st' -> (ab, fi, vis, st) = (ab', fi', vis', st')).

(** How a statement ends: it is complete; or an [else], [elseif], [catch] or
    [finally] that follows would be part of it; or a semicolon has to follow,
    which is an empty statement of its own in the trees of the code. *)
Inductive ending := Closed | Open | Needs.
Definition semicolon_first (w : list Token) : Prop := exists s v, w = s :: v /\ is TSemicolon s.

(** [yield a => b] is one expression, so the key in front of a [=>] must not
    contain a [yield]. *)
Definition no_yield (w : list Token) : Prop := Forall (fun t => ~ is TYield t) w.

(** The value behind a [=>] is an expression that does not start with [&], or a
    reference to a variable. *)
Definition no_reference (w : list Token) : Prop := forall t v, w = t :: v -> ~ is TBinaryAnd t.

Inductive Expr : list Token -> Node -> Prop :=
| E_operand : forall w e, Operand w e -> Expr w e
| E_prefix : forall t w e, prefix_operator t -> Expr w e -> Expr (t :: w) (NUnary e t)
| E_postfix : forall w e t, Expr w e -> postfix_operator t -> Expr (w ++ [t]) (NPostUnary e t)
| E_binary : forall w1 e1 op w2 e2, Expr w1 e1 -> infix_operator op -> Expr w2 e2 ->
    Expr (w1 ++ op :: w2) (NBinary e1 op e2)
| E_ternary : forall w1 e1 q w2 e2 c w3 e3, Expr w1 e1 -> is TQuestionMark q -> Expr w2 e2 -> is TColon c ->
    Expr w3 e3 -> Expr (w1 ++ q :: w2 ++ c :: w3) (NTernary e1 q (Some e2) c e3)
| E_elvis : forall w1 e1 q c w2 e2, Expr w1 e1 -> is TQuestionMark q -> is TColon c -> Expr w2 e2 ->
    Expr (w1 ++ q :: c :: w2) (NTernary e1 q None c e2)
| E_include : forall t w e, one_of_kinds [TRequire; TRequireOnce; TInclude; TIncludeOnce] t -> Expr w e ->
    Expr (t :: w) (NFileInclude t e)
| E_yield : forall t w e, is TYield t -> Expr w e -> Expr (t :: w) (NYield t (Some (NArrayElement None None e)))
| E_yield_pair : forall t w1 e1 a w2 e2, is TYield t -> Expr w1 e1 -> no_yield w1 -> is TDoubleArrow a -> Expr w2 e2 ->
    no_reference w2 -> Expr (t :: w1 ++ a :: w2) (NYield t (Some (NArrayElement (Some e1) (Some a) e2)))
| E_yield_from : forall t w e, is TYieldFrom t -> Expr w e -> Expr (t :: w) (NYieldFrom t e)
(** [fn ($a): int => e] *)
| E_arrow : forall wa at_ ws s t wr r a wp p b wt ty ar w e,
    Attributes wa at_ -> maybe TStatic ws s -> is TFn t -> maybe TBinaryAnd wr r -> is TOpenParenthesis a ->
    Params wp p -> is TCloseParenthesis b -> Returns wt ty -> is TDoubleArrow ar -> Expr w e ->
    Expr (wa ++ ws ++ t :: wr ++ a :: wp ++ b :: wt ++ ar :: w) (NArrowFunction s r t a p b ar ty e at_)
| E_exit : forall t, is TExit t -> Expr [t] (NExit t None None None)

(** operands: what operators are applied to *)
with Operand : list Token -> Node -> Prop :=
| O_literal : forall t, literal (t_type t) = true -> Operand [t] (NLiteral t)
| O_variable : forall w v, Variable_ w v -> Operand w v
| O_braced : forall t a w e b, is TVariable t -> t_label t = None -> is TOpenCurly a -> Expr w e ->
    is TCloseCurly b -> Operand (t :: a :: w ++ [b]) (NDynamicVariable t a e b)
| O_name : forall t w, one_of_kinds [TIdentifier; TNamespaceSeparator] t -> Qualified (t :: w) ->
    Operand (t :: w) (named (t :: w))
| O_self : forall t, one_of_kinds [TTypeSelf; TParent; TStatic] t -> Operand [t] (NLiteral t)
| O_heredoc : forall a t b, is THereDocStart a -> is THereDocEnd b -> Operand [a; t; b] (NLiteral t)
| O_group : forall a w e b, is TOpenParenthesis a -> Expr w e -> is TCloseParenthesis b ->
    Operand (a :: w ++ [b]) (NGrouping e)
| O_array : forall a w l b, is TOpenBrackets a -> Elements w l -> is TCloseBrackets b ->
    Operand (a :: w ++ [b]) (NArray a l b)
| O_old_array : forall t a w l b, is TTypeArray t -> is TOpenParenthesis a -> Items w l -> is TCloseParenthesis b ->
    Operand (t :: a :: w ++ [b]) (NOldArray t a l b)
| O_list : forall t a w l b, is TList t -> is TOpenParenthesis a -> Elements w l -> is TCloseParenthesis b ->
    Operand (t :: a :: w ++ [b]) (NList t a l b)
| O_isset : forall t a w l b, is TIsset t -> is TOpenParenthesis a -> Values w l -> l <> [] -> is TCloseParenthesis b ->
    Operand (t :: a :: w ++ [b]) (NIsset t a l b)
| O_empty : forall t a w l b, is TEmpty t -> is TOpenParenthesis a -> Values w l -> l <> [] -> is TCloseParenthesis b ->
    Operand (t :: a :: w ++ [b]) (NEmpty t a l b)
| O_exit : forall t a w l b, is TExit t -> is TOpenParenthesis a -> Values w l -> is TCloseParenthesis b ->
    Operand (t :: a :: w ++ [b]) (NExit t (Some a) (Some l) (Some b))
| O_call : forall w f a v l b, Operand w f -> is TOpenParenthesis a -> Args v l -> is TCloseParenthesis b ->
    Operand (w ++ a :: v ++ [b]) (NCall f a l b)
| O_member : forall w o ar i, Operand w o -> one_of_kinds [TObjectOperator; TNullsafeObjectOperator] ar -> word i ->
    Operand (w ++ [ar; i]) (NMember o ar None (NLiteral i) None)
| O_member_variable : forall w o ar v n, Operand w o ->
    one_of_kinds [TObjectOperator; TNullsafeObjectOperator] ar -> Variable_ v n ->
    Operand (w ++ ar :: v) (NMember o ar None n None)
| O_member_braced : forall w o ar a v e b, Operand w o -> one_of_kinds [TObjectOperator; TNullsafeObjectOperator] ar ->
    is TOpenCurly a -> Expr v e -> is TCloseCurly b ->
    Operand (w ++ ar :: a :: v ++ [b]) (NMember o ar (Some a) e (Some b))
| O_static : forall w o pn i, Operand w o -> is TPaamayimNekudayim pn -> word i ->
    Operand (w ++ [pn; i]) (NStaticMember o pn None (NLiteral i) None)
| O_static_variable : forall w o pn v n, Operand w o -> is TPaamayimNekudayim pn -> Variable_ v n ->
    Operand (w ++ pn :: v) (NStaticMember o pn None n None)
| O_static_braced : forall w o pn a v n b, Operand w o -> is TPaamayimNekudayim pn -> is TOpenCurly a ->
    Variable_ v n -> is TCloseCurly b ->
    Operand (w ++ pn :: a :: v ++ [b]) (NStaticMember o pn (Some a) n (Some b))
| O_index : forall w o a v e b, Operand w o -> is TOpenBrackets a -> Expr v e -> is TCloseBrackets b ->
    Operand (w ++ a :: v ++ [b]) (NField o a (Some e) b)
| O_push : forall w o a b, Operand w o -> is TOpenBrackets a -> is TCloseBrackets b ->
    Operand (w ++ [a; b]) (NField o a None b)
| O_match : forall t a w e b c v l d, is TMatch t -> is TOpenParenthesis a -> Expr w e -> is TCloseParenthesis b ->
    is TOpenCurly c -> Arms v l -> is TCloseCurly d ->
    Operand (t :: a :: w ++ b :: c :: v ++ [d]) (NMatch t c a e b l d)
(** [function ($a) use ($b): int { ... }] *)
| O_closure : forall wa at_ ws s t wr r a wp p b wu u wt ty wb body,
    Attributes wa at_ -> maybe TStatic ws s -> is TFunction t -> maybe TBinaryAnd wr r -> is TOpenParenthesis a ->
    Params wp p -> is TCloseParenthesis b -> Uses wu u -> Returns wt ty -> Block wb body ->
    Operand (wa ++ ws ++ t :: wr ++ a :: wp ++ b :: wu ++ wt ++ wb) (NFunction s r t a p b u ty body at_)
(** the class of [new class (1) extends A { ... }] *)
| O_class : forall wa at_ t wp p we ex wi im wb body,
    Attributes wa at_ -> is TClass t -> ClassArguments wp p -> Extends we ex -> NameClause TImplements wi im ->
    ClassBody wb body ->
    Operand (wa ++ t :: wp ++ we ++ wi ++ wb) (NClass t p ex im body at_)

with ClassArguments : list Token -> option (list Node) -> Prop :=
| CA_none : ClassArguments [] None
| CA_some : forall a w l b, is TOpenParenthesis a -> Values w l -> is TCloseParenthesis b ->
    ClassArguments (a :: w ++ [b]) (Some l)

(** [e1, e2, e3] with an optional comma at the end, possibly empty *)
with Values : list Token -> list Node -> Prop :=
| Vs_none : Values [] []
| Vs_one : forall w e, Expr w e -> Values w [e]
| Vs_more : forall w e c v l, Expr w e -> is TComma c -> Values v l -> Values (w ++ c :: v) (e :: l)

(** arguments of a call *)
with Arg : list Token -> Node -> Prop :=
| Ar_value : forall w e, Expr w e -> positional w -> Arg w e
| Ar_named : forall i c w e, word i -> is TColon c -> Expr w e -> Arg (i :: c :: w) (NNamedParameter i c e)
with Args : list Token -> list Node -> Prop :=
| Ars_none : Args [] []
| Ars_one : forall w e, Arg w e -> Args w [e]
| Ars_more : forall w e c v l, Arg w e -> is TComma c -> Args v l -> Args (w ++ c :: v) (e :: l)

(** elements of an array; those of [[...]] and [list(...)] may be left out *)
with Pair : list Token -> Node -> Prop :=
| Pr_value : forall w e, Expr w e -> Pair w (NArrayElement None None e)
| Pr_key : forall w1 e1 a w2 e2, Expr w1 e1 -> no_yield w1 -> is TDoubleArrow a -> Expr w2 e2 ->
    no_reference w2 -> Pair (w1 ++ a :: w2) (NArrayElement (Some e1) (Some a) e2)
| Pr_reference : forall w1 e1 a r v, Expr w1 e1 -> no_yield w1 -> is TDoubleArrow a -> is TBinaryAnd r -> is TVariable v ->
    Pair (w1 ++ [a; r; v]) (NArrayElement (Some e1) (Some a) (NLexicalVariable (Some r) v))
with Items : list Token -> list Node -> Prop :=
| It_none : Items [] []
| It_one : forall w n, Pair w n -> Items w [n]
| It_more : forall w n c v l, Pair w n -> is TComma c -> Items v l -> Items (w ++ c :: v) (n :: l)
with Elements : list Token -> list Node -> Prop :=
| El_none : Elements [] []
| El_skip : forall c v l, is TComma c -> Elements v l -> Elements (c :: v) l
| El_one : forall w n, Pair w n -> Elements w [n]
| El_more : forall w n c v l, Pair w n -> is TComma c -> Elements v l -> Elements (w ++ c :: v) (n :: l)

(** the arms of a [match] *)
with Conditions : list Token -> list Node -> Prop :=
| Co_one : forall w e, Expr w e -> Conditions w [e]
| Co_more : forall w e c v l, Expr w e -> is TComma c -> Conditions v l -> Conditions (w ++ c :: v) (e :: l)
with Arm : list Token -> Node -> Prop :=
| Am_default : forall t ar w e, is TDefault t -> is TDoubleArrow ar -> Expr w e -> Arm (t :: ar :: w) (NMatchArm None ar e)
| Am_cases : forall v l ar w e, Conditions v l -> no_yield v -> is TDoubleArrow ar -> Expr w e ->
    Arm (v ++ ar :: w) (NMatchArm (Some l) ar e)
with Arms : list Token -> list Node -> Prop :=
| Ams_none : Arms [] []
| Ams_one : forall w n, Arm w n -> Arms w [n]
| Ams_more : forall w n c v l, Arm w n -> is TComma c -> Arms v l -> Arms (w ++ c :: v) (n :: l)

(** [#[A, B(1)]] *)
with Attributes : list Token -> list Node -> Prop :=
| At_none : Attributes [] []
| At_more : forall a w l b v l', is TAttributeStart a -> Conditions w l -> is TCloseBrackets b -> Attributes v l' ->
    Attributes (a :: w ++ b :: v) (NAttribute a l b :: l')

(** [#[A] ?int &...$a = 1]; the description [doc] comes from a comment *)
with Param : list Token -> Node -> Prop :=
| Pa : forall wa at_ wt ty wr r wd d v wi eq e doc,
    Attributes wa at_ -> OptType wt ty -> maybe TBinaryAnd wr r -> maybe TElipsis wd d -> is TVariable v ->
    Initial wi eq e ->
    Param (wa ++ wt ++ wr ++ wd ++ v :: wi) (NFunctionArgument ty v eq e d r doc at_)
with Initial : list Token -> option Token -> option Node -> Prop :=
| In_none : Initial [] None None
| In_some : forall t w e, is TAssignment t -> Expr w e -> Initial (t :: w) (Some t) (Some e)
with ParamList : list Token -> list Node -> Prop :=
| Pl_one : forall w n, Param w n -> ParamList w [n]
| Pl_more : forall w n c v l, Param w n -> is TComma c -> ParamList v l -> ParamList (w ++ c :: v) (n :: l)
with Params : list Token -> option (list Node) -> Prop :=
| Ps_none : Params [] None
| Ps_some : forall w l, ParamList w l -> Params w (Some l)

(** [($a): int { ... }] and [($a): int;] behind the name of a function *)
with Signature : list Token -> Node -> Prop :=
| Si_body : forall a wp p b wt ty wb body doc,
    is TOpenParenthesis a -> Params wp p -> is TCloseParenthesis b -> Returns wt ty -> Block wb body ->
    Signature (a :: wp ++ b :: wt ++ wb) (NFunctionDefinitionStatement a p b ty (Some body) doc)
| Si_abstract : forall a wp p b wt ty s doc,
    is TOpenParenthesis a -> Params wp p -> is TCloseParenthesis b -> Returns wt ty -> is TSemicolon s ->
    Signature (a :: wp ++ b :: wt ++ [s]) (NFunctionDefinitionStatement a p b ty None doc)

(** [{ ... }] *)
with Block : list Token -> Node -> Prop :=
| Bl : forall a w l b, is TOpenCurly a -> Statements false w l -> is TCloseCurly b -> Block (a :: w ++ [b]) (NBlock a l b)

with Statement : ending -> list Token -> Node -> Prop :=
| S_expression : forall w e s, Expr w e -> is TSemicolon s -> expression_start (w ++ [s]) ->
    Statement Closed (w ++ [s]) (NExpressionStatement e)
| S_label : forall i c, is TIdentifier i -> is TColon c -> Statement Closed [i; c] (NLabelStatement i c)
| S_echo : forall t w l s, is TEcho t -> Conditions w l -> is TSemicolon s -> Statement Closed (t :: w ++ [s]) (NEchoStatement t l)
| S_print : forall t w e s, is TPrint t -> Expr w e -> is TSemicolon s -> Statement Closed (t :: w ++ [s]) (NPrintStatement t [e])
| S_return : forall t s, is TReturn t -> is TSemicolon s -> Statement Closed [t; s] (NReturnStatement t None)
| S_return_value : forall t w e s, is TReturn t -> Expr w e -> is TSemicolon s ->
    Statement Closed (t :: w ++ [s]) (NReturnStatement t (Some e))
| S_throw : forall t w e s, is TThrow t -> Expr w e -> is TSemicolon s -> Statement Closed (t :: w ++ [s]) (NThrowStatement t e)
| S_goto : forall t i s, is TGoto t -> word i -> is TSemicolon s -> Statement Closed [t; i; s] (NGotoStatement t i)
| S_nothing : forall s, is TSemicolon s -> Statement Closed [s] (NTokenStatement s None)
| S_break : forall t s, one_of_kinds [TBreak; TContinue] t -> is TSemicolon s -> Statement Closed [t; s] (NTokenStatement t None)
| S_break_value : forall t w e s, one_of_kinds [TBreak; TContinue] t -> Expr w e -> is TSemicolon s ->
    Statement Closed (t :: w ++ [s]) (NTokenStatement t (Some e))
| S_const : forall t w l s, is TConst t -> Constants w l -> is TSemicolon s -> Statement Closed (t :: w ++ [s]) (NConstStatement t l)
| S_global : forall t w l s, is TGlobal t -> Globals w l -> is TSemicolon s ->
    Statement Closed (t :: w ++ [s]) (NGlobalVariablesStatement t l)
(** Variables without a value are left out of the tree. *)
| S_static : forall t w l, is TStatic t -> Statics w l -> Statement Needs (t :: w) (NStaticVariablesStatement t l)
| S_unset : forall t a w l b, is TUnset t -> is TOpenParenthesis a -> Values w l -> l <> [] -> is TCloseParenthesis b ->
    Statement Needs (t :: a :: w ++ [b]) (NUnsetStatement t a l b)
| S_die : forall t a b, is TDie t -> is TOpenParenthesis a -> is TCloseParenthesis b ->
    Statement Needs [t; a; b] (NDieStatement t a None b)
| S_die_value : forall t a w e b, is TDie t -> is TOpenParenthesis a -> Expr w e -> is TCloseParenthesis b ->
    Statement Needs (t :: a :: w ++ [b]) (NDieStatement t a (Some e) b)
| S_define : forall t a w1 e1 c w2 e2 b, is TDefine t -> is TOpenParenthesis a -> Expr w1 e1 -> is TComma c -> Expr w2 e2 ->
    is TCloseParenthesis b -> Statement Needs (t :: a :: w1 ++ c :: w2 ++ [b]) (NDefineStatement e1 e2 a b t None)
| S_declare : forall t a d eq v b, is TDeclare t -> is TOpenParenthesis a -> is TIdentifier d -> is TAssignment eq ->
    one_of_kinds [TFalse; TTrue; TNull; TLongNumber; TDecimalNumber; TExponentialNumber; THexNumber; TBinaryNumber;
                  TConstantEncapsedString; TEncapsedAndWhitespaceString] v ->
    is TCloseParenthesis b -> Statement Closed [t; a; d; eq; v; b] (NDeclareStatement d v eq a b t)
| S_block : forall w n, Block w n -> Statement Closed w n
| S_if : forall t a w e b x wb body y wt l o, is TIf t -> is TOpenParenthesis a -> Expr w e -> is TCloseParenthesis b ->
    Statement x wb body -> IfTail x y wt l o ->
    Statement y (t :: a :: w ++ b :: wb ++ wt) (NIfStatement (NIfBranch t a e b body) l o)
(** [if (e): ... elseif (e): ... else: ... endif;] *)
| S_if_alternative : forall t a w e b c x ws l y wt l' o, is TIf t -> is TOpenParenthesis a -> Expr w e -> is TCloseParenthesis b ->
    is TColon c -> Statements true ws l -> AltTail x y wt l' o ->
    Statement y (t :: a :: w ++ b :: c :: ws ++ x :: wt) (NIfStatement (NIfBranch t a e b (NAlternativeBlock c l x)) l' o)
| S_while : forall closed t a w e b wb body, is TWhile t -> is TOpenParenthesis a -> Expr w e -> is TCloseParenthesis b ->
    Body TEndWhile closed wb body -> Statement closed (t :: a :: w ++ b :: wb) (NWhileStatement t a e b body)
| S_do : forall t x wb body u a w e b s, is TDo t -> Statement x wb body -> x <> Needs -> is TWhile u -> is TOpenParenthesis a ->
    Expr w e -> is TCloseParenthesis b -> is TSemicolon s ->
    Statement Closed (t :: wb ++ u :: a :: w ++ [b; s]) (NDoWhileStatement t a b u e body)
| S_for : forall closed t a w1 l1 s1 w2 l2 s2 w3 l3 b wb body, is TFor t -> is TOpenParenthesis a -> Series w1 l1 ->
    is TSemicolon s1 -> Series w2 l2 -> is TSemicolon s2 -> Series w3 l3 -> is TCloseParenthesis b ->
    Body TEndFor closed wb body ->
    Statement closed (t :: a :: w1 ++ s1 :: w2 ++ s2 :: w3 ++ b :: wb) (NForStatement t l1 l2 l3 body)
| S_foreach : forall closed t a w e u wk kv b wb body, is TForeach t -> is TOpenParenthesis a -> Expr w e -> is TAs u ->
    Pair wk kv -> is TCloseParenthesis b -> Body TEndForeach closed wb body ->
    Statement closed (t :: a :: w ++ u :: wk ++ b :: wb) (NForEachStatement t a e u kv b body)
| S_switch : forall t a w e b c wb l d y, is TSwitch t -> is TOpenParenthesis a -> Expr w e -> is TCloseParenthesis b ->
    ((is TOpenCurly c /\ is TCloseCurly d /\ y = Closed) \/ (is TColon c /\ is TEndSwitch d /\ y = Needs)) -> Branches wb l ->
    Statement y (t :: a :: w ++ b :: c :: wb ++ [d]) (NSwitchCase t a e b (NSwitchBody c l d))
| S_try : forall t wb body wc l, is TTry t -> Block wb body -> Catches wc l ->
    Statement Open (t :: wb ++ wc) (NTryCatch t body l None)
| S_try_finally : forall t wb body wc l f wf fin, is TTry t -> Block wb body -> Catches wc l -> is TFinally f -> Block wf fin ->
    Statement Closed (t :: wb ++ wc ++ f :: wf) (NTryCatch t body l (Some (NFinallyBlock f fin)))
| S_function : forall wa at_ t wr r i w n, Attributes wa at_ -> is TFunction t -> maybe TBinaryAnd wr r -> word i -> Signature w n ->
    Statement Closed (wa ++ t :: wr ++ i :: w) (NNamedFunctionDefinitionStatement t r i n at_)
| S_class : forall wa at_ wm ab fi t i we ex wi im wb body doc, Attributes wa at_ ->
    ((maybe TAbstract wm ab /\ fi = None) \/ (maybe TFinal wm fi /\ ab = None)) -> is TClass t -> word i ->
    Extends we ex -> NameClause TImplements wi im -> ClassBody wb body ->
    Statement Closed (wa ++ wm ++ t :: i :: we ++ wi ++ wb) (NClassStatement t i ab fi im ex body doc at_)
| S_interface : forall t i we ex wb body doc, is TInterface t -> is TIdentifier i -> NameClause TExtends we ex ->
    ClassBody wb body -> Statement Closed (t :: i :: we ++ wb) (NInterface t i ex body doc)
| S_trait : forall t i wb body doc, is TTrait t -> is TIdentifier i -> ClassBody wb body ->
    Statement Closed (t :: i :: wb) (NTraitStatement t i body doc)
| S_namespace : forall t w s, is TNamespace t -> Path w -> is TSemicolon s ->
    Statement Closed (t :: w ++ [s]) (NNamespaceStatement t (named w))
| S_namespace_block : forall t w wb body, is TNamespace t -> Path w -> Block wb body ->
    Statement Closed (t :: w ++ wb) (NNamespaceBlock t (Some (named w)) body)
| S_global_namespace : forall t wb body, is TNamespace t -> Block wb body -> Statement Closed (t :: wb) (NNamespaceBlock t None body)
| S_use : forall t w l s, is TUse t -> UseItems t w l -> is TSemicolon s -> Statement Closed (t :: w ++ [s]) (NUseStatement t l)
| S_use_function : forall t f w l s, is TUse t -> is TFunction f -> Aliases (NUseFunction (Some t)) w l -> is TSemicolon s ->
    Statement Closed (t :: f :: w ++ [s]) (NUseFunctionStatement t l)
| S_use_const : forall t f w l s, is TUse t -> is TConst f -> Aliases (NUseConst (Some t)) w l -> is TSemicolon s ->
    Statement Closed (t :: f :: w ++ [s]) (NUseConstStatement t l)
| S_html : forall a b, is TScriptEnd a -> one_of_kinds [TScriptStart Regular; TScriptStart Short] b ->
    Statement Closed [a; b] (NInlineHtml a (Some b))

(** Statements one after the other; the last one is closed if [closed].  The
    trees of the code have the [@var] parts of comments in between. *)
with Statements : bool -> list Token -> list Node -> Prop :=
| Ss_none : forall closed, Statements closed [] []
| Ss_more : forall closed x w n v l, Statement x w n -> (x = Needs -> semicolon_first v) ->
    (closed = true -> v = [] -> x = Closed) -> Statements closed v l -> Statements closed (w ++ v) (n :: l)
| Ss_comment : forall closed w l name ty text, Statements closed w l -> Statements closed w (NDocCommentVar name ty text :: l)

(** [IfTail x y w l o]: [elseif (e) ...] and [else ...] behind a branch that
    ends with [x]; the whole ends with [y] *)
with IfTail : ending -> ending -> list Token -> list Node -> option Node -> Prop :=
| If_end : forall x, IfTail x (match x with Needs => Needs | _ => Open end) [] [] None
| If_else : forall y t w n, is TElse t -> Statement y w n -> IfTail Closed y (t :: w) [] (Some (NElseBranch t n))
| If_elseif : forall y t a w e b x wb body wt l o, is TElseIf t -> is TOpenParenthesis a -> Expr w e -> is TCloseParenthesis b ->
    Statement x wb body -> IfTail x y wt l o ->
    IfTail Closed y (t :: a :: w ++ b :: wb ++ wt) (NIfBranch t a e b body :: l) o
(** [AltTail x y w l o]: what follows [x], the [elseif], [else] or [endif] that
    ends a branch; the whole ends with [y].  The tree has each of them with
    the branch before it. *)
with AltTail : Token -> ending -> list Token -> list Node -> option Node -> Prop :=
| Al_end : forall x, is TEndIf x -> AltTail x Needs [] [] None
| Al_else : forall x c ws l y s, is TElse x -> is TColon c -> Statements false ws l -> is TEndIf y -> is TSemicolon s ->
    AltTail x Closed (c :: ws ++ [y; s]) [] (Some (NElseBranch x (NAlternativeBlock c l y)))
| Al_elseif : forall x a w e b c ws l y z wt l' o, is TElseIf x -> is TOpenParenthesis a -> Expr w e -> is TCloseParenthesis b ->
    is TColon c -> Statements true ws l -> AltTail y z wt l' o ->
    AltTail x z (a :: w ++ b :: c :: ws ++ y :: wt) (NIfBranch x a e b (NAlternativeBlock c l y) :: l') o

(** the body of a loop *)
with Body : TokenType -> ending -> list Token -> Node -> Prop :=
| Bo_statement : forall k closed w n, Statement closed w n -> Body k closed w n
| Bo_alternative : forall k c ws l x s, is TColon c -> Statements false ws l -> is k x -> is TSemicolon s ->
    Body k Closed (c :: ws ++ [x; s]) (NAlternativeBlock c l x)

(** the parts of a [for] *)
with Series : list Token -> list Node -> Prop :=
| Sr_none : Series [] []
| Sr_some : forall w l, Conditions w l -> Series w l

(** [case 1: case 2: ...] *)
with Labels : list Token -> list (option Node) -> Prop :=
| La_none : Labels [] []
| La_case : forall t w e c v l, is TCase t -> Expr w e -> one_of_kinds [TColon; TSemicolon] c -> Labels v l ->
    Labels (t :: w ++ c :: v) (Some e :: l)
| La_default : forall t c v l, is TDefault t -> one_of_kinds [TColon; TSemicolon] c -> Labels v l ->
    Labels (t :: c :: v) (None :: l)
with Branches : list Token -> list Node -> Prop :=
| Br_none : Branches [] []
| Br_more : forall w l ws ls v l', Labels w l -> l <> [] -> PlainStatements ws ls -> Branches v l' ->
    Branches (w ++ ws ++ v) (NSwitchBranch l ls :: l')
(** statements without the parts of comments in between *)
with PlainStatements : list Token -> list Node -> Prop :=
| Pls_none : PlainStatements [] []
| Pls_more : forall x w n v l, Statement x w n -> (x = Needs -> semicolon_first v) -> PlainStatements v l -> PlainStatements (w ++ v) (n :: l)

(** [catch (A|B $e) { ... }] *)
with Catches : list Token -> list Node -> Prop :=
| Ca_none : Catches [] []
| Ca_more : forall t a w l v b wb body u l', is TCatch t -> is TOpenParenthesis a -> Union w l -> is TVariable v ->
    is TCloseParenthesis b -> Block wb body -> Catches u l' ->
    Catches (t :: a :: w ++ v :: b :: wb ++ u) (NCatchBlock t a l v b body :: l')

(** [A = 1, B = 2] *)
with Constants : list Token -> list Node -> Prop :=
| Cs_one : forall i q w e, word i -> is TAssignment q -> Expr w e -> Constants (i :: q :: w) [NConst i q e]
| Cs_more : forall i q w e c v l, word i -> is TAssignment q -> Expr w e -> is TComma c -> Constants v l ->
    Constants (i :: q :: w ++ c :: v) (NConst i q e :: l)
(** [$a, $b] *)
with Globals : list Token -> list Node -> Prop :=
| Gl_one : forall w v, Variable_ w v -> Globals w [v]
| Gl_more : forall w v c u l, Variable_ w v -> is TComma c -> Globals u l -> Globals (w ++ c :: u) (v :: l)
(** [$a = 1, $b] *)
with Statics : list Token -> list Node -> Prop :=
| St_one : forall v, is TVariable v -> Statics [v] []
| St_one_value : forall v q w e, is TVariable v -> is TAssignment q -> Expr w e ->
    Statics (v :: q :: w) [NStaticVariable v (Some q) (Some e)]
| St_more : forall v c u l, is TVariable v -> is TComma c -> Statics u l -> Statics (v :: c :: u) l
| St_more_value : forall v q w e c u l, is TVariable v -> is TAssignment q -> Expr w e -> is TComma c -> Statics u l ->
    Statics (v :: q :: w ++ c :: u) (NStaticVariable v (Some q) (Some e) :: l)

(** [A as B] *)
with Alias : (Node -> option Token -> option Token -> Node) -> list Token -> Node -> Prop :=
| Alias_none : forall f w, Qualified w -> Alias f w (f (named w) None None)
| Alias_as : forall f w t i, Qualified w -> is TAs t -> is TIdentifier i ->
    Alias f (w ++ [t; i]) (f (named w) (Some t) (Some i))
with Aliases : (Node -> option Token -> option Token -> Node) -> list Token -> list Node -> Prop :=
| Als_one : forall f w n, Alias f w n -> Aliases f w [n]
| Als_more : forall f w n c v l, Alias f w n -> is TComma c -> Aliases f v l -> Aliases f (w ++ c :: v) (n :: l)
(** [A\{B, function c, const D as E}] *)
with ImportItem : list Token -> Node -> Prop :=
| Im_class : forall t w n, one_of_kinds [TIdentifier] t -> Alias (NUseDeclaration None) (t :: w) n -> ImportItem (t :: w) n
| Im_function : forall t w n, is TFunction t -> Alias (NUseFunction None) w n -> ImportItem (t :: w) n
| Im_const : forall t w n, is TConst t -> Alias (NUseConst None) w n -> ImportItem (t :: w) n
with ImportItems : list Token -> list Node -> Prop :=
| Ims_one : forall w n, ImportItem w n -> ImportItems w [n]
| Ims_trail : forall w n c, ImportItem w n -> is TComma c -> ImportItems (w ++ [c]) [n]
| Ims_more : forall w n c v l, ImportItem w n -> is TComma c -> ImportItems v l -> ImportItems (w ++ c :: v) (n :: l)
with UseItem : Token -> list Token -> Node -> Prop :=
| Ui_alias : forall t i w n, ~ one_of_kinds [TFunction; TConst] i -> Alias (NUseDeclaration (Some t)) (i :: w) n -> UseItem t (i :: w) n
| Ui_group : forall t i w s a v l b, ~ one_of_kinds [TFunction; TConst] i -> Qualified (i :: w) -> is TNamespaceSeparator s ->
    is TOpenCurly a -> ImportItems v l -> is TCloseCurly b ->
    UseItem t (i :: w ++ s :: a :: v ++ [b]) (NGroupedUse t (NTypeRef (tref_one (i :: w ++ [s]))) a l b)
with UseItems : Token -> list Token -> list Node -> Prop :=
| Uis_one : forall t w n, UseItem t w n -> UseItems t w [n]
| Uis_more : forall t w n c v l, UseItem t w n -> is TComma c -> UseItems t v l -> UseItems t (w ++ c :: v) (n :: l)

(** * Members *)

with ClassBody : list Token -> Node -> Prop :=
| CB : forall a w l b, is TOpenCurly a -> Members w l -> is TCloseCurly b -> ClassBody (a :: w ++ [b]) (NBlock a l b)
with Members : list Token -> list Node -> Prop :=
| Ms_none : Members [] []
| Ms_more : forall w n v l, Member w n -> Members v l -> Members (w ++ v) (n :: l)
with Member : list Token -> Node -> Prop :=
| M_use : forall t w l s, is TUse t -> Names w l -> is TSemicolon s ->
    Member (t :: w ++ [s]) (NUseTraitStatement t (map NUseTrait l))
| M_use_rules : forall t w l a v r b, is TUse t -> Names w l -> is TOpenCurly a -> Rules v r -> is TCloseCurly b ->
    Member (t :: w ++ a :: v ++ [b]) (NUseTraitStatement t [NUseTraitAlterationBlock l a r b])
| M_constants : forall wa at_ wm ab fi vis st t w l s doc, Attributes wa at_ -> Modifiers wm ab fi vis st ->
    is TConst t -> ClassConstants vis w l -> is TSemicolon s ->
    Member (wa ++ wm ++ t :: w ++ [s]) (NClassConstantDefinitionStatement t l doc vis at_)
| M_method : forall wa at_ wm ab fi vis st t wr r i w n doc, Attributes wa at_ -> Modifiers wm ab fi vis st ->
    is TFunction t -> maybe TBinaryAnd wr r -> word i -> Signature w n ->
    Member (wa ++ wm ++ t :: wr ++ i :: w) (NMethodDefinitionStatement t fi r i vis ab n st doc at_)
| M_properties : forall wa at_ wm ab fi vis st wt ty w l s doc, Attributes wa at_ -> Modifiers wm ab fi vis st -> wm <> [] -> OptType wt ty -> PropertyType wt -> Properties w l -> is TSemicolon s ->
    Member (wa ++ wm ++ wt ++ w ++ [s]) (NPropertyDefinitionStatement l doc vis ty st ab at_)
with ClassConstants : option Token -> list Token -> list Node -> Prop :=
| Cc_one : forall vis i q w e, word i -> is TAssignment q -> Expr w e -> ClassConstants vis (i :: q :: w) [NClassConstant vis i e]
| Cc_more : forall vis i q w e c v l, word i -> is TAssignment q -> Expr w e -> is TComma c -> ClassConstants vis v l ->
    ClassConstants vis (i :: q :: w ++ c :: v) (NClassConstant vis i e :: l)
with Properties : list Token -> list Node -> Prop :=
| Py_one : forall v w q e, is TVariable v -> Initial w q e -> Properties (v :: w) [NProperty v e]
| Py_more : forall v w q e c u l, is TVariable v -> Initial w q e -> is TComma c -> Properties u l ->
    Properties (v :: w ++ c :: u) (NProperty v e :: l)
(** a type that starts with none of the words that would be read as something else *)
with PropertyType : list Token -> Prop :=
| Pt_none : PropertyType []
| Pt_some : forall t w, ~ one_of_kinds (TConst :: TFunction :: modifier_kinds) t -> PropertyType (t :: w)
(** [A::f insteadof B; f as protected g;] *)
with Rules : list Token -> list Node -> Prop :=
| Ru_none : Rules [] []
| Ru_more : forall w n s v l, Rule w n -> is TSemicolon s -> Rules v l -> Rules (w ++ s :: v) (n :: l)
with Rule : list Token -> Node -> Prop :=
| Rl_insteadof : forall w c pn m t v l, Subject w c pn m -> is TInsteadof t -> Names v l ->
    Rule (w ++ t :: v) (NUseTraitInsteadOf c pn m t l)
| Rl_as : forall w c pn m t wv vis wi i, Subject w c pn m -> is TAs t ->
    (wv = [] /\ vis = None \/ exists x, wv = [x] /\ vis = Some x /\ one_of_kinds [TPrivate; TPublic; TProtected] x) ->
    ((wi = [] /\ i = None) \/ exists x, wi = [x] /\ i = Some x /\ is TIdentifier x) ->
    Rule (w ++ t :: wv ++ wi) (NUseTraitAs c pn m t vis i)
with Subject : list Token -> option Node -> option Token -> Node -> Prop :=
| Su_member : forall w, Qualified w -> Subject w None None (named w)
| Su_class : forall w pn v, Qualified w -> is TPaamayimNekudayim pn -> Qualified v ->
    Subject (w ++ pn :: v) (Some (named w)) (Some pn) (named v).

(** * Files *)

(** [<?php ...] with at least one statement *)
Inductive File : list Token -> list Node -> Prop :=
| F_script : forall t w l, one_of_kinds [TScriptStart Regular; TScriptStart Short] t -> w <> [] -> Statements false w l ->
    File (t :: w) l.
