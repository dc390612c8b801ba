(** What it means for a list of tokens to describe a text.  Nothing here
    refers to the scanner. *)

From Verif Require Import Base Token.

(** Position behind a text: line = number of line feeds, column = number of
    characters behind the last line feed; carriage returns do not count. *)
Definition pos_step (p : N * N) (c : char) : N * N :=
  let '(l, k) := p in
  if c =? 10 then (l + 1, 0) else if c =? 13 then (l, k) else (l, k + 1).
Definition pos_of (text : str) : N * N := fold_left pos_step text (0, 0).

(** Reading order on (line, column) positions *)
Definition pos_le (a b : N * N) : Prop :=
  fst a < fst b \/ (fst a = fst b /\ snd a <= snd b).

Definition token_pos (t : Token) : N * N := (t_line t, t_col t).

Definition no_cr (s : str) : str := filter (fun c => negb (c =? 13)) s.

Definition contains (p s : str) : Prop := exists a b, s = a ++ p ++ b.

(** The body of a quoted literal: every quote and every backslash is escaped. *)
Inductive quoted_body (q : char) : str -> Prop :=
| QNil : quoted_body q []
| QPlain c r : c <> q -> c <> 92 -> quoted_body q r -> quoted_body q (c :: r)
| QEscape c r : quoted_body q r -> quoted_body q (92 :: c :: r).

(** Lower-case spellings of the tokens that have no label.
    The minus of the (illegal in most places) sequence [?-] is placed at the
    question mark, the [yield from] token at the word [from], and a cast at
    its opening parenthesis. *)
Definition spellings (t : TokenType) : list string :=
  (match t with
  | TTypeBool => ["bool"; "boolean"]
  | TTypeInt => ["int"; "integer"]
  | TTypeString => ["string"; "binary"]
  | TTypeArray => ["array"]
  | TTypeObject => ["object"]
  | TTypeFloat => ["float"; "double"]
  | TVoid => ["void"]
  | TNew => ["new"]
  | TClone => ["clone"]
  | TExit => ["exit"]
  | TIf => ["if"]
  | TElseIf => ["elseif"]
  | TElse => ["else"]
  | TEndIf => ["endif"]
  | TEcho => ["echo"]
  | TDo => ["do"]
  | TWhile => ["while"]
  | TEndWhile => ["endwhile"]
  | TFor => ["for"]
  | TEndFor => ["endfor"]
  | TForeach => ["foreach"]
  | TEndForeach => ["endforeach"]
  | TDeclare => ["declare"]
  | TDefine => ["define"]
  | TEndDeclare => ["enddeclare"]
  | TAs => ["as"]
  | TSwitch => ["switch"]
  | TEndSwitch => ["endswitch"]
  | TCase => ["case"]
  | TDefault => ["default"]
  | TBreak => ["break"]
  | TContinue => ["continue"]
  | TGoto => ["goto"]
  | TFunction => ["function"]
  | TFn => ["fn"]
  | TConst => ["const"]
  | TReturn => ["return"]
  | TTry => ["try"]
  | TCatch => ["catch"]
  | TFinally => ["finally"]
  | TThrow => ["throw"]
  | TUse => ["use"]
  | TInsteadof => ["insteadof"]
  | TGlobal => ["global"]
  | TStatic => ["static"]
  | TAbstract => ["abstract"]
  | TFinal => ["final"]
  | TPrivate => ["private"]
  | TProtected => ["protected"]
  | TPublic => ["public"]
  | TVar => ["var"]
  | TUnset => ["unset"]
  | TIsset => ["isset"]
  | TEmpty => ["empty"]
  | TNull => ["null"]
  | TTrue => ["true"]
  | TFalse => ["false"]
  | THaltCompiler => ["__halt_compiler"]
  | TClass => ["class"]
  | TTrait => ["trait"]
  | TInterface => ["interface"]
  | TExtends => ["extends"]
  | TImplements => ["implements"]
  | TList => ["list"]
  | TCallable => ["callable"]
  | TLogicAnd => ["&&"; "and"]
  | TLogicOr => ["||"; "or"]
  | TLogicXor => ["xor"]
  | TNamespace => ["namespace"]
  | TPrint => ["print"]
  | TConstLine => ["__line__"]
  | TConstFile => ["__file__"]
  | TConstDir => ["__dir__"]
  | TConstClass => ["__class__"]
  | TConstTrait => ["__trait__"]
  | TConstMethod => ["__method__"]
  | TConstFunction => ["__function__"]
  | TRequire => ["require"]
  | TRequireOnce => ["require_once"]
  | TInclude => ["include"]
  | TIncludeOnce => ["include_once"]
  | TInstanceOf => ["instanceof"]
  | TYield => ["yield"]
  | TTypeSelf => ["self"]
  | TParent => ["parent"]
  | TGenerator => ["generator"]
  | TMatch => ["match"]
  | TDie => ["die"]
  | TConstInf => ["inf"]
  | TConstNan => ["nan"]
  | TMinus => ["-"; "?-"]
  | TPaamayimNekudayim => ["::"]
  | TColon => [":"]
  | TSilencer => ["@"]
  | TBitwiseNegation => ["~"]
  | TComma => [","]
  | TNamespaceSeparator => ["\"]
  | TBinaryAndAssignment => ["&="]
  | TBinaryAnd => ["&"]
  | TModuloAssignment => ["%="]
  | TModulo => ["%"]
  | TBinaryOrAssignment => ["|="]
  | TBinaryOr => ["|"]
  | TRightShiftAssignment => [">>="]
  | TRightShift => [">>"]
  | TGreaterOrEqual => [">="]
  | TGreater => [">"]
  | TLeftShiftAssignment => ["<<="]
  | TLeftShift => ["<<"]
  | TSpaceShip => ["<=>"]
  | TSmallerOrEqual => ["<="]
  | TIsNotEqualAlt => ["<>"]
  | TSmaller => ["<"]
  | TCoalesceAssignment => ["??="]
  | TCoalesce => ["??"]
  | TNullsafeObjectOperator => ["?->"]
  | TQuestionMark => ["?"]
  | TIsNotIdentical => ["!=="]
  | TIsNotEqual => ["!="]
  | TNegation => ["!"]
  | TElipsis => ["..."]
  | TConcat => ["."]
  | TConcatAssignment => [".="]
  | TXorAssignment => ["^="]
  | TBinaryXor => ["^"]
  | TIncrement => ["++"]
  | TPlusAssign => ["+="]
  | TPlus => ["+"]
  | TDecrement => ["--"]
  | TMinusAssign => ["-="]
  | TObjectOperator => ["->"]
  | TPowerAssignment => ["**="]
  | TPower => ["**"]
  | TMulAssign => ["*="]
  | TMultiplication => ["*"]
  | TAttributeStart => ["#["]
  | TDivAssign => ["/="]
  | TDivision => ["/"]
  | TIsIdentical => ["==="]
  | TIsEqual => ["=="]
  | TDoubleArrow => ["=>"]
  | TAssignment => ["="]
  | TOpenParenthesis => ["("]
  | TCloseParenthesis => [")"]
  | TOpenCurly => ["{"]
  | TCloseCurly => ["}"]
  | TOpenBrackets => ["["]
  | TCloseBrackets => ["]"]
  | TSemicolon => [";"]
  | TScriptStart Regular => ["<?php"]
  | TScriptStart Short => ["<?"]
  | TScriptStart EchoTag => ["<?="]
  | TYieldFrom => ["from"]
  | TBoolCast => ["("]
  | TIntCast => ["("]
  | TStringCast => ["("]
  | TArrayCast => ["("]
  | TObjectCast => ["("]
  | TDoubleCast => ["("]
  | TUnsetCast => ["("]
  | _ => []
  end)%string.

Definition all_keywords : list string :=
  (["bool"; "boolean"; "int"; "integer"; "string"; "binary"; "array"; "object"; "float";
    "double"; "void"; "new"; "clone"; "exit"; "if"; "elseif"; "else"; "endif"; "echo";
    "do"; "while"; "endwhile"; "for"; "endfor"; "foreach"; "endforeach"; "declare";
    "define"; "enddeclare"; "as"; "switch"; "endswitch"; "case"; "default"; "break";
    "continue"; "goto"; "function"; "fn"; "const"; "return"; "try"; "catch"; "finally";
    "throw"; "use"; "insteadof"; "global"; "static"; "abstract"; "final"; "private";
    "protected"; "public"; "var"; "unset"; "isset"; "empty"; "null"; "true"; "false";
    "__halt_compiler"; "class"; "trait"; "interface"; "extends"; "implements"; "list";
    "callable"; "and"; "or"; "xor"; "namespace"; "print"; "__line__"; "__file__";
    "__dir__"; "__class__"; "__trait__"; "__method__"; "__function__"; "require";
    "require_once"; "include"; "include_once"; "instanceof"; "yield"; "self"; "parent";
    "generator"; "match"; "die"])%string.

Section WithRuntime.
  Context {RT : Runtime}.

  Definition ident_char (c : char) : Prop := is_alnum c = true \/ c = 95.
  Definition starts_ident (s : str) : Prop := exists c r, s = c :: r /\ ident_char c.

  (** [spelled t lex rest]: the text [lex], followed by [rest], is what token
      [t] stands for. *)
  Definition spelled (t : Token) (lex rest : str) : Prop :=
    match t_type t with
    | TIdentifier =>
        t_label t = Some lex /\ lex <> [] /\ Forall ident_char lex /\ ~ starts_ident rest
        /\ ~ In (to_lowercase lex) (map lit all_keywords) /\ lex <> lit "INF" /\ lex <> lit "NAN"
        /\ (forall c r, lex = c :: r -> is_digit c = false)
    | TVariable =>
        ~ starts_ident rest
        /\ match t_label t with
           | Some l => lex = 36 :: l /\ l <> [] /\ Forall ident_char l
           | None => lex = [36]
           end
    | TLongNumber => t_label t = Some lex /\ lex <> [] /\ forallb is_digit lex = true
    | THexNumber =>
        exists ds, t_label t = Some lex /\ lex = lit "0x" ++ ds
          /\ Forall (fun c => In c (lit "0123456789abcdefABCDEF")) ds
    | TBinaryNumber =>
        exists ds, t_label t = Some lex /\ lex = lit "0b" ++ ds /\ Forall (fun c => c = 48 \/ c = 49) ds
    | TDecimalNumber =>
        exists a b, lex = a ++ [46] ++ b /\ forallb is_digit a = true /\ forallb is_digit b = true
          /\ t_label t = Some (match a with [] => 48 :: lex | _ => lex end)
    | TExponentialNumber =>
        t_label t = Some (map ascii_lower lex)
        /\ exists a b e sg ds, lex = a ++ b ++ [e] ++ sg ++ ds
             /\ a <> [] /\ forallb is_digit a = true /\ forallb is_digit ds = true
             /\ (b = [] \/ exists b', b = 46 :: b' /\ forallb is_digit b' = true)
             /\ (e = 101 \/ e = 69) /\ (sg = [] \/ sg = [45] \/ sg = [43])
    | TConstantEncapsedString =>
        exists body, quoted_body 39 (no_cr body) /\ lex = 39 :: body ++ [39] /\ t_label t = Some (no_cr body)
          \/ (rest = [] /\ lex = 39 :: body /\ t_label t = Some (no_cr body))
    | TShellEscape =>
        exists body, quoted_body 96 (no_cr body) /\ lex = 96 :: body ++ [96] /\ t_label t = Some (no_cr body)
          \/ (rest = [] /\ lex = 96 :: body /\ t_label t = Some (no_cr body))
    | TEncapsedAndWhitespaceString =>
        (exists body, quoted_body 34 (no_cr body) /\ lex = 34 :: body ++ [34] /\ t_label t = Some (no_cr body)
          \/ (rest = [] /\ lex = 34 :: body /\ t_label t = Some (no_cr body)))
        \/ (is_some (t_label t) = true /\ starts_with (lit "<<<") lex = true)
    | THereDocStart | THereDocEnd =>
        is_some (t_label t) = true /\ starts_with (lit "<<<") lex = true
    | TMultilineComment =>
        exists body, lex = lit "/*" ++ body ++ lit "*/" /\ ~ contains (lit "*/") body
                     /\ t_label t = Some (no_cr body)
          \/ (rest = [] /\ lex = lit "/*" ++ body /\ t_label t = Some (no_cr body))
    | TLineComment =>
        (* the code takes away one character behind a number sign *)
        exists intro body, lex = intro ++ body /\ t_label t = Some body
          /\ ~ In 10 body /\ ~ In 13 body /\ ~ contains (lit "?>") body
          /\ (intro = lit "//" \/ exists crs x, intro = 35 :: crs ++ x
                /\ (forall c, In c crs -> c = 13) /\ (List.length x <= 1)%nat)
    | TScriptEnd => t_label t = None /\ exists a, lex = a ++ lit "?>"
    | TLinebreak => t_label t = None
    | TEof => t_label t = None /\ lex = [] /\ (forall c, In c rest -> c = 13)
    | k => t_label t = None /\ In (to_lowercase lex) (map lit (spellings k))
    end.

  (** The token stands for the text found at its position in [src]. *)
  Definition token_true (src : str) (t : Token) : Prop :=
    exists before lex rest,
      src = before ++ lex ++ rest /\ pos_of before = token_pos t /\ spelled t lex rest.
End WithRuntime.
