(** Tokens: /repo/src/parser/token.rs.

    Line and column numbers ([u32] in the code) and offsets ([usize]) are
    unbounded [N]: documents of more than 2^32 lines or columns are not
    modelled. *)

From Verif Require Import Base.

(** token.rs:7-12 *)
Inductive ScriptStartType := Regular | Short | EchoTag.

(** token.rs:14-215.  Constructor [TFoo] is [TokenType::Foo]. *)
Inductive TokenType :=
| TEof
| TLinebreak
| TMissing
| TPlus
| TMinus
| TMultiplication
| TDivision
| TGreater
| TSmaller
| TQuestionMark
| TExclamationMark
| TAssignment
| TVariable
| TOpenParenthesis
| TCloseParenthesis
| TOpenCurly
| TCloseCurly
| TOpenBrackets
| TCloseBrackets
| TSemicolon
| TLogicOr
| TLogicAnd
| TBinaryOr
| TBinaryAnd
| TNegation
| TColon
| TComma
| TNamespaceSeparator
| TConcat
| TSilencer
| TBitwiseNegation
| TModulo
| TBinaryXor
| TIncrement
| TDecrement
| TPower
| TPlusAssign
| TMinusAssign
| TMulAssign
| TDivAssign
| TLineComment
| TMultilineComment
| TRightShift
| TLeftShift
| TScriptEnd
| TIsNotEqual
| TIsNotEqualAlt
| TIsEqual
| TGreaterOrEqual
| TSmallerOrEqual
| TCoalesce
| TBinaryAndAssignment
| TBinaryOrAssignment
| TObjectOperator
| TNullsafeObjectOperator
| TModuloAssignment
| TConcatAssignment
| TXorAssignment
| TPaamayimNekudayim
| TDoubleArrow
| TRightShiftAssignment
| TLeftShiftAssignment
| TIsNotIdentical
| TIsIdentical
| TPowerAssignment
| TSpaceShip
| TCoalesceAssignment
| TElipsis
| TLogicXor
| TConstNan
| TConstInf
| TScriptStart (k : ScriptStartType)
| TIdentifier
| TDecimalNumber
| TExponentialNumber
| TLongNumber
| THexNumber
| TBinaryNumber
| TConstantEncapsedString
| TEncapsedAndWhitespaceString
| TShellEscape
| THereDocStart
| THereDocEnd
| TBoolCast
| TBadCast
| TIntCast
| TStringCast
| TArrayCast
| TObjectCast
| TDoubleCast
| TUnsetCast
| TGenerator
| TResource
| TExit
| TIf
| TDie
| TElseIf
| TElse
| TEndIf
| TEcho
| TPrint
| TInclude
| TIncludeOnce
| TRequire
| TRequireOnce
| TDo
| TWhile
| TEndWhile
| TFor
| TEndFor
| TForeach
| TEndForeach
| TDeclare
| TEndDeclare
| TAs
| TMatch
| TSwitch
| TEndSwitch
| TCase
| TDefault
| TBreak
| TContinue
| TGoto
| TFunction
| TFn
| TConst
| TReturn
| TTry
| TCatch
| TFinally
| TThrow
| TUse
| TInsteadof
| TInstanceOf
| TGlobal
| TStatic
| TAbstract
| TFinal
| TPrivate
| TProtected
| TPublic
| TVar
| TUnset
| TIsset
| TDefine
| TEmpty
| THaltCompiler
| TClass
| TTrait
| TInterface
| TExtends
| TImplements
| TList
| TCallable
| TConstLine
| TConstFile
| TConstDir
| TConstClass
| TConstTrait
| TConstMethod
| TConstFunction
| TNew
| TClone
| TTrue
| TFalse
| TNull
| TNamespace
| TVoid
| TYield
| TYieldFrom
| TParent
| TTypeBool
| TTypeInt
| TTypeString
| TTypeArray
| TTypeObject
| TTypeFloat
| TTypeSelf
| TMixed
| TAttributeStart.

(** Derived [PartialEq] of [TokenType], by way of an injective code. *)
Definition tt_code (t : TokenType) : N :=
  match t with
  | TEof => 0
  | TLinebreak => 1
  | TMissing => 2
  | TPlus => 3
  | TMinus => 4
  | TMultiplication => 5
  | TDivision => 6
  | TGreater => 7
  | TSmaller => 8
  | TQuestionMark => 9
  | TExclamationMark => 10
  | TAssignment => 11
  | TVariable => 12
  | TOpenParenthesis => 13
  | TCloseParenthesis => 14
  | TOpenCurly => 15
  | TCloseCurly => 16
  | TOpenBrackets => 17
  | TCloseBrackets => 18
  | TSemicolon => 19
  | TLogicOr => 20
  | TLogicAnd => 21
  | TBinaryOr => 22
  | TBinaryAnd => 23
  | TNegation => 24
  | TColon => 25
  | TComma => 26
  | TNamespaceSeparator => 27
  | TConcat => 28
  | TSilencer => 29
  | TBitwiseNegation => 30
  | TModulo => 31
  | TBinaryXor => 32
  | TIncrement => 33
  | TDecrement => 34
  | TPower => 35
  | TPlusAssign => 36
  | TMinusAssign => 37
  | TMulAssign => 38
  | TDivAssign => 39
  | TLineComment => 40
  | TMultilineComment => 41
  | TRightShift => 42
  | TLeftShift => 43
  | TScriptEnd => 44
  | TIsNotEqual => 45
  | TIsNotEqualAlt => 46
  | TIsEqual => 47
  | TGreaterOrEqual => 48
  | TSmallerOrEqual => 49
  | TCoalesce => 50
  | TBinaryAndAssignment => 51
  | TBinaryOrAssignment => 52
  | TObjectOperator => 53
  | TNullsafeObjectOperator => 54
  | TModuloAssignment => 55
  | TConcatAssignment => 56
  | TXorAssignment => 57
  | TPaamayimNekudayim => 58
  | TDoubleArrow => 59
  | TRightShiftAssignment => 60
  | TLeftShiftAssignment => 61
  | TIsNotIdentical => 62
  | TIsIdentical => 63
  | TPowerAssignment => 64
  | TSpaceShip => 65
  | TCoalesceAssignment => 66
  | TElipsis => 67
  | TLogicXor => 68
  | TConstNan => 69
  | TConstInf => 70
  | TScriptStart Regular => 71
  | TScriptStart Short => 72
  | TScriptStart EchoTag => 73
  | TIdentifier => 74
  | TDecimalNumber => 75
  | TExponentialNumber => 76
  | TLongNumber => 77
  | THexNumber => 78
  | TBinaryNumber => 79
  | TConstantEncapsedString => 80
  | TEncapsedAndWhitespaceString => 81
  | TShellEscape => 82
  | THereDocStart => 83
  | THereDocEnd => 84
  | TBoolCast => 85
  | TBadCast => 86
  | TIntCast => 87
  | TStringCast => 88
  | TArrayCast => 89
  | TObjectCast => 90
  | TDoubleCast => 91
  | TUnsetCast => 92
  | TGenerator => 93
  | TResource => 94
  | TExit => 95
  | TIf => 96
  | TDie => 97
  | TElseIf => 98
  | TElse => 99
  | TEndIf => 100
  | TEcho => 101
  | TPrint => 102
  | TInclude => 103
  | TIncludeOnce => 104
  | TRequire => 105
  | TRequireOnce => 106
  | TDo => 107
  | TWhile => 108
  | TEndWhile => 109
  | TFor => 110
  | TEndFor => 111
  | TForeach => 112
  | TEndForeach => 113
  | TDeclare => 114
  | TEndDeclare => 115
  | TAs => 116
  | TMatch => 117
  | TSwitch => 118
  | TEndSwitch => 119
  | TCase => 120
  | TDefault => 121
  | TBreak => 122
  | TContinue => 123
  | TGoto => 124
  | TFunction => 125
  | TFn => 126
  | TConst => 127
  | TReturn => 128
  | TTry => 129
  | TCatch => 130
  | TFinally => 131
  | TThrow => 132
  | TUse => 133
  | TInsteadof => 134
  | TInstanceOf => 135
  | TGlobal => 136
  | TStatic => 137
  | TAbstract => 138
  | TFinal => 139
  | TPrivate => 140
  | TProtected => 141
  | TPublic => 142
  | TVar => 143
  | TUnset => 144
  | TIsset => 145
  | TDefine => 146
  | TEmpty => 147
  | THaltCompiler => 148
  | TClass => 149
  | TTrait => 150
  | TInterface => 151
  | TExtends => 152
  | TImplements => 153
  | TList => 154
  | TCallable => 155
  | TConstLine => 156
  | TConstFile => 157
  | TConstDir => 158
  | TConstClass => 159
  | TConstTrait => 160
  | TConstMethod => 161
  | TConstFunction => 162
  | TNew => 163
  | TClone => 164
  | TTrue => 165
  | TFalse => 166
  | TNull => 167
  | TNamespace => 168
  | TVoid => 169
  | TYield => 170
  | TYieldFrom => 171
  | TParent => 172
  | TTypeBool => 173
  | TTypeInt => 174
  | TTypeString => 175
  | TTypeArray => 176
  | TTypeObject => 177
  | TTypeFloat => 178
  | TTypeSelf => 179
  | TMixed => 180
  | TAttributeStart => 181
  end.
Definition tt_eqb (a b : TokenType) : bool := N.eqb (tt_code a) (tt_code b).

(** token.rs:218-223 *)
Definition postfix_binding_power (t : TokenType) : option N :=
  match t with
  | TIncrement | TDecrement => Some 180
  | _ => None
  end.

(** token.rs:225-246 *)
Definition prefix_binding_power (t : TokenType) : option N :=
  match t with
  | TBinaryAnd => Some 202
  | TClone => Some 201
  | TNew => Some 201
  | TIncrement | TDecrement => Some 180
  | TPlus | TMinus => Some 140
  | TSilencer | TNegation | TBitwiseNegation | TBoolCast | TBadCast | TIntCast | TStringCast | TArrayCast | TObjectCast | TDoubleCast | TElipsis | TUnsetCast => Some 181
  | _ => None
  end.

(** token.rs:249-312 *)
Definition infix_binding_power (t : TokenType) : option (N * N) :=
  match t with
  | TPower => Some (190, 191)
  | TInstanceOf => Some (171, 170)
  | TModulo | TMultiplication | TDivision => Some (151, 150)
  | TPlus | TMinus | TConcat => Some (141, 140)
  | TRightShift | TLeftShift => Some (131, 130)
  | TGreater | TSmaller | TGreaterOrEqual | TSmallerOrEqual => Some (120, 121)
  | TIsNotIdentical | TIsIdentical | TSpaceShip | TIsEqual | TIsNotEqual | TIsNotEqualAlt => Some (110, 111)
  | TBinaryAnd => Some (101, 100)
  | TBinaryXor => Some (99, 98)
  | TBinaryOr => Some (97, 96)
  | TLogicAnd => Some (91, 90)
  | TLogicOr => Some (87, 86)
  | TCoalesce => Some (84, 85)
  | TQuestionMark => Some (80, 81)
  | TAssignment | TBinaryAndAssignment | TBinaryOrAssignment | TModuloAssignment | TConcatAssignment | TXorAssignment | TRightShiftAssignment | TLeftShiftAssignment | TCoalesceAssignment | TPowerAssignment | TPlusAssign | TMinusAssign | TMulAssign | TDivAssign => Some (70, 71)
  | TYieldFrom => Some (60, 61)
  | TYield => Some (50, 51)
  | TPrint => Some (40, 41)
  | TLogicXor => Some (21, 20)
  | _ => None
  end.

(** token.rs:319-326 *)
Record Token := mkToken {
  t_col : N;
  t_line : N;
  t_type : TokenType;
  t_label : option str;
  t_offset : option N
}.

(** token.rs:329-337 *)
Definition token_new (t : TokenType) (line col offset : N) : Token :=
  mkToken col line t None (Some offset).

(** token.rs:339-347 *)
Definition token_named (t : TokenType) (line col offset : N) (label : str) : Token :=
  mkToken col line t (Some label) (Some offset).

(** token.rs:349-357.  The argument is a (column, line) pair: field 0 becomes
    the column, field 1 the line. *)
Definition token_missing (pos_of_prev : N * N) : Token :=
  mkToken (fst pos_of_prev) (snd pos_of_prev) TMissing None None.

(** token.rs:359-455 *)
Definition tt_is_identifier (t : TokenType) : bool :=
  match t with
  | TExit
  | TIf
  | TElseIf
  | TElse
  | TEndIf
  | TEcho
  | TInclude
  | TIncludeOnce
  | TRequire
  | TRequireOnce
  | TDo
  | TWhile
  | TEndWhile
  | TFor
  | TEndFor
  | TForeach
  | TEndForeach
  | TDeclare
  | TEndDeclare
  | TAs
  | TSwitch
  | TEndSwitch
  | TCase
  | TDefault
  | TBreak
  | TContinue
  | TGoto
  | TFunction
  | TFn
  | TConst
  | TReturn
  | TTry
  | TCatch
  | TFinally
  | TThrow
  | TUse
  | TInsteadof
  | TInstanceOf
  | TGlobal
  | TStatic
  | TAbstract
  | TFinal
  | TPrivate
  | TProtected
  | TPublic
  | TVar
  | TUnset
  | TIsset
  | TDefine
  | TEmpty
  | THaltCompiler
  | TClass
  | TTrait
  | TInterface
  | TExtends
  | TImplements
  | TList
  | TCallable
  | TConstLine
  | TConstFile
  | TConstDir
  | TConstClass
  | TConstTrait
  | TConstMethod
  | TConstFunction
  | TConstNan
  | TConstInf
  | TNew
  | TDie
  | TClone
  | TTrue
  | TFalse
  | TNull
  | TNamespace
  | TVoid
  | TYield
  | TParent
  | TTypeBool
  | TTypeString
  | TTypeInt
  | TTypeArray
  | TTypeObject
  | TTypeFloat
  | TTypeSelf
  | TPrint
  | TLogicAnd
  | TLogicOr
  | TLogicXor
  | TIdentifier
  | TGenerator
  | TMatch => true
  | _ => false
  end.
Definition is_identifier (t : Token) : bool := tt_is_identifier (t_type t).

(** token.rs:457-459 *)
Definition is_comment (t : Token) : bool :=
  match t_type t with TLineComment | TMultilineComment => true | _ => false end.

(** token.rs:523-701, [Display for TokenType].  [None] is the unreachable!
    arm of line 696, i.e. a panic. *)
Definition display_type (t : TokenType) : option str :=
  match t with
  | TResource => Some (lit "resource")
  | TAttributeStart => Some (lit "#[")
  | TClass => Some (lit "class")
  | TEof => Some (lit "")
  | TPlus => Some (lit "+")
  | TMinus => Some (lit "-")
  | TMultiplication => Some (lit "*")
  | TDivision => Some (lit "/")
  | TGreater => Some (lit ">")
  | TSmaller => Some (lit "<")
  | TQuestionMark => Some (lit "?")
  | TExclamationMark => Some (lit "!")
  | TAssignment => Some (lit "=")
  | TOpenParenthesis => Some (lit "(")
  | TCloseParenthesis => Some (lit ")")
  | TOpenCurly => Some (lit "{")
  | TCloseCurly => Some (lit "}")
  | TOpenBrackets => Some (lit "[")
  | TCloseBrackets => Some (lit "]")
  | TSemicolon => Some (lit ";")
  | TLogicOr => Some (lit "||")
  | TLogicAnd => Some (lit "&&")
  | TBinaryOr => Some (lit "|")
  | TBinaryAnd => Some (lit "&")
  | TNegation => Some (lit "!")
  | TColon => Some (lit ":")
  | TComma => Some (lit ",")
  | TNamespaceSeparator => Some (lit "\")
  | TConcat => Some (lit ".")
  | TSilencer => Some (lit "@")
  | TBitwiseNegation => Some (lit "~")
  | TModulo => Some (lit "%")
  | TBinaryXor => Some (lit "^")
  | TIncrement => Some (lit "++")
  | TDecrement => Some (lit "--")
  | TPower => Some (lit "**")
  | TPlusAssign => Some (lit "+=")
  | TMinusAssign => Some (lit "-=")
  | TMulAssign => Some (lit "*=")
  | TDivAssign => Some (lit "/=")
  | TLineComment => Some (lit "//")
  | TRightShift => Some (lit ">>")
  | TLeftShift => Some (lit "<<")
  | TScriptEnd => Some (lit "?>")
  | TIsNotEqual => Some (lit "!=")
  | TIsNotEqualAlt => Some (lit "<>")
  | TIsEqual => Some (lit "==")
  | TGreaterOrEqual => Some (lit ">=")
  | TSmallerOrEqual => Some (lit "<=")
  | TCoalesce => Some (lit "??")
  | TBinaryAndAssignment => Some (lit "&=")
  | TBinaryOrAssignment => Some (lit "|=")
  | TObjectOperator => Some (lit "->")
  | TNullsafeObjectOperator => Some (lit "?->")
  | TModuloAssignment => Some (lit "%=")
  | TConcatAssignment => Some (lit ".=")
  | TXorAssignment => Some (lit "^=")
  | TPaamayimNekudayim => Some (lit "::")
  | TDoubleArrow => Some (lit "=>")
  | TRightShiftAssignment => Some (lit ">>=")
  | TLeftShiftAssignment => Some (lit "<<=")
  | TIsNotIdentical => Some (lit "!==")
  | TIsIdentical => Some (lit "===")
  | TPowerAssignment => Some (lit "**=")
  | TSpaceShip => Some (lit "<=>")
  | TCoalesceAssignment => Some (lit "??=")
  | TElipsis => Some (lit "...")
  | TLogicXor => Some (lit "xor")
  | TConstNan => Some (lit "Nan")
  | TConstInf => Some (lit "Inf")
  | TScriptStart Short => Some (lit "<?")
  | TScriptStart Regular => Some (lit "<?php")
  | TScriptStart EchoTag => Some (lit "<?=")
  | TBoolCast => Some (lit "(bool)")
  | TBadCast => Some (lit "")
  | TIntCast => Some (lit "(int)")
  | TStringCast => Some (lit "(string)")
  | TArrayCast => Some (lit "(array)")
  | TObjectCast => Some (lit "(object)")
  | TDoubleCast => Some (lit "(double)")
  | TUnsetCast => Some (lit "(unset)")
  | TExit => Some (lit "exit")
  | TIf => Some (lit "if")
  | TDie => Some (lit "die")
  | TElseIf => Some (lit "elseif")
  | TElse => Some (lit "else")
  | TEndIf => Some (lit "endif")
  | TEcho => Some (lit "echo")
  | TPrint => Some (lit "print")
  | TInclude => Some (lit "include")
  | TIncludeOnce => Some (lit "include_once")
  | TRequire => Some (lit "require")
  | TRequireOnce => Some (lit "require_once")
  | TDo => Some (lit "do")
  | TWhile => Some (lit "while")
  | TEndWhile => Some (lit "endwhile")
  | TFor => Some (lit "for")
  | TEndFor => Some (lit "endfor")
  | TForeach => Some (lit "foreach")
  | TEndForeach => Some (lit "endforeach")
  | TDeclare => Some (lit "declare")
  | TEndDeclare => Some (lit "enddeclare")
  | TAs => Some (lit "as")
  | TSwitch => Some (lit "switch")
  | TEndSwitch => Some (lit "endswitch")
  | TCase => Some (lit "case")
  | TDefault => Some (lit "default")
  | TBreak => Some (lit "break")
  | TContinue => Some (lit "continue")
  | TGoto => Some (lit "goto")
  | TFunction => Some (lit "function")
  | TFn => Some (lit "fn")
  | TConst => Some (lit "const")
  | TReturn => Some (lit "return")
  | TTry => Some (lit "try")
  | TCatch => Some (lit "catch")
  | TFinally => Some (lit "finally")
  | TThrow => Some (lit "throw")
  | TUse => Some (lit "use")
  | TInsteadof => Some (lit "insteadof")
  | TInstanceOf => Some (lit "instanceof")
  | TGlobal => Some (lit "global")
  | TStatic => Some (lit "static")
  | TAbstract => Some (lit "abstract")
  | TFinal => Some (lit "final")
  | TPrivate => Some (lit "private")
  | TProtected => Some (lit "protected")
  | TPublic => Some (lit "public")
  | TVar => Some (lit "var")
  | TUnset => Some (lit "unset")
  | TIsset => Some (lit "isset")
  | TDefine => Some (lit "define")
  | TEmpty => Some (lit "empty")
  | THaltCompiler => Some (lit "__halt_compiler")
  | TTrait => Some (lit "trait")
  | TInterface => Some (lit "interface")
  | TExtends => Some (lit "extends")
  | TImplements => Some (lit "implements")
  | TList => Some (lit "list")
  | TCallable => Some (lit "callable")
  | TConstLine => Some (lit "__LINE__")
  | TConstFile => Some (lit "__FILE__")
  | TConstDir => Some (lit "__DIR__")
  | TConstClass => Some (lit "__CLASS__")
  | TConstTrait => Some (lit "__TRAIT__")
  | TConstMethod => Some (lit "__METHOD__")
  | TConstFunction => Some (lit "__FUNCTION__")
  | TNew => Some (lit "new")
  | TClone => Some (lit "clone")
  | TTrue => Some (lit "true")
  | TFalse => Some (lit "false")
  | TNull => Some (lit "null")
  | TNamespace => Some (lit "namespace")
  | TVoid => Some (lit "void")
  | TYield => Some (lit "yield")
  | TYieldFrom => Some (lit "yield from")
  | TTypeBool => Some (lit "bool")
  | TTypeInt => Some (lit "int")
  | TTypeString => Some (lit "string")
  | TTypeArray => Some (lit "array")
  | TTypeObject => Some (lit "object")
  | TTypeFloat => Some (lit "float")
  | TTypeSelf => Some (lit "self")
  | TMixed => Some (lit "mixed")
  | TParent => Some (lit "parent")
  | TGenerator => Some (lit "Generator")
  | TMissing => Some (lit "")
  | TVariable => Some (lit "$")
  | TLinebreak => Some (lit "")
  | TMatch => Some (lit "match")
  | _ => None
  end.

(** token.rs:702-736, [Display for Token].  For a labelled token of any kind
    but those listed the code prints an internal message followed by Rust's
    debug text of the token (line 731); only the message is modelled. *)
Definition display_token (t : Token) : option str :=
  match t_label t with
  | None => display_type (t_type t)
  | Some l =>
      Some match t_type t with
           | TLineComment => lit "//" ++ l
           | TVariable => lit "$" ++ l
           | TIdentifier => l
           | TMultilineComment => lit "/*" ++ l ++ lit "*/"
           | TDecimalNumber | TExponentialNumber | TLongNumber | THexNumber
           | TBinaryNumber => l
           | TConstantEncapsedString => lit "'" ++ l ++ lit "'"
           | TEncapsedAndWhitespaceString => [34] ++ l ++ [34]
           | TShellEscape => lit "`" ++ l ++ lit "`"
           | THereDocStart => lit "<<<" ++ l
           | THereDocEnd => l
           | _ => lit "Should have never been called with Token { .. }"
           end
  end.

(** token.rs:461-463, a (column, line) pair *)
Definition token_start (t : Token) : N * N := (t_col t, t_line t).

(** token.rs:465-482, a (column, line) pair.  [None] is a panic: either the
    unreachable! arm of the rendering or the unwrap of line 475, which fails
    if the rendered text is empty. *)
Definition token_end (t : Token) : option (N * N) :=
  match display_token t with
  | None => None
  | Some me =>
      match t_label t with
      | None => Some (t_col t + byte_len me, t_line t)
      | Some _ =>
          let ls := lines me in
          if Nat.eqb (List.length ls) 1 then Some (t_col t + byte_len me, t_line t)
          else match rev ls with
               | [] => None
               | l :: _ => Some (byte_len l, t_line t + N.of_nat (List.length ls) - 1)
               end
      end
  end.

(** /repo/src/parser/node.rs:28-41 *)
Record NodeRange := mkRange { start_col : N; start_line : N; end_col : N; end_line : N }.

(** node.rs:145-147, a (column, line) pair *)
Definition range_end (r : NodeRange) : N * N := (end_col r, end_line r).
(** node.rs:149-151 *)
Definition range_empty : NodeRange := mkRange 0 0 0 0.
(** node.rs:141-143 *)
Definition from_range (a b : NodeRange) : NodeRange :=
  mkRange (start_col a) (start_line a) (end_col b) (end_line b).

(** token.rs:484-486 and node.rs:54-58 (same value) *)
Definition token_range (t : Token) : option NodeRange :=
  match token_end t with
  | Some (c, l) => Some (mkRange (t_col t) (t_line t) c l)
  | None => None
  end.

(** token.rs:488-494 *)
Definition is_on (t : Token) (line col : N) : bool :=
  if negb (t_line t =? line) then false
  else (t_col t <=? col) &&
       (col <=? t_col t + byte_len (match t_label t with Some l => l | None => [] end)).

(** token.rs:496-512 *)
Definition is_string (t : Token) : bool :=
  match t_type t with
  | TConstantEncapsedString | TEncapsedAndWhitespaceString => true
  | _ => false
  end.
Definition is_number (t : Token) : bool :=
  match t_type t with
  | TBinaryNumber | TDecimalNumber | TExponentialNumber | THexNumber | TLongNumber => true
  | _ => false
  end.
