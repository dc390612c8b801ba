(** What PHP says about operators, independent of the parser: expressions
    written with infix operators, the precedence table of the PHP manual
    (https://www.php.net/manual/en/language.operators.precedence.php) and what
    it means to group an expression by precedence and associativity. *)

From Verif Require Import Base Token Node.

(** * Expressions as they are written *)

(** A chain is [operand op operand op ... operand]; an operand is a literal, a
    variable with a name or a chain in parentheses. *)
Inductive operand :=
| Lit (t : Token)
| Var (t : Token)
| Paren (open : Token) (c : chain) (close : Token)
with chain :=
| One (o : operand)
| More (o : operand) (op : Token) (c : chain).

Fixpoint operand_tokens (o : operand) : list Token :=
  match o with
  | Lit t | Var t => [t]
  | Paren a c b => a :: chain_tokens c ++ [b]
  end
with chain_tokens (c : chain) : list Token :=
  match c with
  | One o => operand_tokens o
  | More o op c => operand_tokens o ++ op :: chain_tokens c
  end.

(** the operators of a chain, without those inside parentheses *)
Fixpoint ops (c : chain) : list Token :=
  match c with One _ => [] | More _ op c => op :: ops c end.

(** two chains joined by an operator *)
Fixpoint join (c : chain) (op : Token) (d : chain) : chain :=
  match c with
  | One o => More o op d
  | More o p c => More o p (join c op d)
  end.

Definition literal (t : TokenType) : bool :=
  match t with
  | TFalse | TTrue | TNull | TLongNumber | TDecimalNumber | TExponentialNumber | THexNumber
  | TBinaryNumber | TConstantEncapsedString | TEncapsedAndWhitespaceString | TShellEscape
  | TConstDir | TConstFile | TConstFunction | TConstLine | TConstMethod | TConstTrait
  | TConstClass | TConstNan | TConstInf => true
  | _ => false
  end.

(** * The PHP manual *)

Inductive assoc := ALeft | ARight | ANone.

(** The infix operators of the table with their row, the tightest row having
    the highest number, and their associativity.  Rows that only hold prefix
    operators or the ternary operator are left out.  The tokens of [&&] and
    [||] stand for these spellings; [and] and [or] are in rows of their own and
    are dealt with where the parser is shown to ignore that. *)
Definition php_row (t : TokenType) : option (N * assoc) :=
  match t with
  | TPower => Some (19, ARight)
  | TInstanceOf => Some (18, ALeft)
  | TMultiplication | TDivision | TModulo => Some (16, ALeft)
  | TPlus | TMinus => Some (15, ALeft)
  | TLeftShift | TRightShift => Some (14, ALeft)
  | TConcat => Some (13, ALeft)
  | TSmaller | TSmallerOrEqual | TGreater | TGreaterOrEqual => Some (12, ANone)
  | TIsEqual | TIsNotEqual | TIsNotEqualAlt | TIsIdentical | TIsNotIdentical | TSpaceShip =>
      Some (11, ANone)
  | TBinaryAnd => Some (10, ALeft)
  | TBinaryXor => Some (9, ALeft)
  | TBinaryOr => Some (8, ALeft)
  | TLogicAnd => Some (7, ALeft)
  | TLogicOr => Some (6, ALeft)
  | TCoalesce => Some (5, ARight)
  | TAssignment | TPlusAssign | TMinusAssign | TMulAssign | TPowerAssignment | TDivAssign
  | TConcatAssignment | TModuloAssignment | TBinaryAndAssignment | TBinaryOrAssignment
  | TXorAssignment | TLeftShiftAssignment | TRightShiftAssignment | TCoalesceAssignment =>
      Some (3, ARight)
  | TLogicXor => Some (1, ALeft)
  | _ => None
  end.

Definition row (t : Token) : N := match php_row (t_type t) with Some (r, _) => r | None => 0 end.
Definition associates (t : Token) : assoc :=
  match php_row (t_type t) with Some (_, a) => a | None => ANone end.
Definition infix_operator (t : Token) : Prop := exists r a, php_row (t_type t) = Some (r, a).

(** [Groups L R c n]: [n] is the chain [c] with every operator [op] applied to
    what is written to its left and what is written to its right, where [L p
    op] says that an operator [p] to the left may be part of the left side of
    [op], and [R op p] that one to the right may be part of its right side.
    Parenthesised operands are grouped in the same way. *)
Inductive Groups (L R : Token -> Token -> Prop) : chain -> Node -> Prop :=
| G_one : forall o n, GroupsO L R o n -> Groups L R (One o) n
| G_join : forall c op d l r,
    Groups L R c l -> Groups L R d r ->
    Forall (fun p => L p op) (ops c) -> Forall (fun p => R op p) (ops d) ->
    Groups L R (join c op d) (NBinary l op r)
with GroupsO (L R : Token -> Token -> Prop) : operand -> Node -> Prop :=
| G_lit : forall t, GroupsO L R (Lit t) (NLiteral t)
| G_var : forall t, GroupsO L R (Var t) (NVariable t)
| G_paren : forall a c b n, Groups L R c n -> GroupsO L R (Paren a c b) (NGrouping n).

(** Grouping by precedence alone: no operator is inside the side of a tighter
    one. *)
Definition by_precedence : chain -> Node -> Prop :=
  Groups (fun p op => row op <= row p) (fun op p => row op <= row p).

(** Grouping by precedence and associativity. *)
Definition by_php : chain -> Node -> Prop :=
  Groups (fun p op => row op < row p \/ (row op = row p /\ associates op = ALeft))
         (fun op p => row op < row p \/ (row op = row p /\ associates op = ARight)).

(** * Well-formed pieces *)

(** a token the parser can measure; all tokens of the scanner but the closing
    marker of a nameless heredoc are (C09) *)
Definition measured (t : Token) : Prop := exists e, token_end t = Some e.

Fixpoint written (c : chain) : Prop :=
  match c with
  | One o => written_operand o
  | More o op c => written_operand o /\ infix_operator op /\ measured op /\ written c
  end
with written_operand (o : operand) : Prop :=
  match o with
  | Lit t => literal (t_type t) = true /\ measured t
  | Var t => t_type t = TVariable /\ t_label t <> None /\ measured t
  | Paren a c b =>
      t_type a = TOpenParenthesis /\ t_type b = TCloseParenthesis /\ measured a /\ measured b /\
      written c
  end.

(** a token that ends an expression: [;], [,], [)] and so on *)
Definition ends_expression (t : Token) : Prop :=
  In (t_type t) [TSemicolon; TComma; TCloseParenthesis; TCloseBrackets; TCloseCurly; TColon;
                 TDoubleArrow; TScriptEnd; TAs].
