(** Facts about token kinds. *)

From Verif Require Import Base Token.

Definition all_types : list TokenType :=
  [TEof; TLinebreak; TMissing; TPlus; TMinus; TMultiplication; TDivision; TGreater;
   TSmaller; TQuestionMark; TExclamationMark; TAssignment; TVariable; TOpenParenthesis;
   TCloseParenthesis; TOpenCurly; TCloseCurly; TOpenBrackets; TCloseBrackets; TSemicolon;
   TLogicOr; TLogicAnd; TBinaryOr; TBinaryAnd; TNegation; TColon; TComma;
   TNamespaceSeparator; TConcat; TSilencer; TBitwiseNegation; TModulo; TBinaryXor;
   TIncrement; TDecrement; TPower; TPlusAssign; TMinusAssign; TMulAssign; TDivAssign;
   TLineComment; TMultilineComment; TRightShift; TLeftShift; TScriptEnd; TIsNotEqual;
   TIsNotEqualAlt; TIsEqual; TGreaterOrEqual; TSmallerOrEqual; TCoalesce;
   TBinaryAndAssignment; TBinaryOrAssignment; TObjectOperator; TNullsafeObjectOperator;
   TModuloAssignment; TConcatAssignment; TXorAssignment; TPaamayimNekudayim; TDoubleArrow;
   TRightShiftAssignment; TLeftShiftAssignment; TIsNotIdentical; TIsIdentical;
   TPowerAssignment; TSpaceShip; TCoalesceAssignment; TElipsis; TLogicXor; TConstNan;
   TConstInf; TIdentifier; TDecimalNumber; TExponentialNumber; TLongNumber; THexNumber;
   TBinaryNumber; TConstantEncapsedString; TEncapsedAndWhitespaceString; TShellEscape;
   THereDocStart; THereDocEnd; TBoolCast; TBadCast; TIntCast; TStringCast; TArrayCast;
   TObjectCast; TDoubleCast; TUnsetCast; TGenerator; TResource; TExit; TIf; TDie; TElseIf;
   TElse; TEndIf; TEcho; TPrint; TInclude; TIncludeOnce; TRequire; TRequireOnce; TDo;
   TWhile; TEndWhile; TFor; TEndFor; TForeach; TEndForeach; TDeclare; TEndDeclare; TAs;
   TMatch; TSwitch; TEndSwitch; TCase; TDefault; TBreak; TContinue; TGoto; TFunction; TFn;
   TConst; TReturn; TTry; TCatch; TFinally; TThrow; TUse; TInsteadof; TInstanceOf;
   TGlobal; TStatic; TAbstract; TFinal; TPrivate; TProtected; TPublic; TVar; TUnset;
   TIsset; TDefine; TEmpty; THaltCompiler; TClass; TTrait; TInterface; TExtends;
   TImplements; TList; TCallable; TConstLine; TConstFile; TConstDir; TConstClass;
   TConstTrait; TConstMethod; TConstFunction; TNew; TClone; TTrue; TFalse; TNull;
   TNamespace; TVoid; TYield; TYieldFrom; TParent; TTypeBool; TTypeInt; TTypeString;
   TTypeArray; TTypeObject; TTypeFloat; TTypeSelf; TMixed; TAttributeStart; TScriptStart
   Regular; TScriptStart Short; TScriptStart EchoTag].

Definition tt_decode (n : N) : option TokenType := find (fun t => tt_code t =? n) all_types.

Lemma tt_decode_code : forall t, tt_decode (tt_code t) = Some t.
Proof. destruct t; try (vm_compute; reflexivity). destruct k; vm_compute; reflexivity. Qed.

Lemma all_types_complete : forall t, In t all_types.
Proof. intros t. pose proof (tt_decode_code t) as H. now apply find_some in H. Qed.

Lemma tt_eqb_eq : forall a b, tt_eqb a b = true <-> a = b.
Proof.
  intros a b. unfold tt_eqb. rewrite N.eqb_eq. split; [|congruence].
  intros H. pose proof (tt_decode_code a) as Ha. rewrite H, tt_decode_code in Ha. congruence.
Qed.

Lemma tt_eqb_refl : forall a, tt_eqb a a = true.
Proof. intros. now apply tt_eqb_eq. Qed.

Lemma tt_eqb_neq : forall a b, tt_eqb a b = false <-> a <> b.
Proof.
  intros a b. destruct (tt_eqb a b) eqn:E; split; intros; try congruence.
  - apply tt_eqb_eq in E. contradiction.
  - intros ->. rewrite tt_eqb_refl in E. discriminate.
Qed.

Lemma tt_eqb_spec : forall a b, reflect (a = b) (tt_eqb a b).
Proof. intros. apply iff_reflect. symmetry. apply tt_eqb_eq. Qed.
