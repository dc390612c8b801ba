(** The scanner: /repo/src/parser/scanner.rs.

    Simplifications:
    - [pos] (scanner.rs:20, 832) is written but never read and is left out;
    - the context [InComment] (scanner.rs:11, 86-88) is never entered and is
      left out;
    - [tokens] is kept in reverse order (last pushed token first), [chars] in
      document order (the code keeps it reversed);
    - the text of the "Unexpected char" error is reduced to the character and
      the position;
    - loops run on fuel; [SFuel] is the out-of-fuel value.  [scan_terminates]
      (ScannerFacts.v) shows that it is never returned by [scan]. *)

From Verif Require Import Base Token.

(** scanner.rs:7-12 *)
Inductive SContext := InScript | OutScript.

(** scanner.rs:16-25 *)
Record Scn := mkScn {
  s_col : N;
  s_start : N * N;               (* start_of_token: (line, col) *)
  s_line : N;
  s_ctx : SContext;
  s_toks : list Token;           (* last pushed first *)
  s_chars : list char            (* next char first *)
}.

Inductive ScanError :=
| UnexpectedChar (c : char) (line col : N)      (* scanner.rs:626-629 *)
| UnterminatedHeredoc.                          (* scanner.rs:711 *)

(** Outcome of a piece of scanner code. *)
Inductive sres (A : Type) :=
| SOk (a : A)
| SErr (e : ScanError)
| SPanic                                        (* unwrap on None *)
| SFuel.
Arguments SOk {A} a.
Arguments SErr {A} e.
Arguments SPanic {A}.
Arguments SFuel {A}.

Definition sbind {A B} (r : sres A) (f : A -> sres B) : sres B :=
  match r with SOk a => f a | SErr e => SErr e | SPanic => SPanic | SFuel => SFuel end.
Notation "'slet' p <- r ;; k" := (sbind r (fun p => k))
  (at level 61, p pattern, r at next level, right associativity).

(** scanner.rs:38-50 *)
Definition scanner_new (source : str) : Scn :=
  mkScn 0 (0, 0) 0 OutScript [] source.

(** scanner.rs:53-55 *)
Definition document_range (s : Scn) : NodeRange := mkRange 0 0 (s_col s) (s_line s).

Definition is_in_script (c : SContext) : bool :=
  match c with InScript => true | OutScript => false end.

Definition set_toks (s : Scn) (ts : list Token) : Scn :=
  mkScn (s_col s) (s_start s) (s_line s) (s_ctx s) ts (s_chars s).
Definition set_ctx (s : Scn) (c : SContext) : Scn :=
  mkScn (s_col s) (s_start s) (s_line s) c (s_toks s) (s_chars s).
Definition set_start (s : Scn) : Scn :=
  mkScn (s_col s) (s_line s, s_col s) (s_line s) (s_ctx s) (s_toks s) (s_chars s).

(** scanner.rs:908-918 *)
Definition push_token (s : Scn) (t : TokenType) : Scn :=
  if is_in_script (s_ctx s)
  then set_toks s (token_new t (fst (s_start s)) (snd (s_start s))
                     (N.of_nat (List.length (s_toks s))) :: s_toks s)
  else s.

(** scanner.rs:920-928 *)
Definition push_named_token (s : Scn) (t : TokenType) (name : str) : Scn :=
  set_toks s (token_named t (fst (s_start s)) (snd (s_start s))
                (N.of_nat (List.length (s_toks s))) name :: s_toks s).

(** scanner.rs:827-829 *)
Definition peek (s : Scn) : option char := hd_error (s_chars s).

(** scanner.rs:831-849 together with [next] (822-824).  The recursion is on
    the remaining chars: a carriage return is skipped. *)
Fixpoint advance_on (cs : list char) (s : Scn) : option char * Scn :=
  match cs with
  | [] => (None, mkScn (s_col s) (s_start s) (s_line s) (s_ctx s) (s_toks s) [])
  | c :: r =>
      if c =? 10 (* LF *) then
        let s1 := push_token s TLinebreak in
        (Some c, mkScn 0 (s_start s) (s_line s + 1) (s_ctx s) (s_toks s1) r)
      else if c =? 13 (* CR *) then advance_on r s
      else (Some c, mkScn (s_col s + 1) (s_start s) (s_line s) (s_ctx s) (s_toks s) r)
  end.
Definition advance (s : Scn) : option char * Scn := advance_on (s_chars s) s.

(** An [advance] whose result is thrown away *)
Definition skip (s : Scn) : Scn := snd (advance s).

Definition peek_is (s : Scn) (c : char) : bool :=
  match peek s with Some d => d =? c | None => false end.

Definition fuel_of (s : Scn) : nat := S (List.length (s_chars s)).

(** Collects chars while [p] holds of the peeked char: the loops of
    scanner.rs:762-770, 778-786, 794-801, 809-816. *)
Fixpoint collect_while (n : nat) (p : char -> bool) (acc : str) (s : Scn) : sres (str * Scn) :=
  match n with
  | O => SFuel
  | S n' =>
      match peek s with
      | Some c => if p c then collect_while n' p (c :: acc) (skip s) else SOk (rev acc, s)
      | None => SOk (rev acc, s)
      end
  end.

(** scanner.rs:759-773 *)
Definition is_ident_char `{Runtime} (c : char) : bool := is_alnum c || (c =? 95 (* _ *)).
Definition collect_identifier `{Runtime} (s : Scn) : sres (str * Scn) :=
  collect_while (fuel_of s) is_ident_char [] s.

(** scanner.rs:775-789 *)
Definition collect_number (s : Scn) : sres (str * Scn) :=
  collect_while (fuel_of s) is_digit [] s.

(** scanner.rs:791-804 *)
Definition is_hex (c : char) : bool :=
  is_digit c || ((97 (* a *) <=? c) && (c <=? 102 (* f *))) || ((65 (* A *) <=? c) && (c <=? 70 (* F *))).
Definition collect_hex_number (s : Scn) : sres (str * Scn) :=
  collect_while (fuel_of s) is_hex [] s.

(** scanner.rs:806-819 *)
Definition is_binary (c : char) : bool := (c =? 48 (* 0 *)) || (c =? 49 (* 1 *)).
Definition collect_binary_number (s : Scn) : sres (str * Scn) :=
  collect_while (fuel_of s) is_binary [] s.

(** scanner.rs:740-757; with [until] = the double quote this is also
    [collect_encapsed_and_whitespace_string], scanner.rs:721-738. *)
Fixpoint until_escaped (n : nat) (until : char) (escaped : bool) (acc : str) (s : Scn)
  : sres (str * Scn) :=
  match n with
  | O => SFuel
  | S n' =>
      match advance s with
      | (Some c, s1) =>
          if c =? 92 (* \\ *) then until_escaped n' until (negb escaped) (c :: acc) s1
          else if (c =? until) && negb escaped then SOk (rev acc, s1)
          else until_escaped n' until false (c :: acc) s1
      | (None, s1) => SOk (rev acc, s1)
      end
  end.
Definition collect_until_escaped (until : char) (s : Scn) : sres (str * Scn) :=
  until_escaped (fuel_of s) until false [] s.

(** scanner.rs:852-877 *)
Fixpoint doc_comment_loop (n : nat) (acc : str) (s : Scn) : sres (str * Scn) :=
  match n with
  | O => SFuel
  | S n' =>
      match advance s with
      | (Some c, s1) =>
          if (c =? 42 (* star *)) && peek_is s1 47 (* / *) then SOk (rev acc, skip s1)
          else doc_comment_loop n' (c :: acc) s1
      | (None, s1) => SOk (rev acc, s1)
      end
  end.
Definition collect_doc_comment_information (s : Scn) : sres Scn :=
  slet (comment, s1) <- doc_comment_loop (fuel_of s) [] s ;;
  SOk (push_named_token s1 TMultilineComment comment).

(** scanner.rs:881-906 *)
Fixpoint line_comment_loop (n : nat) (acc : str) (s : Scn) : sres Scn :=
  match n with
  | O => SFuel
  | S n' =>
      match peek s with
      | None => SOk (push_named_token s TLineComment (rev acc))
      | Some c =>
          if (c =? 10 (* LF *)) || (c =? 13 (* CR *)) then SOk (push_named_token s TLineComment (rev acc))
          else if c =? 63 (* ? *) then
            let s1 := skip s in
            if peek_is s1 62 (* > *) then
              let s2 := skip s1 in
              let s3 := push_token (push_named_token s2 TLineComment (rev acc)) TScriptEnd in
              SOk (set_ctx s3 OutScript)
            else line_comment_loop n' (63 (* ? *) :: acc) s1
          else
            match advance s with
            | (Some d, s1) => line_comment_loop n' (d :: acc) s1
            | (None, _) => SPanic                             (* unwrap, line 902 *)
            end
      end
  end.
Definition consume_line_comment (s : Scn) : sres Scn := line_comment_loop (fuel_of s) [] s.

(** scanner.rs:639-641 *)
Fixpoint skip_spaces (n : nat) (s : Scn) : sres Scn :=
  match n with
  | O => SFuel
  | S n' => if peek_is s 32 (* blank *) then skip_spaces n' (skip s) else SOk s
  end.

(** scanner.rs:685-701: compare the coming chars with the end marker.  Returns
    the matched part and whether this can still be the end.  A char that does
    not match is consumed; if the text ends, the rest of the marker is passed
    over (the [for] loop goes on, [advance] returns [None]). *)
Fixpoint match_marker (marker : str) (acc : str) (s : Scn) : str * bool * Scn :=
  match marker with
  | [] => (rev acc, true, s)
  | m :: marker' =>
      match advance s with
      | (Some c, s1) =>
          if c =? m then match_marker marker' (c :: acc) s1
          else (rev acc, false, s1)
      | (None, s1) => match_marker marker' acc s1
      end
  end.

(** scanner.rs:662-708.  [heredoc] and [line] are kept reversed.  Returns the
    body and the text that becomes the end marker token ([line]). *)
Fixpoint heredoc_loop (n : nat) (marker : str) (heredoc line : str) (potential_end : bool)
         (s : Scn) : sres (str * str * Scn) :=
  match n with
  | O => SFuel
  | S n' =>
      match peek s with
      | None => SOk (rev heredoc, rev line, s)
      | Some c =>
          let line := c :: line in
          if c =? 10 (* LF *) then
            heredoc_loop n' marker (line ++ heredoc) [] true (skip s)
          else if negb potential_end || (c =? 32 (* blank *)) || (c =? 9 (* TAB *)) then
            heredoc_loop n' marker heredoc line potential_end (skip s)
          else
            match match_marker marker [] s with
            | (part, true, s1) => SOk (rev heredoc, part, s1)
            | (part, false, s1) => heredoc_loop n' marker heredoc (rev part ++ line) false s1
            end
      end
  end.

(** scanner.rs:638-718 *)
Definition tokenize_here_doc `{Runtime} (s : Scn) : sres Scn :=
  slet s0 <- skip_spaces (fuel_of s) s ;;
  slet (marker, s1) <-
    (if peek_is s0 34 (* dquote *) then collect_until_escaped 34 (* dquote *) (skip s0)
     else if peek_is s0 39 (* quote *) then collect_until_escaped 39 (* quote *) (skip s0)
     else collect_identifier s0) ;;
  let s2 := push_named_token s1 THereDocStart marker in
  slet (heredoc, line, s3) <- heredoc_loop (fuel_of s2) marker [] [] false s2 ;;
  match peek s3 with
  | None => SErr UnterminatedHeredoc
  | Some _ =>
      SOk (push_named_token (push_named_token s3 TEncapsedAndWhitespaceString heredoc)
             THereDocEnd line)
  end.

(** scanner.rs:930-941 *)
Definition map_cast (t : TokenType) : option TokenType :=
  match t with
  | TTypeBool => Some TBoolCast
  | TTypeInt => Some TIntCast
  | TTypeString => Some TStringCast
  | TTypeArray => Some TArrayCast
  | TTypeObject => Some TObjectCast
  | TTypeFloat => Some TDoubleCast
  | TUnset => Some TUnsetCast
  | _ => None
  end.

(** The keyword table of scanner.rs:951-1043. *)
Definition keyword_table : list (string * TokenType) :=
  [ ("bool"%string, TTypeBool);
    ("boolean"%string, TTypeBool);
    ("int"%string, TTypeInt);
    ("integer"%string, TTypeInt);
    ("string"%string, TTypeString);
    ("binary"%string, TTypeString);
    ("array"%string, TTypeArray);
    ("object"%string, TTypeObject);
    ("float"%string, TTypeFloat);
    ("double"%string, TTypeFloat);
    ("void"%string, TVoid);
    ("new"%string, TNew);
    ("clone"%string, TClone);
    ("exit"%string, TExit);
    ("if"%string, TIf);
    ("elseif"%string, TElseIf);
    ("else"%string, TElse);
    ("endif"%string, TEndIf);
    ("echo"%string, TEcho);
    ("do"%string, TDo);
    ("while"%string, TWhile);
    ("endwhile"%string, TEndWhile);
    ("for"%string, TFor);
    ("endfor"%string, TEndFor);
    ("foreach"%string, TForeach);
    ("endforeach"%string, TEndForeach);
    ("declare"%string, TDeclare);
    ("define"%string, TDefine);
    ("enddeclare"%string, TEndDeclare);
    ("as"%string, TAs);
    ("switch"%string, TSwitch);
    ("endswitch"%string, TEndSwitch);
    ("case"%string, TCase);
    ("default"%string, TDefault);
    ("break"%string, TBreak);
    ("continue"%string, TContinue);
    ("goto"%string, TGoto);
    ("function"%string, TFunction);
    ("fn"%string, TFn);
    ("const"%string, TConst);
    ("return"%string, TReturn);
    ("try"%string, TTry);
    ("catch"%string, TCatch);
    ("finally"%string, TFinally);
    ("throw"%string, TThrow);
    ("use"%string, TUse);
    ("insteadof"%string, TInsteadof);
    ("global"%string, TGlobal);
    ("static"%string, TStatic);
    ("abstract"%string, TAbstract);
    ("final"%string, TFinal);
    ("private"%string, TPrivate);
    ("protected"%string, TProtected);
    ("public"%string, TPublic);
    ("var"%string, TVar);
    ("unset"%string, TUnset);
    ("isset"%string, TIsset);
    ("empty"%string, TEmpty);
    ("null"%string, TNull);
    ("true"%string, TTrue);
    ("false"%string, TFalse);
    ("__halt_compiler"%string, THaltCompiler);
    ("class"%string, TClass);
    ("trait"%string, TTrait);
    ("interface"%string, TInterface);
    ("extends"%string, TExtends);
    ("implements"%string, TImplements);
    ("list"%string, TList);
    ("callable"%string, TCallable);
    ("and"%string, TLogicAnd);
    ("or"%string, TLogicOr);
    ("xor"%string, TLogicXor);
    ("namespace"%string, TNamespace);
    ("print"%string, TPrint);
    ("__line__"%string, TConstLine);
    ("__file__"%string, TConstFile);
    ("__dir__"%string, TConstDir);
    ("__class__"%string, TConstClass);
    ("__trait__"%string, TConstTrait);
    ("__method__"%string, TConstMethod);
    ("__function__"%string, TConstFunction);
    ("require"%string, TRequire);
    ("require_once"%string, TRequireOnce);
    ("include"%string, TInclude);
    ("include_once"%string, TIncludeOnce);
    ("instanceof"%string, TInstanceOf);
    ("yield"%string, TYield);
    ("self"%string, TTypeSelf);
    ("parent"%string, TParent);
    ("generator"%string, TGenerator);
    ("match"%string, TMatch);
    ("die"%string, TDie) ].

Fixpoint assoc_str (k : str) (l : list (string * TokenType)) : option TokenType :=
  match l with
  | [] => None
  | (k', v) :: r => if str_eqb k (lit k') then Some v else assoc_str k r
  end.

(** scanner.rs:944-1044 *)
Definition map_keyword `{Runtime} (ident : str) : option TokenType :=
  if str_eqb ident (lit "INF") then Some TConstInf
  else if str_eqb ident (lit "NAN") then Some TConstNan
  else assoc_str (to_lowercase ident) keyword_table.

(** [self.advance(); self.push_token(t)] *)
Definition adv_push (s : Scn) (t : TokenType) : Scn := push_token (skip s) t.

(** scanner.rs:536-570, the arm for a closing parenthesis *)
Definition close_parenthesis (s : Scn) : sres Scn :=
  match s_toks s with
  | prev :: rest =>
      match map_cast (t_type prev) with
      | Some cast_to =>
          match rest with
          | pos :: rest' =>
              if tt_eqb (t_type pos) TOpenParenthesis then
                let s1 := push_token (set_toks s rest') cast_to in
                match s_toks s1 with
                | last :: r =>
                    SOk (set_toks s1 (mkToken (t_col pos) (t_line pos) (t_type last)
                                        (t_label last) (t_offset last) :: r))
                | [] => SPanic                                (* unwrap, line 551 *)
                end
              else SOk (push_token s TCloseParenthesis)
          | [] => SOk (push_token s TCloseParenthesis)
          end
      | None => SOk (push_token s TCloseParenthesis)
      end
  | [] => SOk (push_token s TCloseParenthesis)
  end.

(** scanner.rs:466-531, the arm for a digit *)
Definition scan_number (c : char) (s : Scn) : sres Scn :=
  if peek_is s 120 (* x *) && (c =? 48 (* 0 *)) then
    slet (ds, s1) <- collect_hex_number (skip s) ;;
    SOk (push_named_token s1 THexNumber ([c; 120 (* x *)] ++ ds))
  else if peek_is s 98 (* b *) && (c =? 48 (* 0 *)) then
    slet (ds, s1) <- collect_binary_number (skip s) ;;
    SOk (push_named_token s1 TBinaryNumber ([c; 98 (* b *)] ++ ds))
  else
    slet (ds, s1) <- collect_number s ;;
    let number := c :: ds in
    slet (number, ty, s2) <-
      (if peek_is s1 46 (* . *) then
         slet (dec, s2) <- collect_number (skip s1) ;;
         SOk (number ++ [46 (* . *)] ++ dec, TDecimalNumber, s2)
       else SOk (number, TLongNumber, s1)) ;;
    if peek_is s2 101 (* e *) || peek_is s2 69 (* E *) then
      let s3 := skip s2 in
      let number := number ++ [101 (* e *)] in
      let '(number, s4) :=
        if peek_is s3 45 (* - *) then (number ++ [45 (* - *)], skip s3)
        else if peek_is s3 43 (* + *) then (number ++ [43 (* + *)], skip s3)
        else (number, s3) in
      slet (dec, s5) <- collect_number s4 ;;
      SOk (push_named_token s5 TExponentialNumber (number ++ dec))
    else SOk (push_named_token s2 ty number).

(** scanner.rs:601-631, the arm for identifiers and keywords *)
Definition scan_word `{Runtime} (c : char) (s : Scn) : sres Scn :=
  if is_ident_char c then
    slet (r, s1) <- collect_identifier s ;;
    let name := c :: r in
    match map_keyword name with
    | Some t => SOk (push_token s1 t)
    | None =>
        if str_eqb name (lit "from") then
          match s_toks s1 with
          | t :: rest =>
              if tt_eqb (t_type t) TYield then SOk (push_token (set_toks s1 rest) TYieldFrom)
              else SOk (push_named_token s1 TIdentifier name)
          | [] => SOk (push_named_token s1 TIdentifier name)
          end
        else SOk (push_named_token s1 TIdentifier name)
    end
  else SErr (UnexpectedChar c (s_line s) (s_col s)).

(** scanner.rs:94-632: what happens after the char [c] has been taken. *)
Definition scan_char `{Runtime} (c : char) (s : Scn) : sres Scn :=
  if (c =? 32 (* blank *)) || (c =? 9 (* TAB *)) || (c =? 13 (* CR *)) || (c =? 10 (* LF *)) then SOk s
  else if c =? 58 (* : *) then
    if peek_is s 58 (* : *) then SOk (adv_push s TPaamayimNekudayim) else SOk (push_token s TColon)
  else if c =? 64 (* @ *) then SOk (push_token s TSilencer)
  else if c =? 126 (* ~ *) then SOk (push_token s TBitwiseNegation)
  else if c =? 44 (* , *) then SOk (push_token s TComma)
  else if c =? 92 (* \\ *) then SOk (push_token s TNamespaceSeparator)
  else if c =? 38 (* & *) then
    if peek_is s 61 (* = *) then SOk (adv_push s TBinaryAndAssignment)
    else if peek_is s 38 (* & *) then SOk (adv_push s TLogicAnd)
    else SOk (push_token s TBinaryAnd)
  else if c =? 37 (* % *) then
    if peek_is s 61 (* = *) then SOk (adv_push s TModuloAssignment) else SOk (push_token s TModulo)
  else if c =? 124 (* | *) then
    if peek_is s 61 (* = *) then SOk (adv_push s TBinaryOrAssignment)
    else if peek_is s 124 (* | *) then SOk (adv_push s TLogicOr)
    else SOk (push_token s TBinaryOr)
  else if c =? 62 (* > *) then
    if peek_is s 62 (* > *) then
      let s1 := skip s in
      if peek_is s1 61 (* = *) then SOk (adv_push s1 TRightShiftAssignment)
      else SOk (push_token s1 TRightShift)
    else if peek_is s 61 (* = *) then SOk (adv_push s TGreaterOrEqual)
    else SOk (push_token s TGreater)
  else if c =? 60 (* < *) then
    if peek_is s 60 (* < *) then
      let s1 := skip s in
      if peek_is s1 60 (* < *) then tokenize_here_doc (skip s1)
      else if peek_is s1 61 (* = *) then SOk (adv_push s1 TLeftShiftAssignment)
      else SOk (push_token s1 TLeftShift)
    else if peek_is s 63 (* ? *) then
      let s1 := skip s in
      if peek_is s1 32 (* blank *) || peek_is s1 10 (* LF *) || peek_is s1 9 (* TAB *) || peek_is s1 13 (* CR *) then
        SOk (push_token (set_ctx s1 InScript) (TScriptStart Short))
      else if peek_is s1 61 (* = *) then
        SOk (push_token (set_ctx (skip s1) InScript) (TScriptStart EchoTag))
      else if peek_is s1 112 (* p *) then
        let s2 := skip s1 in
        if peek_is s2 104 (* h *) then
          let s3 := skip s2 in
          if peek_is s3 112 (* p *) then
            SOk (push_token (set_ctx (skip s3) InScript) (TScriptStart Regular))
          else SOk s3
        else SOk s2
      else SOk s1
    else if peek_is s 61 (* = *) then
      let s1 := skip s in
      if peek_is s1 62 (* > *) then SOk (adv_push s1 TSpaceShip)
      else SOk (push_token s1 TSmallerOrEqual)
    else if peek_is s 62 (* > *) then SOk (adv_push s TIsNotEqualAlt)
    else SOk (push_token s TSmaller)
  else if c =? 63 (* ? *) then
    if peek_is s 62 (* > *) then SOk (set_ctx (adv_push s TScriptEnd) OutScript)
    else if peek_is s 63 (* ? *) then
      let s1 := skip s in
      if peek_is s1 61 (* = *) then SOk (adv_push s1 TCoalesceAssignment)
      else SOk (push_token s1 TCoalesce)
    else if peek_is s 45 (* - *) then
      let s1 := skip s in
      if peek_is s1 62 (* > *) then SOk (adv_push s1 TNullsafeObjectOperator)
      else SOk (push_token (push_token s1 TQuestionMark) TMinus)
    else SOk (push_token s TQuestionMark)
  else if c =? 33 (* ! *) then
    if peek_is s 61 (* = *) then
      let s1 := skip s in
      if peek_is s1 61 (* = *) then SOk (adv_push s1 TIsNotIdentical)
      else SOk (push_token s1 TIsNotEqual)
    else SOk (push_token s TNegation)
  else if c =? 46 (* . *) then
    if peek_is s 46 (* . *) then
      let s1 := skip s in
      if peek_is s1 46 (* . *) then SOk (adv_push s1 TElipsis)
      else SOk (push_token (push_token s1 TConcat) TConcat)
    else if peek_is s 61 (* = *) then SOk (adv_push s TConcatAssignment)
    else if (match peek s with Some d => is_digit d | None => false end) then
      slet (dec, s1) <- collect_number s ;;
      SOk (push_named_token s1 TDecimalNumber ([48 (* 0 *); 46 (* . *)] ++ dec))
    else SOk (push_token s TConcat)
  else if c =? 94 (* ^ *) then
    if peek_is s 61 (* = *) then SOk (adv_push s TXorAssignment) else SOk (push_token s TBinaryXor)
  else if c =? 43 (* + *) then
    if peek_is s 43 (* + *) then SOk (adv_push s TIncrement)
    else if peek_is s 61 (* = *) then SOk (adv_push s TPlusAssign)
    else SOk (push_token s TPlus)
  else if c =? 45 (* - *) then
    if peek_is s 45 (* - *) then SOk (adv_push s TDecrement)
    else if peek_is s 61 (* = *) then SOk (adv_push s TMinusAssign)
    else if peek_is s 62 (* > *) then SOk (adv_push s TObjectOperator)
    else SOk (push_token s TMinus)
  else if c =? 42 (* star *) then
    if peek_is s 42 (* star *) then
      let s1 := skip s in
      if peek_is s1 61 (* = *) then SOk (adv_push s1 TPowerAssignment)
      else SOk (push_token s1 TPower)
    else if peek_is s 61 (* = *) then SOk (adv_push s TMulAssign)
    else SOk (push_token s TMultiplication)
  else if c =? 35 (* # *) then
    if peek_is s 91 (* [ *) then SOk (adv_push s TAttributeStart)
    else consume_line_comment (skip s)
  else if c =? 47 (* / *) then
    if peek_is s 47 (* / *) then consume_line_comment (skip s)
    else if peek_is s 42 (* star *) then collect_doc_comment_information (skip s)
    else if peek_is s 61 (* = *) then SOk (adv_push s TDivAssign)
    else SOk (push_token s TDivision)
  else if c =? 61 (* = *) then
    if peek_is s 61 (* = *) then
      let s1 := skip s in
      if peek_is s1 61 (* = *) then SOk (adv_push s1 TIsIdentical)
      else SOk (push_token s1 TIsEqual)
    else if peek_is s 62 (* > *) then SOk (adv_push s TDoubleArrow)
    else SOk (push_token s TAssignment)
  else if c =? 36 (* $ *) then
    slet (name, s1) <- collect_identifier s ;;
    match name with
    | [] => SOk (push_token s1 TVariable)
    | _ => SOk (push_named_token s1 TVariable name)
    end
  else if is_digit c then scan_number c s
  else if c =? 40 (* lparen *) then SOk (push_token s TOpenParenthesis)
  else if c =? 41 (* rparen *) then close_parenthesis s
  else if c =? 123 (* { *) then SOk (push_token s TOpenCurly)
  else if c =? 125 (* } *) then SOk (push_token s TCloseCurly)
  else if c =? 91 (* [ *) then SOk (push_token s TOpenBrackets)
  else if c =? 93 (* ] *) then SOk (push_token s TCloseBrackets)
  else if c =? 59 (* ; *) then SOk (push_token s TSemicolon)
  else if c =? 39 (* quote *) then
    slet (str, s1) <- collect_until_escaped 39 (* quote *) s ;;
    SOk (push_named_token s1 TConstantEncapsedString str)
  else if c =? 96 (* ` *) then
    slet (str, s1) <- collect_until_escaped 96 (* ` *) s ;;
    SOk (push_named_token s1 TShellEscape str)
  else if c =? 34 (* dquote *) then
    slet (str, s1) <- collect_until_escaped 34 (* dquote *) s ;;
    SOk (push_named_token s1 TEncapsedAndWhitespaceString str)
  else scan_word c s.

(** scanner.rs:73-633 *)
Fixpoint scan_loop `{Runtime} (n : nat) (s : Scn) : sres Scn :=
  match n with
  | O => SFuel
  | S n' =>
      let s := set_start s in
      match advance s with
      | (None, s1) => SOk (push_token s1 TEof)
      | (Some c, s1) =>
          if negb (is_in_script (s_ctx s1)) && negb (c =? 60 (* < *)) then scan_loop n' s1
          else slet s2 <- scan_char c s1 ;; scan_loop n' s2
      end
  end.

(** [Scanner::new(source)] followed by [scan()]: scanner.rs:38-50, 72-636 *)
Definition scan_state `{Runtime} (source : str) : sres Scn :=
  scan_loop (fuel_of (scanner_new source)) (scanner_new source).

(** The token list handed out by [scan()], in document order *)
Definition scan `{Runtime} (source : str) : sres (list Token) :=
  slet s <- scan_state source ;; SOk (rev (s_toks s)).
