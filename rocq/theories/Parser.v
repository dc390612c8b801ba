(** The parser: /repo/src/parser/mod.rs and /repo/src/parser/ast/*.rs.

    [&mut Parser] becomes a state; [Result] stays data; a panic is the value
    [PPanic].  Recursive calls go through the record [Rec]: [run n] answers
    them with at most [n] nested calls, and every loop makes at most [n]
    rounds.  [PFuel] is the value of a computation that needs more; the
    theorems say when it does not occur.  The depth of the Rust stack is not
    modelled: a recursion that overflows it is a computation like any other.

    Fields of a struct literal are evaluated in the order in which they are
    written in the code.  This file contains no proofs. *)

From Verif Require Import Base Token Node DocBlock.

(** * State, results *)

(** mod.rs:8-29 *)
Inductive perr :=
| EWrongToken (expected : list TokenType) (token : Token)
| EMissingIdentifier (token : Token)
| EUnexpectedToken (token : Token)
| EIllegalOffset (expr : Node)
| ERValueInWriteContext (token : Token)
| EEof.

(** mod.rs:54-57 *)
Inductive pctx := CtxOut | CtxScript.

(** mod.rs:60-70.  The token and comment stacks are lists with the top first;
    the errors are listed newest first. *)
Record pst := mkPst {
  p_docs : list Token;
  p_toks : list Token;
  p_errs : list perr;
  p_ctx : pctx;
  p_eof : N * N;
  p_eprev : NodeRange
}.

Inductive res (A : Type) :=
| POk (a : A) (s : pst)
| PFail (e : perr) (s : pst)
| PPanic
| PFuel.
Arguments POk {A} a s.
Arguments PFail {A} e s.
Arguments PPanic {A}.
Arguments PFuel {A}.

Definition P (A : Type) := pst -> res A.

Definition ret {A} (a : A) : P A := fun s => POk a s.
Definition fail {A} (e : perr) : P A := fun s => PFail e s.
Definition panic {A} : P A := fun _ => PPanic.
Definition bind {A B} (m : P A) (f : A -> P B) : P B :=
  fun s => match m s with
           | POk a s' => f a s'
           | PFail e s' => PFail e s'
           | PPanic => PPanic
           | PFuel => PFuel
           end.
Notation "x <- m ;; k" := (bind m (fun x => k))
  (at level 61, m at next level, right associativity).
Notation "m ;;; k" := (bind m (fun _ => k)) (at level 61, right associativity).

(** A [Result] that is inspected instead of being passed on with [?]. *)
Definition pcatch {A} (m : P A) : P (A + perr) :=
  fun s => match m s with
           | POk a s' => POk (inl a) s'
           | PFail e s' => POk (inr e) s'
           | PPanic => PPanic
           | PFuel => PFuel
           end.

(** [loop { ... }] with at most [n] rounds: [inl] goes on, [inr] breaks. *)
Fixpoint ploop {A B} (n : nat) (body : A -> P (A + B)) (a : A) : P B :=
  match n with
  | O => fun _ => PFuel
  | S n => x <- body a ;;
           match x with
           | inl a' => ploop n body a'
           | inr b => ret b
           end
  end.
Definition continue {A B} (a : A) : P (A + B) := ret (inl a).
Definition break {A B} (b : B) : P (A + B) := ret (inr b).

Definition push_err (e : perr) : P unit :=
  fun s => POk tt (mkPst (p_docs s) (p_toks s) (e :: p_errs s) (p_ctx s) (p_eof s) (p_eprev s)).
Definition set_ctx (c : pctx) : P unit :=
  fun s => POk tt (mkPst (p_docs s) (p_toks s) (p_errs s) c (p_eof s) (p_eprev s)).
Definition push_tok (t : Token) : P unit :=
  fun s => POk tt (mkPst (p_docs s) (t :: p_toks s) (p_errs s) (p_ctx s) (p_eof s) (p_eprev s)).
Definition get_eprev : P NodeRange := fun s => POk (p_eprev s) s.
Definition get_eof : P (N * N) := fun s => POk (p_eof s) s.
Definition get_ctx : P pctx := fun s => POk (p_ctx s) s.

(** * mod.rs: primitives *)

(** mod.rs:474-488 *)
Fixpoint next_go (toks docs : list Token) (ep : NodeRange)
  : option (option Token * list Token * list Token * NodeRange) :=
  match toks with
  | [] => Some (None, [], docs, ep)
  | t :: r =>
      match token_range t with
      | None => None
      | Some rg =>
          match t_type t with
          | TMultilineComment => next_go r (t :: docs) rg
          | TLineComment | TLinebreak => next_go r docs rg
          | _ => Some (Some t, r, docs, rg)
          end
      end
  end.
Definition next : P (option Token) :=
  fun s => match next_go (p_toks s) (p_docs s) (p_eprev s) with
           | None => PPanic
           | Some (t, toks, docs, ep) =>
               POk t (mkPst docs toks (p_errs s) (p_ctx s) (p_eof s) ep)
           end.

(** mod.rs:491-507 *)
Fixpoint peek_go (toks docs : list Token) : option Token * list Token * list Token :=
  match toks with
  | [] => (None, [], docs)
  | t :: r =>
      match t_type t with
      | TEof => (None, r, docs)
      | TMultilineComment => peek_go r (t :: docs)
      | TLineComment | TLinebreak => peek_go r docs
      | _ => (Some t, t :: r, docs)
      end
  end.
Definition peek : P (option Token) :=
  fun s => match peek_go (p_toks s) (p_docs s) with
           | (t, toks, docs) => POk t (mkPst docs toks (p_errs s) (p_ctx s) (p_eof s) (p_eprev s))
           end.

(** [self.next().unwrap()] *)
Definition next_unwrap : P Token :=
  t <- next ;; match t with Some t => ret t | None => panic end.

Definition one_of (types : list TokenType) (t : Token) : bool :=
  existsb (fun tt => tt_eqb tt (t_type t)) types.

(** mod.rs:717-727 *)
Definition next_token_one_of (types : list TokenType) : P bool :=
  t <- peek ;;
  match t with
  | Some t => ret (one_of types t)
  | None => ret false
  end.

(** mod.rs:729-736 *)
Definition next_is_operator : P bool :=
  t <- peek ;;
  match t with
  | Some t => ret (is_some (infix_binding_power (t_type t)) || is_some (prefix_binding_power (t_type t)))
  | None => ret false
  end.

(** The loops of the primitives pop a token in every round; the number of
    tokens bounds the rounds.  ([PFuel] never occurs: ParserBase.v.) *)
Definition while_tokens (body : P (unit + unit)) : P unit :=
  fun s => ploop (S (List.length (p_toks s))) (fun _ => body) tt s.

(** mod.rs:143-157 *)
Definition error_fast_forward : P unit :=
  while_tokens (
    t <- peek ;;
    match t with
    | None => break tt
    | Some _ =>
        b <- next_token_one_of [TSemicolon; TScriptStart Regular; TScriptStart EchoTag;
                                TScriptStart Short; TCloseCurly] ;;
        if b then break tt else (next ;;; continue tt)
    end).

(** mod.rs:510-536 *)
Definition consume_end_of_statement : P unit :=
  t <- peek ;;
  match t with
  | Some token =>
      if tt_eqb (t_type token) TSemicolon then (next ;;; ret tt)
      else if tt_eqb (t_type token) TScriptEnd then ret tt
      else (error_fast_forward ;;;
            push_err (EWrongToken [TSemicolon; TScriptEnd] token))
  | None => push_err EEof
  end.

(** mod.rs:539-566 *)
Definition consume_or_ff_after (t : TokenType) (ff_to : list TokenType) : P unit :=
  p <- peek ;;
  match p with
  | Some token =>
      if tt_eqb (t_type token) t then (next ;;; ret tt)
      else (push_err (EWrongToken [t] token) ;;;
            while_tokens (
              n <- next ;;
              match n with
              | None => break tt
              | Some n => if one_of ff_to n then break tt else continue tt
              end))
  | None => push_err EEof
  end.

(** mod.rs:568-595 *)
Definition consume_or_ff_before (t : TokenType) (ff_to : list TokenType) : P Token :=
  p <- peek ;;
  match p with
  | Some token =>
      if tt_eqb (t_type token) t then next_unwrap
      else (push_err (EWrongToken [t] token) ;;;
            while_tokens (
              n <- peek ;;
              match n with
              | None => break tt
              | Some n => if one_of ff_to n then break tt else (next ;;; continue tt)
              end) ;;;
            ret token)
  | None => push_err EEof ;;; fail EEof
  end.

(** mod.rs:598-608 *)
Definition consume_or_ignore (t : TokenType) : P (option Token) :=
  p <- peek ;;
  match p with
  | Some token =>
      if tt_eqb (t_type token) t then (n <- next_unwrap ;; ret (Some n)) else ret None
  | None => ret None
  end.

(** mod.rs:611-631 *)
Definition consume (t : TokenType) : P Token :=
  p <- peek ;;
  match p with
  | Some token =>
      if tt_eqb (t_type token) t then next_unwrap
      else
        ep <- get_eprev ;;
        let token := token_missing (range_end ep) in
        error_fast_forward ;;;
        push_err (EWrongToken [t] token) ;;;
        ret token
  | None =>
      eof <- get_eof ;;
      let token := token_missing eof in
      error_fast_forward ;;;
      push_err (EWrongToken [t] token) ;;;
      ret token
  end.

(** mod.rs:634-651 *)
Definition consume_identifier : P Token :=
  p <- peek ;;
  match p with
  | Some token =>
      if is_identifier token then next_unwrap
      else
        ep <- get_eprev ;;
        let token := token_missing (range_end ep) in
        push_err (EMissingIdentifier token) ;;;
        ret token
  | None =>
      eof <- get_eof ;;
      let token := token_missing eof in
      push_err (EMissingIdentifier token) ;;;
      ret token
  end.

Definition is_member_token (t : Token) : bool := is_identifier t || tt_eqb (t_type t) TVariable.

(** mod.rs:654-667 *)
Definition consume_member : P Token :=
  n <- next ;;
  match n with
  | Some token =>
      if is_member_token token then ret token
      else fail (EWrongToken [TIdentifier; TVariable] token)
  | None => fail EEof
  end.

(** mod.rs:669-675 *)
Definition next_is_member : P bool :=
  t <- peek ;; match t with Some t => ret (is_member_token t) | None => ret false end.

(** mod.rs:677-683 *)
Definition next_is_identifier : P bool :=
  t <- peek ;; match t with Some t => ret (is_identifier t) | None => ret false end.

(** mod.rs:686-701 *)
Definition consume_one_of (types : list TokenType) : P Token :=
  n <- next ;;
  match n with
  | Some token => if one_of types token then ret token else fail (EWrongToken types token)
  | None => fail EEof
  end.

(** mod.rs:704-714 *)
Definition consume_one_of_or_ignore (types : list TokenType) : P (option Token) :=
  t <- peek ;;
  match t with
  | Some t => if one_of types t then (n <- next_unwrap ;; ret (Some n)) else ret None
  | None => ret None
  end.

Section WithRuntime.
Context `{Runtime}.

(** comments.rs:366-379 *)
Definition consume_optional_doc_comment : P (option Node) :=
  fun s => match p_docs s with
           | [] => POk None s
           | c :: docs =>
               match docblock_scan c with
               | None => PPanic
               | Some n => POk (Some n) (mkPst docs (p_toks s) (p_errs s) (p_ctx s) (p_eof s) (p_eprev s))
               end
           end.

(** mod.rs:124-131, 183-190, 230-237: turn all pending doc comments into
    statements *)
Fixpoint flush_go (docs : list Token) : option (list Node) :=
  match docs with
  | [] => Some []
  | c :: docs =>
      match docblock_scan c with
      | None => None
      | Some n =>
          match flush_go docs with
          | None => None
          | Some r =>
              Some (match n with
                    | (NDocComment _ _ _ _ _ var_docs _) => var_docs
                    | _ => []
                    end ++ r)
          end
      end
  end.
Definition flush_docs : P (list Node) :=
  fun s => match flush_go (p_docs s) with
           | None => PPanic
           | Some l => POk l (mkPst [] (p_toks s) (p_errs s) (p_ctx s) (p_eof s) (p_eprev s))
           end.

(** * The recursive part *)

(** Recursive calls: expressions.rs:18 [expression], calls.rs:8 [call],
    mod.rs:321 [statement], mod.rs:167 [block]. *)
Record Rec := mkRec {
  r_expr : N -> P Node;
  r_call : P Node;
  r_stmt : P Node;
  r_block : P Node
}.

Section Grammar.
Variable rec : Rec.
Variable n : nat.

Let expression := r_expr rec.

(** ** types.rs *)

(** types.rs:43-58 *)
Definition non_empty_type_ref : P Node :=
  ns <- consume_or_ignore TNamespaceSeparator ;;
  i <- consume_identifier ;;
  path <- ploop n (fun path =>
            ns <- consume_or_ignore TNamespaceSeparator ;;
            match ns with
            | Some ns => i <- consume_identifier ;; continue (path ++ [ns; i])
            | None => break path
            end) (opt_list ns ++ [i]) ;;
  ret (NTypeRef (tref_one path)).

(** types.rs:5-13 *)
Definition type_ref_list : P (list Node) :=
  first <- non_empty_type_ref ;;
  ploop n (fun type_refs =>
    c <- consume_or_ignore TComma ;;
    match c with
    | Some _ => t <- non_empty_type_ref ;; continue (type_refs ++ [t])
    | None => break type_refs
    end) [first].

(** types.rs:16-40 *)
Definition type_ref : P (option Node) :=
  ns <- consume_or_ignore TNamespaceSeparator ;;
  path <- ploop n (fun path =>
            i <- peek ;;
            match i with
            | Some identifier =>
                if is_identifier identifier then
                  i <- next_unwrap ;;
                  ns <- consume_or_ignore TNamespaceSeparator ;;
                  match ns with
                  | Some ns => continue (path ++ [i; ns])
                  | None => break (path ++ [i])
                  end
                else break path
            | None => break path
            end) (opt_list ns) ;;
  match path with
  | [] => ret None
  | _ => ret (Some (NTypeRef (tref_one path)))
  end.

(** types.rs:61-85 *)
Definition non_empty_namespace_ref : P (list Token) :=
  ns <- consume_or_ignore TNamespaceSeparator ;;
  i <- consume_identifier ;;
  ploop n (fun path =>
    ns <- consume_or_ignore TNamespaceSeparator ;;
    match ns with
    | Some ns =>
        let path := path ++ [ns] in
        p <- peek ;;
        match p with
        | Some ident =>
            if is_identifier ident then (i <- next_unwrap ;; continue (path ++ [i]))
            else break path
        | None => break path
        end
    | None => break path
    end) (opt_list ns ++ [i]).

(** types.rs:96-104 *)
Definition non_empty_type_ref_union : P (list Node) :=
  first <- non_empty_type_ref ;;
  ploop n (fun paths =>
    c <- consume_or_ignore TBinaryOr ;;
    match c with
    | Some _ => t <- non_empty_type_ref ;; continue (paths ++ [t])
    | None => break paths
    end) [first].

(** types.rs:115-129 *)
Definition type_ref_union : P (option (list Node)) :=
  tr <- type_ref ;;
  match tr with
  | None => ret None
  | Some tr =>
      paths <- ploop n (fun paths =>
                 c <- consume_or_ignore TBinaryOr ;;
                 match c with
                 | Some _ => t <- non_empty_type_ref ;; continue (paths ++ [t])
                 | None => break paths
                 end) [tr] ;;
      ret (Some paths)
  end.

(** types.rs:137-142 *)
Definition data_type : P Node :=
  nullable <- consume_or_ignore TQuestionMark ;;
  type_refs <- non_empty_type_ref_union ;;
  ret (NDataType nullable type_refs).

(** ** variables.rs *)

(** variables.rs:7-59 *)
Definition variable : P Node :=
  variable <- consume TVariable ;;
  match t_label variable with
  | Some _ => ret (NVariable variable)
  | None =>
      oc <- consume_or_ignore TOpenCurly ;;
      match oc with
      | Some oc =>
          expr <- expression 0 ;;
          cc <- consume TCloseCurly ;;
          ret (NDynamicVariable variable oc expr cc)
      | None =>
          (* the list of links is kept newest first *)
          ploop n (fun links =>
            b <- next_token_one_of [TVariable] ;;
            if b then
              v <- consume_or_ff_before TVariable [TSemicolon; TScriptEnd] ;;
              match t_label v with
              | Some _ =>
                  break (fold_left (fun root link => NAliasedVariable link root) links (NVariable v))
              | None => continue (v :: links)
              end
            else
              match links with
              | last :: _ =>
                  match token_end last with
                  | Some pos =>
                      push_err (EMissingIdentifier last) ;;;
                      break (NVariable (token_missing pos))
                  | None => panic
                  end
              | [] => panic
              end) [variable]
      end
  end.

(** variables.rs:61-80 *)
Definition global_variables : P Node :=
  token <- consume TGlobal ;;
  v <- variable ;;
  consume_or_ignore TComma ;;;
  vars <- ploop n (fun vars =>
            b <- next_token_one_of [TSemicolon] ;;
            if b then break vars
            else
              v <- variable ;;
              let vars := vars ++ [v] in
              b <- next_token_one_of [TSemicolon] ;;
              if b then break vars
              else (consume_or_ff_after TComma [TSemicolon] ;;; continue vars)) [v] ;;
  consume_or_ff_after TSemicolon [TSemicolon] ;;;
  ret (NGlobalVariablesStatement token vars).

(** variables.rs:84-104 *)
Definition static_variables (token : Token) : P Node :=
  assignments <- ploop n (fun assignments =>
    variable <- consume TVariable ;;
    assignment <- consume_or_ignore TAssignment ;;
    assignments <- match assignment with
                   | Some _ =>
                       value <- expression 0 ;;
                       ret (assignments ++ [(NStaticVariable variable assignment (Some value))])
                   | None => ret assignments
                   end ;;
    c <- consume_or_ignore TComma ;;
    match c with
    | Some _ => continue assignments
    | None => break assignments
    end) [] ;;
  ret (NStaticVariablesStatement token assignments).

(** the struct literals of variables.rs:110-114 and 118-122 *)
Definition const_item : P Node :=
  name <- consume_identifier ;;
  token <- consume TAssignment ;;
  value <- expression 0 ;;
  ret (NConst name token value).

(** variables.rs:107-126 *)
Definition const_statement : P Node :=
  token <- consume TConst ;;
  first <- const_item ;;
  constants <- ploop n (fun constants =>
    e <- consume_or_ignore TSemicolon ;;
    match e with
    | Some _ => break constants
    | None =>
        consume_or_ff_after TComma [TSemicolon] ;;;
        c <- const_item ;;
        continue (constants ++ [c])
    end) [first] ;;
  ret (NConstStatement token constants).

(** variables.rs:152-157 *)
Definition lexical_variable : P Node :=
  reference <- consume_or_ignore TBinaryAnd ;;
  variable <- consume TVariable ;;
  ret (NLexicalVariable reference variable).

(** variables.rs:129-149 *)
Definition non_empty_lexical_variables_list : P (list Node) :=
  consume_or_ff_after TOpenParenthesis [TSemicolon] ;;;
  first <- lexical_variable ;;
  consume_or_ignore TComma ;;;
  arguments <- ploop n (fun arguments =>
    b <- next_token_one_of [TCloseParenthesis] ;;
    if b then break arguments
    else
      v <- lexical_variable ;;
      let arguments := arguments ++ [v] in
      b <- next_token_one_of [TCloseParenthesis] ;;
      if b then break arguments
      else (consume_or_ff_after TComma [TSemicolon] ;;; continue arguments)) [first] ;;
  consume_or_ff_after TCloseParenthesis [TSemicolon] ;;;
  ret arguments.

(** ** attributes.rs *)

(** attributes.rs:15-31 *)
Definition attribute : P Node :=
  ats <- consume TAttributeStart ;;
  first <- expression 0 ;;
  expressions <- ploop n (fun expressions =>
    c <- consume_or_ignore TComma ;;
    match c with
    | Some _ => e <- expression 0 ;; continue (expressions ++ [e])
    | None => break expressions
    end) [first] ;;
  cb <- consume TCloseBrackets ;;
  ret (NAttribute ats expressions cb).

(** attributes.rs:33-40 *)
Definition attributes_block : P (list Node) :=
  ploop n (fun attributes =>
    b <- next_token_one_of [TAttributeStart] ;;
    if b then (a <- attribute ;; continue (attributes ++ [a])) else break attributes) [].

(** ** arrays.rs *)

(** arrays.rs:49-85.  [is_offset] (node.rs:921) is the constant [true]. *)
Definition array_pair : P Node :=
  key <- expression 0 ;;
  arrow <- consume_or_ignore TDoubleArrow ;;
  match arrow with
  | Some _ =>
      b <- next_token_one_of [TBinaryAnd] ;;
      if b then
        value <- lexical_variable ;;
        ret (NArrayElement (Some key) arrow value)
      else
        value <- expression 0 ;;
        ret (NArrayElement (Some key) arrow value)
  | None => ret (NArrayElement None None key)
  end.

(** arrays.rs:9-30 *)
Definition array : P Node :=
  start <- consume TOpenBrackets ;;
  elements <- ploop n (fun elements =>
    b <- next_token_one_of [TCloseBrackets] ;;
    if b then break elements
    else
      c <- consume_or_ignore TComma ;;
      match c with
      | Some _ => continue elements
      | None =>
          e <- array_pair ;;
          consume_or_ignore TComma ;;;
          continue (elements ++ [e])
      end) [] ;;
  cb <- consume TCloseBrackets ;;
  ret (NArray start elements cb).

(** arrays.rs:32-47 *)
Definition old_array : P Node :=
  start <- consume TTypeArray ;;
  op <- consume TOpenParenthesis ;;
  elements <- ploop n (fun elements =>
    b <- next_token_one_of [TCloseParenthesis] ;;
    if b then break elements
    else
      e <- array_pair ;;
      consume_or_ignore TComma ;;;
      continue (elements ++ [e])) [] ;;
  cp <- consume TCloseParenthesis ;;
  ret (NOldArray start op elements cp).

(** ** functions.rs *)

(** functions.rs:70-84 *)
Definition argument_type : P (option Node) :=
  qm <- consume_or_ignore TQuestionMark ;;
  match qm with
  | Some _ =>
      type_refs <- non_empty_type_ref_union ;;
      ret (Some (NDataType qm type_refs))
  | None =>
      type_refs <- type_ref_union ;;
      match type_refs with
      | Some type_refs => ret (Some (NDataType None type_refs))
      | None => ret None
      end
  end.

(** functions.rs:17-60 *)
Definition argument_list (fn_doc_comment : option Node) : P (option (list Node)) :=
  b <- next_token_one_of [TCloseParenthesis] ;;
  if b then ret None
  else
    arguments <- ploop n (fun arguments =>
      attributes <- attributes_block ;;
      argument_type <- argument_type ;;
      reference <- consume_or_ignore TBinaryAnd ;;
      spread <- consume_or_ignore TElipsis ;;
      name <- consume TVariable ;;
      has_default <- consume_or_ignore TAssignment ;;
      default_value <- match has_default with
                       | Some _ => e <- expression 0 ;; ret (Some e)
                       | None => ret None
                       end ;;
      let doc_comment := param_comment_for fn_doc_comment name in
      let arguments := arguments ++
        [(NFunctionArgument argument_type name has_default default_value spread reference doc_comment attributes)] in
      b <- next_token_one_of [TComma] ;;
      if b then (next ;;; continue arguments) else break arguments) [] ;;
    ret (Some arguments).

(** functions.rs:94-103 *)
Definition return_type : P (option Node) :=
  colon <- consume_or_ignore TColon ;;
  match colon with
  | Some colon =>
      data_type <- data_type ;;
      ret (Some (NReturnType colon data_type))
  | None => ret None
  end.

(** functions.rs:139-172 *)
Definition anonymous_function_statement (doc_comment : option Node) : P Node :=
  op <- consume TOpenParenthesis ;;
  arguments <- argument_list doc_comment ;;
  cp <- consume TCloseParenthesis ;;
  return_type <- return_type ;;
  semi <- consume_or_ignore TSemicolon ;;
  match semi with
  | Some _ =>
      ret (NFunctionDefinitionStatement op arguments cp return_type None doc_comment)
  | None =>
      body <- r_block rec ;;
      ret (NFunctionDefinitionStatement op arguments cp return_type (Some body) doc_comment)
  end.

(** functions.rs:114-126 *)
Definition named_function (doc_comment : option Node) (attributes : list Node) : P Node :=
  token <- consume TFunction ;;
  by_ref <- consume_or_ignore TBinaryAnd ;;
  name <- consume_identifier ;;
  function <- anonymous_function_statement doc_comment ;;
  ret (NNamedFunctionDefinitionStatement token by_ref name function attributes).

(** functions.rs:174-203 *)
Definition arrow_function (is_static : option Token) (attributes : list Node) : P Node :=
  token <- consume TFn ;;
  by_ref <- consume_or_ignore TBinaryAnd ;;
  op <- consume TOpenParenthesis ;;
  arguments <- argument_list None ;;
  cp <- consume TCloseParenthesis ;;
  return_type <- return_type ;;
  arrow <- consume TDoubleArrow ;;
  body <- expression 0 ;;
  ret (NArrowFunction is_static by_ref token op arguments cp arrow return_type body attributes).

(** functions.rs:205-240 *)
Definition anonymous_function (is_static : option Token) (attributes : list Node) : P Node :=
  token <- consume TFunction ;;
  by_ref <- consume_or_ignore TBinaryAnd ;;
  op <- consume TOpenParenthesis ;;
  arguments <- argument_list None ;;
  cp <- consume TCloseParenthesis ;;
  b <- next_token_one_of [TUse] ;;
  uses <- (if b then
             next ;;;
             l <- non_empty_lexical_variables_list ;;
             ret (Some l)
           else ret None) ;;
  return_type <- return_type ;;
  body <- r_block rec ;;
  ret (NFunction is_static by_ref token op arguments cp uses return_type body attributes).

(** the loop of functions.rs:248-256 and 265-273 *)
Definition parameters_loop (init : list Node) : P (list Node) :=
  ploop n (fun arguments =>
    b <- next_token_one_of [TCloseParenthesis] ;;
    if b then break arguments
    else
      e <- expression 0 ;;
      let arguments := arguments ++ [e] in
      b <- next_token_one_of [TCloseParenthesis] ;;
      if b then break arguments
      else (consume_or_ff_after TComma [TCloseParenthesis] ;;; continue arguments)) init.

(** functions.rs:243-259 *)
Definition non_empty_parameter_list : P (list Node) :=
  first <- expression 0 ;;
  consume_or_ignore TComma ;;;
  parameters_loop [first].

(** functions.rs:263-275 *)
Definition parameter_list : P (list Node) := parameters_loop [].

(** functions.rs:277-297 *)
Definition return_statement : P Node :=
  token <- consume TReturn ;;
  b <- next_token_one_of [TSemicolon] ;;
  if b then
    consume_or_ff_after TSemicolon [TSemicolon] ;;;
    ret (NReturnStatement token None)
  else
    value <- expression 0 ;;
    consume_or_ff_after TSemicolon [TSemicolon] ;;;
    ret (NReturnStatement token (Some value)).

(** ** calls.rs *)

(** calls.rs:137-175 *)
Definition finish_call (expr : Node) : P Node :=
  op <- consume TOpenParenthesis ;;
  parameters <- ploop n (fun parameters =>
    b <- next_token_one_of [TCloseParenthesis] ;;
    if b then break parameters
    else
      i <- next_is_identifier ;;
      p <- (if i then
              name <- consume_identifier ;;
              c <- next_token_one_of [TColon] ;;
              if c then
                colon <- consume TColon ;;
                expr <- expression 0 ;;
                ret (NNamedParameter name colon expr)
              else
                push_tok name ;;;
                expression 0
            else expression 0) ;;
      let parameters := parameters ++ [p] in
      b <- next_token_one_of [TCloseParenthesis] ;;
      if b then break parameters
      else (consume_or_ff_before TComma [TCloseParenthesis] ;;; continue parameters)) [] ;;
  cp <- consume TCloseParenthesis ;;
  ret (NCall expr op parameters cp).

(** calls.rs:14-134.  The last [else] of the member access (53-64) is
    unreachable: [consume_identifier] never answers with an error. *)
Definition init_call (expr : Node) : P Node :=
  ploop n (fun expr =>
    b <- next_token_one_of [TOpenParenthesis] ;;
    if b then (e <- finish_call expr ;; continue e)
    else
    os <- consume_one_of_or_ignore [TObjectOperator; TNullsafeObjectOperator] ;;
    match os with
    | Some os =>
        oc <- consume_or_ignore TOpenCurly ;;
        match oc with
        | Some _ =>
            member <- expression 0 ;;
            cc <- consume TCloseCurly ;;
            continue (NMember expr os oc member (Some cc))
        | None =>
            v <- next_token_one_of [TVariable] ;;
            if v then
              member <- variable ;;
              continue (NMember expr os None member None)
            else
              r <- pcatch consume_identifier ;;
              match r with
              | inl identifier =>
                  continue (NMember expr os None (NLiteral identifier) None)
              | inr _ =>
                  push_err (EMissingIdentifier os) ;;;
                  continue (NMember expr os None (NMissing os) None)
              end
        end
    | None =>
    pn <- consume_or_ignore TPaamayimNekudayim ;;
    match pn with
    | Some pn =>
        v <- next_token_one_of [TVariable] ;;
        if v then
          member <- variable ;;
          continue (NStaticMember expr pn None member None)
        else
        c <- next_token_one_of [TOpenCurly] ;;
        if c then
          oc <- consume TOpenCurly ;;
          member <- variable ;;
          cc <- consume TCloseCurly ;;
          continue (NStaticMember expr pn (Some oc) member (Some cc))
        else
        m <- next_is_member ;;
        if m then
          member <- consume_member ;;
          continue (NStaticMember expr pn None (NLiteral member) None)
        else
          push_err (EMissingIdentifier pn) ;;;
          continue (NStaticMember expr pn None (NMissing pn) None)
    | None =>
    ob <- consume_or_ignore TOpenBrackets ;;
    match ob with
    | Some ob =>
        cb <- consume_or_ignore TCloseBrackets ;;
        match cb with
        | Some cb => continue (NField expr ob None cb)
        | None =>
            index <- expression 0 ;;
            cb <- consume TCloseBrackets ;;
            continue (NField expr ob (Some index) cb)
        end
    | None =>
    oc <- consume_or_ignore TOpenCurly ;;
    match oc with
    | Some oc =>
        index <- expression 0 ;;
        cb <- consume TCloseCurly ;;
        continue (NField expr oc (Some index) cb)
    | None => break expr
    end end end end) expr.

(** ** keywords.rs *)

(** keywords.rs:136-157 *)
Definition list_ : P Node :=
  start <- consume TList ;;
  op <- consume TOpenParenthesis ;;
  elements <- ploop n (fun elements =>
    b <- next_token_one_of [TCloseParenthesis] ;;
    if b then break elements
    else
      c <- consume_or_ignore TComma ;;
      match c with
      | Some _ => continue elements
      | None =>
          e <- array_pair ;;
          consume_or_ignore TComma ;;;
          continue (elements ++ [e])
      end) [] ;;
  cp <- consume TCloseParenthesis ;;
  ret (NList start op elements cp).

Definition scalar_types : list TokenType :=
  [TFalse; TTrue; TNull; TLongNumber; TDecimalNumber; TExponentialNumber; THexNumber;
   TBinaryNumber; TConstantEncapsedString; TEncapsedAndWhitespaceString].

(** keywords.rs:9-36 *)
Definition declare_statement : P Node :=
  token <- consume TDeclare ;;
  op <- consume TOpenParenthesis ;;
  directive <- consume TIdentifier ;;
  assignment <- consume TAssignment ;;
  value <- consume_one_of scalar_types ;;
  cp <- consume TCloseParenthesis ;;
  ret (NDeclareStatement directive value assignment op cp token).

(** keywords.rs:39-51 *)
Definition unset_statement : P Node :=
  token <- consume TUnset ;;
  op <- consume TOpenParenthesis ;;
  vars <- non_empty_parameter_list ;;
  cp <- consume TCloseParenthesis ;;
  ret (NUnsetStatement token op vars cp).

(** keywords.rs:54-73 *)
Definition die_statement : P Node :=
  token <- consume TDie ;;
  op <- consume TOpenParenthesis ;;
  cp <- consume_or_ignore TCloseParenthesis ;;
  match cp with
  | Some cp => ret (NDieStatement token op None cp)
  | None =>
      expr <- expression 0 ;;
      cp <- consume TCloseParenthesis ;;
      ret (NDieStatement token op (Some expr) cp)
  end.

(** keywords.rs:76-100 *)
Definition define_statement : P Node :=
  token <- consume TDefine ;;
  op <- consume TOpenParenthesis ;;
  name <- expression 0 ;;
  consume TComma ;;;
  value <- expression 0 ;;
  c <- consume_or_ignore TComma ;;
  is_caseinsensitive <- match c with
                        | Some _ => t <- consume_one_of [TTrue; TFalse] ;; ret (Some t)
                        | None => ret None
                        end ;;
  cp <- consume TCloseParenthesis ;;
  ret (NDefineStatement name value op cp token is_caseinsensitive).

(** the loops of keywords.rs:106-108 and 119-121 *)
Definition comma_expressions : P (list Node) :=
  first <- expression 0 ;;
  ploop n (fun expressions =>
    c <- consume_or_ignore TComma ;;
    match c with
    | Some _ => e <- expression 0 ;; continue (expressions ++ [e])
    | None => break expressions
    end) [first].

(** keywords.rs:102-113 *)
Definition echo_statement : P Node :=
  token <- consume TEcho ;;
  expressions <- comma_expressions ;;
  consume_end_of_statement ;;;
  ret (NEchoStatement token expressions).

(** keywords.rs:115-128 *)
Definition short_tag_echo_statement : P Node :=
  token <- consume (TScriptStart EchoTag) ;;
  expressions <- comma_expressions ;;
  consume_end_of_statement ;;;
  consume_or_ff_after TScriptEnd [TScriptEnd] ;;;
  ret (NEchoStatement token expressions).

(** keywords.rs:130-137 *)
Definition print_statement : P Node :=
  token <- consume TPrint ;;
  e <- expression 0 ;;
  consume_end_of_statement ;;;
  ret (NPrintStatement token [e]).

(** keywords.rs:162-170 *)
Definition goto_statement : P Node :=
  token <- consume TGoto ;;
  label <- consume_identifier ;;
  consume_or_ff_after TSemicolon [TSemicolon] ;;;
  ret (NGotoStatement token label).

(** ** classes.rs *)

(** classes.rs:280-293 *)
Definition identifier_list : P (list Node) :=
  ploop n (fun extends =>
    t <- non_empty_type_ref ;;
    let extends := extends ++ [t] in
    b <- next_token_one_of [TComma] ;;
    if b then (next ;;; continue extends) else break extends) [].

(** classes.rs:357-422 *)
Definition trait_usage_alteration_group (alteration_group_type_refs : list Node) : P Node :=
  oc <- consume TOpenCurly ;;
  alterations <- ploop n (fun alterations =>
    b <- next_token_one_of [TCloseCurly] ;;
    if b then break alterations
    else
      class_or_member <- non_empty_type_ref ;;
      paa <- consume_or_ignore TPaamayimNekudayim ;;
      x <- match paa with
           | Some _ => member <- non_empty_type_ref ;; ret (Some class_or_member, member)
           | None => ret (None, class_or_member)
           end ;;
      let class_name := fst x in
      let member := snd x in
      as_token <- consume_or_ignore TAs ;;
      alterations <- match as_token with
        | Some as_token =>
            visibility <- consume_one_of_or_ignore [TPrivate; TPublic; TProtected] ;;
            b <- next_token_one_of [TSemicolon] ;;
            if negb b then
              as_name <- consume_identifier ;;
              ret (alterations ++ [(NUseTraitAs class_name paa member as_token visibility (Some as_name))])
            else
              ret (alterations ++ [(NUseTraitAs class_name paa member as_token visibility None)])
        | None =>
            insteadof <- consume_or_ignore TInsteadof ;;
            match insteadof with
            | Some insteadof =>
                insteadof_list <- type_ref_list ;;
                ret (alterations ++ [(NUseTraitInsteadOf class_name paa member insteadof insteadof_list)])
            | None => ret alterations
            end
        end ;;
      consume_or_ff_after TSemicolon [TCloseCurly] ;;;
      continue alterations) [] ;;
  cc <- consume TCloseCurly ;;
  ret (NUseTraitAlterationBlock alteration_group_type_refs oc alterations cc).

(** classes.rs:316-354 *)
Definition trait_usages : P (list Node) :=
  r <- ploop n (fun type_refs =>
    b <- next_token_one_of [TSemicolon] ;;
    if b then break (inr type_refs)
    else
      t <- non_empty_type_ref ;;
      let type_refs := type_refs ++ [t] in
      b <- next_token_one_of [TOpenCurly] ;;
      if b then (g <- trait_usage_alteration_group type_refs ;; break (inl [g]))
      else
        c <- consume_or_ignore TComma ;;
        match c with
        | Some _ => continue type_refs
        | None => break (inr type_refs)
        end) [] ;;
  match r with
  | inl usages => ret usages
  | inr type_refs =>
      consume_or_ff_after TSemicolon [TSemicolon] ;;;
      ret (map (fun t => NUseTrait t) type_refs)
  end.

(** classes.rs:307-314 *)
Definition use_trait_statement : P Node :=
  token <- consume TUse ;;
  traits_usages <- trait_usages ;;
  ret (NUseTraitStatement token traits_usages).

(** the modifiers of classes.rs:109-137, as (abstract, final, visibility,
    static); every round of the loop overwrites all four *)
Definition modifiers : P (option Token * option Token * option Token * option Token) :=
  ploop n (fun m =>
    b <- next_token_one_of [TAbstract; TFinal; TPublic; TVar; TPrivate; TProtected; TStatic] ;;
    if b then
      is_abstract <- consume_or_ignore TAbstract ;;
      is_final <- consume_or_ignore TFinal ;;
      visibility <- consume_one_of_or_ignore [TPublic; TVar; TPrivate; TProtected] ;;
      is_static <- consume_or_ignore TStatic ;;
      continue (is_abstract, is_final, visibility, is_static)
    else break m) (None, None, None, None).

(** classes.rs:93-232 *)
Definition class_block_statement : P Node :=
  b <- next_token_one_of [TUse] ;;
  if b then use_trait_statement
  else
  doc_comment <- consume_optional_doc_comment ;;
  attributes <- attributes_block ;;
  doc_comment <- match doc_comment with
                 | Some _ => ret doc_comment
                 | None => consume_optional_doc_comment
                 end ;;
  m <- modifiers ;;
  match m with
  | (is_abstract, is_final, visibility, is_static) =>
  token <- consume_or_ignore TConst ;;
  match token with
  | Some token =>
      consts <- ploop n (fun consts =>
        name <- consume_identifier ;;
        consume_or_ff_after TAssignment [TSemicolon] ;;;
        value <- expression 0 ;;
        let consts := consts ++ [(NClassConstant visibility name value)] in
        c <- consume_or_ignore TComma ;;
        match c with Some _ => continue consts | None => break consts end) [] ;;
      consume_or_ff_after TSemicolon [TSemicolon] ;;;
      ret (NClassConstantDefinitionStatement token consts doc_comment visibility attributes)
  | None =>
  token <- consume_or_ignore TFunction ;;
  match token with
  | Some token =>
      by_ref <- consume_or_ignore TBinaryAnd ;;
      name <- consume_identifier ;;
      function <- anonymous_function_statement doc_comment ;;
      ret (NMethodDefinitionStatement token is_final by_ref name visibility is_abstract function is_static doc_comment attributes)
  | None =>
      b <- next_token_one_of [TVariable] ;;
      data_type <- (if negb b then (d <- data_type ;; ret (Some d)) else ret None) ;;
      properties <- ploop n (fun props =>
        name <- consume TVariable ;;
        b <- next_token_one_of [TAssignment] ;;
        value <- (if b then (next ;;; e <- expression 0 ;; ret (Some e)) else ret None) ;;
        let props := props ++ [(NProperty name value)] in
        b <- next_token_one_of [TComma] ;;
        if negb b then break props else (next ;;; continue props)) [] ;;
      consume_or_ff_after TSemicolon [TSemicolon] ;;;
      ret (NPropertyDefinitionStatement properties doc_comment visibility data_type is_static is_abstract attributes)
  end end end.

(** classes.rs:243-258.  Errors of a member are dropped. *)
Definition class_block : P Node :=
  oc <- consume TOpenCurly ;;
  statements <- ploop n (fun statements =>
    b <- next_token_one_of [TCloseCurly] ;;
    if b then break statements
    else
      r <- pcatch class_block_statement ;;
      let statements := match r with
                        | inl statement => statements ++ [statement]
                        | inr _ => statements
                        end in
      p <- peek ;;
      match p with
      | None => break statements
      | Some _ => continue statements
      end) [] ;;
  cc <- consume TCloseCurly ;;
  ret (NBlock oc statements cc).

(** classes.rs:29-60 *)
Definition class_statement (is_abstract is_final : option Token) (attributes : list Node) : P Node :=
  doc_comment <- consume_optional_doc_comment ;;
  token <- consume TClass ;;
  name <- consume_identifier ;;
  e <- consume_or_ignore TExtends ;;
  extends <- match e with
             | Some _ => t <- non_empty_type_ref ;; ret (Some t)
             | None => ret None
             end ;;
  i <- consume_or_ignore TImplements ;;
  implements <- match i with
                | Some _ => l <- identifier_list ;; ret (Some l)
                | None => ret None
                end ;;
  body <- class_block ;;
  ret (NClassStatement token name is_abstract is_final implements extends body doc_comment attributes).

(** classes.rs:9-16 *)
Definition abstract_class_statement (attributes : list Node) : P Node :=
  is_abstract <- consume TAbstract ;;
  class_statement (Some is_abstract) None attributes.

(** classes.rs:19-26 *)
Definition final_class_statement (attributes : list Node) : P Node :=
  is_final <- consume TFinal ;;
  class_statement None (Some is_final) attributes.

(** classes.rs:62-91 *)
Definition anonymous_class (attributes : list Node) : P Node :=
  token <- consume TClass ;;
  b <- next_token_one_of [TOpenParenthesis] ;;
  arguments <- (if b then
                  consume_or_ff_after TOpenParenthesis [TOpenParenthesis] ;;;
                  l <- parameter_list ;;
                  consume_or_ff_after TCloseParenthesis [TOpenCurly] ;;;
                  ret (Some l)
                else ret None) ;;
  e <- consume_or_ignore TExtends ;;
  extends <- match e with
             | Some _ => t <- non_empty_type_ref ;; ret (Some t)
             | None => ret None
             end ;;
  i <- consume_or_ignore TImplements ;;
  implements <- match i with
                | Some _ => l <- identifier_list ;; ret (Some l)
                | None => ret None
                end ;;
  body <- class_block ;;
  ret (NClass token arguments extends implements body attributes).

(** classes.rs:261-277 *)
Definition interface : P Node :=
  doc_comment <- consume_optional_doc_comment ;;
  token <- consume TInterface ;;
  name <- consume TIdentifier ;;
  e <- consume_or_ignore TExtends ;;
  extends <- match e with
             | Some _ => l <- identifier_list ;; ret (Some l)
             | None => ret None
             end ;;
  body <- class_block ;;
  ret (NInterface token name extends body doc_comment).

(** classes.rs:296-304 *)
Definition trait_statement : P Node :=
  doc_comment <- consume_optional_doc_comment ;;
  token <- consume TTrait ;;
  name <- consume TIdentifier ;;
  body <- class_block ;;
  ret (NTraitStatement token name body doc_comment).

(** ** conditionals.rs (match) *)

(** conditionals.rs:224-263 *)
Definition match_body : P (list Node) :=
  ploop n (fun options =>
    b <- next_token_one_of [TCloseCurly] ;;
    if b then break options
    else
      d <- consume_or_ignore TDefault ;;
      options <- match d with
        | Some _ =>
            arrow <- consume TDoubleArrow ;;
            expression <- expression 0 ;;
            ret (options ++ [(NMatchArm None arrow expression)])
        | None =>
            ploop n (fun patterns =>
              e <- expression 0 ;;
              let patterns := patterns ++ [e] in
              c <- consume_or_ignore TComma ;;
              match c with
              | Some _ => continue patterns
              | None =>
                  arrow <- consume TDoubleArrow ;;
                  expression <- expression 0 ;;
                  break (options ++ [(NMatchArm (Some patterns) arrow expression)])
              end) []
        end ;;
      consume_or_ignore TComma ;;;
      p <- peek ;;
      match p with
      | None => break options
      | Some _ => continue options
      end) [].

(** ** expressions.rs *)

Definition literal_types : list TokenType :=
  [TFalse; TTrue; TNull; TLongNumber; TDecimalNumber; TExponentialNumber; THexNumber;
   TBinaryNumber; TConstantEncapsedString; TEncapsedAndWhitespaceString; TShellEscape;
   TConstDir; TConstFile; TConstFunction; TConstLine; TConstMethod; TConstTrait; TConstClass;
   TConstNan; TConstInf].

(** expressions.rs:105-312 *)
Definition primary : P Node :=
  b <- next_token_one_of literal_types ;;
  if b then (t <- next_unwrap ;; ret (NLiteral t))
  else
  b <- next_token_one_of [TVariable] ;;
  if b then variable
  else
  b <- next_token_one_of [TNamespaceSeparator; TIdentifier] ;;
  if b then non_empty_type_ref
  else
  b <- next_token_one_of [THereDocStart] ;;
  if b then
    consume_or_ff_after THereDocStart [THereDocStart] ;;;
    string <- next_unwrap ;;
    consume_or_ff_after THereDocEnd [THereDocEnd] ;;;
    ret (NLiteral string)
  else
  isset <- consume_or_ignore TIsset ;;
  match isset with
  | Some isset =>
      op <- consume TOpenParenthesis ;;
      parameters <- non_empty_parameter_list ;;
      cp <- consume TCloseParenthesis ;;
      ret (NIsset isset op parameters cp)
  | None =>
  exit <- consume_or_ignore TExit ;;
  match exit with
  | Some exit =>
      op <- consume_or_ignore TOpenParenthesis ;;
      match op with
      | Some _ =>
          parameters <- parameter_list ;;
          cp <- consume TCloseParenthesis ;;
          ret (NExit exit op (Some parameters) (Some cp))
      | None => ret (NExit exit None None None)
      end
  | None =>
  empty <- consume_or_ignore TEmpty ;;
  match empty with
  | Some empty =>
      op <- consume TOpenParenthesis ;;
      parameters <- non_empty_parameter_list ;;
      cp <- consume TCloseParenthesis ;;
      ret (NEmpty empty op parameters cp)
  | None =>
  b <- next_token_one_of [TTypeArray] ;;
  if b then old_array
  else
  b <- next_token_one_of [TList] ;;
  if b then list_
  else
  include <- consume_one_of_or_ignore [TRequire; TRequireOnce; TInclude; TIncludeOnce] ;;
  match include with
  | Some include =>
      resource <- expression 0 ;;
      ret (NFileInclude include resource)
  | None =>
  b <- next_token_one_of [TOpenBrackets] ;;
  if b then array
  else
  b <- next_token_one_of [TOpenParenthesis] ;;
  if b then
    consume_or_ff_after TOpenParenthesis [TOpenParenthesis] ;;;
    expr <- expression 0 ;;
    consume_or_ff_after TCloseParenthesis [TSemicolon] ;;;
    ret (NGrouping expr)
  else
  attributes <- attributes_block ;;
  b <- next_token_one_of [TFn] ;;
  if b then arrow_function None attributes
  else
  b <- next_token_one_of [TFunction] ;;
  if b then anonymous_function None attributes
  else
  static <- consume_or_ignore TStatic ;;
  match static with
  | Some static_token =>
      b <- next_token_one_of [TPaamayimNekudayim] ;;
      if b then ret (NLiteral static_token)
      else
      b <- next_token_one_of [TFunction] ;;
      if b then anonymous_function (Some static_token) attributes
      else
      b <- next_token_one_of [TFn] ;;
      if b then arrow_function (Some static_token) attributes
      else ret (NLiteral static_token)
  | None =>
  self <- consume_one_of_or_ignore [TTypeSelf; TParent] ;;
  match self with
  | Some parser_token =>
      (* both branches of 273-280 answer the same *)
      b <- next_token_one_of [TPaamayimNekudayim] ;;
      if b then ret (NLiteral parser_token) else ret (NLiteral parser_token)
  | None =>
  b <- next_token_one_of [TClass] ;;
  if b then anonymous_class attributes
  else
  new <- consume_or_ignore TNew ;;
  match new with
  | Some new =>
      class_ <- r_call rec ;;
      ret (NNew new class_)
  | None =>
  yield <- consume_or_ignore TYield ;;
  match yield with
  | Some token =>
      b <- next_token_one_of [TSemicolon] ;;
      if b then ret (NYield token None)
      else (e <- array_pair ;; ret (NYield token (Some e)))
  | None =>
  from <- consume_or_ignore TYieldFrom ;;
  match from with
  | Some from =>
      expr <- expression 0 ;;
      ret (NYieldFrom from expr)
  | None =>
  mtch <- consume_or_ignore TMatch ;;
  match mtch with
  | Some mtch =>
      op <- consume TOpenParenthesis ;;
      condition <- expression 0 ;;
      cp <- consume TCloseParenthesis ;;
      oc <- consume TOpenCurly ;;
      body <- match_body ;;
      cc <- consume TCloseCurly ;;
      ret (NMatch mtch oc op condition cp body cc)
  | None =>
  t <- next ;;
  match t with
  | Some t => if is_identifier t then ret (NLiteral t) else fail (EUnexpectedToken t)
  | None => fail EEof
  end
  end end end end end end end end end end.

(** calls.rs:8-12 *)
Definition call : P Node :=
  expr <- primary ;; init_call expr.

(** the loop of expressions.rs:37-100 *)
Definition operator_loop (min_bp : N) (lhs : Node) : P Node :=
  ploop n (fun lhs =>
    b <- next_is_operator ;;
    if negb b then break lhs
    else
      op <- peek ;;
      match op with
      | None => panic
      | Some op =>
          match postfix_binding_power (t_type op) with
          | Some lb =>
              if lb <? min_bp then break lhs
              else (token <- next_unwrap ;; continue (NPostUnary lhs token))
          | None =>
              match infix_binding_power (t_type op) with
              | Some (lb, rb) =>
                  if lb <? min_bp then break lhs
                  else
                    op <- next_unwrap ;;
                    if tt_eqb (t_type op) TQuestionMark then
                      colon <- consume_or_ignore TColon ;;
                      match colon with
                      | Some colon =>
                          rhs <- expression rb ;;
                          continue (NTernary lhs op None colon rhs)
                      | None =>
                          mhs <- expression 0 ;;
                          colon <- consume TColon ;;
                          rhs <- expression rb ;;
                          continue (NTernary lhs op (Some mhs) colon rhs)
                      end
                    else
                      rhs <- expression rb ;;
                      continue (NBinary lhs op rhs)
              | None => break lhs
              end
          end
      end) lhs.

(** expressions.rs:18-103 *)
Definition expression_body (min_bp : N) : P Node :=
  p <- peek ;;
  match p with
  | None => fail EEof
  | Some token =>
      lhs <- match prefix_binding_power (t_type token) with
             | Some rb =>
                 token <- next_unwrap ;;
                 rhs <- expression rb ;;
                 ret (NUnary rhs token)
             | None => r_call rec
             end ;;
      operator_loop min_bp lhs
  end.

(** expressions.rs:6-12 *)
Definition expression_statement : P Node :=
  value <- expression 0 ;;
  ret (NExpressionStatement value).

(** ** mod.rs: blocks *)

(** the statement loops of mod.rs:172-195 and 214-242: [stop] is the
    condition that ends them *)
Definition statements_loop (stop : P bool) : P (list Node) :=
  ploop n (fun statements =>
    b <- stop ;;
    if b then break statements
    else
      p <- peek ;;
      match p with
      | None => break statements
      | Some _ =>
          r <- pcatch (r_stmt rec) ;;
          match r with
          | inr error =>
              push_err error ;;;
              error_fast_forward ;;;
              continue statements
          | inl new_statement =>
              docs <- flush_docs ;;
              continue (statements ++ docs ++ [new_statement])
          end
      end) [].

(** mod.rs:167-199 *)
Definition block_body : P Node :=
  oc <- consume TOpenCurly ;;
  statements <- statements_loop (next_token_one_of [TCloseCurly]) ;;
  cc <- consume TCloseCurly ;;
  ret (NBlock oc statements cc).

(** mod.rs:209-254 *)
Definition alternative_block (expected_terminator : TokenType) : P Node :=
  colon <- consume TColon ;;
  statements <- statements_loop (next_token_one_of [TEndFor; TEndForeach; TEndWhile; TEndIf]) ;;
  terminator <- consume expected_terminator ;;
  consume TSemicolon ;;;
  ret (NAlternativeBlock colon statements terminator).

(** mod.rs:303-309 *)
Definition alternative_block_or_statement (terminator : TokenType) : P Node :=
  b <- next_token_one_of [TColon] ;;
  if b then alternative_block terminator else r_stmt rec.

(** mod.rs:264-300 *)
Definition inline_html : P Node :=
  start <- consume TScriptEnd ;;
  b <- next_token_one_of [TScriptStart EchoTag] ;;
  if b then
    expr <- short_tag_echo_statement ;;
    b <- next_token_one_of [TScriptStart Regular; TScriptStart Short] ;;
    (if b then (set_ctx CtxScript ;;; next ;;; ret tt) else set_ctx CtxOut) ;;;
    ret expr
  else
    end_ <- consume_one_of_or_ignore [TScriptStart Regular; TScriptStart Short] ;;
    set_ctx CtxScript ;;;
    ret (NInlineHtml start end_).

(** ** conditionals.rs *)

Definition if_ends : list TokenType := [TEndIf; TElse; TElseIf].

(** conditionals.rs:32-34 and 64-67 *)
Definition if_statements : P (list Node) :=
  ploop n (fun statements =>
    b <- next_token_one_of if_ends ;;
    if b then break statements
    else (s <- r_stmt rec ;; continue (statements ++ [s]))) [].

(** conditionals.rs:19-138 *)
Definition if_statement : P Node :=
  token <- consume TIf ;;
  op <- consume TOpenParenthesis ;;
  condition <- expression 0 ;;
  cp <- consume TCloseParenthesis ;;
  colon <- consume_or_ignore TColon ;;
  match colon with
  | Some colon =>
      statements <- if_statements ;;
      terminator <- consume_one_of if_ends ;;
      let if_branch := (NIfBranch token op condition cp (NAlternativeBlock colon statements terminator)) in
      x <- ploop n (fun x =>
        let elseif_branches := fst x in
        let terminator := snd x in
        if tt_eqb (t_type terminator) TElseIf then
          let token := terminator in
          op <- consume TOpenParenthesis ;;
          condition <- expression 0 ;;
          cp <- consume TCloseParenthesis ;;
          colon <- consume TColon ;;
          statements <- if_statements ;;
          terminator <- consume_one_of if_ends ;;
          continue (elseif_branches ++
                    [(NIfBranch token op condition cp (NAlternativeBlock colon statements terminator))],
                    terminator)
        else break x) ([], terminator) ;;
      let elseif_branches := fst x in
      let terminator := snd x in
      else_branch <- (if tt_eqb (t_type terminator) TElse then
                        body <- alternative_block TEndIf ;;
                        ret (Some (NElseBranch terminator body))
                      else ret None) ;;
      ret (NIfStatement if_branch elseif_branches else_branch)
  | None =>
      body <- r_stmt rec ;;
      let if_branch := (NIfBranch token op condition cp body) in
      elseif_branches <- ploop n (fun elseif_branches =>
        t <- consume_or_ignore TElseIf ;;
        match t with
        | Some token =>
            op <- consume TOpenParenthesis ;;
            condition <- expression 0 ;;
            cp <- consume TCloseParenthesis ;;
            body <- r_stmt rec ;;
            continue (elseif_branches ++ [(NIfBranch token op condition cp body)])
        | None => break elseif_branches
        end) [] ;;
      e <- consume_or_ignore TElse ;;
      else_branch <- match e with
                     | Some token => body <- r_stmt rec ;; ret (Some (NElseBranch token body))
                     | None => ret None
                     end ;;
      ret (NIfStatement if_branch elseif_branches else_branch)
  end.

(** conditionals.rs:196-222 *)
Definition case_list : P (list (option Node)) :=
  ploop n (fun cases =>
    p <- peek ;;
    match p with
    | Some token =>
        if tt_eqb (t_type token) TDefault then
          next ;;;
          consume_one_of [TColon; TSemicolon] ;;;
          continue (cases ++ [None])
        else if tt_eqb (t_type token) TCase then
          next ;;;
          e <- expression 0 ;;
          consume_one_of [TColon; TSemicolon] ;;;
          continue (cases ++ [Some e])
        else break cases
    | None => break cases
    end) [].

(** conditionals.rs:164-194 *)
Definition switch_body : P Node :=
  b <- next_token_one_of [TColon] ;;
  x <- (if b then (start <- consume TColon ;; ret (start, TEndSwitch))
        else (start <- consume TOpenCurly ;; ret (start, TCloseCurly))) ;;
  let start := fst x in
  let terminator_type := snd x in
  branches <- ploop n (fun branches =>
    b <- next_token_one_of [terminator_type] ;;
    if b then break branches
    else
      cases <- case_list ;;
      body <- ploop n (fun statements =>
        b <- next_token_one_of [terminator_type; TCase; TDefault] ;;
        if b then break statements
        else (s <- r_stmt rec ;; continue (statements ++ [s]))) [] ;;
      continue (branches ++ [(NSwitchBranch cases body)])) [] ;;
  end_ <- consume terminator_type ;;
  ret (NSwitchBody start branches end_).

(** conditionals.rs:149-161 *)
Definition switch_statement : P Node :=
  token <- consume TSwitch ;;
  op <- consume TOpenParenthesis ;;
  expr <- expression 0 ;;
  cp <- consume TCloseParenthesis ;;
  body <- switch_body ;;
  ret (NSwitchCase token op expr cp body).

(** ** loops.rs *)

(** the three lists of loops.rs:21-53 *)
Definition for_part (stop : TokenType) : P (list Node) :=
  ploop n (fun l =>
    b <- next_token_one_of [stop] ;;
    if b then break l
    else
      e <- expression 0 ;;
      let l := l ++ [e] in
      c <- next_token_one_of [TComma] ;;
      if c then (next ;;; continue l) else break l) [].

(** loops.rs:16-66 *)
Definition for_statement : P Node :=
  token <- consume TFor ;;
  consume_or_ff_after TOpenParenthesis [TSemicolon] ;;;
  init <- for_part TSemicolon ;;
  consume_or_ff_after TSemicolon [TSemicolon] ;;;
  condition <- for_part TSemicolon ;;
  consume_or_ff_after TSemicolon [TSemicolon] ;;;
  step <- for_part TCloseParenthesis ;;
  consume_or_ff_after TCloseParenthesis [TSemicolon] ;;;
  body <- alternative_block_or_statement TEndFor ;;
  ret (NForStatement token init condition step body).

(** loops.rs:77-91 *)
Definition while_statement : P Node :=
  token <- consume TWhile ;;
  op <- consume TOpenParenthesis ;;
  condition <- expression 0 ;;
  cp <- consume TCloseParenthesis ;;
  body <- alternative_block_or_statement TEndWhile ;;
  ret (NWhileStatement token op condition cp body).

(** loops.rs:101-122 *)
Definition foreach_statement : P Node :=
  token <- consume TForeach ;;
  op <- consume TOpenParenthesis ;;
  collection <- expression 0 ;;
  as_token <- consume TAs ;;
  kv <- array_pair ;;
  cp <- consume TCloseParenthesis ;;
  body <- alternative_block_or_statement TEndForeach ;;
  ret (NForEachStatement token op collection as_token kv cp body).

(** loops.rs:133-153 *)
Definition do_while_statement : P Node :=
  do_token <- consume TDo ;;
  body <- r_stmt rec ;;
  while_token <- consume TWhile ;;
  op <- consume TOpenParenthesis ;;
  condition <- expression 0 ;;
  cp <- consume TCloseParenthesis ;;
  consume_or_ff_after TSemicolon [TSemicolon] ;;;
  ret (NDoWhileStatement do_token op cp while_token condition body).

(** ** exception_handling.rs *)

(** exception_handling.rs:51-70 *)
Definition catch_block : P Node :=
  token <- consume TCatch ;;
  op <- consume TOpenParenthesis ;;
  types <- non_empty_type_ref_union ;;
  var <- consume TVariable ;;
  cp <- consume TCloseParenthesis ;;
  body <- r_block rec ;;
  ret (NCatchBlock token op types var cp body).

(** exception_handling.rs:17-42 *)
Definition try_catch_statement : P Node :=
  token <- consume TTry ;;
  try_block <- r_block rec ;;
  catch_blocks <- ploop n (fun catch_blocks =>
    b <- next_token_one_of [TCatch] ;;
    if b then (c <- catch_block ;; continue (catch_blocks ++ [c])) else break catch_blocks) [] ;;
  f <- consume_or_ignore TFinally ;;
  finally_block <- match f with
                   | Some finally_token =>
                       body <- r_block rec ;;
                       ret (Some (NFinallyBlock finally_token body))
                   | None => ret None
                   end ;;
  ret (NTryCatch token try_block catch_blocks finally_block).

(** exception_handling.rs:72-79 *)
Definition throw_statement : P Node :=
  token <- consume TThrow ;;
  expression <- expression 0 ;;
  consume_or_ff_after TSemicolon [TSemicolon] ;;;
  ret (NThrowStatement token expression).

(** ** namespaces.rs *)

(** namespaces.rs:12-34 *)
Definition namespace_statement : P Node :=
  token <- consume TNamespace ;;
  type_ref <- type_ref ;;
  b <- next_token_one_of [TOpenCurly] ;;
  if b then
    block <- r_block rec ;;
    ret (NNamespaceBlock token type_ref block)
  else
    match type_ref with
    | Some type_ref =>
        consume_or_ff_after TSemicolon [TSemicolon] ;;;
        ret (NNamespaceStatement token type_ref)
    | None =>
        t <- next ;;
        match t with
        | Some token => fail (EWrongToken [TOpenBrackets; TIdentifier] token)
        | None => fail EEof
        end
    end.

(** namespaces.rs:45-103 *)
Definition symbol_import : P Node :=
  f <- consume_or_ignore TFunction ;;
  match f with
  | Some _ =>
      name <- non_empty_type_ref ;;
      aliased <- consume_or_ignore TAs ;;
      match aliased with
      | Some _ =>
          alias <- consume TIdentifier ;;
          ret (NUseFunction None name aliased (Some alias))
      | None => ret (NUseFunction None name None None)
      end
  | None =>
  c <- consume_or_ignore TConst ;;
  match c with
  | Some _ =>
      name <- non_empty_type_ref ;;
      aliased <- consume_or_ignore TAs ;;
      match aliased with
      | Some _ =>
          alias <- consume TIdentifier ;;
          ret (NUseConst None name aliased (Some alias))
      | None => ret (NUseConst None name None None)
      end
  | None =>
      name <- non_empty_type_ref ;;
      aliased <- consume_or_ignore TAs ;;
      match aliased with
      | Some _ =>
          alias <- consume TIdentifier ;;
          ret (NUseDeclaration None name aliased (Some alias))
      | None => ret (NUseDeclaration None name None None)
      end
  end end.

(** namespaces.rs:111-127 *)
Definition symbol_imports : P (list Node) :=
  first <- symbol_import ;;
  ploop n (fun imports =>
    c <- consume_or_ignore TComma ;;
    match c with
    | Some _ =>
        b <- next_token_one_of [TIdentifier; TConst; TFunction] ;;
        if negb b then break imports
        else (i <- symbol_import ;; continue (imports ++ [i]))
    | None => break imports
    end) [first].

(** namespaces.rs:132-163 *)
Definition use_function_statement (token : Token) : P Node :=
  imports <- ploop n (fun imports =>
    name <- non_empty_type_ref ;;
    aliased <- consume_or_ignore TAs ;;
    imports <- match aliased with
      | Some _ =>
          alias <- consume TIdentifier ;;
          ret (imports ++ [(NUseFunction (Some token) name aliased (Some alias))])
      | None =>
          ret (imports ++ [(NUseFunction (Some token) name None None)])
      end ;;
    c <- consume_or_ignore TComma ;;
    match c with Some _ => continue imports | None => break imports end) [] ;;
  consume_or_ff_after TSemicolon [TSemicolon] ;;;
  ret (NUseFunctionStatement token imports).

(** namespaces.rs:168-199 *)
Definition use_const_statement (token : Token) : P Node :=
  imports <- ploop n (fun imports =>
    name <- non_empty_type_ref ;;
    aliased <- consume_or_ignore TAs ;;
    imports <- match aliased with
      | Some _ =>
          alias <- consume TIdentifier ;;
          ret (imports ++ [(NUseConst (Some token) name aliased (Some alias))])
      | None =>
          ret (imports ++ [(NUseConst (Some token) name None None)])
      end ;;
    c <- consume_or_ignore TComma ;;
    match c with Some _ => continue imports | None => break imports end) [] ;;
  consume_or_ff_after TSemicolon [TSemicolon] ;;;
  ret (NUseConstStatement token imports).

(** namespaces.rs:204-248 *)
Definition use_statement (token : Token) : P Node :=
  imports <- ploop n (fun imports =>
    declaration <- non_empty_namespace_ref ;;
    imports <- match last_opt declaration with
      | None => panic
      | Some last =>
          let tr := NTypeRef (tref_one declaration) in
          if tt_eqb (t_type last) TNamespaceSeparator then
            oc <- consume TOpenCurly ;;
            uses <- symbol_imports ;;
            cc <- consume TCloseCurly ;;
            ret (imports ++ [(NGroupedUse token tr oc uses cc)])
          else
            aliased <- consume_or_ignore TAs ;;
            match aliased with
            | Some _ =>
                alias <- consume TIdentifier ;;
                ret (imports ++ [(NUseDeclaration (Some token) tr aliased (Some alias))])
            | None =>
                ret (imports ++ [(NUseDeclaration (Some token) tr None None)])
            end
      end ;;
    c <- consume_or_ignore TComma ;;
    match c with
    | Some _ => continue imports
    | None =>
        consume_or_ff_after TSemicolon [TSemicolon] ;;;
        break imports
    end) [] ;;
  ret (NUseStatement token imports).

(** ** mod.rs: statements *)

(** mod.rs:429-466: the default arm of [statement] *)
Definition expression_or_label : P Node :=
  static_token <- consume_or_ignore TStatic ;;
  r <- match static_token with
       | Some static_token =>
           b <- next_token_one_of [TVariable] ;;
           if b then (s <- static_variables static_token ;; ret (Some s))
           else (push_tok static_token ;;; ret None)
       | None =>
           label <- consume_or_ignore TIdentifier ;;
           match label with
           | Some label =>
               colon <- consume_or_ignore TColon ;;
               match colon with
               | Some colon => ret (Some (NLabelStatement label colon))
               | None => push_tok label ;;; ret None
               end
           | None => ret None
           end
       end ;;
  match r with
  | Some s => ret s
  | None =>
      expr <- expression_statement ;;
      b <- next_token_one_of [TScriptEnd] ;;
      (if b then (consume TScriptEnd ;;; set_ctx CtxOut)
       else consume_or_ff_after TSemicolon [TSemicolon]) ;;;
      ret expr
  end.

(** mod.rs:361-470 *)
Definition statement_in_script : P Node :=
  attributes <- attributes_block ;;
  p <- peek ;;
  match p with
  | None => fail EEof
  | Some token =>
      match t_type token with
      | TScriptEnd => inline_html
      | TFunction =>
          comment <- consume_optional_doc_comment ;;
          named_function comment attributes
      | TNamespace => namespace_statement
      | TUse =>
          token <- consume TUse ;;
          f <- consume_or_ignore TFunction ;;
          match f with
          | Some _ => use_function_statement token
          | None =>
              c <- consume_or_ignore TConst ;;
              match c with
              | Some _ => use_const_statement token
              | None => use_statement token
              end
          end
      | TConst => const_statement
      | TGlobal => global_variables
      | TEcho => echo_statement
      | TPrint => print_statement
      | TGoto => goto_statement
      | TReturn => return_statement
      | TThrow => throw_statement
      | TClass => class_statement None None attributes
      | TTrait => trait_statement
      | TAbstract => abstract_class_statement attributes
      | TFinal => final_class_statement attributes
      | TInterface => interface
      | TWhile => while_statement
      | TDo => do_while_statement
      | TFor => for_statement
      | TForeach => foreach_statement
      | TIf => if_statement
      | TOpenCurly => r_block rec
      | TSwitch => switch_statement
      | TSemicolon =>
          token <- consume TSemicolon ;;
          ret (NTokenStatement token None)
      | TBreak | TContinue =>
          token <- next_unwrap ;;
          b <- next_token_one_of [TSemicolon] ;;
          expr <- (if b then ret None else (e <- expression 0 ;; ret (Some e))) ;;
          consume_or_ff_after TSemicolon [TSemicolon] ;;;
          ret (NTokenStatement token expr)
      | TTry => try_catch_statement
      | TDeclare => declare_statement
      | TUnset => unset_statement
      | TDie => die_statement
      | TDefine => define_statement
      | _ => expression_or_label
      end
  end.

(** mod.rs:321-471 *)
Definition statement_body : P Node :=
  c <- get_ctx ;;
  match c with
  | CtxScript => statement_in_script
  | CtxOut =>
      p <- peek ;;
      match p with
      | None => statement_in_script
      | Some token =>
          match t_type token with
          | TScriptStart Regular | TScriptStart Short =>
              set_ctx CtxScript ;;;
              next ;;;
              p <- peek ;;
              match p with
              | None => ret NEmptyScript
              | Some _ => statement_in_script
              end
          | TScriptStart EchoTag =>
              expr <- pcatch short_tag_echo_statement ;;
              b <- next_token_one_of [TScriptStart Regular; TScriptStart Short] ;;
              (if b then (set_ctx CtxScript ;;; next ;;; ret tt) else ret tt) ;;;
              match expr with
              | inl e => ret e
              | inr e => fail e
              end
          | _ => fail (EUnexpectedToken token)
          end
      end
  end.

End Grammar.

(** The parser with at most [n] nested recursive calls. *)
Fixpoint run (n : nat) : Rec :=
  match n with
  | O => mkRec (fun _ _ => PFuel) (fun _ => PFuel) (fun _ => PFuel) (fun _ => PFuel)
  | S n =>
      let r := run n in
      mkRec (expression_body r n) (call r n) (statement_body r n) (block_body r n)
  end.

Definition expression (n : nat) (min_bp : N) : P Node := r_expr (run n) min_bp.
Definition statement (n : nat) : P Node := r_stmt (run n).
Definition block (n : nat) : P Node := r_block (run n).

(** mod.rs:73-90.  The first element of the reversed vector is the last
    token of the document. *)
Definition parser_new (tokens : list Token) : pst :=
  mkPst [] tokens [] CtxOut
    (match last_opt tokens with Some t => (t_line t, t_col t) | None => (0, 0) end)
    range_empty.

(** mod.rs:102-139.  The loop of [ast] is the one of [block] with no
    terminator: [peek] never answers with [Eof]. *)
Definition ast_loop (n : nat) : P (list Node) := statements_loop (run n) n (ret false).

Definition ast (n : nat) (tokens : list Token) : res (list Node * list perr) :=
  match tokens with
  | [] => POk ([], []) (parser_new [])
  | _ =>
      match ast_loop n (parser_new tokens) with
      | POk statements s => POk (statements, rev (p_errs s)) s
      | PFail e s => PFail e s
      | PPanic => PPanic
      | PFuel => PFuel
      end
  end.

End WithRuntime.
