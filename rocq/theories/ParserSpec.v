(** What a well-made syntax tree and a well-made syntax error are, relative
    to the tokens of a document.  Nothing here refers to the parser except
    the type of its errors. *)

From Verif Require Import Base Token Node DocBlock Parser DocFacts.

Section Spec.
Context `{RT : Runtime}.
(** The tokens of the document, and the position handed to placeholders that
    are made at the end of the input. *)
Variable T : Token -> Prop.
Variable eof : N * N.

(** A placeholder for a missing token: behind a token of the document, at the
    very start, or at the end-of-input position. *)
Definition placeholder (t : Token) : Prop :=
  t_type t = TMissing /\ t_label t = None /\
  ((exists u, T u /\ token_end u = Some (t_col t, t_line t))
   \/ (t_col t, t_line t) = (0, 0) \/ (t_col t, t_line t) = eof).

(** [E] says that at least one error has been reported. *)
Definition tok_ok (E : Prop) (t : Token) : Prop := T t \/ (E /\ placeholder t).

(** A part of a doc comment of the document.  Such parts are written in the
    text of the comment; their tokens are not tokens of the document. *)
Definition doc_part (n : Node) : Prop :=
  exists c d, T c /\ t_type c = TMultilineComment /\ docblock_scan c = Some d /\ In n (subnodes d).

(** Lists that the parser never leaves empty *)
Definition shape (n : Node) : Prop :=
  match n with
  | NTypeRef tr => kind tr <> []
  | NEchoStatement _ l | NPrintStatement _ l | NConstStatement _ l
  | NGlobalVariablesStatement _ l | NUseStatement _ l | NUseFunctionStatement _ l
  | NUseConstStatement _ l | NDataType _ l => l <> []
  | NClassConstantDefinitionStatement _ l _ _ _ => l <> []
  | NPropertyDefinitionStatement l _ _ _ _ _ _ => l <> []
  | NUseTraitInsteadOf _ _ _ _ l => l <> []
  | NMatchArm (Some l) _ _ => l <> []
  | NDocCommentParam _ _ _ | NDocCommentProperty _ _ _ | NDocCommentVar _ _ _
  | NDocCommentReturn _ _ => doc_shape n /\ doc_part n
  | NStatic _ _ => False
  | _ => True
  end.

Definition node_ok (E : Prop) (n : Node) : Prop :=
  Forall (tok_ok E) (own_toks n) /\ shape n /\ (forall t, n = NMissing t -> E).

(** Every node of the tree is fine. *)
Inductive Good (E : Prop) : Node -> Prop :=
| Good_node : forall n, node_ok E n -> (forall m, In m (subnodes n) -> Good E m) -> Good E n.

Definition err_tok (t : Token) : Prop := T t \/ placeholder t.
Definition err_ok (e : perr) : Prop :=
  match e with
  | EWrongToken _ t | EMissingIdentifier t | EUnexpectedToken t => err_tok t
  | EIllegalOffset _ | ERValueInWriteContext _ => False
  | EEof => True
  end.

End Spec.
