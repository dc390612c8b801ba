(** Token lists on which the parser is certain to finish (C11): files of a
    user that avoid the constructs known to hang it. *)

From Verif Require Import Base Token.

(** tokens that are neither comments nor line breaks *)
Definition significant (t : Token) : bool :=
  match t_type t with TMultilineComment | TLineComment | TLinebreak => false | _ => true end.

Definition starts_with (types : list TokenType) (l : list Token) : Prop :=
  match l with t :: _ => In (t_type t) types | [] => False end.

(** [$a, $b, $c;] with plain variables *)
Inductive global_list : list Token -> Prop :=
| gl_last : forall v semi r,
    t_type v = TVariable -> t_label v <> None -> t_type semi = TSemicolon -> global_list (v :: semi :: r)
| gl_more : forall v comma r,
    t_type v = TVariable -> t_label v <> None -> t_type comma = TComma -> global_list r ->
    global_list (v :: comma :: r).

(** [$a, &$b, $c)], a trailing comma allowed *)
Inductive closure_list : list Token -> Prop :=
| cl_ref : forall a v r, t_type a = TBinaryAnd -> t_type v = TVariable -> closure_rest r -> closure_list (a :: v :: r)
| cl_var : forall v r, t_type v = TVariable -> closure_rest r -> closure_list (v :: r)
with closure_rest : list Token -> Prop :=
| cr_close : forall c r, t_type c = TCloseParenthesis -> closure_rest (c :: r)
| cr_trailing : forall comma c r,
    t_type comma = TComma -> t_type c = TCloseParenthesis -> closure_rest (comma :: c :: r)
| cr_more : forall comma r, t_type comma = TComma -> closure_list r -> closure_rest (comma :: r).

(** behind the names of a [use] *)
Fixpoint drop_names (l : list Token) : list Token :=
  match l with
  | t :: r =>
      if tt_is_identifier (t_type t) || tt_eqb (t_type t) TNamespaceSeparator || tt_eqb (t_type t) TComma
      then drop_names r else l
  | [] => []
  end.

Definition class_keyword (t : Token) : bool :=
  match t_type t with TClass | TAbstract | TFinal | TInterface | TTrait => true | _ => false end.

(** - the end of the file is the last token;
    - there is no [<?=];
    - behind [?>] comes [<?php], [<?] or the end of the file;
    - the body of a [do] is a block;
    - behind [global] come variables up to a semicolon;
    - the [use] of a closure has a complete list of variables;
    - behind the first class keyword, no [use] has a block in braces. *)
Fixpoint calm (in_class : bool) (l : list Token) : Prop :=
  match l with
  | [] => True
  | t :: r =>
      match t_type t with
      | TEof => r = []
      | TScriptStart EchoTag => False
      | TScriptEnd => r = [] \/ starts_with [TScriptStart Regular; TScriptStart Short; TEof] r
      | TDo => starts_with [TOpenCurly] r
      | TGlobal => global_list r
      | TCloseParenthesis =>
          match r with
          | u :: op :: r' => t_type u = TUse -> t_type op = TOpenParenthesis /\ closure_list r'
          | [u] => t_type u <> TUse
          | [] => True
          end
      | TUse => in_class = true -> ~ starts_with [TOpenCurly] (drop_names r)
      | _ => True
      end
      /\ calm (in_class || class_keyword t) r
  end.
