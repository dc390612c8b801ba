(** Doc comments: /repo/src/parser/ast/comments.rs, lines 8-363.

    The loops of [DocBlockScanner] pop characters; they are written with
    fuel, the number of remaining characters plus one.  [None] stands for a
    panic (the [unwrap] of line 19) and for running out of that fuel; Doc
    comments with a label never give [None] (DocFacts.v,
    [docblock_scan_some]). *)

From Verif Require Import Base Token Node.

(** comments.rs:8-14, without the comment itself *)
Record dst := mkDst { d_line : N; d_col : N; d_chars : str }.

(** comments.rs:331-344 *)
Definition d_advance (s : dst) : option char * dst :=
  match d_chars s with
  | [] => (None, s)
  | c :: r =>
      (Some c, if (c =? 10) || (c =? 13) then mkDst (d_line s + 1) 0 r
               else mkDst (d_line s) (d_col s + 1) r)
  end.

(** comments.rs:327-329 *)
Definition d_peek (s : dst) : option char :=
  match d_chars s with [] => None | c :: _ => Some c end.

Section WithRuntime.
Context `{Runtime}.

(** comments.rs:34-52 *)
Definition d_token_type (name : str) : TokenType :=
  let n := to_lowercase name in
  let is s := str_eqb n (lit s) in
  if is "null"%string then TNull
  else if is "mixed"%string then TMixed
  else if is "bool"%string || is "boolean"%string then TTypeBool
  else if is "int"%string || is "integer"%string then TTypeInt
  else if is "string"%string || is "binary"%string then TTypeString
  else if is "static"%string then TStatic
  else if is "self"%string then TTypeSelf
  else if is "array"%string then TTypeArray
  else if is "object"%string then TTypeObject
  else if is "float"%string || is "double"%string then TTypeFloat
  else if is "void"%string then TVoid
  else if is "callable"%string then TCallable
  else if is "generator"%string then TGenerator
  else if is "resource"%string then TResource
  else TIdentifier.

(** comments.rs:310-324 *)
Fixpoint d_ident_go (chars : str) (line col : N) (allow_this : bool) (name : str) : str * dst :=
  match chars with
  | [] => (rev name, mkDst line col [])
  | c :: r =>
      if is_alnum c || (c =? 95) || ((c =? 36) && allow_this)
      then let s := snd (d_advance (mkDst line col chars)) in
           d_ident_go r (d_line s) (d_col s) allow_this (c :: name)
      else (rev name, mkDst line col chars)
  end.
Definition d_collect_identifier (allow_this : bool) (s : dst) : str * dst :=
  d_ident_go (d_chars s) (d_line s) (d_col s) allow_this [].

(** comments.rs:346-354 *)
Fixpoint d_skip_go (chars : str) (line col : N) : dst :=
  match chars with
  | [] => mkDst line col []
  | c :: r =>
      if is_whitespace c
      then let s := snd (d_advance (mkDst line col chars)) in d_skip_go r (d_line s) (d_col s)
      else mkDst line col chars
  end.
Definition d_skip_blanks (s : dst) : dst := d_skip_go (d_chars s) (d_line s) (d_col s).

(** comments.rs:263-308.  Outer [None]: out of fuel. *)
Fixpoint d_type_ref (fuel : nat) (allow_this : bool) (parts : list Token) (s : dst)
  : option (option TypeRef * dst) :=
  match fuel with
  | O => None
  | S fuel =>
      let line := d_line s in
      let col := d_col s in
      let (ident, s) := d_collect_identifier allow_this s in
      let parts :=
        match ident with
        | [] => parts
        | _ => parts ++ [token_named (d_token_type ident) line col 0 ident]
        end in
      let fin mult :=
        match parts with [] => None | _ => Some (mkTypeRef parts mult) end in
      match d_peek s with
      | Some c =>
          if c =? 92 (* backslash *)
          then d_type_ref fuel allow_this
                 (parts ++ [token_new TNamespaceSeparator line col 0]) (snd (d_advance s))
          else if c =? 91 (* [ *)
          then
            let s := snd (d_advance s) in
            let (n, s) := d_advance s in
            match n with
            | Some n =>
                if n =? 93 (* ] *) then Some (fin true, s)
                else d_type_ref fuel allow_this parts (snd (d_advance s))
            | None => d_type_ref fuel allow_this parts (snd (d_advance s))
            end
          else Some (fin false, s)
      | None => Some (fin false, s)
      end
  end.

Definition d_fuel (s : dst) : nat := S (List.length (d_chars s)).

(** comments.rs:72-82 and its copies in 119-129, 159-169, 200-210 *)
Fixpoint d_type_refs (fuel : nat) (allow_this : bool) (acc : list TypeRef) (s : dst)
  : option (list TypeRef * dst) :=
  match fuel with
  | O => None
  | S fuel =>
      match d_type_ref (d_fuel s) allow_this [] s with
      | None => None
      | Some (None, s) => Some (acc, s)
      | Some (Some tr, s) =>
          let acc := acc ++ [tr] in
          match d_peek s with
          | Some c =>
              if c =? 124 (* | *) then d_type_refs fuel allow_this acc (snd (d_advance s))
              else Some (acc, s)
          | None => Some (acc, s)
          end
      end
  end.

(** comments.rs:95-101 and its copies: the rest of the line *)
Fixpoint d_line_go (chars : str) (line col : N) (acc : str) : str * dst :=
  match chars with
  | [] => (rev acc, mkDst line col [])
  | c :: r =>
      let s := snd (d_advance (mkDst line col chars)) in
      if c =? 10 then (rev acc, s) else d_line_go r (d_line s) (d_col s) (c :: acc)
  end.
Definition d_rest_of_line (s : dst) : str * dst := d_line_go (d_chars s) (d_line s) (d_col s) [].

(** comments.rs:70-116 (param), 157-189 (var), 198-246 (property): the types,
    a variable name and the rest of the line. *)
Definition d_named (s : dst) : option ((list TypeRef * Token * str) * dst) :=
  let s := d_skip_blanks s in
  match d_type_refs (d_fuel s) false [] s with
  | None => None
  | Some (trs, s) =>
      let s := d_skip_blanks s in
      let line := d_line s in
      let col := d_col s in
      let (name, s) :=
        match d_peek s with
        | Some c => if c =? 36 then d_collect_identifier false (snd (d_advance s)) else ([], s)
        | None => ([], s)
        end in
      let (descr, s) := d_rest_of_line s in
      Some ((trs, token_named TVariable line col 0 name, descr), s)
  end.

(** What the scanner has collected so far: comments.rs:55-60 *)
Record dacc := mkDacc {
  a_description : str;  (* reversed *)
  a_deprecated : bool;
  a_properties : list Node;
  a_params : list Node;
  a_returns : list Node;
  a_vars : list Node
}.

Definition opt_types (l : list TypeRef) : option (list TypeRef) :=
  match l with [] => None | _ => Some l end.

(** comments.rs:62-249 *)
Fixpoint d_scan (fuel : nat) (s : dst) (a : dacc) : option dacc :=
  match fuel with
  | O => None
  | S fuel =>
      let (c, s) := d_advance s in
      match c with
      | None => Some a
      | Some c =>
          if c =? 64 (* @ *) then
            let (directive, s) := d_collect_identifier false s in
            let s := d_skip_blanks s in
            if str_eqb directive (lit "param") then
              match d_named s with
              | None => None
              | Some ((trs, name, descr), s) =>
                  d_scan fuel s (mkDacc (a_description a) (a_deprecated a) (a_properties a)
                    (a_params a ++ [NDocCommentParam name (Some trs) descr]) (a_returns a) (a_vars a))
              end
            else if str_eqb directive (lit "return") then
              let s := d_skip_blanks s in
              match d_type_refs (d_fuel s) true [] s with
              | None => None
              | Some (trs, s) =>
                  let s := d_skip_blanks s in
                  let (descr, s) := d_rest_of_line s in
                  d_scan fuel s (mkDacc (a_description a) (a_deprecated a) (a_properties a)
                    (a_params a) (a_returns a ++ [NDocCommentReturn (opt_types trs) descr]) (a_vars a))
              end
            else if str_eqb directive (lit "var") then
              match d_named s with
              | None => None
              | Some ((trs, name, descr), s) =>
                  d_scan fuel s (mkDacc (a_description a) (a_deprecated a) (a_properties a)
                    (a_params a) (a_returns a) (a_vars a ++ [NDocCommentVar name (Some trs) descr]))
              end
            else if str_eqb directive (lit "deprecated") then
              d_scan fuel s (mkDacc (a_description a) true (a_properties a)
                (a_params a) (a_returns a) (a_vars a))
            else if str_eqb directive (lit "property") then
              match d_named s with
              | None => None
              | Some ((trs, name, descr), s) =>
                  d_scan fuel s (mkDacc (a_description a) (a_deprecated a)
                    (a_properties a ++ [NDocCommentProperty name (opt_types trs) descr])
                    (a_params a) (a_returns a) (a_vars a))
              end
            else d_scan fuel s a
          else if c =? 42 (* * *) then d_scan fuel s a
          else d_scan fuel s (mkDacc (c :: a_description a) (a_deprecated a) (a_properties a)
                 (a_params a) (a_returns a) (a_vars a))
      end
  end.

(** comments.rs:17-32 and 54-261 *)
Definition docblock_scan (comment : Token) : option Node :=
  match t_label comment with
  | None => None
  | Some l =>
      let s := mkDst (t_line comment) (t_col comment + 2) l in
      match d_scan (d_fuel s) s (mkDacc [] false [] [] [] []) with
      | None => None
      | Some a =>
          Some (NDocComment comment (a_returns a) (rev (a_description a)) (a_deprecated a)
                  (a_params a) (a_vars a) (a_properties a))
      end
  end.

End WithRuntime.

(** comments.rs:381-395 *)
Definition opt_str_eqb (a b : option str) : bool :=
  match a, b with
  | Some a, Some b => str_eqb a b
  | None, None => true
  | _, _ => false
  end.
Definition param_comment_for (doc_comment : option Node) (p_name : Token) : option Node :=
  match doc_comment with
  | Some (NDocComment _ _ _ _ params _ _) =>
      find (fun p =>
              match p with
              | NDocCommentParam name _ _ =>
                  is_some (t_label name) && opt_str_eqb (t_label name) (t_label p_name)
              | _ => false
              end) params
  | _ => None
  end.
