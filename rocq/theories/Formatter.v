(** The formatter: /repo/src/formatter/mod.rs and
    /repo/src/backend/formatting.rs.

    A string is [Some text]; [None] is a panic: an [unwrap], [unimplemented!],
    or a token or node that cannot be displayed or measured.  Since a panic ends
    the request whatever comes before or after it, the order in which the parts
    of a text are computed is not modelled.  [dbg!] (line 1329) prints to
    stderr and is left out.  [classes.rs], [expressions.rs], [loops.rs] and
    [v2.rs] of the formatter are only called by tests and are not modelled.
    This file contains no proofs. *)

From Verif Require Import Base Token Scanner Node Parser Assoc Symbol EnvMonad Workspace Backend.

(** ** Texts put together *)

(** [format!("{}{}...", ...)] and [parts.join("")] *)
Fixpoint cat (l : list (option str)) : option str :=
  match l with
  | [] => Some []
  | a :: r => obind a (fun a => obind (cat r) (fun b => Some (a ++ b)))
  end.

(** [iter().map(..).collect::<Vec<String>>().join(sep)] *)
Fixpoint joined (sep : str) (l : list (option str)) : option str :=
  match l with
  | [] => Some []
  | [a] => a
  | a :: r => cat [a; Some sep; joined sep r]
  end.

Definition text (s : string) : option str := Some (lit s).
Definition newline : str := [10].

(** [" ".repeat(col)] *)
Definition blanks (col : N) : option str := Some (repeat 32 (N.to_nat col)).

(** mod.rs:9-15, [push_if_some!] *)
Definition padded (t : option Token) : option str :=
  match t with Some t => cat [display_token t; text " "] | None => text "" end.
(** mod.rs:17-33, [str_if_some!] and [push_unpadded_if_some!] *)
Definition unpadded (t : option Token) : option str :=
  match t with Some t => display_token t | None => text "" end.
(** mod.rs:35-50, [optional_ident_list!]; the elements are already formatted *)
Definition optional_list (prefix postfix : string) (l : option (list (option str))) : option str :=
  match l with
  | Some l => cat [text prefix; joined (lit ", ") l; text postfix]
  | None => text ""
  end.
(** mod.rs:52-65, [optional_ident!] *)
Definition optional_one (prefix postfix : string) (o : option (option str)) : option str :=
  match o with
  | Some a => cat [text prefix; a; text postfix]
  | None => text ""
  end.

(** [str::trim_end], [str::trim] *)
Fixpoint drop_white `{Runtime} (s : str) : str :=
  match s with
  | [] => []
  | c :: r => if is_whitespace c then drop_white r else s
  end.
Definition trim_end `{Runtime} (s : str) : str := rev (drop_white (rev s)).
Definition trim `{Runtime} (s : str) : str := trim_end (drop_white s).

(** mod.rs:85-99: a blank line is kept where there is at least one line between
    two statements. *)
Definition gap (prev_line_end : N) (r : NodeRange) : str :=
  if negb (prev_line_end =? 0) && (prev_line_end <? start_line r)
  then repeat 10 (N.to_nat (N.min (start_line r - prev_line_end - 1) 1))
  else [].

(** mod.rs:84-520, the loop over the nodes; what a node itself is formatted to
    is given beside its range. *)
Fixpoint in_sequence (prev_line_end : N) (l : list (option NodeRange * option str)) : option str :=
  match l with
  | [] => Some []
  | (range, formatted) :: rest =>
      obind range (fun range =>
      cat [Some (gap prev_line_end range); formatted; in_sequence (end_line range) rest])
  end.

(** mod.rs:755-762 and alike: attributes in front of an expression *)
Definition in_front `{Runtime} (attributes : list (option NodeRange * option str)) : option str :=
  match attributes with
  | [] => text ""
  | _ => cat [obind (in_sequence 0 attributes) (fun s => Some (trim s)); text " "]
  end.

(** The only options the backend passes are [indent] 4 and a line length that is
    never used. *)
Definition indent : N := 4.

(** [format_stmt] is the body of the loop of [format], mod.rs:103-516.
    [format_node] is mod.rs:530-1332. *)
Fixpoint format_stmt `{Runtime} (n : Node) (line col : N) {struct n} : option str :=
  let node := fun l c n => format_node n l c in
  let here := node line col in
  let nodes := fun c l => map (node line c) l in
  let format := fun c l => in_sequence 0 (map (fun n => (node_range n, format_stmt n line c)) l) in
  match n with
  | NNamedFunctionDefinitionStatement token _ name function attributes =>
      cat [format col attributes; blanks col; display_token token; text " "; display_token name; here function]
  | NInterface token name extends body _ =>
      cat [blanks col; display_token token; text " "; display_token name;
           optional_list " extends " "" (option_map (nodes col) extends); text " "; Some newline; blanks col;
           here body]
  | NClassStatement token name is_abstract is_final implements extends body _ attributes =>
      cat [format col attributes; blanks col; padded is_final; padded is_abstract;
           display_token token; text " "; display_token name;
           optional_one " extends " "" (option_map here extends);
           optional_list " implements " "" (option_map (nodes col) implements);
           Some newline; blanks col; here body]
  | NClassConstantDefinitionStatement token consts _ visibility attributes =>
      cat [format col attributes; blanks col; padded visibility;
           cat [display_token token; text " "];
           obind (display_token token) (fun t =>
           obind (unpadded visibility) (fun v =>
           (* keywords are ASCII, so [len] counts characters *)
           let offset := N.of_nat (List.length t) + 1 + N.of_nat (List.length v) in
           joined (lit "," ++ newline ++ lit " ")
             (match consts with
              | [] => [None]                                        (* unwrap, line 176 *)
              | c :: cs => node line 0 c :: map (node line (col + offset)) cs
              end)));
           text ";"; Some newline]
  | NProperty name value =>
      cat [display_token name; optional_one " = " "" (option_map here value)]
  | NPropertyDefinitionStatement properties _ visibility _ is_static is_abstract attributes =>
      cat [format col attributes; blanks col; padded is_abstract; padded visibility; padded is_static;
           format col properties; text ";"; Some newline]
  | NMethodDefinitionStatement token is_final _ name visibility is_abstract function is_static _ attributes =>
      cat [format col attributes; blanks col; padded visibility; padded is_static; padded is_final;
           padded is_abstract; display_token token; text " "; display_token name; here function; Some newline]
  | NUseTraitStatement token traits_usages =>
      cat [blanks col; display_token token; text " "; format col traits_usages]
  | NUseTraitAs left_ paa member as_token visibility as_name =>
      cat [blanks col; optional_one "" "" (option_map here left_); unpadded paa; here member;
           text " "; display_token as_token; text " ";
           match as_name with Some _ => padded visibility | None => unpadded visibility end;
           unpadded as_name; text ";"; Some newline]
  | NUseTraitInsteadOf left_ paa member insteadof insteadof_list =>
      cat [blanks col; optional_one "" "" (option_map here left_); unpadded paa; here member;
           text " "; display_token insteadof; text " "; format col insteadof_list; text ";"; Some newline]
  | NUseTraitAlterationBlock alteration_group_type_refs oc alterations cc =>
      cat [joined (lit ", ") (nodes col alteration_group_type_refs); text " "; display_token oc; Some newline;
           format (col + indent) alterations; blanks col; display_token cc; Some newline]
  | NUseTrait type_ref => cat [here type_ref; text ";"; Some newline]
  | NTypeRef tokens => tref_to_fqdn tokens
  | NExpressionStatement expression => cat [blanks col; here expression; text ";"; Some newline]
  | NInlineHtml start end_ => cat [display_token start; unpadded end_]
  | NReturnStatement token expression =>
      cat [blanks col; display_token token; optional_one " " "" (option_map here expression);
           text ";"; Some newline]
  | NUseFunctionStatement _ imports =>
      cat [blanks col; text "use function "; joined (lit ", ") (nodes col imports); text ";"; Some newline]
  | NUseConstStatement _ imports =>
      cat [blanks col; text "use const "; joined (lit ", ") (nodes col imports); text ";"; Some newline]
  | NUseStatement token imports =>
      cat [blanks col; display_token token; text " "; joined (lit ", ") (nodes col imports); text ";";
           Some newline]
  | NAttribute ats expressions cb =>
      (* line 396 hands over [col] and [line] in the wrong order *)
      cat [blanks col; display_token ats; joined (lit ", ") (map (node col line) expressions);
           display_token cb; Some newline]
  | NUseDeclaration _ declaration _ _ => here declaration
  | NIfStatement if_branch elseif_branches else_branch =>
      cat [blanks col; here if_branch; text " "; cat (nodes col elseif_branches); text " ";
           optional_one "" "" (option_map here else_branch); Some newline]
  | NStaticVariablesStatement token vars | NGlobalVariablesStatement token vars =>
      cat [display_token token; text " "; joined (lit ", ") (nodes col vars)]
  | NSwitchCase _ _ expr _ body => cat [text "switch ("; here expr; text ") "; here body; Some newline]
  | NTryCatch _ try_block catch_blocks finally_block =>
      cat [blanks col; text "try "; here try_block; cat (nodes col catch_blocks); text " ";
           optional_one "" "" (option_map here finally_block); Some newline]
  | NNamespaceStatement token type_ref =>
      cat [Some newline; display_token token; text " "; here type_ref; text ";"; Some newline]
  | NNamespaceBlock token type_ref block =>
      (* lines 468 and 474: [line] and [col] in the wrong order again *)
      cat [display_token token; text " "; optional_one "" " " (option_map here type_ref);
           node (col + indent) line block; Some newline]
  | NWhileStatement _ _ condition _ body =>
      cat [blanks col; text "while ("; here condition; text ") "; here body; Some newline]
  | NDoWhileStatement _ _ _ _ condition body =>
      cat [blanks col; text "do "; here body; text " while ("; here condition; text ");"; Some newline]
  | NForStatement _ init condition step body =>
      cat [blanks col; text "for ("; joined (lit ", ") (nodes col init); text "; ";
           joined (lit ", ") (nodes col condition); text "; "; joined (lit ", ") (nodes col step); text ") ";
           here body; Some newline]
  | NForEachStatement _ _ collection _ kv _ body =>
      cat [blanks col; text "foreach ("; here collection; text " as "; here kv; text ") "; here body;
           Some newline]
  | NTokenStatement token _ => cat [blanks col; display_token token; text ";"]
  | NStatic token expr | NEchoStatement token expr | NConstStatement token expr
  | NPrintStatement token expr =>
      cat [blanks col; display_token token; text " "; joined (lit ", ") (nodes col expr); text ";"; Some newline]
  | _ => None                                                       (* unimplemented!, line 516 *)
  end
with format_node `{Runtime} (n : Node) (line col : N) {struct n} : option str :=
  let node := fun l c n => format_node n l c in
  let here := node line col in
  let nodes := fun c l => map (node line c) l in
  let format := fun c l => in_sequence 0 (map (fun n => (node_range n, format_stmt n line c)) l) in
  let list := fun l => joined (lit ", ") (nodes col l) in
  let front := fun l => in_front (map (fun n => (node_range n, format_stmt n line 0)) l) in
  match n with
  | NGrouping grouped => cat [text "("; here grouped; text ")"]
  | NFileInclude token resource => cat [display_token token; text " "; here resource]
  | NUseDeclaration _ declaration _ alias =>
      cat [here declaration;
           match alias with Some alias => cat [text " as "; display_token alias] | None => text "" end]
  | NGroupedUse _ parent oc uses cc =>
      cat [here parent; display_token oc; Some newline; blanks (col + indent);
           obind (blanks (col + indent)) (fun b => joined (lit "," ++ newline ++ b) (nodes (col + indent) uses));
           blanks col; Some newline; display_token cc]
  | NClassConstant _ name value => cat [blanks col; display_token name; text " = "; here value]
  | NBlock _ statements _ => cat [text "{"; Some newline; format (col + indent) statements; blanks col; text "}"]
  | NFunctionDefinitionStatement op arguments cp return_type body _ =>
      cat [display_token op; optional_list "" "" (option_map (nodes col) arguments); display_token cp;
           optional_one "" "" (option_map here return_type);
           match body with
           | Some body => cat [Some newline; blanks col; here body]
           | None => text ";"
           end]
  | NArrowFunction is_static _ token op arguments cp arrow return_type body attributes =>
      cat [front attributes; unpadded is_static; display_token token; text " "; display_token op;
           optional_list "" "" (option_map (nodes col) arguments); display_token cp;
           optional_one "" "" (option_map here return_type); text " "; display_token arrow; text " "; here body]
  | NFunction is_static _ token op arguments cp uses return_type body attributes =>
      cat [front attributes; unpadded is_static; display_token token; text " "; display_token op;
           optional_list "" "" (option_map (nodes col) arguments); display_token cp;
           optional_one "" "" (option_map here return_type);
           optional_list "(" ")" (option_map (nodes col) uses); text " "; here body]
  | NReturnType token data_type => cat [display_token token; text " "; here data_type]
  | NBinary left_ token right_ =>
      cat [here left_; text " "; display_token token; text " "; here right_]
  | NNew token class_ | NClone token class_ | NYieldFrom token class_ | NThrowStatement token class_ =>
      cat [display_token token; text " "; here class_]
  | NClass token arguments extends implements body attributes =>
      cat [front attributes; display_token token;
           optional_list "(" ")" (option_map (nodes col) arguments);
           optional_one " extends " "" (option_map here extends);
           optional_list " implements " "" (option_map (nodes col) implements); text " "; here body]
  | NField array ob index cb =>
      cat [here array; display_token ob; optional_one "" "" (option_map here index); display_token cb]
  | NMember object arrow oc member cc =>
      match oc with
      | Some oc => cat [here object; display_token arrow; display_token oc; here member;
                        obind cc display_token]                     (* unwrap, line 850 *)
      | None => cat [here object; display_token arrow; here member]
      end
  | NStaticMember object pn oc member cc =>
      match oc with
      | Some oc => cat [here object; display_token pn; display_token oc; here member;
                        obind cc display_token]                     (* unwrap, line 875 *)
      | None => cat [here object; display_token pn; here member]
      end
  | NCall callee _ parameters _ => cat [here callee; text "("; list parameters; text ")"]
  | NDataType nullable type_refs => cat [unpadded nullable; joined (lit " | ") (nodes col type_refs)]
  | NFunctionArgument argument_type name _ default_value spread reference _ attributes =>
      cat [front attributes; optional_one "" " " (option_map here argument_type); unpadded spread;
           unpadded reference; display_token name; optional_one " = " " " (option_map here default_value)]
  | NIdentifier token | NLiteral token | NVariable token => display_token token
  | NTypeRef tokens => tref_to_fqdn tokens
  | NMissing _ => text "<Missing>"
  | NArray ob elements cb => cat [display_token ob; list elements; display_token cb]
  | NArrayElement key arrow value =>
      cat [optional_one "" " " (option_map here key); padded arrow; here value]
  | NNamedParameter name colon expr => cat [display_token name; display_token colon; text " "; here expr]
  | NUnary expr token => cat [display_token token; text " "; here expr]
  | NDocComment comment _ _ _ _ _ _ => display_token comment
  | NPostUnary expr token => cat [here expr; display_token token]
  | NConst name token value => cat [display_token token; text " "; display_token name; text " = "; here value]
  | NTernary check qm true_arm colon false_arm =>
      cat [here check; text " "; display_token qm; text " "; optional_one "" " " (option_map here true_arm);
           display_token colon; text " "; here false_arm]
  | NLexicalVariable reference variable => cat [unpadded reference; display_token variable]
  | NAliasedVariable variable expr => cat [display_token variable; here expr]
  | NDynamicVariable variable oc expr cc =>
      cat [display_token variable; display_token oc; here expr; display_token cc]
  | NStaticVariable variable _ value =>
      cat [display_token variable; optional_one " = " "" (option_map here value)]
  | NOldArray token op elements cp | NList token op elements cp =>
      cat [display_token token; display_token op; list elements; display_token cp]
  | NIsset token op parameters cp | NUnsetStatement token op parameters cp | NEmpty token op parameters cp =>
      cat [display_token token; display_token op; list parameters; display_token cp]
  | NDieStatement token op expr cp =>
      cat [display_token token; display_token op; optional_one "" "" (option_map here expr); display_token cp]
  | NExit token _ parameters _ | NHaltCompiler token _ parameters _ | NDie token _ parameters _ =>
      match parameters with
      | Some parameters => cat [display_token token; text "("; list parameters; text ")"]
      | None => cat [display_token token; text " "]
      end
  | NYield token expr => cat [display_token token; optional_one " " "" (option_map here expr)]
  | NUseConst token thing aliased alias | NUseFunction token thing aliased alias =>
      (* lines 1206 and 1211: [col] and [line] in the wrong order *)
      cat [padded token; node col line thing;
           match aliased with
           | Some aliased => cat [text " "; display_token aliased; text " ";
                                  obind alias display_token]        (* unwrap, line 1208 *)
           | None => text ""
           end]
  | NGotoStatement token label => cat [display_token token; display_token label]
  | NLabelStatement label colon => cat [display_token label; display_token colon]
  | NDeclareStatement directive _ assignment op cp token =>
      cat [display_token token; display_token op; display_token directive; display_token assignment;
           display_token cp]
  | NDefineStatement name value op cp _ is_caseinsensitive =>
      match is_caseinsensitive with
      | Some is_caseinsensitive =>
          cat [display_token op; here name; text ","; here value; text ","; display_token is_caseinsensitive;
               display_token cp]
      | None => cat [display_token op; here value; text ","; here name; display_token cp]
      end
  | NAlternativeBlock _ statements terminator =>
      cat [text ":"; Some newline; joined (lit ", ") (nodes (col + indent) statements); Some newline;
           blanks col; display_token terminator; text ";"]
  | NIfBranch token _ condition _ body =>
      cat [display_token token; text " ("; here condition; text ") "; here body]
  | NElseBranch _ body => cat [text "else "; here body]
  | NSwitchBranch cases body =>
      cat [joined newline
             (map (fun c => match c with
                            | Some n => cat [blanks col; text "case "; node line (col + indent) n; text ":"]
                            | None => cat [blanks col; text "default:"]
                            end) cases);
           Some newline; format (col + indent) body]
  | NSwitchBody start branches end_ =>
      cat [display_token start; Some newline; blanks col; joined newline (nodes (col + indent) branches);
           display_token end_]
  | NCatchBlock _ _ types var _ body =>
      cat [text " catch ("; joined (lit " | ") (nodes col types); text " "; display_token var; text ") ";
           here body]
  | NFinallyBlock _ body => cat [text "finally "; here body]
  | _ => None                                                       (* unimplemented!, line 1330 *)
  end.

(** mod.rs:84-520 *)
Definition format `{Runtime} (ast : list Node) (line col : N) : option str :=
  in_sequence 0 (map (fun n => (node_range n, format_stmt n line col)) ast).

(** mod.rs:70-74 *)
Definition format_file `{Runtime} (ast : list Node) (line col : N) : option str :=
  obind (format ast line col) (fun result => Some (trim_end result ++ newline)).

(** ** backend/formatting.rs *)

(** The answer to a formatting request: nothing, or one edit that puts a new
    text in the place of the range. *)
Inductive formatted :=
| Unformatted
| Reformatted (range : NodeRange) (new_text : str)
| FormatPanic
| FormatFuel.

(** formatting.rs:20-49, for the text of the file.  [n] bounds the recursion of
    the parser. *)
Definition format_source `{Runtime} (n : nat) (source : str) : formatted :=
  match scan_state source with
  | SOk s =>
      match ast n (rev (s_toks s)) with
      | POk (stmts, []) _ =>
          match format_file stmts 0 0 with
          | Some t => Reformatted (document_range s) (lit "<?php" ++ newline ++ t)
          | None => FormatPanic
          end
      | POk (_, _ :: _) _ => Unformatted
      | PFail _ _ => FormatPanic                                    (* unwrap, line 25 *)
      | PPanic => FormatPanic
      | PFuel => FormatFuel
      end
  | SErr _ => FormatPanic                                           (* unwrap, line 22 *)
  | SPanic => FormatPanic
  | SFuel => FormatFuel
  end.

(** formatting.rs:12-53 *)
Definition formatting `{Runtime} (n : nat) (path : str) (s : bst) : formatted :=
  match find str_eqb path (b_latest s) with
  | Some source => format_source n source
  | None => Unformatted
  end.
