(** Symbols: /repo/src/environment/symbol.rs, scope.rs, import.rs, mod.rs.

    This file contains no proofs. *)

From Verif Require Import Base Token Node Assoc Arena.

Local Open Scope string_scope.
Local Open Scope N_scope.
Local Open Scope list_scope.

(** * Positions *)

(** lsp_types::Position and lsp_types::Range *)
Record Position := mkPos { pos_line : N; pos_char : N }.
Record Range := mkRng { r_start : Position; r_end : Position }.

(** environment/mod.rs:36-47 *)
Definition get_range (r : NodeRange) : Range :=
  mkRng (mkPos (start_line r) (start_col r)) (mkPos (end_line r) (end_col r)).

(** environment/mod.rs:50-72 *)
Definition in_range (p : Position) (r : Range) : bool :=
  if (pos_line (r_end r) <? pos_line p) || (pos_line p <? pos_line (r_start r)) then false
  else if (pos_line (r_start r) <? pos_line p) && (pos_line p <? pos_line (r_end r)) then true
  else if (pos_line p =? pos_line (r_start r)) && (pos_char p <? pos_char (r_start r)) then false
  else if (pos_line p =? pos_line (r_end r)) && (pos_char (r_end r) <? pos_char p) then false
  else true.

(** * Kinds and visibilities *)

(** symbol.rs:22-52 *)
Inductive PhpSymbolKind :=
| KFile | KNamespace | KClass | KMethod | KProperty | KField | KConstructor | KInterface
| KFunction | KVariable | KConstant | KString | KNumber | KBoolean | KArray | KObject | KKey
| KNull | KOperator | KImport | KBuiltInType | KMagicConst | KFunctionParameter | KTrait
| KUnknown.

Definition kind_code (k : PhpSymbolKind) : N :=
  match k with
  | KFile => 1 | KNamespace => 3 | KClass => 5 | KMethod => 6 | KProperty => 7 | KField => 8
  | KConstructor => 9 | KInterface => 11 | KFunction => 12 | KVariable => 13 | KConstant => 14
  | KString => 15 | KNumber => 16 | KBoolean => 17 | KArray => 18 | KObject => 19 | KKey => 20
  | KNull => 21 | KOperator => 25 | KImport => 26 | KBuiltInType => 100 | KMagicConst => 101
  | KFunctionParameter => 102 | KTrait => 103 | KUnknown => 255
  end.
Definition kind_eqb (a b : PhpSymbolKind) : bool := kind_code a =? kind_code b.

(** symbol.rs:234-259; the answer is the number of the kind in the protocol *)
Definition lsp_kind (k : PhpSymbolKind) : option N :=
  match k with
  | KTrait => Some (kind_code KClass)
  | KFile | KNamespace | KClass | KMethod | KProperty | KField | KConstructor | KInterface
  | KFunction | KVariable | KConstant | KString | KNumber | KBoolean | KArray | KObject | KKey
  | KNull | KOperator => Some (kind_code k)
  | KImport | KBuiltInType | KMagicConst | KFunctionParameter | KUnknown => None
  end.

(** symbol.rs:261-266 *)
Definition is_internal (k : PhpSymbolKind) : bool :=
  match k with KUnknown | KImport | KMagicConst => true | _ => false end.

(** symbol.rs:268-277 *)
Definition register_global (k : PhpSymbolKind) : bool :=
  match k with KClass | KTrait | KInterface | KFunction | KConstant => true | _ => false end.

(** symbol.rs:54-59 *)
Inductive Visibility := VNone | VPublic | VProtected | VPrivate.

Definition vis_eqb (a b : Visibility) : bool :=
  match a, b with
  | VNone, VNone | VPublic, VPublic | VProtected, VProtected | VPrivate, VPrivate => true
  | _, _ => false
  end.

(** symbol.rs:77-96 *)
Definition vis_cmp (a b : Visibility) : comparison :=
  if vis_eqb a b then Eq
  else match a with
       | VNone | VPublic => Gt
       | VPrivate => Lt
       | VProtected => match b with VPrivate => Gt | _ => Lt end
       end.
(** [a >= b] on a [PartialOrd] *)
Definition vis_ge (a b : Visibility) : bool :=
  match vis_cmp a b with Lt => false | _ => true end.

(** symbol.rs:98-111 *)
Definition vis_of (t : option Token) : Visibility :=
  match t with
  | Some t =>
      match t_type t with
      | TPrivate => VPrivate
      | TProtected => VProtected
      | TPublic => VPublic
      | _ => VNone
      end
  | None => VNone
  end.

(** * Symbols *)

(** scope.rs:7-16 *)
Record SRef := mkSRef { sr_type : TypeRef; sr_range : Range; sr_node : option N }.

(** scope.rs:28-36 and 39-47; [None] is the panic of [TypeRef::range] *)
Definition sref_node (tr : TypeRef) (n : N) : option SRef :=
  obind (tref_range tr) (fun r => Some (mkSRef tr (get_range r) (Some n))).
Definition sref_type (tr : TypeRef) : option SRef :=
  obind (tref_range tr) (fun r => Some (mkSRef tr (get_range r) None)).

(** import.rs:12-15 *)
Record SymbolImport := mkImport { i_path : TypeRef; i_alias : option Token }.

(** import.rs:35-47 *)
Inductive Alteration :=
| AltAs (visibility : option Token) (class : option TypeRef) (member : str) (alias : option Token)
| AltInsteadOf (class : TypeRef) (member : str) (instead_ofs : list TypeRef).

(** symbol.rs:171-213.  [FunctionParameter] (115-119) is a pair. *)
Record Symbol := mkSymbol {
  y_kind : PhpSymbolKind;
  y_name : str;
  y_range : Range;
  y_sel : Range;                                (* selection_range *)
  y_deprecated : option bool;
  y_ns : option str;                            (* namespace *)
  y_imports : option (list SymbolImport);
  y_alterations : option (list Alteration);     (* import_resolutions *)
  y_inherits : option (list SRef);              (* inherits_from *)
  y_types : list SRef;                          (* data_types *)
  y_params : list (N * Node);                   (* parameters *)
  y_static : bool;
  y_vis : Visibility;
  y_attribute : bool
}.

(** [Symbol { kind, name, range, selection_range, ..Symbol::default() }],
    symbol.rs:215-231 *)
Definition plain_symbol (k : PhpSymbolKind) (name : str) (range sel : Range) : Symbol :=
  mkSymbol k name range sel None None None None None [] [] false VNone false.

Definition with_types (l : list SRef) (s : Symbol) : Symbol :=
  mkSymbol (y_kind s) (y_name s) (y_range s) (y_sel s) (y_deprecated s) (y_ns s) (y_imports s)
    (y_alterations s) (y_inherits s) l (y_params s) (y_static s) (y_vis s) (y_attribute s).
Definition with_imports (l : option (list SymbolImport)) (s : Symbol) : Symbol :=
  mkSymbol (y_kind s) (y_name s) (y_range s) (y_sel s) (y_deprecated s) (y_ns s) l
    (y_alterations s) (y_inherits s) (y_types s) (y_params s) (y_static s) (y_vis s) (y_attribute s).
Definition with_alterations (l : option (list Alteration)) (s : Symbol) : Symbol :=
  mkSymbol (y_kind s) (y_name s) (y_range s) (y_sel s) (y_deprecated s) (y_ns s) (y_imports s)
    l (y_inherits s) (y_types s) (y_params s) (y_static s) (y_vis s) (y_attribute s).
Definition with_params (l : list (N * Node)) (s : Symbol) : Symbol :=
  mkSymbol (y_kind s) (y_name s) (y_range s) (y_sel s) (y_deprecated s) (y_ns s) (y_imports s)
    (y_alterations s) (y_inherits s) (y_types s) l (y_static s) (y_vis s) (y_attribute s).

(** backend/mod.rs:148-176, [Symbol::from(&Token)]; [None] is a panic of
    [Token::end] or of its rendering *)
Definition symbol_of_token (t : Token) : option Symbol :=
  obind (token_range t) (fun r => obind (display_token t) (fun name =>
    Some (plain_symbol (match t_type t with TVariable => KVariable | _ => KUnknown end)
            name (get_range r) (get_range r)))).

(** symbol.rs:383-389 *)
Definition sym_name (s : Symbol) : str :=
  match y_name s with
  | 36 :: r => r
  | l => l
  end.

Section WithRuntime.
Context `{Runtime}.

(** symbol.rs:391-393 *)
Definition normalized_name (s : Symbol) : str := to_lowercase (sym_name s).

(** symbol.rs:395-401 *)
Definition fqdn (s : Symbol) : str :=
  match y_ns s with
  | Some ns => ns ++ lit "\" ++ sym_name s
  | None => sym_name s
  end.

(** The key under which a symbol is kept in the index,
    backend/mod.rs:370, 437, 449: [symbol.fqdn().to_lowercase()] *)
Definition index_key (s : Symbol) : str := to_lowercase (fqdn s).

End WithRuntime.

(** symbol.rs:403-418 *)
Definition fqdn_matches (s : Symbol) (pattern : str) : bool :=
  let f := fqdn s in
  if str_eqb f pattern then true
  else
    let pattern := lit "\" ++ pattern in
    if str_eqb f pattern then true
    else str_eqb (lit "\" ++ f) pattern.

(** * Looking up a position *)

(** symbol.rs:420-440.  The recursion follows the tree of symbols; [None] is
    a panic (or a tree deeper than the number of its nodes). *)
Fixpoint symbol_at_f (fuel : nat) (a : arena Symbol) (p : Position) (me : N) : option N :=
  match fuel with
  | O => None
  | S fuel =>
      match kids a me with
      | None => None
      | Some l =>
          (fix go (l : list N) : option N :=
             match l with
             | [] => Some me
             | c :: r =>
                 match data a c with
                 | None => None
                 | Some s =>
                     if kind_eqb (y_kind s) KNamespace || kind_eqb (y_kind s) KMagicConst then go r
                     else if in_range p (y_range s) then symbol_at_f fuel a p c
                     else go r
                 end
             end) l
      end
  end.
Definition symbol_at (a : arena Symbol) (p : Position) (me : N) : option N :=
  symbol_at_f (S (List.length (a_nodes a))) a p me.

(** environment/mod.rs:14-33: the name of the enclosing file and the
    selection range.  Outer [None] is a panic, inner is Rust's [None]. *)
Fixpoint location_loop (fuel : nat) (a : arena Symbol) (i : N) : option (option str) :=
  match fuel with
  | O => None
  | S fuel =>
      match parent_of a i with
      | None => None
      | Some None => Some None
      | Some (Some p) =>
          match data a p with
          | None => None
          | Some s => if kind_eqb (y_kind s) KFile then Some (Some (sym_name s))
                      else location_loop fuel a p
          end
      end
  end.
Definition symbol_location (a : arena Symbol) (i : N) : option (option (str * Range)) :=
  match data a i with
  | None => None
  | Some s =>
      match location_loop (S (List.length (a_nodes a))) a i with
      | None => None
      | Some o => Some (opt_map (fun f => (f, y_sel s)) o)
      end
  end.
