(** Completion: /repo/src/suggester/mod.rs and /repo/src/backend/completion.rs.

    Simplifications: an item of the answer is its label, the text to insert and
    the additional edits, without the detail text, the kind and the tags.  The
    character that triggered the request is its code point.
    The order in which the references of a file are iterated over is the
    argument [order].

    This file contains no proofs. *)

From Verif Require Import Base Token Node Assoc Arena Symbol EnvMonad Workspace Resolver Backend.

Local Open Scope string_scope.
Local Open Scope N_scope.
Local Open Scope list_scope.

(** suggester/mod.rs:14-36; [mod.rs] stands for this file below. *)
Inductive SuggestionContext := SImport | STraitUsage | SUnknown | SConstructorCall | SCall | SReference | SKeyword.

(** mod.rs:38-46 *)
Record Suggestion := mkSug {
  g_node : option N;
  g_token : option TokenType;
  g_context : SuggestionContext;
  g_replace : option NodeRange;
  g_alias : option str;
  g_this : bool
}.

(** mod.rs:48-97 *)
Definition sug_token (t : TokenType) : Suggestion := mkSug None (Some t) SKeyword None None false.
Definition sug_node (n : N) (role : SuggestionContext) (replace : option NodeRange) : Suggestion :=
  mkSug (Some n) None role replace None false.
Definition sug_aliased (n : N) (alias : str) (role : SuggestionContext) : Suggestion :=
  mkSug (Some n) None role None (Some alias) false.
Definition sug_this (n : N) : Suggestion :=
  mkSug (Some n) None SReference None (Some (lit "this")) true.

(** [arena[i].get()] for the first id with this property *)
Definition first_class (l : list N) : B (option N) :=
  efind (fun i => elet d <- e_data i in eret (if kind_eqb (y_kind d) KClass then Some i else None)) l.

(** [i.ancestors(arena)] *)
Definition e_ancestors (i : N) : B (list N) :=
  elet a <- eget b_arena in eopt (ancestors a i).

Section WithRuntime.
Context `{Runtime} `{Hashing}.

(** [NameResolver::new(global_symbols, container)], used and thrown away *)
Definition with_resolver {A : Type} (container : N) (m : R A) : B A :=
  fun s => match m (resolver_new (b_arena s) (b_global s) container) with
           | Done x _ => Done x s
           | Panic => Panic
           | Fuel => Fuel
           end.

(** mod.rs:102-121 *)
Fixpoint find_node (fuel : nat) (n : Node) (p : Position) (anc : list Node) : B (option (Node * list Node)) :=
  match fuel with
  | O => efuel
  | S fuel =>
      let anc := anc ++ [n] in
      elet deeper <- efind (fun c =>
          elet r <- eopt (node_range c) in
          if in_range p (get_range r) then elet o <- find_node fuel c p anc in eret (Some o)
          else eret None) (children n) in
      match deeper with
      | Some o => eret o
      | None =>
          elet r <- eopt (node_range n) in
          eret (if in_range p (get_range r) then Some (n, anc) else None)
      end
  end.

Definition node_normalized_name (n : Node) : option str := opt_map to_lowercase (node_name n).

(** mod.rs:123-143 *)
Definition suggest_imports (declaration : Node) : B (list Suggestion) :=
  elet prefix <- eopt (node_normalized_name declaration) in
  elet g <- eget b_global in
  efold (fun acc kv =>
    if starts_with prefix (fst kv) then
      elet r <- eopt (node_range declaration) in eret (acc ++ [sug_node (snd kv) SImport (Some r)])
    else eret acc) [] (h_order g).

(** mod.rs:146-174 *)
Definition suggest_traits (declaration node : Node) : B (list Suggestion) :=
  elet prefix <- eopt (node_normalized_name declaration) in
  elet g <- eget b_global in
  efold (fun acc kv =>
    elet d <- e_data (snd kv) in
    if negb (kind_eqb (y_kind d) KTrait) then eret acc
    else if starts_with prefix (normalized_name d) then
      elet r <- eopt (node_range node) in eret (acc ++ [sug_node (snd kv) STraitUsage (Some r)])
    else eret acc) [] (h_order g).

(** mod.rs:177-197 *)
Definition suggest_symbols (node : Node) : B (list Suggestion) :=
  elet prefix <- eopt (node_normalized_name node) in
  elet g <- eget b_global in
  efold (fun acc kv =>
    elet d <- e_data (snd kv) in
    if starts_with prefix (normalized_name d) then
      elet r <- eopt (node_range node) in eret (acc ++ [sug_node (snd kv) SUnknown (Some r)])
    else eret acc) [] (h_order g).

(** mod.rs:200-221 *)
Definition suggest_variables (scope : N) : B (list Suggestion) :=
  elet cs <- e_kids scope in
  elet l <- efold (fun acc c =>
    elet d <- e_data c in
    eret (if kind_eqb (y_kind d) KVariable || kind_eqb (y_kind d) KFunctionParameter
          then acc ++ [sug_node c SReference None] else acc)) [] cs in
  elet anc <- e_ancestors scope in
  elet cl <- first_class anc in
  eret (l ++ opt_list (opt_map sug_this cl)).

(** mod.rs:252-262: the range at which the object of [object->member] is looked
    for, or the symbol of [$this] *)
Definition this_object (pr : NodeRange) (suc : N) (token : Token) : B (NodeRange * option N) :=
  match t_label token with
  | Some l =>
      if str_eqb l (lit "this") then elet p <- e_parent suc in eret (pr, p)
      else eret (pr, None)
  | None => eret (pr, None)
  end.
Definition member_object (pr : NodeRange) (suc : N) (object : Node) : B (NodeRange * option N) :=
  match object with
  | NCall callee _ _ _ =>
      match callee with
      | NMember _ _ _ member _ => elet r <- eopt (node_range member) in eret (r, None)
      | _ => eret (pr, None)
      end
  | NMember _ _ _ member _ => elet r <- eopt (node_range member) in eret (r, None)
  | NVariable token => this_object pr suc token
  | _ => eret (pr, None)
  end.

(** mod.rs:240-263: with the flag whether magic constants are left out *)
Definition object_of (node parent : Node) (suc : N) : B (NodeRange * option N * bool) :=
  elet pr <- eopt (node_range parent) in
  match node with
  | NMember object _ _ _ _ =>
      elet r <- eopt (node_range object) in eret (r, None, true)
  | _ =>
      match parent with
      | NMember object _ _ _ _ =>
          elet ro <- member_object pr suc object in eret (fst ro, snd ro, true)
      | _ => eret (pr, None, false)
      end
  end.

(** mod.rs:291-315 *)
Definition accessible_members (fuel : nat) (current : N) : R members :=
  elet own <- own_symbols current in
  elet me <- e_data current in
  elet imp <- get_imports (resolve_type_ref fuel) (get_all_symbols fuel) me current in
  elet inh <- inherited_symbols (resolve_type_ref fuel) (get_all_symbols fuel) me current in
  elet vis <- efold (fun acc p =>
    elet d <- e_data (al_symbol (snd p)) in
    eret (if vis_ge (y_vis d) VProtected then acc ++ [p] else acc)) [] (h_order inh) in
  eret (put_all str_eqb vis (put_all str_eqb imp own)).

(** mod.rs:320-333: the symbols of the data types.  [suc] is the symbol under
    the cursor. *)
Definition object_types (fuel : nat) (resolved suc : N) (l : list SRef) : R (list N) :=
  efold (fun acc dt =>
    match sr_node dt with
    | Some n => eret (acc ++ [n])
    | None =>
        elet root <- eopt (tref_root (sr_type dt)) in
        elet root <- eopt root in
        if str_eqb root (lit "$this") then
          elet p <- e_parent resolved in eret (acc ++ opt_list p)
        else
          elet o <- resolve_type_ref fuel (sr_type dt) suc false in eret (acc ++ opt_list o)
    end) [] l.

(** mod.rs:334-372: the members of one of them that are offered *)
Definition offered (fuel : nat) (prefix : str) (static_only no_magic_const : bool) (accessible : members) (node : N)
  : R (list Suggestion) :=
  elet all <- get_all_symbols fuel node in
  efold (fun acc p =>
    let n := snd p in
    if negb (starts_with prefix (al_alias n)) then eret acc
    else
      elet d <- e_data (al_symbol n) in
      eret (if (static_only && negb (y_static d)) || (no_magic_const && kind_eqb (y_kind d) KMagicConst) then acc
            else if vis_ge (al_vis n) VPublic || is_some (find str_eqb (normalized_name d) accessible)
            then acc ++ [sug_aliased (al_symbol n) (al_alias n) SCall]
            else acc)) [] (h_order all).

(** mod.rs:224-375, with a parent *)
Definition suggest_members (fuel : nat) (order : FileReferenceMap -> FileReferenceMap) (trigger : option N)
    (node parent : Node) (suc : N) (references : FileReferenceMap) : B (list Suggestion) :=
  elet prefix <- eopt (node_name node) in
  elet ob <- object_of node parent suc in
  let '(range, this, no_magic_const) := ob in
  let pos := mkPos (start_line range) (start_col range) in
  let resolved :=
    match this with
    | Some t => Some t
    | None => opt_map fst (List.find (fun e => touches pos (snd e)) (order references))
    end in
  match resolved with
  | None => eret []
  | Some resolved =>
      elet anc <- e_ancestors suc in
      elet current <- first_class anc in
      elet accessible <-
        (match current with
         | None => eret []
         | Some c => with_resolver c (accessible_members fuel c)
         end) in
      elet d <- e_data resolved in
      elet types <- with_resolver suc (object_types fuel resolved suc (y_types d)) in
      efold (fun acc t =>
        elet l <- with_resolver suc
          (offered fuel prefix (match trigger with Some c => c =? 58 | None => false end) no_magic_const accessible t) in
        eret (acc ++ l)) [] types
  end.

(** mod.rs:377-392 *)
Definition suggest_keywords (suc : N) : B (list Suggestion) :=
  elet d <- e_data suc in
  eret (match y_kind d with
        | KFile => map sug_token [TNamespace; TUse; TClass; TFunction; TConst; TTrait; TInterface]
        | _ => []
        end).

(** mod.rs:452-470: the innermost block or class around the node, with the
    innermost ancestor first *)
Fixpoint class_block (anc : list Node) : bool :=
  match anc with
  | [] => false
  | NClassStatement _ _ _ _ _ _ _ _ _ :: _ => true
  | NBlock _ _ _ :: r => match r with NClassStatement _ _ _ _ _ _ _ _ _ :: _ => true | _ => false end
  | _ :: r => class_block r
  end.

(** mod.rs:403-481 *)
Definition get_suggestions_at (fuel : nat) (order : FileReferenceMap -> FileReferenceMap) (trigger : option N)
    (p : Position) (suc : N) (ast : list Node) (references : FileReferenceMap) : B (list Suggestion) :=
  elet found <- efind (fun n => find_node fuel n p []) ast in
  match found with
  | None =>
      if match trigger with Some c => c =? 36 | None => false end then suggest_variables suc
      else suggest_keywords suc
  | Some (node, anc) =>
      let anc := removelast anc in
      match node with
      | NUseTrait type_ref => suggest_traits type_ref node
      | NGroupedUse _ declaration _ _ _ => suggest_imports declaration
      | NUseDeclaration _ declaration _ _ => suggest_imports declaration
      | NVariable _ | NAliasedVariable _ _ => suggest_variables suc
      | NMissing _ | NLiteral _ | NMember _ _ _ _ _ =>
          elet parent <- eopt (last_opt anc) in
          suggest_members fuel order trigger node parent suc references
      | _ =>
          if class_block (rev anc) then eret (map sug_token [TPublic; TPrivate; TProtected])
          else suggest_symbols node
      end
  end.

(** ** completion.rs *)

(** The answer: label, text to insert (an editor inserts the label if there is
    none), and the range and text of the additional edits *)
Record item := mkItem { i_label : str; i_insert : option str; i_edits : option (list (Range * str)) }.

(** symbol.rs:374-381 *)
Fixpoint snippets (k : N) (names : list str) : list str :=
  match names with
  | [] => []
  | c :: r => (lit "${" ++ decimal k ++ lit ":\$" ++ c ++ lit "}") :: snippets (k + 1) r
  end.

(** symbol.rs:282-381, the text to insert: that of methods and functions is
    made of the names of all children *)
Definition insert_text (n : N) (d : Symbol) : B (option str) :=
  match y_kind d with
  | KMethod | KFunction =>
      elet cs <- e_kids n in
      elet ds <- emap e_data cs in
      eret (Some (y_name d ++ lit "(" ++ join (lit ", ") (snippets 1 (map sym_name ds)) ++ lit ")"))
  | _ => eret None
  end.

(** completion.rs:92-122: the line of the import that is added; [None] if none
    is needed *)
Definition import_line (file sym : Symbol) : B (option N) :=
  match y_ns sym with
  | None => eret None
  | Some ns =>
      if match y_ns file with Some n => str_eqb n ns | None => false end then eret None
      else
        match y_imports file with
        | None => eret (Some 3)
        | Some l =>
            elet same <- efind (fun i =>
              elet n <- eopt (import_full_name i) in
              eret (if str_eqb n (fqdn sym) then Some tt else None)) l in
            match same with
            | Some _ => eret None
            | None =>
                match l with
                | [] => eret (Some 3)
                | i :: _ => elet r <- eopt (tref_range (i_path i)) in eret (Some (start_line r))
                end
            end
        end
  end.

(** completion.rs:65-141 *)
Definition completion_item (file : Symbol) (g : Suggestion) : B item :=
  if g_this g then eret (mkItem (lit "$this") None None)
  else match g_token g with
  | Some t => elet l <- eopt (display_type t) in eret (mkItem l None None)
  | None =>
      elet n <- eopt (g_node g) in
      elet d <- e_data n in
      if kind_eqb (y_kind d) KClass || kind_eqb (y_kind d) KTrait then
        match g_context g with
        | SImport =>
            elet r <- eopt (g_replace g) in
            eret (mkItem (fqdn d) None (Some [(get_range r, [])]))
        | _ =>
            elet line <- import_line file d in
            eret (mkItem (sym_name d) None
                    (opt_map (fun line => [(mkRng (mkPos line 0) (mkPos line 0), lit "use " ++ fqdn d ++ lit ";" ++ [10])]) line))
        end
      else
        elet text <- insert_text n d in
        eret (mkItem (lit "$" ++ match g_alias g with Some a => a | None => sym_name d end) text None)
  end.

(** completion.rs:23-149 *)
Definition completion (fuel : nat) (order : FileReferenceMap -> FileReferenceMap) (path : str) (p : Position)
    (trigger : option N) : B (option (list item)) :=
  elet o <- eget b_open in
  match find str_eqb path o with
  | None => eret None
  | Some (ast, _) =>
      elet files <- eget b_files in
      match find str_eqb path files with
      | None => eret None
      | Some file =>
          elet fd <- e_data file in
          elet a <- eget b_arena in
          elet suc <- eopt (symbol_at a p file) in
          elet refs <- eget b_refs in
          match find str_eqb path refs with
          | None => eret None
          | Some references =>
              elet l <- get_suggestions_at fuel order trigger p suc ast references in
              elet items <- emap (completion_item fd) l in
              eret (Some items)
          end
      end
  end.

End WithRuntime.
