(** Collecting the symbols of a file:
    /repo/src/environment/visitor/workspace_symbol.rs, visitor/mod.rs,
    import.rs and traverser.rs.

    This file contains no proofs. *)

From Verif Require Import Base Token Node Assoc Arena Symbol EnvMonad.

Local Open Scope string_scope.
Local Open Scope N_scope.
Local Open Scope list_scope.

(** * Imports *)

Fixpoint concat_opt {A} (l : list (option (list A))) : option (list A) :=
  match l with
  | [] => Some []
  | None :: _ => None
  | Some x :: r => opt_map (app x) (concat_opt r)
  end.

Fixpoint seq_opt {A} (l : list (option A)) : option (list A) :=
  match l with
  | [] => Some []
  | None :: _ => None
  | Some x :: r => opt_map (cons x) (seq_opt r)
  end.

(** import.rs:50-58.  [None] is the panic of the [unwrap] of line 52. *)
Definition import_name (i : SymbolImport) : option str :=
  match i_alias i with
  | Some alias => t_label alias
  | None => match tref_tip (i_path i) with Some tip => Some tip | None => Some [] end
  end.
(** import.rs:60-62 *)
Definition import_full_name (i : SymbolImport) : option str := tref_to_fqdn (i_path i).

Definition tref_of (n : Node) : option TypeRef :=
  match n with NTypeRef tr => Some tr | _ => None end.

(** import.rs:88-157.  [None] is a panic: of [Node::name] or of the
    [unreachable!] of line 138. *)
Definition alteration_of (n : Node) : option (list Alteration) :=
  match n with
  | NUseTraitAs left_ _ member _ visibility as_name =>
      let class := match left_ with Some l => tref_of l | None => None end in
      obind (node_name member) (fun m => Some [AltAs visibility class m as_name])
  | NUseTraitInsteadOf left_ _ member _ insteadof_list =>
      match (match left_ with Some l => tref_of l | None => None end) with
      | None => Some []
      | Some class =>
          obind (seq_opt (map tref_of insteadof_list)) (fun l =>
            obind (node_name member) (fun m => Some [AltInsteadOf class m l]))
      end
  | _ => Some []
  end.
Fixpoint collect_alterations (n : Node) : option (list Alteration) :=
  match n with
  | NUseTraitAlterationBlock _ _ alterations _ => concat_opt (map alteration_of alterations)
  | NUseTraitStatement _ traits_usages => concat_opt (map collect_alterations traits_usages)
  | _ => Some []
  end.

(** The [&collect_uses(..)[0]] with another alias, import.rs:197-229 *)
Definition realias (l : option (list SymbolImport)) (alias : option Token) : option (list SymbolImport) :=
  match l with
  | Some (i :: _) => Some [mkImport (i_path i) alias]
  | _ => None
  end.

(** import.rs:160-240.  [None] is a panic: an index [0] into an empty list. *)
Fixpoint collect_uses (n : Node) (prefix : TypeRef) : option (list SymbolImport) :=
  match n with
  | NUseTraitAlterationBlock trefs _ _ _ => concat_opt (map (fun n => collect_uses n prefix) trefs)
  | NUseTraitStatement _ l | NUseStatement _ l | NUseFunctionStatement _ l | NUseConstStatement _ l =>
      concat_opt (map (fun n => collect_uses n prefix) l)
  | NUseTrait type_ref => collect_uses type_ref prefix
  | NGroupedUse _ parent _ uses _ =>
      concat_opt (map (fun n =>
        match collect_uses parent prefix with
        | Some (i :: _) => collect_uses n (i_path i)
        | _ => None
        end) uses)
  | NUseDeclaration _ d _ alias | NUseFunction _ d _ alias | NUseConst _ d _ alias =>
      realias (collect_uses d prefix) alias
  | NTypeRef tokens => Some [mkImport (tref_append prefix tokens) None]
  | _ => Some []
  end.

(** * The visitor *)

(** workspace_symbol.rs:550-562 *)
Definition get_type_ref (n : Node) : list TypeRef :=
  match n with
  | NTypeRef tokens => [tokens]
  | NDocCommentReturn (Some types) _ => types
  | _ => []
  end.
(** workspace_symbol.rs:533-548 *)
Fixpoint get_type_refs (n : Node) : list TypeRef :=
  match n with
  | NReturnType _ data_type => get_type_refs data_type
  | NDataType _ type_refs => flat_map get_type_ref type_refs
  | NDocCommentVar _ types _ | NDocCommentReturn types _ | NDocCommentParam _ types _ =>
      match types with Some types => types | None => [] end
  | _ => []
  end.

(** visitor/mod.rs:20-36 *)
Definition deprecated_from_doc (d : option Node) : option bool :=
  match d with
  | Some (NDocComment _ _ _ is_deprecated _ _ _) => if is_deprecated then Some true else None
  | _ => None
  end.

(** [Reference::type_ref] for each of the type refs; [None] is a panic *)
Definition srefs (l : list TypeRef) : option (list SRef) := seq_opt (map sref_type l).

(** visitor/mod.rs:5-18, for the fields [var_docs] and [return_type] *)
Definition doc_vars (d : option Node) : list TypeRef :=
  match d with
  | Some (NDocComment _ _ _ _ _ var_docs _) => flat_map get_type_refs var_docs
  | _ => []
  end.
Definition doc_returns (d : option Node) : list TypeRef :=
  match d with
  | Some (NDocComment _ return_type _ _ _ _ _) => flat_map get_type_refs return_type
  | _ => []
  end.
Definition type_refs_of (d : option Node) : list TypeRef :=
  match d with Some d => get_type_refs d | None => [] end.

(** [any] with a test that may panic *)
Fixpoint any_opt {A} (f : A -> option bool) (l : list A) : option bool :=
  match l with
  | [] => Some false
  | a :: r => match f a with
              | None => None
              | Some true => Some true
              | Some false => any_opt f r
              end
  end.
(** workspace_symbol.rs:130-142 *)
Definition names_attribute (e : Node) : option bool :=
  match e with
  | NTypeRef tr =>
      obind (first_opt (kind tr)) (fun t =>
        obind (display_token t) (fun s => Some (str_eqb s (lit "Attribute"))))
  | _ => Some false
  end.
Definition is_attribute (attributes : list Node) : option bool :=
  any_opt (fun a => match a with
                    | NAttribute _ expressions _ => any_opt names_attribute expressions
                    | _ => Some false
                    end) attributes.

(** Decimal numbers, and [format!("af-{:?}", range)], workspace_symbol.rs:370
    and name_resolver.rs:741 *)
Fixpoint decimal_f (fuel : nat) (n : N) (acc : str) : str :=
  match fuel with
  | O => acc
  | S fuel =>
      let acc := (48 + n mod 10) :: acc in
      if n <? 10 then acc else decimal_f fuel (n / 10) acc
  end.
Definition decimal (n : N) : str := decimal_f (S (N.to_nat (N.log2 n))) n [].
Definition arrow_name (r : NodeRange) : str :=
  lit "af-NodeRange { start_col: " ++ decimal (start_col r) ++
  lit ", start_line: " ++ decimal (start_line r) ++
  lit ", end_col: " ++ decimal (end_col r) ++
  lit ", end_line: " ++ decimal (end_line r) ++ lit " }".

(** workspace_symbol.rs:14-22; the arena is handed along with the visitor *)
Record wst := mkWst { w_arena : arena Symbol; w_ns : option str }.
#[global] Instance wst_arena : HasArena wst :=
  {| the_arena := w_arena; with_arena := fun a s => mkWst a (w_ns s) |}.
Definition W := E wst.
Definition set_ns (o : option str) : W unit := emod (fun s => mkWst (w_arena s) o).

(** [let child = arena.new_node(d); parent.append(child, arena);] *)
Definition add_child {S} `{HasArena S} (parent : N) (d : Symbol) : E S N :=
  elet child <- e_new d in
  edo e_append parent child in
  eret child.

(** A new symbol; the arguments are the fields that differ from the default,
    [None] for an argument that panicked. *)
Definition make (k : PhpSymbolKind) (name : option str) (range sel : option NodeRange)
  : option Symbol :=
  obind name (fun name => obind range (fun r => obind sel (fun s =>
    Some (plain_symbol k name (get_range r) (get_range s))))).
Definition set_class (ns : option str) (inh : option (list SRef)) (types : list SRef)
    (dep : option bool) (attr : bool) (s : Symbol) : Symbol :=
  mkSymbol (y_kind s) (y_name s) (y_range s) (y_sel s) dep ns (y_imports s)
    (y_alterations s) inh types (y_params s) (y_static s) (y_vis s) attr.
Definition set_member (types : list SRef) (dep : option bool) (static : bool) (vis : Visibility)
    (s : Symbol) : Symbol :=
  mkSymbol (y_kind s) (y_name s) (y_range s) (y_sel s) dep (y_ns s) (y_imports s)
    (y_alterations s) (y_inherits s) types (y_params s) static vis (y_attribute s).

Definition extend_opt {A} (o : option (list A)) (l : list A) : option (list A) :=
  Some (match o with Some x => x ++ l | None => l end).

Definition no_prefix : TypeRef := mkTypeRef [] false.

(** workspace_symbol.rs:27-504.  The answer [Some p] is
    [NextAction::ProcessChildren(p)], [None] is [NextAction::Abort]. *)
Definition w_visit (node : Node) (parent : N) : W (option N) :=
  match node with
  | NGroupedUse _ _ _ _ _ | NUseDeclaration _ _ _ _ | NUseFunction _ _ _ _ | NUseConst _ _ _ _ =>
      elet gp <- e_parent parent in
      let target := match gp with Some g => g | None => parent end in
      elet uses <- eopt (collect_uses node no_prefix) in
      edo e_update target (fun s => with_imports (extend_opt (y_imports s) uses) s) in
      eret None
  | NUseTraitInsteadOf _ _ _ _ _ | NUseTraitAs _ _ _ _ _ _ | NUseTraitAlterationBlock _ _ _ _
  | NUseTrait _ =>
      elet uses <- eopt (collect_uses node no_prefix) in
      elet alts <- eopt (collect_alterations node) in
      edo e_update parent (fun s =>
        with_alterations (extend_opt (y_alterations s) alts)
          (with_imports (extend_opt (y_imports s) uses) s)) in
      eret None
  | NNamespaceStatement _ type_ref =>
      elet tokens <- eopt (tref_of type_ref) in
      elet name <- eopt (tref_to_fqdn tokens) in
      elet sel <- eopt (tref_range tokens) in
      elet p <- e_data parent in
      elet new <- add_child parent (plain_symbol KNamespace name (y_sel p) (get_range sel)) in
      eret (Some new)
  | NConst name _ _ =>
      elet d <- eopt (make KConstant (display_token name) (node_range node) (node_range node)) in
      edo add_child parent d in
      eret None
  | NClassStatement _ name _ _ implements extends _ doc_comment attributes =>
      elet inh <- eopt (match extends with
                        | None => Some None
                        | Some e => opt_map Some (srefs (get_type_ref e))
                        end) in
      elet sel <- eopt (token_range name) in
      elet d <- eopt (make KClass (display_token name) (node_range node) (Some sel)) in
      elet ns <- eget w_ns in
      elet self_ref <- eopt (sref_type (tref_one [name])) in
      elet impl <- eopt (srefs (flat_map get_type_ref (opt_nodes implements))) in
      elet attr <- eopt (is_attribute attributes) in
      elet child <- add_child parent
        (set_class ns inh (self_ref :: impl) (deprecated_from_doc doc_comment) attr d) in
      edo add_child child
        (set_member [] None true VNone
           (plain_symbol KMagicConst (lit "class") (get_range sel) (get_range sel))) in
      eret (Some child)
  | NTraitStatement _ name _ doc_comment =>
      elet d <- eopt (make KTrait (display_token name) (node_range node) (token_range name)) in
      elet ns <- eget w_ns in
      elet child <- add_child parent (set_class ns None [] (deprecated_from_doc doc_comment) false d) in
      eret (Some child)
  | NInterface _ name extends _ doc_comment =>
      elet d <- eopt (make KInterface (display_token name) (node_range node) (token_range name)) in
      elet inh <- eopt (match extends with
                        | None => Some None
                        | Some l => opt_map Some (srefs (flat_map get_type_ref l))
                        end) in
      elet ns <- eget w_ns in
      elet child <- add_child parent (set_class ns inh [] (deprecated_from_doc doc_comment) false d) in
      eret (Some child)
  | NClassConstantDefinitionStatement _ consts doc_comment _ _ =>
      edo eiter (fun constant =>
        match constant with
        | NClassConstant visibility name _ =>
            elet types <- eopt (srefs (doc_vars doc_comment)) in
            elet d <- eopt (make KConstant (display_token name) (node_range node) (node_range node)) in
            edo add_child parent
              (set_member types (deprecated_from_doc doc_comment) false (vis_of visibility) d) in
            eret tt
        | _ => eret tt
        end) consts in
      eret None
  | NDocCommentProperty name types _ =>
      elet l <- eopt (srefs (match types with Some l => l | None => [] end)) in
      elet d <- eopt (make KProperty (t_label name) (node_range node) (node_range node)) in
      edo add_child parent (set_member l None false VPrivate d) in
      eret None
  | NPropertyDefinitionStatement properties doc_comment visibility data_type _ _ _ =>
      elet types <- eopt (srefs (type_refs_of data_type ++ doc_vars doc_comment)) in
      elet range <- eopt (node_range node) in
      edo eiter (fun prop =>
        match prop with
        | NProperty name _ =>
            elet d <- eopt (make KProperty (display_token name) (Some range) (Some range)) in
            edo add_child parent
              (set_member types (deprecated_from_doc doc_comment) false (vis_of visibility) d) in
            eret tt
        | _ => eret tt
        end) properties in
      eret None
  | NMethodDefinitionStatement _ _ _ name visibility _ function is_static doc_comment _ =>
      match function with
      | NFunctionDefinitionStatement _ _ _ return_type _ _ =>
          elet types <- eopt (srefs (type_refs_of return_type ++ doc_returns doc_comment)) in
          let range := match doc_comment with
                       | Some doc => rng_node_node (node_range doc) (node_range node)
                       | None => node_range node
                       end in
          elet d <- eopt (make KMethod (display_token name) range (token_range name)) in
          elet child <- add_child parent
            (set_member types (deprecated_from_doc doc_comment) (is_some is_static)
               (vis_of visibility) d) in
          eret (Some child)
      | _ => eret None
      end
  | NArrowFunction _ _ token _ _ _ _ _ _ _ =>
      elet r <- eopt (token_range token) in
      elet d <- eopt (make KFunction (Some (arrow_name r)) (node_range node) (Some r)) in
      elet child <- add_child parent d in
      eret (Some child)
  | NNamedFunctionDefinitionStatement _ _ name function _ =>
      match function with
      | NFunctionDefinitionStatement _ _ _ return_type _ doc_comment =>
          elet types <- eopt (srefs (type_refs_of return_type ++ doc_returns doc_comment)) in
          let range := match doc_comment with
                       | Some doc => rng_node_node (node_range doc) (node_range node)
                       | None => node_range node
                       end in
          elet d <- eopt (make KFunction (display_token name) range (token_range name)) in
          elet child <- add_child parent (with_types types d) in
          eret (Some child)
      | _ => eret None
      end
  | NFunctionArgument argument_type name _ _ _ _ doc_comment _ =>
      elet types <- eopt (srefs (type_refs_of argument_type ++ type_refs_of doc_comment)) in
      elet d <- eopt (make KFunctionParameter (display_token name) (node_range node)
                        (token_range name)) in
      elet child <- add_child parent
        (set_member types (deprecated_from_doc doc_comment) false VNone d) in
      edo e_update parent (fun s => with_params (y_params s ++ [(child, node)]) s) in
      eret None
  | NDefineStatement name _ _ _ _ _ =>
      match name with
      | NLiteral token =>
          elet d <- eopt (make KConstant (t_label token) (node_range node) (node_range name)) in
          edo add_child parent d in
          eret None
      | _ => eret None
      end
  | _ => eret (Some parent)
  end.

(** workspace_symbol.rs:506-524 *)
Definition w_before (node : Node) : W unit :=
  match node with
  | NNamespaceStatement _ (NTypeRef tr) =>
      elet name <- eopt (tref_to_fqdn tr) in set_ns (Some name)
  | NNamespaceBlock _ (Some (NTypeRef tr)) _ =>
      elet name <- eopt (tref_to_fqdn tr) in set_ns (Some name)
  | NNamespaceBlock _ None _ => set_ns None
  | _ => eret tt
  end.

(** workspace_symbol.rs:526-530 *)
Definition w_after (node : Node) : W unit :=
  match node with
  | NNamespaceBlock _ _ _ => set_ns None
  | _ => eret tt
  end.

(** traverser.rs:7-30 with this visitor.  The fuel bounds the depth. *)
Fixpoint w_traverse (fuel : nat) (node : Node) (parent : N) : W unit :=
  match fuel with
  | O => efuel
  | S fuel =>
      edo w_before node in
      elet next <- w_visit node parent in
      edo (match next with
           | None => eret tt
           | Some p => eiter (fun c => w_traverse fuel c p) (children node)
           end) in
      w_after node
  end.
