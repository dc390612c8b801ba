(** Resolving names:
    /repo/src/environment/visitor/name_resolver.rs and the parts of
    /repo/src/environment/symbol.rs that need a resolver.

    This file contains no proofs. *)

From Coq Require Import Permutation.
From Verif Require Import Base Token Node Assoc Arena Symbol EnvMonad Workspace.

Local Open Scope string_scope.
Local Open Scope N_scope.
Local Open Scope list_scope.

(** The order in which a [HashMap<String, _>] is iterated over (symbol.rs:451,
    694; backend/mod.rs:552): any order, possibly another one for another map.
    The model assumes that maps with the same content are iterated over in the
    same order during one request; different requests may use different
    orders. *)
Class Hashing := {
  h_order : forall {V : Type}, list (str * V) -> list (str * V);
  h_perm : forall V (l : list (str * V)), Permutation (h_order l) l
}.
Definition plain_hashing : Hashing :=
  {| h_order := fun V l => l; h_perm := fun V l => Permutation_refl l |}.

(** environment/mod.rs:75-81 *)
Inductive Severity := SevError | SevWarning.
Record Notification := mkNote {
  nt_file : str; nt_message : str; nt_range : NodeRange; nt_severity : Severity
}.

Definition range_eqb (a b : NodeRange) : bool :=
  (start_col a =? start_col b) && (start_line a =? start_line b) &&
  (end_col a =? end_col b) && (end_line a =? end_line b).

(** name_resolver.rs:27 *)
Definition unique_range : Type := N * NodeRange.
Definition unique_eqb (a b : unique_range) : bool :=
  (fst a =? fst b) && range_eqb (snd a) (snd b).

(** name_resolver.rs:29-50.  The scopes are a list with the top first; the
    arena is handed along.  A [Reference] (12-25) is a pair. *)
Record rst := mkRst {
  r_arena : arena Symbol;
  r_global : list (str * N);
  r_scopes : list (list (str * N));
  r_class : option N;
  r_container : N;
  r_refs : list (N * list (NodeRange * N));
  r_diags : list Notification;
  r_cache : list (unique_range * option N)
}.
#[global] Instance rst_arena : HasArena rst :=
  {| the_arena := r_arena;
     with_arena := fun a s => mkRst a (r_global s) (r_scopes s) (r_class s) (r_container s)
                                (r_refs s) (r_diags s) (r_cache s) |}.
Definition R := E rst.

(** name_resolver.rs:53-63 *)
Definition resolver_new (a : arena Symbol) (global : list (str * N)) (container : N) : rst :=
  mkRst a global [[]] None container [] [] [].

Definition set_scopes (l : list (list (str * N))) : R unit :=
  emod (fun s => mkRst (r_arena s) (r_global s) l (r_class s) (r_container s) (r_refs s)
                   (r_diags s) (r_cache s)).
Definition set_class_ (c : option N) : R unit :=
  emod (fun s => mkRst (r_arena s) (r_global s) (r_scopes s) c (r_container s) (r_refs s)
                   (r_diags s) (r_cache s)).
Definition set_container (c : N) : R unit :=
  emod (fun s => mkRst (r_arena s) (r_global s) (r_scopes s) (r_class s) c (r_refs s)
                   (r_diags s) (r_cache s)).
Definition note (n : Notification) : R unit :=
  emod (fun s => mkRst (r_arena s) (r_global s) (r_scopes s) (r_class s) (r_container s)
                   (r_refs s) (r_diags s ++ [n]) (r_cache s)).
Definition cache_put (k : unique_range) (v : option N) : R unit :=
  emod (fun s => mkRst (r_arena s) (r_global s) (r_scopes s) (r_class s) (r_container s)
                   (r_refs s) (r_diags s) (put unique_eqb k v (r_cache s))).

(** name_resolver.rs:71-84, 142-148 *)
Definition reference (file : N) (range : NodeRange) (node : N) : R unit :=
  emod (fun s => mkRst (r_arena s) (r_global s) (r_scopes s) (r_class s) (r_container s)
                   (upsert N.eqb file [] (fun l => l ++ [(range, node)]) (r_refs s))
                   (r_diags s) (r_cache s)).

(** name_resolver.rs:86-88, 91-99, 102-104 *)
Definition push_scope : R unit :=
  elet l <- eget r_scopes in set_scopes ([] :: l).
Definition clone_scope : R unit :=
  elet l <- eget r_scopes in
  set_scopes (match l with t :: _ => t | [] => [] end :: l).
Definition pop_scope : R unit :=
  elet l <- eget r_scopes in set_scopes (tl l).

(** name_resolver.rs:107-110, 113-115 *)
Definition enter_class (node : N) : R unit :=
  edo set_class_ (Some node) in set_container node.
Definition leave_class : R unit := set_class_ None.

Definition is_this (t : Token) : bool :=
  match t_label t with
  | Some l => tt_eqb (t_type t) TVariable && str_eqb l (lit "this")
  | None => false
  end.

(** name_resolver.rs:119-137 *)
Definition get_local (t : Token) : R (option N) :=
  fun s =>
    Done (match t_label t with
          | None => None
          | Some label =>
              match (if is_this t then r_class s else None) with
              | Some c => Some c
              | None =>
                  match r_scopes s with
                  | top :: _ => find str_eqb label top
                  | [] => None
                  end
              end
          end) s.

(** [let child = arena.new_node(d); scope_container.append(child, arena);],
    name_resolver.rs:475-477, 524-529, 576-578, 658-669, 799-810 *)
Definition new_local (d : Symbol) : R N :=
  elet child <- e_new d in
  elet sc <- eget r_container in
  edo e_append sc child in
  eret child.

(** name_resolver.rs:140-142 *)
Definition reference_local (file : N) (t : Token) (node : N) : R unit :=
  elet r <- eopt (token_range t) in reference file r node.

(** name_resolver.rs:157-179 *)
Definition declare_local_if_new (file : N) (t : Token) (v : N) : R (option N) :=
  elet scopes <- eget r_scopes in
  match scopes, t_label t with
  | top :: rest, Some name =>
      match find str_eqb name top with
      | Some node => edo reference_local file t node in eret (Some node)
      | None =>
          edo set_scopes (put str_eqb name v top :: rest) in
          edo reference_local file t v in
          eret (Some v)
      end
  | _, _ => eret None
  end.

(** name_resolver.rs:185-202 *)
Definition declare_or_overwrite_local (file : N) (t : Token) (v : N) (add_ref : bool) : R unit :=
  elet scopes <- eget r_scopes in
  edo (match scopes, t_label t with
       | top :: rest, Some label => set_scopes (put str_eqb label v top :: rest)
       | _, _ => eret tt
       end) in
  if add_ref then reference_local file t v else eret tt.

Section WithRuntime.
Context `{Runtime} `{Hashing}.

(** name_resolver.rs:205-207 *)
Definition resolve_fully_qualified (name : str) : R (option N) :=
  elet g <- eget r_global in eret (find str_eqb (to_lowercase name) g).

(** symbol.rs:666-684, with the resolution of a type as an argument.  The
    symbol is [self], [ctx] the anchor. *)
Definition parent_nodes (resolve : TypeRef -> N -> bool -> R (option N)) (me : Symbol) (ctx : N)
  : R (list (str * N)) :=
  efold (fun m r =>
      elet o <- resolve (sr_type r) ctx false in
      match o with
      | None => eret m
      | Some node =>
          elet d <- e_data node in
          eret (put str_eqb (normalized_name d) node m)
      end) [] (match y_inherits me with Some l => l | None => [] end).

(** symbol.rs:651-664 *)
Definition unique_parent (resolve : TypeRef -> N -> bool -> R (option N)) (me : Symbol) (ctx : N)
  : R (option N) :=
  elet parents <- parent_nodes resolve me ctx in
  eret (match parents with [(_, node)] => Some node | _ => None end).

(** name_resolver.rs:269-274 *)
Definition available_imports (imports : list SymbolImport) : option (list (str * str)) :=
  fold_left (fun m i =>
      obind m (fun m => obind (import_name i) (fun name => obind (import_full_name i) (fun full =>
        Some (put str_eqb (to_lowercase name) full m)))))
    imports (Some []).

(** name_resolver.rs:279-292: the namespace of the anchor, else the first
    namespace of the file, else none *)
Definition current_namespace (anchor : Symbol) (file : N) : R str :=
  match y_ns anchor with
  | Some ns => eret ns
  | None =>
      elet l <- e_kids file in
      elet o <- efind (fun c =>
        elet s <- e_data c in
        eret (if kind_eqb (y_kind s) KNamespace then Some (sym_name s) else None)) l in
      eret (match o with Some ns => ns | None => [] end)
  end.

(** name_resolver.rs:295-317.  [None] is a panic. *)
Definition joined_name (tr : TypeRef) (name : str) (imports : list (str * str)) (ns : str) : option str :=
  if tref_is_fully_qualified tr then opt_map (skipn 1) (tref_to_fqdn tr)
  else match find str_eqb (to_lowercase name) imports with
       | Some import =>
           if (1 <? N.of_nat (List.length (kind tr))) then
             opt_map (app import) (display_tokens (tref_stem tr))
           else Some import
       | None =>
           match ns with
           | [] => tref_to_fqdn tr
           | _ => opt_map (fun f => ns ++ lit "\" ++ f) (tref_to_fqdn tr)
           end
       end.

Definition debug_bool (b : bool) : str := if b then lit "true" else lit "false".

(** name_resolver.rs:209-360.  The fuel bounds the nesting through [parent]
    (line 251). *)
Fixpoint resolve_type_ref (fuel : nat) (tr : TypeRef) (anchor : N) (register_ref : bool)
  : R (option N) :=
  match fuel with
  | O => efuel
  | S fuel =>
      if tref_is_builtin tr || tref_is_empty tr then eret None
      else
        elet file <- e_top anchor in
        elet file_symbol <- e_data file in
        elet root <- eopt (tref_root tr) in
        elet name <- eopt root in
        elet range <- eopt (tref_range tr) in
        let key := (file, range) in
        elet cache <- eget r_cache in
        match find unique_eqb key cache with
        | Some cached => eret cached
        | None =>
            elet class <- eget r_class in
            if str_eqb name (lit "self") || str_eqb name (lit "static") then
              match class with
              | Some c => edo cache_put key (Some c) in eret (Some c)
              | None =>
                  edo note (mkNote (sym_name file_symbol) (lit "Can only be used inside a class")
                              range SevError) in
                  edo cache_put key None in
                  eret None
              end
            else if str_eqb name (lit "parent") then
              match class with
              | Some c =>
                  elet me <- e_data c in
                  elet p <- unique_parent (resolve_type_ref fuel) me c in
                  edo cache_put key p in
                  eret p
              | None =>
                  edo note (mkNote (sym_name file_symbol)
                              (lit "Parent can only be used inside a class") range SevError) in
                  edo cache_put key None in
                  eret None
              end
            else
              elet imports <- eopt (available_imports
                (match y_imports file_symbol with Some l => l | None => [] end)) in
              elet anchor_symbol <- e_data anchor in
              elet ns <- current_namespace anchor_symbol file in
              elet joined <- eopt (joined_name tr name imports ns) in
              elet global <- eget r_global in
              elet found <-
                (match find str_eqb (to_lowercase joined) global with
                 | Some node => eret (Some (node, joined))
                 | None =>
                     match find str_eqb (to_lowercase name) global with
                     | Some node => eret (Some (node, name))
                     | None =>
                         edo note (mkNote (sym_name file_symbol)
                           (lit "Unresolvable type (" ++ debug_bool (tref_is_fully_qualified tr)
                            ++ lit ") '" ++ joined ++ lit "'") range SevError) in
                         eret None
                     end
                 end) in
              match found with
              | None => edo cache_put key None in eret None
              | Some (node, comp) =>
                  edo (if register_ref then reference file range node else eret tt) in
                  elet d <- e_data node in
                  edo (if fqdn_matches d comp then eret tt
                       else note (mkNote (sym_name file_symbol)
                              (lit "Case mismatch between call and definition " ++ comp ++ lit " vs "
                               ++ fqdn d) range SevWarning)) in
                  edo cache_put key (Some node) in
                  eret (Some node)
              end
        end
  end.

(** * Members *)

(** symbol.rs:135-166 *)
Record SymbolAlias := mkAlias {
  al_symbol : N; al_alias : str; al_vis : Visibility; al_origin : N
}.
Definition aliased (a : SymbolAlias) (alias : str) : SymbolAlias :=
  mkAlias (al_symbol a) alias (al_vis a) (al_origin a).
Definition pass_along (a : SymbolAlias) (origin : N) : SymbolAlias :=
  mkAlias (al_symbol a) (al_alias a) (al_vis a) origin.
Definition set_vis (v : Visibility) (a : SymbolAlias) : SymbolAlias :=
  mkAlias (al_symbol a) (al_alias a) v (al_origin a).

Definition members := list (str * SymbolAlias).

(** [filter_map(|tr| resolver.resolve_type_ref(tr, arena, &ctx, false))] *)
Fixpoint resolve_all (resolve : TypeRef -> N -> bool -> R (option N)) (ctx : N) (l : list TypeRef)
  : R (list N) :=
  match l with
  | [] => eret []
  | tr :: r =>
      elet o <- resolve tr ctx false in
      elet rest <- resolve_all resolve ctx r in
      eret (opt_list o ++ rest)
  end.

(** symbol.rs:612-620: the children of the symbol itself *)
Definition own_symbols (ctx : N) : R members :=
  elet l <- e_kids ctx in
  efold (fun m c =>
    elet d <- e_data c in
    eret (put str_eqb (normalized_name d) (mkAlias c (sym_name d) (y_vis d) ctx) m)) [] l.

(** symbol.rs:477-503: the members of all used traits, by name *)
Definition trait_symbols (resolve : TypeRef -> N -> bool -> R (option N)) (all : N -> R members)
    (me : Symbol) (ctx : N) : R (list (str * list SymbolAlias)) :=
  efold (fun m i =>
      elet o <- resolve (i_path i) ctx false in
      match o with
      | None => eret m
      | Some t =>
          elet d <- e_data t in
          if negb (kind_eqb (y_kind d) KTrait) then eret m
          else
            elet ms <- all t in
            eret (fold_left (fun m p => upsert str_eqb (fst p) [] (fun l => l ++ [snd p]) m) ms m)
      end) [] (match y_imports me with Some l => l | None => [] end).

(** symbol.rs:509-541: [A::member insteadof B, C] *)
Definition apply_insteadof (resolve : TypeRef -> N -> bool -> R (option N)) (ctx : N)
    (m : list (str * list SymbolAlias)) (alt : Alteration) : R (list (str * list SymbolAlias)) :=
  match alt with
  | AltAs _ _ _ _ => eret m
  | AltInsteadOf class member instead_ofs =>
      elet losers <- resolve_all resolve ctx instead_ofs in
      elet winner <- resolve class ctx false in
      eret (match winner with
            | None => m
            | Some w =>
                let name := to_lowercase member in
                match find str_eqb name m with
                | None => m
                | Some l =>
                    put str_eqb name
                      (filter (fun al => (al_origin al =? w)
                                 || negb (existsb (N.eqb (al_origin al)) losers)) l) m
                end
            end)
  end.

(** symbol.rs:544-547.  [None] is the panic of [val.first().unwrap()]. *)
Fixpoint drain (m : list (str * list SymbolAlias)) : option members :=
  match m with
  | [] => Some []
  | (k, v) :: r => obind (first_opt v) (fun a => opt_map (cons (k, a)) (drain r))
  end.

(** symbol.rs:549-605: [class::member as visibility alias] *)
Definition apply_as (resolve : TypeRef -> N -> bool -> R (option N)) (ctx : N)
    (orig : list (str * list SymbolAlias)) (m : members) (alt : Alteration) : R members :=
  match alt with
  | AltInsteadOf _ _ _ => eret m
  | AltAs visibility class member alias =>
      let name := to_lowercase member in
      let vis := vis_of visibility in
      match alias with
      | Some alias =>
          match t_label alias with
          | None => eret m
          | Some label =>
              elet new <-
                (match class with
                 | Some class =>
                     elet o <- resolve class ctx false in
                     eret (match o with
                           | None => None
                           | Some c =>
                               match find str_eqb name orig with
                               | None => None
                               | Some l =>
                                   opt_map (fun al => aliased al label)
                                     (List.find (fun al => al_origin al =? c) l)
                               end
                           end)
                 | None => eret (opt_map (fun al => aliased al label) (find str_eqb name m))
                 end) in
              eret (match new with
                    | None => m
                    | Some al =>
                        put str_eqb (to_lowercase label)
                          (if vis_eqb vis VNone then al else set_vis vis al) m
                    end)
          end
      | None =>
          eret (if vis_eqb vis VNone then m
                else match find str_eqb name m with
                     | Some al => put str_eqb name (set_vis vis al) m
                     | None => m
                     end)
      end
  end.

(** symbol.rs:470-609 *)
Definition get_imports (resolve : TypeRef -> N -> bool -> R (option N)) (all : N -> R members)
    (me : Symbol) (ctx : N) : R members :=
  elet all_children <- trait_symbols resolve all me ctx in
  let alts := match y_alterations me with Some l => l | None => [] end in
  elet kept <- efold (apply_insteadof resolve ctx) all_children alts in
  elet children <- eopt (drain kept) in
  efold (apply_as resolve ctx all_children) children alts.

(** symbol.rs:443-467 *)
Definition inherited_symbols (resolve : TypeRef -> N -> bool -> R (option N)) (all : N -> R members)
    (me : Symbol) (ctx : N) : R members :=
  elet parents <- parent_nodes resolve me ctx in
  elet m <- efold (fun cur p => elet tot <- all (snd p) in eret (put_all str_eqb cur tot))
              [] (h_order parents) in
  eret (map (fun p => (fst p, pass_along (snd p) ctx)) m).

(** symbol.rs:612-649.  [self] is always the symbol of the node [ctx]. *)
Fixpoint get_all_symbols (fuel : nat) (ctx : N) : R members :=
  match fuel with
  | O => efuel
  | S fuel =>
      let resolve := resolve_type_ref fuel in
      elet me <- e_data ctx in
      elet own <- own_symbols ctx in
      elet imported <- get_imports resolve (get_all_symbols fuel) me ctx in
      let m := put_all str_eqb imported own in
      elet types <- resolve_all resolve ctx (map sr_type (y_types me)) in
      elet m <- efold (fun m dt =>
        if dt =? ctx then eret m
        else elet l <- get_all_symbols fuel dt in eret (put_all str_eqb l m)) m types in
      elet inh <- inherited_symbols resolve (get_all_symbols fuel) me ctx in
      eret (put_all str_eqb inh m)
  end.

(** symbol.rs:686-707.  The anchor [ctx] stays the one of the first call. *)
Fixpoint is_child_of (fuel : nat) (me : Symbol) (ctx search_for : N) : R bool :=
  match fuel with
  | O => efuel
  | S fuel =>
      elet parents <- parent_nodes (resolve_type_ref fuel) me ctx in
      elet o <- efind (fun p =>
        if snd p =? search_for then eret (Some tt)
        else
          elet d <- e_data (snd p) in
          elet b <- is_child_of fuel d ctx search_for in
          eret (if b then Some tt else None)) (h_order parents) in
      eret (is_some o)
  end.

(** * Member chains: name_resolver.rs:783-1157 *)

(** How the loop of lines 786-1013 ends: with an answer of the whole
    function, or with a root, a visibility and the members still to visit *)
Inductive chain_end :=
| Answer (o : option N)
| Root (o : option N) (v : Visibility) (chain : list Node).

(** lines 865-890: the first data type with a node, or that resolves *)
Fixpoint variable_type (fuel : nat) (node : N) (l : list SRef) : R (option (N * Visibility)) :=
  match l with
  | [] => eret None
  | r :: rest =>
      match sr_node r with
      | Some n =>
          elet class <- eget r_class in
          eret (Some (n, match class with
                         | Some c => if c =? n then VPrivate else VPublic
                         | None => VPublic
                         end))
      | None =>
          elet o <- resolve_type_ref fuel (sr_type r) node true in
          match o with
          | Some n => eret (Some (n, VPublic))
          | None => variable_type fuel node rest
          end
      end
  end.

(** lines 812-822 and 673-688: the symbol of an assigned variable *)
Definition assigned_symbol (t : Token) (data_type : option N) : option Symbol :=
  obind (symbol_of_token t) (fun s =>
    match data_type with
    | None => Some s
    | Some d => obind (sref_node (tref_one [t]) d) (fun r => Some (with_types [r] s))
    end).

(** lines 786-1013.  [again] is the recursive call of the whole function,
    [node] its argument, [cur] the current object, [chain] the reversed
    chain with its last element first. *)
Fixpoint chain_root (fuel : nat) (again : Node -> R (option N)) (file : N) (node cur : Node)
    (chain : list Node) : R chain_end :=
  match fuel with
  | O => efuel
  | S fuel =>
      match cur with
      | NBinary left_ token right_ =>
          if tt_eqb (t_type token) TAssignment then
            match left_ with
            | NVariable token =>
                elet data_type <- again right_ in
                elet d <- eopt (assigned_symbol token data_type) in
                elet child <- new_local d in
                edo declare_local_if_new file token child in
                chain_root fuel again file node left_ chain
            | _ => eret (Answer None)
            end
          else
            edo again left_ in
            elet o <- again right_ in
            eret (Answer o)
      | NTernary check _ true_arm _ false_arm =>
          edo again check in
          edo (match true_arm with Some t => again t | None => eret None end) in
          edo again false_arm in
          eret (Answer None)
      | NUnary expr _ | NClone _ expr | NNew _ expr | NGrouping expr =>
          chain_root fuel again file node expr chain
      | NCall callee _ parameters _ =>
          edo emap again parameters in
          chain_root fuel again file node callee chain
      | NArray _ elements _ =>
          edo emap again elements in
          eret (Answer None)
      | NArrayElement _ _ value =>
          edo again value in
          eret (Answer None)
      | NStaticMember object _ _ member _ | NMember object _ _ member _ =>
          chain_root fuel again file node object (member :: chain)
      | NVariable token =>
          elet o <- get_local token in
          match o with
          | None => eret (Answer None)
          | Some n =>
              edo reference_local file token n in
              match t_label token with
              | None => eret (Root (Some n) VPublic chain)
              | Some name =>
                  if str_eqb name (lit "this") then eret (Root (Some n) VPrivate chain)
                  else
                    elet d <- e_data n in
                    elet ty <- variable_type fuel n (y_types d) in
                    eret (match ty with
                          | Some (m, v) => Root (Some m) v chain
                          | None => Root (Some n) VPublic chain
                          end)
              end
          end
      | NLiteral token =>
          match t_type token with
          | TTypeSelf | TStatic =>
              elet class <- eget r_class in
              eret (Root class VPrivate chain)
          | TParent =>
              elet class <- eget r_class in
              match class with
              | Some c =>
                  elet d <- e_data c in
                  elet p <- unique_parent (resolve_type_ref fuel) d c in
                  eret (Root p VProtected chain)
              | None => eret (Answer None)
              end
          | TConstantEncapsedString | TEncapsedAndWhitespaceString => eret (Answer None)
          | _ =>
              elet sc <- eget r_container in
              elet o <- resolve_type_ref fuel (tref_one [token]) sc true in
              eret (Root o VPublic chain)
          end
      | NTypeRef tokens =>
          elet sc <- eget r_container in
          elet o <- resolve_type_ref fuel tokens sc true in
          eret (match o with
                | Some n => Root (Some n) VPublic chain
                | None => Answer None
                end)
      | NField array _ index _ =>
          edo (match index with Some i => again i | None => eret None end) in
          elet item <-
            (match array with
             | NVariable collection =>
                 elet o <- get_local collection in
                 match o with
                 | None => eret None
                 | Some var =>
                     edo reference_local file collection var in
                     elet d <- e_data var in
                     eret (match List.find (fun r => multiple (sr_type r) && is_some (sr_node r))
                                   (y_types d) with
                           | Some r => sr_node r
                           | None => None
                           end)
                 end
             | _ => eret None
             end) in
          match item with
          | Some n => eret (Root (Some n) VPublic chain)
          | None =>
              match array with
              | NMember object _ _ member _ => chain_root fuel again file node object (member :: chain)
              | NField array _ index _ =>
                  edo (match index with Some i => again i | None => eret None end) in
                  chain_root fuel again file node array chain
              | _ => eret (Answer None)
              end
          end
      | _ =>
          edo emap again (children node) in
          eret (Answer None)
      end
  end.

(** lines 1035-1049: the name of a member; [None] is a panic, [Some None] the
    [return None] for [::class] *)
Definition link_name (link : Node) : option (option str) :=
  match link with
  | NLiteral token =>
      obind (display_token token) (fun s =>
        if str_eqb s (lit "class") then Some None else opt_map Some (node_name link))
  | NVariable token => opt_map Some (t_label token)
  | _ => opt_map Some (node_name link)
  end.

(** How the loop over the data types of a member (lines 1088-1133) ends *)
Inductive type_step := NextLink (root : N) | GiveUp.

(** lines 1088-1133 *)
Fixpoint member_type (fuel : nat) (file_name : str) (link : Node) (root : N) (l : list SRef)
  : R type_step :=
  match l with
  | [] => eret GiveUp
  | dt :: rest =>
      elet first <- eopt (tref_root_token_type (sr_type dt)) in
      if tt_eqb first TTypeSelf || tt_eqb first TStatic then eret (NextLink root)
      else
        elet rt <- eopt (tref_root (sr_type dt)) in
        elet rt <- eopt rt in
        if str_eqb rt (lit "$this") then eret (NextLink root)
        else if tt_eqb first TParent then
          elet d <- e_data root in
          elet p <- unique_parent (resolve_type_ref fuel) d root in
          match p with
          | Some p => eret (NextLink p)
          | None =>
              elet range <- eopt (node_range link) in
              edo note (mkNote file_name (lit
                "Method returns an instance of its parent, but its class has no parent or the parent could not be resolved.")
                range SevWarning) in
              eret GiveUp
          end
        else
          elet o <- resolve_type_ref fuel (sr_type dt) root true in
          match o with
          | Some n => eret (NextLink n)
          | None => member_type fuel file_name link root rest
          end
  end.

(** lines 1029-1152 *)
Fixpoint follow_chain (fuel : nat) (file : N) (file_name : str) (minimal : Visibility) (root : N)
    (chain : list Node) : R (option N) :=
  match chain with
  | [] => eret (Some root)
  | link :: rest =>
      elet ln <- eopt (link_name link) in
      match ln with
      | None => eret None
      | Some ln =>
          elet ms <- get_all_symbols fuel root in
          match find str_eqb (to_lowercase ln) ms with
          | None =>
              elet range <- eopt (node_range link) in
              elet nm <- eopt (node_name link) in
              edo note (mkNote file_name (lit "Unresolvable symbol " ++ nm) range SevError) in
              eret None
          | Some child =>
              elet child_symbol <- e_data (al_symbol child) in
              if vis_ge (al_vis child) minimal then
                edo (if str_eqb (al_alias child) ln then eret tt
                     else
                       elet range <- eopt (node_range link) in
                       note (mkNote file_name (lit "Case mismatch between call and definition")
                               range SevWarning)) in
                edo (match link with
                     | NVariable token | NLiteral token =>
                         reference_local file token (al_symbol child)
                     | _ => eret tt
                     end) in
                match y_kind child_symbol with
                | KProperty | KMethod =>
                    elet st <- member_type fuel file_name link root (y_types child_symbol) in
                    match st with
                    | NextLink n => follow_chain fuel file file_name minimal n rest
                    | GiveUp => eret None
                    end
                | _ => follow_chain fuel file file_name minimal (al_symbol child) rest
                end
              else
                elet range <- eopt (node_range link) in
                edo note (mkNote file_name (lit "Method is not accessible from this scope")
                            range SevError) in
                eret None
          end
      end
  end.

(** lines 783-1157 *)
Fixpoint resolve_member_type (fuel : nat) (file : N) (node : Node) : R (option N) :=
  match fuel with
  | O => efuel
  | S fuel =>
      elet e <- chain_root fuel (resolve_member_type fuel file) file node node [] in
      match e with
      | Answer o => eret o
      | Root root minimal chain =>
          elet sc <- eget r_container in
          elet f <- e_top sc in
          elet fd <- e_data f in
          match root with
          | None => eret None
          | Some root => follow_chain fuel file (sym_name fd) minimal root chain
          end
      end
  end.

(** * The visitor *)

(** name_resolver.rs:431-459 and 633-636: the types of [@return] and of a
    return type are resolved for their references only *)
Definition resolve_each (fuel : nat) (l : list TypeRef) (parent : N) : R unit :=
  eiter (fun tr => edo resolve_type_ref fuel tr parent true in eret tt) l.

(** lines 481-498 and 600-615: a type reference with the node it resolves to *)
Definition resolved_ref (fuel : nat) (tr : TypeRef) (parent : N) : R SRef :=
  elet o <- resolve_type_ref fuel tr parent true in
  eopt (match o with Some n => sref_node tr n | None => sref_type tr end).

(** lines 549-557 *)
Definition item_type (r : SRef) : option SRef :=
  match sr_node r with
  | Some n => if multiple (sr_type r) then sref_node (tref_to_collection_item (sr_type r)) n else Some r
  | None => Some r
  end.

(** name_resolver.rs:393-706 *)
Definition n_visit (fuel : nat) (file : N) (node : Node) (parent : N) : R (option N) :=
  match node with
  | NUseDeclaration _ declaration _ _ =>
      elet name <- eopt (node_name declaration) in
      elet o <- resolve_fully_qualified name in
      match o with
      | None => eret None
      | Some resolved =>
          elet d <- e_data resolved in
          edo (if fqdn_matches d name then eret tt
               else
                 elet fd <- e_data file in
                 elet range <- eopt (node_range declaration) in
                 note (mkNote (sym_name fd) (lit "Case mismatch between call and definition")
                         range SevWarning)) in
          elet range <- eopt (node_range node) in
          edo reference file range resolved in
          eret None
      end
  | NTypeRef type_ref =>
      edo resolve_type_ref fuel type_ref parent true in
      eret None
  | NClassStatement _ name _ _ _ _ _ _ _ | NTraitStatement _ name _ _ | NInterface _ name _ _ _ =>
      elet o <- resolve_type_ref fuel (tref_one [name]) parent true in
      match o with
      | Some c => edo enter_class c in eret (Some c)
      | None => eret None
      end
  | NMethodDefinitionStatement _ _ _ _ _ _ _ _ doc_comment _
  | NFunctionDefinitionStatement _ _ _ _ _ doc_comment =>
      edo (match doc_comment with
           | Some (NDocComment _ return_type _ _ _ _ _) =>
               resolve_each fuel (flat_map get_type_ref return_type) parent
           | _ => eret tt
           end) in
      elet sc <- eget r_container in
      eret (Some sc)
  | NArrowFunction _ _ _ _ _ _ _ _ _ _ | NNamedFunctionDefinitionStatement _ _ _ _ _ =>
      elet sc <- eget r_container in
      eret (Some sc)
  | NVariable token =>
      elet o <- get_local token in
      match o with
      | Some n => edo reference_local file token n in eret None
      | None =>
          elet d <- eopt (symbol_of_token token) in
          elet child <- new_local d in
          edo declare_local_if_new file token child in
          eret None
      end
  | NDocCommentVar name types _ =>
      elet data_types <- emap (fun tr => resolved_ref fuel tr parent)
                          (match types with Some l => l | None => [] end) in
      elet o <- get_local name in
      elet child <-
        (match o with
         | Some existing =>
             edo e_update existing (fun s => with_types (y_types s ++ data_types) s) in
             eret existing
         | None =>
             elet d <- eopt (symbol_of_token name) in
             e_new (with_types data_types d)
         end) in
      elet sc <- eget r_container in
      edo e_append sc child in
      edo declare_local_if_new file name child in
      eret None
  | NCatchBlock _ _ types var _ _ =>
      elet l <- eopt (srefs (flat_map get_type_ref types)) in
      elet d <- eopt (symbol_of_token var) in
      elet child <- new_local (with_types l d) in
      edo declare_or_overwrite_local file var child false in
      eret (Some parent)
  | NForEachStatement _ _ collection _ kv _ _ =>
      elet o <-
        (match collection with
         | NVariable t => get_local t
         | NCall callee _ _ _ => resolve_member_type fuel file callee
         | _ => eret None
         end) in
      match o with
      | None => eret (Some parent)
      | Some coll =>
          elet cd <- e_data coll in
          match kv with
          | NArrayElement _ _ (NVariable item) =>
              elet l <- eopt (seq_opt (map item_type (y_types cd))) in
              elet d <- eopt (symbol_of_token item) in
              elet child <- new_local (with_types l d) in
              edo declare_or_overwrite_local file item child false in
              eret (Some parent)
          | _ => eret (Some parent)
          end
      end
  | NFunctionArgument _ name _ _ _ _ doc_comment _ =>
      elet sc <- eget r_container in
      elet o <- e_find_kid sc (fun d =>
        match t_label name with Some l => str_eqb (sym_name d) l | None => false end) in
      match o with
      | None => eret None
      | Some arg =>
          elet d <- e_data arg in
          elet l <- emap (fun r => resolved_ref fuel (sr_type r) parent) (y_types d) in
          edo e_update arg (with_types l) in
          edo declare_or_overwrite_local file name arg true in
          edo (match doc_comment with
               | Some (NDocCommentParam name _ _) => reference_local file name arg
               | _ => eret tt
               end) in
          eret None
      end
  | NReturnType _ _ =>
      edo resolve_each fuel (get_type_refs node) parent in
      eret None
  | NBinary left_ token right_ =>
      if tt_eqb (t_type token) TAssignment then
        elet data_type <- resolve_member_type fuel file right_ in
        match left_ with
        | NVariable variable =>
            elet d <- eopt (assigned_symbol variable data_type) in
            elet v <- new_local d in
            elet repr <- declare_local_if_new file variable v in
            elet repr <- eopt repr in
            edo (match data_type with
                 | Some dt =>
                     if repr =? v then eret tt
                     else
                       elet r <- eopt (sref_node (tref_one [variable]) dt) in
                       e_update repr (fun s => with_types (y_types s ++ [r]) s)
                 | None => eret tt
                 end) in
            eret None
        | _ =>
            edo resolve_member_type fuel file left_ in
            eret None
        end
      else eret (Some parent)
  | NStaticMember _ _ _ _ _ | NMember _ _ _ _ _ =>
      edo resolve_member_type fuel file node in
      eret None
  | NNamespaceStatement _ _ => eret None
  | _ => eret (Some parent)
  end.

(** name_resolver.rs:708-756 *)
Definition n_before (file : N) (node : Node) : R unit :=
  match node with
  | NNamedFunctionDefinitionStatement _ _ name _ _
  | NMethodDefinitionStatement _ _ _ name _ _ _ _ _ _ =>
      edo push_scope in
      elet method_name <- eopt (display_token name) in
      elet sc <- eget r_container in
      elet o <- e_find_kid sc (fun d => str_eqb (sym_name d) method_name) in
      match o with
      | Some method =>
          edo set_container method in
          elet range <- eopt (token_range name) in
          reference file range method
      | None => eret tt
      end
  | NProperty name _ | NConst name _ _ =>
      match t_label name with
      | None => eret tt
      | Some label =>
          elet sc <- eget r_container in
          elet o <- e_find_kid sc (fun d => str_eqb (sym_name d) label) in
          match o with
          | Some c => elet range <- eopt (token_range name) in reference file range c
          | None => eret tt
          end
      end
  | NArrowFunction _ _ token _ _ _ _ _ _ _ =>
      edo clone_scope in
      elet range <- eopt (token_range token) in
      elet sc <- eget r_container in
      elet o <- e_find_kid sc (fun d => str_eqb (sym_name d) (arrow_name range)) in
      match o with
      | Some method => set_container method
      | None => eret tt
      end
  | _ => eret tt
  end.

(** name_resolver.rs:758-774 *)
Definition n_after (node : Node) (parent : N) : R unit :=
  match node with
  | NClassStatement _ _ _ _ _ _ _ _ _ | NTraitStatement _ _ _ _ | NInterface _ _ _ _ _ =>
      edo leave_class in set_container parent
  | NMethodDefinitionStatement _ _ _ _ _ _ _ _ _ _ | NNamedFunctionDefinitionStatement _ _ _ _ _
  | NArrowFunction _ _ _ _ _ _ _ _ _ _ =>
      edo pop_scope in set_container parent
  | _ => eret tt
  end.

(** traverser.rs:7-30 with this visitor *)
Fixpoint n_traverse (fuel : nat) (file : N) (node : Node) (parent : N) : R unit :=
  match fuel with
  | O => efuel
  | S fuel =>
      edo n_before file node in
      elet next <- n_visit fuel file node parent in
      edo (match next with
           | None => eret tt
           | Some p => eiter (fun c => n_traverse fuel file c p) (children node)
           end) in
      n_after node parent
  end.

End WithRuntime.
