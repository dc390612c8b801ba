(** The language server: /repo/src/backend/*.rs.

    A document is identified by its path (the handlers panic for URIs that
    are no file paths; such URIs are not modelled).  The file system is a
    function [disk] from paths to contents.  Requests are executed one after
    the other: every handler holds the lock of the state, and the tasks
    spawned by a search for references (mod.rs:232-276) each hold it while
    they analyse a file; their order is arbitrary.  Answers are modelled
    without the fields that are constant.

    This file contains no proofs. *)

From Verif Require Import Base Token Scanner Node DocBlock Parser Assoc Arena Symbol EnvMonad
  Workspace Resolver.

Local Open Scope string_scope.
Local Open Scope N_scope.
Local Open Scope list_scope.

(** mod.rs:111-146: the error stands for the text of its message.  A
    diagnostic of the resolver carries its message (mod.rs:497-505). *)
Inductive Diagnostic :=
| DParse (e : perr) (r : Range)
| DNote (message : str) (s : Severity) (r : Range).

(** mod.rs:111-146; [None] is a panic of [range] *)
Definition diagnostic_of (e : perr) : option Diagnostic :=
  match e with
  | EMissingIdentifier t | EWrongToken _ t | EUnexpectedToken t | ERValueInWriteContext t =>
      opt_map (fun r => DParse e (get_range r)) (token_range t)
  | EIllegalOffset n => opt_map (fun r => DParse e (get_range r)) (node_range n)
  | EEof => Some (DParse e (get_range (mkRange 0 0 0 0)))
  end.

(** mod.rs:66-68 *)
Definition FileReferenceMap : Type := list (N * list NodeRange).

(** mod.rs:71-94 *)
Record bst := mkBst {
  b_arena : arena Symbol;
  b_files : list (str * N);
  b_global : list (str * N);
  b_diags : list (str * list Diagnostic);
  b_refs : list (str * FileReferenceMap);
  b_open : list (str * (list Node * Range));
  b_latest : list (str * str)
}.
#[global] Instance bst_arena : HasArena bst :=
  {| the_arena := b_arena;
     with_arena := fun a s => mkBst a (b_files s) (b_global s) (b_diags s) (b_refs s) (b_open s)
                                (b_latest s) |}.
Definition B := E bst.

(** [BackendState::default()] *)
Definition backend_new : bst := mkBst empty_arena [] [] [] [] [] [].

Definition set_files (x : list (str * N)) : B unit :=
  emod (fun s => mkBst (b_arena s) x (b_global s) (b_diags s) (b_refs s) (b_open s) (b_latest s)).
Definition set_global (x : list (str * N)) : B unit :=
  emod (fun s => mkBst (b_arena s) (b_files s) x (b_diags s) (b_refs s) (b_open s) (b_latest s)).
Definition set_diags (x : list (str * list Diagnostic)) : B unit :=
  emod (fun s => mkBst (b_arena s) (b_files s) (b_global s) x (b_refs s) (b_open s) (b_latest s)).
Definition set_refs (x : list (str * FileReferenceMap)) : B unit :=
  emod (fun s => mkBst (b_arena s) (b_files s) (b_global s) (b_diags s) x (b_open s) (b_latest s)).
Definition set_open (x : list (str * (list Node * Range))) : B unit :=
  emod (fun s => mkBst (b_arena s) (b_files s) (b_global s) (b_diags s) (b_refs s) x (b_latest s)).
Definition set_latest (x : list (str * str)) : B unit :=
  emod (fun s => mkBst (b_arena s) (b_files s) (b_global s) (b_diags s) (b_refs s) (b_open s) x).
Definition set_arena (a : arena Symbol) : B unit := emod (with_arena a).

(** An operation on the arena that may panic *)
Definition on_arena (f : arena Symbol -> option (arena Symbol)) : B unit :=
  fun s => match f (b_arena s) with
           | Some a => Done tt (with_arena a s)
           | None => Panic
           end.

Section WithRuntime.
Context `{Runtime} `{Hashing}.

(** * Analysis of files *)

(** mod.rs:388-404.  [inl] is [Ok], [inr] is [Err].  The fuel is the one of
    the parser (Parser.v). *)
Definition source_to_ast (fuel : nat) (source : str)
  : B ((list Node * Range * list perr) + unit) :=
  match scan_state source with
  | SErr _ => eret (inr tt)
  | SPanic => epanic
  | SFuel => efuel
  | SOk s =>
      let range := get_range (document_range s) in
      match ast fuel (rev (s_toks s)) with
      | POk (a, errors) _ => eret (inl (a, range, errors))
      | PFail _ _ => eret (inr tt)
      | PPanic => epanic
      | PFuel => efuel
      end
  end.

(** Runs the workspace visitor (mod.rs:421-424). *)
Definition visit_symbols (fuel : nat) (nodes : list Node) (file : N) : B unit :=
  fun s =>
    match eiter (fun node => w_traverse fuel node file) nodes (mkWst (b_arena s) None) with
    | Done _ w => Done tt (with_arena (w_arena w) s)
    | Panic => Panic
    | Fuel => Fuel
    end.

(** mod.rs:430-434 *)
Definition deregister (c : N) : B unit :=
  elet d <- e_data c in
  elet g <- eget b_global in
  set_global (del str_eqb (index_key d) g).

(** mod.rs:437-441 *)
Definition forget_references (l : list N) : B unit :=
  elet refs <- eget b_refs in
  set_refs (map (fun p => (fst p, fold_left (fun m i => del N.eqb i m) l (snd p))) refs).

(** mod.rs:446-454 *)
Definition register (c : N) : B unit :=
  elet d <- e_data c in
  if register_global (y_kind d) then
    elet g <- eget b_global in
    set_global (put str_eqb (index_key d) c g)
  else eret tt.

(** mod.rs:406-456 *)
Definition collect_symbols (fuel : nat) (path : str) (nodes : list Node) (range : Range) : B unit :=
  elet file <- e_new (plain_symbol KFile path range range) in
  edo visit_symbols fuel nodes file in
  elet files <- eget b_files in
  edo set_files (put str_eqb path file files) in
  edo (match find str_eqb path files with
       | None => eret tt
       | Some old =>
           elet cs <- e_kids old in
           edo eiter deregister cs in
           elet a <- eget b_arena in
           elet ds <- eopt (descendants a old) in
           edo forget_references ds in
           on_arena (remove_subtree old)
       end) in
  elet cs <- e_kids file in
  eiter register cs.

(** mod.rs:477-485 *)
Definition purge_variables (file : N) : B unit :=
  elet a <- eget b_arena in
  elet ds <- eopt (descendants a file) in
  elet vars <- efold (fun l i =>
      elet d <- e_data i in
      eret (if kind_eqb (y_kind d) KVariable then l ++ [i] else l)) [] ds in
  eiter (fun v => on_arena (remove v)) vars.

(** mod.rs:487-493: runs the resolving visitor, with the final resolver *)
Definition resolve_names (fuel : nat) (nodes : list Node) (file : N) : B rst :=
  fun s =>
    match eiter (fun node => n_traverse fuel file node file) nodes
            (resolver_new (b_arena s) (b_global s) file) with
    | Done _ r => Done r (with_arena (r_arena r) s)
    | Panic => Panic
    | Fuel => Fuel
    end.

(** mod.rs:495-506 *)
Definition add_note (n : Notification) : B unit :=
  elet d <- eget b_diags in
  set_diags (upsert str_eqb (nt_file n) []
               (fun l => l ++ [DNote (nt_message n) (nt_severity n) (get_range (nt_range n))]) d).

(** mod.rs:508-520 *)
Definition references_by_node (l : list (NodeRange * N)) : FileReferenceMap :=
  fold_left (fun m p => upsert N.eqb (snd p) [] (fun rs => rs ++ [fst p]) m) l [].

(** mod.rs:462-520.  [None]: the file is not indexed. *)
Definition analyse (fuel : nat) (path : str) (nodes : list Node) : B (option FileReferenceMap) :=
  elet files <- eget b_files in
  match find str_eqb path files with
  | None => eret None
  | Some file =>
      edo purge_variables file in
      elet r <- resolve_names fuel nodes file in
      edo eiter add_note (r_diags r) in
      eret (Some (references_by_node
        (match find N.eqb file (r_refs r) with Some l => l | None => [] end)))
  end.

(** mod.rs:462-529 with [container = None] *)
Definition collect_references (fuel : nat) (path : str) (nodes : list Node) : B unit :=
  elet o <- analyse fuel path nodes in
  match o with
  | None => eret tt
  | Some m => elet refs <- eget b_refs in set_refs (put str_eqb path m refs)
  end.

(** [errors.iter().map(Diagnostic::from)] *)
Definition diagnostics_of (errors : list perr) : option (list Diagnostic) :=
  seq_opt (map diagnostic_of errors).

(** mod.rs:531-559 *)
Definition refresh_file (fuel : nat) (path : str) (src : str) : B unit :=
  elet parsed <- source_to_ast fuel src in
  edo (match parsed with
       | inr _ => eret tt
       | inl (nodes, range, errors) =>
           edo collect_symbols fuel path nodes range in
           elet l <- eopt (diagnostics_of errors) in
           elet d <- eget b_diags in
           edo set_diags (put str_eqb path l d) in
           elet o <- eget b_open in
           set_open (put str_eqb path (nodes, range) o)
       end) in
  elet tasks <- eget b_open in
  eiter (fun t => collect_references fuel (fst t) (fst (snd t))) (h_order tasks).

(** * Notifications *)

(** did_change.rs:5-17 *)
Definition did_change (fuel : nat) (path : str) (changes : list str) : B unit :=
  match changes with
  | [] => eret tt
  | text :: _ =>
      elet l <- eget b_latest in
      edo set_latest (put str_eqb path text l) in
      refresh_file fuel path text
  end.

(** did_open.rs:5-33.  The text of the notification is not looked at. *)
Definition did_open (fuel : nat) (disk : str -> option str) (path : str) (text : str) : B unit :=
  elet source <- eopt (disk path) in
  elet l <- eget b_latest in
  edo set_latest (put str_eqb path source l) in
  elet o <- eget b_open in
  elet known <-
    (match find str_eqb path o with
     | Some _ => eret true
     | None =>
         elet parsed <- source_to_ast fuel source in
         match parsed with
         | inr _ => eret false
         | inl (nodes, range, errors) =>
             elet ds <- eopt (diagnostics_of errors) in
             elet d <- eget b_diags in
             edo set_diags (put str_eqb path ds d) in
             edo set_open (put str_eqb path (nodes, range) o) in
             eret true
         end
     end) in
  if known then
    elet o <- eget b_open in
    match find str_eqb path o with
    | Some (nodes, _) => collect_references fuel path nodes
    | None => eret tt
    end
  else eret tt.

(** did_close.rs:5-10 *)
Definition did_close (path : str) : B unit :=
  elet l <- eget b_latest in
  edo set_latest (del str_eqb path l) in
  elet o <- eget b_open in
  edo set_open (del str_eqb path o) in
  elet r <- eget b_refs in
  set_refs (del str_eqb path r).

(** did_change_watched_files.rs:6-35 *)
Fixpoint did_change_watched (fuel : nat) (disk : str -> option str) (paths : list str) : B unit :=
  match paths with
  | [] => eret tt
  | path :: rest =>
      elet o <- eget b_open in
      match find str_eqb path o with
      | Some _ => eret tt
      | None =>
          elet content <- eopt (disk path) in
          elet parsed <- source_to_ast fuel content in
          edo (match parsed with
               | inr _ => eret tt
               | inl (nodes, range, errors) =>
                   edo collect_symbols fuel path nodes range in
                   elet l <- eopt (diagnostics_of errors) in
                   elet d <- eget b_diags in
                   set_diags (put str_eqb path l d)
               end) in
          did_change_watched fuel disk rest
      end
  end.

(** * Start-up *)

(** One round of the loop of the consumer, mod.rs:296-310 *)
Definition index_result (fuel : nat) (path : str) (nodes : list Node) (range : Range)
    (errors : list perr) : B unit :=
  edo collect_symbols fuel path nodes range in
  elet l <- eopt (diagnostics_of errors) in
  elet d <- eget b_diags in
  set_diags (put str_eqb path l d).

(** mod.rs:324-347: what a walker thread does with one path; [None] if
    nothing is sent *)
Definition index_path (fuel : nat) (disk : str -> option str) (path : str) : B unit :=
  match disk path with
  | None => eret tt
  | Some content =>
      elet parsed <- source_to_ast fuel content in
      match parsed with
      | inr _ => eret tt
      | inl (nodes, range, errors) => index_result fuel path nodes range errors
      end
  end.

(** mod.rs:362-379: the table is built anew *)
Definition rebuild_global : B unit :=
  elet files <- eget b_files in
  edo set_global [] in
  eiter (fun f => elet cs <- e_kids (snd f) in eiter register cs) (h_order files).

(** mod.rs:287-385, as seen after everything has been joined: the results
    arrive in the order [paths].  The threads are modelled in Startup.v. *)
Definition init_workspace (fuel : nat) (disk : str -> option str) (paths : list str) : B unit :=
  edo eiter (index_path fuel disk) paths in
  rebuild_global.

(** mod.rs:642-664, without the publication *)
Definition initialized : B unit := set_diags [].

(** * Requests *)

(** mod.rs:190-206 *)
Definition symbol_under_cursor (path : str) (p : Position) : B (option (N * str)) :=
  elet files <- eget b_files in
  match find str_eqb path files with
  | None => eret None
  | Some file =>
      elet a <- eget b_arena in
      elet suc <- eopt (symbol_at a p file) in
      elet d <- e_data suc in
      eret (Some (suc, sym_name d))
  end.

(** The references with a range that contains the position: goto_definition.rs:17,
    hover.rs:35, document_highlight.rs:33, mod.rs:213 *)
Definition touches (p : Position) (rs : list NodeRange) : bool :=
  existsb (fun r => in_range p (get_range r)) rs.

(** [str::contains] *)
Fixpoint contains (s pattern : str) : bool :=
  starts_with pattern s ||
  match s with
  | [] => false
  | _ :: r => contains r pattern
  end.

(** One of the tasks of mod.rs:239-274 *)
Definition search_file (fuel : nat) (disk : str -> option str) (name : str)
    (found : list (str * FileReferenceMap)) (path : str) : B (list (str * FileReferenceMap)) :=
  match disk path with
  | None => eret found
  | Some content =>
      if contains content name then
        elet parsed <- source_to_ast fuel content in
        match parsed with
        | inr _ => eret found
        | inl (nodes, _, _) =>
            elet o <- analyse fuel path nodes in
            eret (match o with
                  | None => found
                  | Some m => put str_eqb path m found
                  end)
        end
      else eret found
  end.

(** mod.rs:221-285 *)
Definition references_of (fuel : nat) (disk : str -> option str) (name : str)
  : B (list (str * FileReferenceMap)) :=
  elet files <- eget b_files in
  efold (search_file fuel disk name) [] (map fst (h_order files)).

(** mod.rs:702-754.  The answer is a list of places. *)
Definition references (fuel : nat) (disk : str -> option str) (path : str) (p : Position)
  : B (option (list (str * Range))) :=
  elet o <- symbol_under_cursor path p in
  match o with
  | None => eret None
  | Some (suc, name) =>
      elet found <- references_of fuel disk name in
      eret (Some (flat_map (fun f =>
        match find N.eqb suc (snd f) with
        | Some rs => map (fun r => (fst f, get_range r)) rs
        | None => []
        end) (rev (h_order found))))
  end.

(** mod.rs:208-219; the map is iterated over in the order [order] *)
Definition referenced_symbol (order : FileReferenceMap -> FileReferenceMap) (p : Position)
    (m : FileReferenceMap) : option N :=
  opt_map fst (List.find (fun e => touches p (snd e)) (order m)).

(** mod.rs:756-821.  The answer lists the edits (range and new text) per file. *)
Definition rename (fuel : nat) (disk : str -> option str)
    (order : FileReferenceMap -> FileReferenceMap) (path : str) (p : Position) (new_name : str)
  : B (option (list (str * list (Range * str)))) :=
  elet refs <- eget b_refs in
  match obind (find str_eqb path refs) (referenced_symbol order p) with
  | None => eret None
  | Some nuc =>
      elet d <- e_data nuc in
      elet found <- references_of fuel disk (y_name d) in
      eret (Some (map (fun f =>
        (fst f, flat_map (fun e =>
           if fst e =? nuc then map (fun r => (get_range r, new_name)) (snd e) else [])
           (snd f))) found))
  end.

(** goto_definition.rs:6-26; the references of the file are iterated over in
    the order [order].  The answer is a place. *)
Fixpoint first_location (p : Position) (l : FileReferenceMap) : B (option (str * Range)) :=
  match l with
  | [] => eret None
  | (node, ranges) :: r =>
      if touches p ranges then
        elet a <- eget b_arena in
        elet loc <- eopt (symbol_location a node) in
        match loc with
        | Some x => eret (Some x)
        | None => first_location p r
        end
      else first_location p r
  end.
Definition goto_definition (order : FileReferenceMap -> FileReferenceMap) (path : str) (p : Position)
  : B (option (str * Range)) :=
  elet refs <- eget b_refs in
  match find str_eqb path refs with
  | None => eret None
  | Some m => first_location p (order m)
  end.

(** hover.rs:6-49.  The answer is the range and the symbol whose source is
    shown; [hover_text] (symbol.rs:783-808) asks for the ancestors of it. *)
Definition hover (order : FileReferenceMap -> FileReferenceMap) (path : str) (p : Position)
  : B (option (Range * N)) :=
  elet suc <- symbol_under_cursor path p in
  elet direct <-
    (match suc with
     | None => eret None
     | Some (node, _) =>
         elet d <- e_data node in
         if in_range p (y_sel d) then edo e_top node in eret (Some (y_range d, node))
         else eret None
     end) in
  match direct with
  | Some x => eret (Some x)
  | None =>
      elet refs <- eget b_refs in
      match find str_eqb path refs with
      | None => eret None
      | Some m =>
          match List.find (fun e => touches p (snd e)) (order m) with
          | None => eret None
          | Some (node, ranges) =>
              edo e_data node in
              edo e_top node in
              eret (opt_map (fun r => (get_range r, node))
                      (List.find (fun r => in_range p (get_range r)) ranges))
          end
      end
  end.

(** document_highlight.rs:25-52 *)
Definition document_highlight (order : FileReferenceMap -> FileReferenceMap) (path : str) (p : Position)
  : B (option (list Range)) :=
  elet refs <- eget b_refs in
  match find str_eqb path refs with
  | None => eret None
  | Some m =>
      match List.find (fun e => touches p (snd e)) (order m) with
      | None => eret None
      | Some (node, _) => eret (opt_map (map get_range) (find N.eqb node m))
      end
  end.

(** symbol.rs (backend):5-45.  The answer lists name, kind, file and range. *)
Definition symbol_query (query : str) : B (option (list (str * N * str * Range))) :=
  match query with
  | [] => eret None
  | _ =>
      let query := to_lowercase query in
      elet files <- eget b_files in
      elet a <- eget b_arena in
      elet l <- efold (fun acc f =>
          elet ds <- eopt (descendants a (snd f)) in
          efold (fun acc i =>
            elet d <- e_data i in
            eret (if starts_with query (normalized_name d) then
                    match lsp_kind (y_kind d) with
                    | Some k => acc ++ [(sym_name d, k, fst f, y_range d)]
                    | None => acc
                    end
                  else acc)) acc ds) [] (h_order files) in
      eret (Some l)
  end.

(** symbol.rs (environment):721-749 and 751-781: a tree of name, kind and
    ranges.  The text [detail] is left out, except for the names of the data
    types of a variable (line 738), which are looked up in the arena. *)
Inductive DocSym := mkDoc (name : str) (kind : N) (range sel : Range) (types : list str)
                          (children : list DocSym).
Fixpoint to_doc_sym (fuel : nat) (i : N) : B (option DocSym) :=
  match fuel with
  | O => efuel
  | S fuel =>
      elet d <- e_data i in
      elet cs <- e_kids i in
      elet shown <- efold (fun l c =>
          elet cd <- e_data c in
          if is_internal (y_kind cd) then eret l
          else elet o <- to_doc_sym fuel c in eret (l ++ opt_list o)) [] cs in
      match lsp_kind (y_kind d) with
      | None => eret None
      | Some k =>
          elet types <-
            (match y_kind d with
             | KVariable =>
                 emap (fun n => elet td <- e_data n in eret (y_name td))
                   (flat_map (fun r => opt_list (sr_node r)) (y_types d))
             | _ => eret []
             end) in
          eret (Some (mkDoc (y_name d) k (y_range d) (y_sel d) types shown))
      end
  end.

(** document_symbol.rs:6-24 *)
Definition document_symbol (fuel : nat) (path : str) : B (option (list DocSym)) :=
  elet files <- eget b_files in
  match find str_eqb path files with
  | None => eret None
  | Some file =>
      elet cs <- e_kids file in
      elet l <- emap (to_doc_sym fuel) cs in
      eret (Some (flat_map opt_list l))
  end.

End WithRuntime.
