(** Go to implementation: /repo/src/backend/goto_implementation.rs.

    Simplification: [Url::from_file_path(..).unwrap()] (lines 54, 71) is left
    out; a location is the path of the file and the range.  This file contains
    no proofs. *)

From Verif Require Import Base Token Node Assoc Arena Symbol EnvMonad Workspace Resolver Backend Suggester.

Section WithRuntime.
Context `{Runtime} `{Hashing}.

(** lines 107-118: the closest ancestor that is a file *)
Definition enclosing_file (node : N) : B N :=
  elet anc <- e_ancestors node in
  elet o <- efind (fun a => elet d <- e_data a in
                            eret (if kind_eqb (y_kind d) KFile then Some a else None)) anc in
  eopt o.

(** lines 90-104: the data types of a class without the one that is spelled like
    the class itself *)
Definition candidates (d : Symbol) : list TypeRef :=
  filter (fun tr => match tref_tip tr with
                    | Some tip => negb (str_eqb (to_lowercase tip) (normalized_name d))
                    | None => false
                    end) (map sr_type (y_types d)).

(** lines 120-142: the name of the file if the type is the interface or has it
    above itself *)
Definition names_interface (fuel : nat) (interface node : N) (tr : TypeRef) : B (option str) :=
  elet file <- enclosing_file node in
  elet yes <- with_resolver file (
    elet o <- resolve_type_ref fuel tr file false in
    match o with
    | None => eret false
    | Some resolved =>
        if resolved =? interface then eret true
        else elet d <- e_data resolved in is_child_of fuel d resolved interface
    end) in
  if yes then elet fd <- e_data file in eret (Some (sym_name fd)) else eret None.

(** lines 79-151 *)
Definition implementing_interfaces (fuel : nat) (interface : N) : B (list (str * N)) :=
  elet g <- eget b_global in
  efold (fun acc kv =>
    elet d <- e_data (snd kv) in
    if negb (kind_eqb (y_kind d) KClass) then eret acc
    else
      elet o <- efind (names_interface fuel interface (snd kv)) (candidates d) in
      eret (match o with Some file => acc ++ [(file, snd kv)] | None => acc end)) [] (h_order g).

(** lines 44-59: the first child of that name *)
Definition method_of (method_name : str) (node : N) : B (option Range) :=
  elet cs <- e_kids node in
  efind (fun c => elet m <- e_data c in
                  eret (if str_eqb (normalized_name m) method_name then Some (y_sel m) else None)) cs.

(** lines 12-77 *)
Definition goto_implementation (fuel : nat) (path : str) (p : Position)
  : B (option (list (str * Range))) :=
  elet o <- symbol_under_cursor path p in
  match o with
  | None => eret (Some [])
  | Some (nuc, name) =>
      elet d <- e_data nuc in
      match y_kind d with
      | KMethod =>
          elet parent <- e_parent nuc in
          match parent with
          | None => eret None
          | Some parent =>
              elet pd <- e_data parent in
              if kind_eqb (y_kind pd) KInterface then
                elet l <- implementing_interfaces fuel parent in
                elet r <- efold (fun acc e =>
                  elet m <- method_of (to_lowercase name) (snd e) in
                  eret (match m with Some r => acc ++ [(fst e, r)] | None => acc end)) [] l in
                eret (Some r)
              else eret None
          end
      | KInterface =>
          elet l <- implementing_interfaces fuel nuc in
          elet r <- emap (fun e => elet d <- e_data (snd e) in eret (fst e, y_sel d)) l in
          eret (Some r)
      | _ => eret (Some [])
      end
  end.

End WithRuntime.
