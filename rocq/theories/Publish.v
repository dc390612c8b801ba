(** What the server tells the editor on its own: /repo/src/backend/mod.rs, the
    calls of [publish_diagnostics].  This file contains no proofs. *)

From Verif Require Import Base Token Node Assoc Arena Symbol EnvMonad Resolver Backend SpecServer.

Section WithRuntime.
Context `{Runtime} `{Hashing}.

(** A file and its diagnostics.  Simplification: the version that mod.rs:869
    adds is left out. *)
Definition message : Type := str * list Diagnostic.

(** mod.rs:845-849 and 864-872: after a change, and after a file was opened *)
Definition publish_file (path : str) : B (list message) :=
  elet d <- eget b_diags in
  eret (match find str_eqb path d with Some l => [(path, l)] | None => [] end).

(** mod.rs:642-664: files without diagnostics are left out, then everything is
    forgotten. *)
Definition publish_all : B (list message) :=
  elet d <- eget b_diags in
  edo initialized in
  eret (filter (fun m => match snd m with [] => false | _ => true end) (h_order d)).

(** mod.rs:564-895: the handlers, with what they publish *)
Definition handle (fuel : nat) (disk : str -> option str) (order : FileReferenceMap -> FileReferenceMap)
    (e : event) : B (list message) :=
  match e with
  | EvInitialized => publish_all
  | EvChange path _ | EvOpen path _ => edo serve fuel disk order e in publish_file path
  | _ => edo serve fuel disk order e in eret []
  end.

End WithRuntime.
