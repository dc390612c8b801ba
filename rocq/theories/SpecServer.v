(** The vocabulary of the properties of the language server. *)

From Verif Require Import Base Token Node Assoc Arena Symbol EnvMonad Resolver Backend SpecNames.

(** * Positions *)

(** Reading order: by line, then by character *)
Definition not_after (p q : Position) : Prop :=
  pos_line p < pos_line q \/ (pos_line p = pos_line q /\ pos_char p <= pos_char q).
Definition inside (p : Position) (r : Range) : Prop :=
  not_after (r_start r) p /\ not_after p (r_end r).

(** * Trees of symbols *)

(** The name of a symbol with its namespace *)
Definition qualified (d : Symbol) : str :=
  match y_ns d with
  | Some ns => ns ++ lit "\" ++ bare (y_name d)
  | None => bare (y_name d)
  end.

Definition alive (a : arena Symbol) (i : N) : Prop := data a i <> None.

(** [i] is the symbol [f] or below it *)
Inductive within (a : arena Symbol) : N -> N -> Prop :=
| within_self : forall i, alive a i -> within a i i
| within_child : forall i p f, parent_of a i = Some (Some p) -> within a p f -> within a i f.

(** The symbol with other ids *)
Definition renumber (r : N -> N) (d : Symbol) : Symbol :=
  with_params (map (fun p => (r (fst p), snd p)) (y_params d)) d.

(** The trees below [f] and [g] are the same, up to the ids *)
Definition same_symbols (a : arena Symbol) (f : N) (b : arena Symbol) (g : N) : Prop :=
  exists r : N -> N, r f = g /\ (forall i j, r i = r j -> i = j) /\
  (forall i, within a i f -> within b (r i) g /\
     data b (r i) = opt_map (renumber r) (data a i) /\ kids b (r i) = opt_map (map r) (kids a i)) /\
  (forall j, within b j g -> exists i, within a i f /\ j = r i).

(** * Histories *)

(** What the editor, the file watcher and the user can ask for.  Each event
    comes with the contents of the file system at that time, the bound of the
    recursions and the order in which hash maps are iterated over. *)
Inductive event :=
| EvIndex (paths : list str)
| EvInitialized
| EvOpen (path text : str)
| EvChange (path : str) (texts : list str)
| EvClose (path : str)
| EvWatched (paths : list str)
| EvReferences (path : str) (p : Position)
| EvRename (path : str) (p : Position) (new_name : str)
| EvDefinition (path : str) (p : Position)
| EvHover (path : str) (p : Position)
| EvHighlight (path : str) (p : Position)
| EvSymbols (query : str)
| EvOutline (path : str).

Definition ignore {A} (m : B A) : B unit := elet _ <- m in eret tt.

Section Histories.
Context `{Runtime}.

Definition serve {hs : Hashing} (fuel : nat) (disk : str -> option str)
    (order : FileReferenceMap -> FileReferenceMap) (e : event) : B unit :=
  match e with
  | EvIndex paths => init_workspace fuel disk paths
  | EvInitialized => initialized
  | EvOpen path text => did_open fuel disk path text
  | EvChange path texts => did_change fuel path texts
  | EvClose path => did_close path
  | EvWatched paths => did_change_watched fuel disk paths
  | EvReferences path p => ignore (references fuel disk path p)
  | EvRename path p new => ignore (rename fuel disk order path p new)
  | EvDefinition path p => ignore (goto_definition order path p)
  | EvHover path p => ignore (hover order path p)
  | EvHighlight path p => ignore (document_highlight order path p)
  | EvSymbols query => ignore (symbol_query query)
  | EvOutline path => ignore (document_symbol fuel path)
  end.

(** The states the server can be in *)
Inductive reachable : bst -> Prop :=
| reach_start : reachable backend_new
| reach_event : forall s s' (hs : Hashing) fuel disk order e,
    reachable s -> serve fuel disk order e s = Done tt s' -> reachable s'.

(** The names in [D] are those of declared things: an event is tame if the
    texts that it brings from the file system or from the editor only declare
    things with names in [D], and their [@var] comments are about variables
    with names that are not in [D]. *)
Definition tame_event (D : str -> Prop) (disk : str -> option str) (e : event) : Prop :=
  (forall p text, disk p = Some text -> D (bare p) /\ text_ok D text) /\
  match e with
  | EvChange path texts => D (bare path) /\ Forall (text_ok D) texts
  | _ => True
  end.

Inductive tame (D : str -> Prop) : bst -> Prop :=
| tame_start : tame D backend_new
| tame_next : forall s s' (hs : Hashing) fuel disk order e,
    tame D s -> tame_event D disk e -> serve fuel disk order e s = Done tt s' -> tame D s'.

(** For examples: the state after a list of events *)
Fixpoint play {hs : Hashing} (l : list ((str -> option str) * event)) : B unit :=
  match l with
  | [] => eret tt
  | (disk, e) :: r => edo serve 400 disk (fun m => m) e in play r
  end.
Definition state_after {hs : Hashing} (l : list ((str -> option str) * event)) : bst :=
  match play l backend_new with Done _ s => s | _ => backend_new end.

Lemma state_after_reachable : forall {hs : Hashing} l, reachable (state_after l).
Proof.
  intros hs l. unfold state_after.
  assert (k : forall l s s', reachable s -> play l s = Done tt s' -> reachable s').
  { clear l. induction l as [|[disk e] l IH]; intros s s' h e'; cbn [play] in e'.
    - injection e' as <-. auto.
    - unfold ebind in e'. destruct (serve 400 disk (fun m => m) e s) as [[] t| |] eqn:es;
        try discriminate. eapply IH; [|exact e']. eapply reach_event; eauto. }
  destruct (play l backend_new) as [[] s| |] eqn:e; try constructor.
  eapply k; [constructor|exact e].
Qed.

End Histories.
