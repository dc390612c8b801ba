(** Computations that change the symbol arena.

    [&mut] arguments become a state of type [S]; a panic is the value [Panic].
    [Fuel] is the value of a recursion that was cut off; the theorems say
    when it does not occur.  This file contains no proofs. *)

From Verif Require Import Base Token Node Assoc Arena Symbol.

Inductive out (S A : Type) :=
| Done (a : A) (s : S)
| Panic
| Fuel.
Arguments Done {S A} a s.
Arguments Panic {S A}.
Arguments Fuel {S A}.

Definition E (S A : Type) := S -> out S A.

Definition eret {S A} (a : A) : E S A := fun s => Done a s.
Definition epanic {S A} : E S A := fun _ => Panic.
Definition efuel {S A} : E S A := fun _ => Fuel.
Definition ebind {S A B} (m : E S A) (f : A -> E S B) : E S B :=
  fun s => match m s with
           | Done a s => f a s
           | Panic => Panic
           | Fuel => Fuel
           end.
Notation "'elet' p <- r 'in' k" := (ebind r (fun p => k))
  (at level 200, p pattern, r at level 100, k at level 200).
Notation "'edo' r 'in' k" := (ebind r (fun _ => k))
  (at level 200, r at level 100, k at level 200).

(** Reading and changing the state *)
Definition eget {S A} (f : S -> A) : E S A := fun s => Done (f s) s.
Definition emod {S} (f : S -> S) : E S unit := fun s => Done tt (f s).

(** [unwrap] *)
Definition eopt {S A} (o : option A) : E S A :=
  match o with Some a => eret a | None => epanic end.

(** Loops *)
Fixpoint eiter {S A} (f : A -> E S unit) (l : list A) : E S unit :=
  match l with
  | [] => eret tt
  | a :: r => edo f a in eiter f r
  end.
Fixpoint emap {S A B} (f : A -> E S B) (l : list A) : E S (list B) :=
  match l with
  | [] => eret []
  | a :: r => elet b <- f a in elet bs <- emap f r in eret (b :: bs)
  end.
Fixpoint efold {S A B} (f : B -> A -> E S B) (b : B) (l : list A) : E S B :=
  match l with
  | [] => eret b
  | a :: r => elet b <- f b a in efold f b r
  end.
(** The first element with an answer ([find_map]) *)
Fixpoint efind {S A B} (f : A -> E S (option B)) (l : list A) : E S (option B) :=
  match l with
  | [] => eret None
  | a :: r =>
      elet o <- f a in
      match o with Some b => eret (Some b) | None => efind f r end
  end.

(** ** The arena *)
Class HasArena (S : Type) := {
  the_arena : S -> arena Symbol;
  with_arena : arena Symbol -> S -> S
}.

Section Arena.
Context {S : Type} `{HasArena S}.

(** [arena[i].get()] *)
Definition e_data (i : N) : E S Symbol :=
  fun s => match data (the_arena s) i with Some d => Done d s | None => Panic end.
(** [i.children(arena)] *)
Definition e_kids (i : N) : E S (list N) :=
  fun s => match kids (the_arena s) i with Some l => Done l s | None => Panic end.
(** [arena[i].parent()] *)
Definition e_parent (i : N) : E S (option N) :=
  fun s => match parent_of (the_arena s) i with Some o => Done o s | None => Panic end.
(** [i.ancestors(arena).last().unwrap()] *)
Definition e_top (i : N) : E S N :=
  fun s => match top (the_arena s) i with Some t => Done t s | None => Panic end.
(** [arena.new_node(d)] *)
Definition e_new (d : Symbol) : E S N :=
  fun s => let (i, a) := new_node d (the_arena s) in Done i (with_arena a s).
(** [p.append(c, arena)] *)
Definition e_append (p c : N) : E S unit :=
  fun s => match append p c (the_arena s) with
           | Some a => Done tt (with_arena a s)
           | None => Panic
           end.
(** [*arena[i].get_mut() = f(..)] *)
Definition e_update (i : N) (f : Symbol -> Symbol) : E S unit :=
  fun s => match update i f (the_arena s) with
           | Some a => Done tt (with_arena a s)
           | None => Panic
           end.

(** [i.children(arena).find(|c| p(arena[c].get()))] *)
Definition e_find_kid (i : N) (p : Symbol -> bool) : E S (option N) :=
  elet l <- e_kids i in
  efind (fun c => elet d <- e_data c in eret (if p d then Some c else None)) l.

End Arena.
