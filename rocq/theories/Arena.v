(** The arena of symbols: the crate indextree 4.3.1, as far as it is used.

    A [NodeId] of indextree is a slot number together with a stamp that
    changes whenever the slot is reused, so ids are never handed out twice.
    The model hands out the numbers 0, 1, 2, ... and forgets removed nodes.

    Following an id whose node was removed is the value [None] (a panic).  The
    crate panics as long as the slot is free and answers with a stranger's
    data once the slot has been reused; the model does not tell these two
    failures apart.

    [append] of a node to itself or to one of its own descendants is a panic
    in the model (the crate panics for the node itself; a cycle of nodes is
    never intended).

    This file contains no proofs. *)

From Verif Require Import Base Assoc.

Section Arena.
Context {T : Type}.

Record anode := mkAnode { n_parent : option N; n_kids : list N; n_data : T }.

Record arena := mkArena { a_next : N; a_nodes : list (N * anode) }.

Definition empty_arena : arena := mkArena 0 [].

Definition node_of (a : arena) (i : N) : option anode := find N.eqb i (a_nodes a).

Definition set_node (i : N) (n : anode) (a : arena) : arena :=
  mkArena (a_next a) (put N.eqb i n (a_nodes a)).

(** [Arena::new_node] *)
Definition new_node (d : T) (a : arena) : N * arena :=
  (a_next a, mkArena (a_next a + 1) (put N.eqb (a_next a) (mkAnode None [] d) (a_nodes a))).

(** [arena[id].get()] *)
Definition data (a : arena) (i : N) : option T := opt_map n_data (node_of a i).

(** [arena[id].parent()] *)
Definition parent_of (a : arena) (i : N) : option (option N) := opt_map n_parent (node_of a i).

(** [id.children(arena)] *)
Definition kids (a : arena) (i : N) : option (list N) := opt_map n_kids (node_of a i).

(** [*arena[id].get_mut() = f(..)] *)
Definition update (i : N) (f : T -> T) (a : arena) : option arena :=
  match node_of a i with
  | Some n => Some (set_node i (mkAnode (n_parent n) (n_kids n) (f (n_data n))) a)
  | None => None
  end.

(** [id.ancestors(arena)]: the node itself, its parent, and so on.  The fuel
    is an upper bound of the number of nodes. *)
Fixpoint climb (fuel : nat) (a : arena) (i : N) : option (list N) :=
  match fuel with
  | O => None
  | S fuel =>
      match node_of a i with
      | None => None
      | Some n =>
          match n_parent n with
          | None => Some [i]
          | Some p =>
              match climb fuel a p with
              | Some l => Some (i :: l)
              | None => None
              end
          end
      end
  end.
Definition ancestors (a : arena) (i : N) : option (list N) :=
  climb (S (List.length (a_nodes a))) a i.

(** [id.ancestors(arena).last().unwrap()] *)
Definition top (a : arena) (i : N) : option N :=
  match ancestors a i with
  | Some l => match rev l with x :: _ => Some x | [] => None end
  | None => None
  end.

(** [id.descendants(arena)]: the node itself and everything below, in
    document order *)
Fixpoint below (fuel : nat) (a : arena) (i : N) : option (list N) :=
  match fuel with
  | O => None
  | S fuel =>
      match node_of a i with
      | None => None
      | Some n =>
          match (fix go (l : list N) : option (list N) :=
                   match l with
                   | [] => Some []
                   | c :: r =>
                       match below fuel a c, go r with
                       | Some x, Some y => Some (x ++ y)
                       | _, _ => None
                       end
                   end) (n_kids n) with
          | Some l => Some (i :: l)
          | None => None
          end
      end
  end.
Definition descendants (a : arena) (i : N) : option (list N) :=
  below (S (List.length (a_nodes a))) a i.

(** Take [c] out of the children of its parent. *)
Definition unlink (p : option N) (c : N) (a : arena) : arena :=
  match p with
  | None => a
  | Some p =>
      match node_of a p with
      | Some n => set_node p (mkAnode (n_parent n) (filter (fun x => negb (x =? c)) (n_kids n)) (n_data n)) a
      | None => a
      end
  end.

(** [p.append(c, arena)]: [c] is detached from its parent and becomes the
    last child of [p]. *)
Definition append (p c : N) (a : arena) : option arena :=
  match ancestors a p, node_of a c with
  | Some up, Some n =>
      if existsb (N.eqb c) up then None
      else
        let a := unlink (n_parent n) c a in
        let a := set_node c (mkAnode (Some p) (n_kids n) (n_data n)) a in
        match node_of a p with
        | Some m => Some (set_node p (mkAnode (n_parent m) (n_kids m ++ [c]) (n_data m)) a)
        | None => None
        end
  | _, _ => None
  end.

(** [id.remove(arena)]: the children take the place of the removed node. *)
Fixpoint splice (i : N) (mid l : list N) : list N :=
  match l with
  | [] => []
  | x :: r => if x =? i then mid ++ r else x :: splice i mid r
  end.
Definition remove (i : N) (a : arena) : option arena :=
  match node_of a i with
  | None => None
  | Some n =>
      let a := mkArena (a_next a) (del N.eqb i (a_nodes a)) in
      let a := fold_left (fun a c =>
                 match node_of a c with
                 | Some m => set_node c (mkAnode (n_parent n) (n_kids m) (n_data m)) a
                 | None => a
                 end) (n_kids n) a in
      match n_parent n with
      | None => Some a
      | Some p =>
          match node_of a p with
          | Some m => Some (set_node p (mkAnode (n_parent m) (splice i (n_kids n) (n_kids m)) (n_data m)) a)
          | None => Some a
          end
      end
  end.

(** [id.remove_subtree(arena)] *)
Definition remove_subtree (i : N) (a : arena) : option arena :=
  match node_of a i, descendants a i with
  | Some n, Some l =>
      let a := unlink (n_parent n) i a in
      Some (mkArena (a_next a) (filter (fun p => negb (existsb (N.eqb (fst p)) l)) (a_nodes a)))
  | _, _ => None
  end.

End Arena.
Arguments anode : clear implicits.
Arguments arena : clear implicits.
