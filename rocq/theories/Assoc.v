(** Finite maps, as association lists.

    Rust's [HashMap] is modelled by a list of pairs with at most one pair per
    key.  [find] is [get], [put] is [insert], [del] is [remove].  The order of
    the list is an artefact of the model; where the code iterates over a
    [HashMap] and the order matters, the model takes the order as a parameter
    (see the place in question). *)

From Verif Require Import Base.

Section Map.
Context {K V : Type} (eqb : K -> K -> bool).

Fixpoint find (k : K) (m : list (K * V)) : option V :=
  match m with
  | [] => None
  | (k', v) :: r => if eqb k k' then Some v else find k r
  end.

Fixpoint put (k : K) (v : V) (m : list (K * V)) : list (K * V) :=
  match m with
  | [] => [(k, v)]
  | (k', v') :: r => if eqb k k' then (k, v) :: r else (k', v') :: put k v r
  end.

Definition del (k : K) (m : list (K * V)) : list (K * V) :=
  filter (fun p => negb (eqb k (fst p))) m.

(** [HashMap::extend] with the pairs of another map *)
Definition put_all (l : list (K * V)) (m : list (K * V)) : list (K * V) :=
  fold_left (fun m p => put (fst p) (snd p) m) l m.

(** [entry(k).or_insert_with(d)] followed by an update *)
Definition upsert (k : K) (d : V) (f : V -> V) (m : list (K * V)) : list (K * V) :=
  put k (f (match find k m with Some v => v | None => d end)) m.

Definition keys (m : list (K * V)) : list K := map fst m.

End Map.
