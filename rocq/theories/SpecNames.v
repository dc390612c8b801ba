(** What a text declares: the vocabulary of the properties of the index. *)

From Verif Require Import Base Token Scanner Node Parser Symbol Workspace.

(** [seen m n]: the traversal of [n] visits [m] at most *)
Inductive seen : Node -> Node -> Prop :=
| seen_self : forall n, seen n n
| seen_child : forall m k n, In k (children n) -> seen m k -> seen m n.

(** The variables that [@var] comments are about *)
Definition var_docs_in (P : str -> Prop) (n : Node) : Prop :=
  forall m, seen m n ->
    match m with
    | NDocCommentVar name _ _ => forall k, t_label name = Some k -> P k
    | _ => True
    end.

(** A name without the dollar sign *)
Definition bare (s : str) : str := match s with 36 :: r => r | l => l end.

(** The names of the classes, traits, interfaces, functions and constants
    that a node declares, not looking at its children *)
Definition declares (n : Node) : list str :=
  match n with
  | NConst name _ _ | NClassStatement _ name _ _ _ _ _ _ _ | NTraitStatement _ name _ _
  | NInterface _ name _ _ _ | NNamedFunctionDefinitionStatement _ _ name _ _ =>
      opt_list (display_token name)
  | NClassConstantDefinitionStatement _ consts _ _ _ =>
      flat_map (fun c => match c with
                         | NClassConstant _ name _ => opt_list (display_token name)
                         | _ => []
                         end) consts
  | NArrowFunction _ _ token _ _ _ _ _ _ _ =>
      match token_range token with Some r => [arrow_name r] | None => [] end
  | NDefineStatement (NLiteral token) _ _ _ _ _ => opt_list (t_label token)
  | _ => []
  end.

Definition declares_in (D : str -> Prop) (n : Node) : Prop :=
  forall m, seen m n -> Forall (fun k => D (bare k)) (declares m).

(** The names declared by [n] are in [D]; the comments [/** @var T $x */] of
    [n] are about variables with a name that is not in [D]. *)
Definition clean (D : str -> Prop) (n : Node) : Prop :=
  declares_in D n /\ var_docs_in (fun k => k <> lit "this" /\ ~ D k) n.

Section Text.
Context {RT : Runtime}.

(** The syntax tree of a text *)
Definition syntax (fuel : nat) (src : str) : option (list Node) :=
  match scan_state src with
  | SOk t => match ast fuel (rev (s_toks t)) with
             | POk (a, _) _ => Some a
             | _ => None
             end
  | _ => None
  end.

Definition text_ok (D : str -> Prop) (src : str) : Prop :=
  forall fuel nodes, syntax fuel src = Some nodes -> Forall (clean D) nodes.

End Text.
