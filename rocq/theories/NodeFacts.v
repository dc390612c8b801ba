(** When the range of a node is defined. *)

From Verif Require Import Base Token Node Parser DocFacts ParserSpec.

(** The three kinds of nodes that the parser may leave without the parts
    their range is computed from *)
Definition hollow (n : Node) : Prop :=
  match n with
  | NStaticVariablesStatement _ [] | NSwitchBranch _ [] | NUseTraitStatement _ [] => True
  | _ => False
  end.

(** [m] occurs in the tree [n]. *)
Inductive node_in : Node -> Node -> Prop :=
| in_self : forall n, node_in n n
| in_sub : forall m k n, In k (subnodes n) -> node_in m k -> node_in m n.

Definition has {A} (o : option A) : Prop := o <> None.

Lemma has_obind : forall A B (o : option A) (f : A -> option B), has o -> (forall a, has (f a)) -> has (obind o f).
Proof. intros A B [a|] f H Hf; [apply Hf|contradiction]. Qed.
Lemma has_some : forall A (a : A), has (Some a). Proof. discriminate. Qed.

Lemma has_tok_node : forall t r, has r -> has (rng_tok_node t r).
Proof. intros. apply has_obind; auto using has_some. Qed.
Lemma has_node_node : forall a b, has a -> has b -> has (rng_node_node a b).
Proof. intros. apply has_obind; auto. intros. apply has_obind; auto using has_some. Qed.
Lemma has_tok_tok : forall a b, has (token_end b) -> has (rng_tok_tok a b).
Proof. intros. apply has_obind; auto using has_some. Qed.
Lemma has_node_tok : forall a b, has a -> has (token_end b) -> has (rng_node_tok a b).
Proof. intros. apply has_obind; auto. intros. apply has_obind; auto using has_some. Qed.
Lemma has_range : forall t, has (token_end t) -> has (token_range t).
Proof. intros t H. unfold token_range. destruct (token_end t) as [[c l]|]; [discriminate|contradiction]. Qed.
Lemma has_from : forall a b, has a -> has b -> has (rng_from a b).
Proof. intros. apply has_obind; auto. intros. apply has_obind; auto using has_some. Qed.

Lemma has_last : forall l, l <> [] -> (forall n, In n l -> has (node_range n)) -> has (rng_last (map node_range l)).
Proof.
  intros l Hl H. unfold rng_last, last_opt. rewrite <- map_rev. destruct (rev l) as [|x r] eqn:E.
  - contradiction Hl. rewrite <- (rev_involutive l), E. reflexivity.
  - cbn. apply H. apply in_rev. rewrite E. left; reflexivity.
Qed.
Lemma has_first : forall l, l <> [] -> (forall n, In n l -> has (node_range n)) -> has (rng_first (map node_range l)).
Proof. intros [|x l] Hl H; [contradiction|]. cbn. apply H. left; reflexivity. Qed.
Lemma has_last_in : forall A (l : list A), l <> [] -> exists x, last_opt l = Some x /\ In x l.
Proof.
  intros A l Hl. unfold last_opt. destruct (rev l) as [|x r] eqn:E.
  - contradiction Hl. rewrite <- (rev_involutive l), E. reflexivity.
  - exists x. split; auto. apply in_rev. rewrite E. left; reflexivity.
Qed.
Lemma has_tref : forall tr, kind tr <> [] -> (forall t, In t (kind tr) -> has (token_end t)) -> has (tref_range tr).
Proof.
  intros [k m] Hk H. unfold tref_range. cbn [kind] in *. destruct (has_last_in _ k Hk) as (x & -> & Hx).
  destruct k as [|a k]; [contradiction|]. cbn [first_opt obind].
  apply has_obind; [apply has_range, H; left; reflexivity|]. intros.
  apply has_obind; [apply has_range, H; auto|]. intros. apply has_some.
Qed.

Section Range.
Context `{RT : Runtime}.
Variable T : Token -> Prop.
Variable eof : N * N.
Hypothesis T_end : forall t, T t -> exists e, token_end t = Some e.
Variable E : Prop.

Lemma ok_has : forall t, tok_ok T eof E t -> has (token_end t).
Proof.
  intros t [Ht|[_ Ht]].
  - destruct (T_end t Ht) as [e ->]. apply has_some.
  - destruct t as [c l ty lb md]. destruct Ht as (H1 & H2 & _). cbn in H1, H2. subst. discriminate.
Qed.

Ltac mem := rewrite ?in_app_iff; cbn [In opt_list opt_nodes]; auto 12.
Ltac ne := first [assumption | discriminate | (destruct_ne)]
with destruct_ne := match goal with H : ~ (match ?l with [] => True | _ :: _ => False end) |- ?l <> [] => intros ->; apply H; exact I end.
Ltac rg :=
  lazymatch goal with
  | |- has (let x := _ in _) => cbv zeta; rg
  | |- has (match ?o with _ => _ end) => is_var o; destruct o; rg
  | |- has (Some _) => apply has_some
  | |- has (rng_tok_node _ _) => apply has_tok_node; rg
  | |- has (rng_node_node _ _) => apply has_node_node; rg
  | |- has (rng_tok_tok _ _) => apply has_tok_tok; rg
  | |- has (rng_node_tok _ _) => apply has_node_tok; rg
  | |- has (rng_from _ _) => apply has_from; rg
  | |- has (token_range _) => apply has_range; rg
  | |- has (rng_last _) => apply has_last; [try ne|intros; rg]
  | |- has (rng_first _) => apply has_first; [try ne|intros; rg]
  | IH : forall m, In m _ -> has (node_range m) |- has (node_range _) => try solve [apply IH; mem]
  | Ht : forall t, In t _ -> has (token_end t) |- has (token_end _) => try solve [apply Ht; mem]
  | |- has (obind _ _) => apply has_obind; [rg|intros; rg]
  | |- _ => idtac
  end.

Theorem range_defined : forall n, Good T eof E n -> (forall m, node_in m n -> ~ hollow m) -> has (node_range n).
Proof.
  intros n Hn. induction Hn as [n [Ht [Hs _]] Hg IH]. intros Hh.
  assert (IH' : forall m, In m (subnodes n) -> has (node_range m)).
  { intros m Hm. apply IH; auto. intros k Hk. apply Hh. eapply in_sub; eauto. }
  specialize (Hh n (in_self n)).
  assert (Ht' : forall t, In t (own_toks n) -> has (token_end t)).
  { intros t Hin. apply ok_has. rewrite Forall_forall in Ht. auto. }
  clear IH Hg Ht.
  assert (X : Some (mkRange 1 1 1 1) <> None) by discriminate.
  destruct n; try exact X; cbn [subnodes own_toks hollow shape doc_shape] in *; cbn [node_range];
    try (rg; fail).
  - destruct Hs as [Hs _]. destruct types as [l|]; [|apply has_range; destruct Hs as [e ->]; apply has_some].
    destruct Hs as [Hs Hl]. destruct (has_last_in _ l Hl) as (x & -> & Hx). cbn [obind].
    rewrite Forall_forall in Hs. destruct (Hs x Hx) as [Hk Hk'].
    unfold rng_tok_tref. destruct (has_last_in _ _ Hk) as (y & -> & Hy). cbn [obind]. apply has_tok_tok.
    rewrite Forall_forall in Hk'. destruct (Hk' y Hy) as [e ->]. apply has_some.
  - contradiction.
  - apply has_tref; auto.
Qed.
End Range.

(** The token [t] is stored somewhere in the tree [n]. *)
Definition token_in (t : Token) (n : Node) : Prop := exists m, node_in m n /\ In t (own_toks m).

Lemma Good_in `{RT : Runtime} : forall T eof E n m, Good T eof E n -> node_in m n -> Good T eof E m.
Proof.
  intros T eof E n m Hg Hi. induction Hi as [|m k n Hk Hi IH]; auto.
  inversion Hg; subst. auto.
Qed.
Lemma node_in_trans : forall a b c, node_in a b -> node_in b c -> node_in a c.
Proof. intros a b c H1 H2. induction H2; auto. eapply in_sub; eauto. Qed.

(** the nodes of a tree, down to a depth *)
Fixpoint all_nodes (k : nat) (n : Node) : list Node :=
  match k with
  | O => [n]
  | S k => n :: flat_map (all_nodes k) (subnodes n)
  end.
Lemma all_nodes_in : forall k n m, In m (all_nodes k n) -> node_in m n.
Proof.
  induction k as [|k IH]; intros n m; cbn.
  - intros [->|[]]. constructor.
  - intros [->|H]; [constructor|]. apply in_flat_map in H as (x & Hx & Hm). eapply in_sub; eauto.
Qed.
