(** Facts about association lists. *)

From Verif Require Import Base Assoc.

Section Facts.
Context {K V : Type} (eqb : K -> K -> bool).
Hypothesis eqb_spec : forall a b, reflect (a = b) (eqb a b).

Local Notation find := (find eqb).
Local Notation put := (put eqb).
Local Notation del := (del eqb).

Lemma eqb_refl_ : forall a, eqb a a = true.
Proof. intro a. destruct (eqb_spec a a); congruence. Qed.

Lemma eqb_neq_ : forall a b, a <> b -> eqb a b = false.
Proof. intros a b n. destruct (eqb_spec a b); congruence. Qed.

Lemma find_put_same : forall k (v : V) m, find k (put k v m) = Some v.
Proof.
  induction m as [|[k' v'] m IH]; simpl.
  - now rewrite eqb_refl_.
  - destruct (eqb_spec k k') as [e|n]; simpl.
    + now rewrite eqb_refl_.
    + now rewrite (eqb_neq_ _ _ n).
Qed.

Lemma find_put_other : forall k k' (v : V) m, k <> k' -> find k (put k' v m) = find k m.
Proof.
  induction m as [|[k2 v2] m IH]; intros n; simpl.
  - now rewrite (eqb_neq_ _ _ n).
  - destruct (eqb_spec k' k2) as [e|n2]; simpl.
    + subst. now rewrite (eqb_neq_ _ _ n).
    + destruct (eqb k k2); auto.
Qed.

Lemma find_put : forall k k' (v : V) m,
  find k (put k' v m) = if eqb k k' then Some v else find k m.
Proof.
  intros. destruct (eqb_spec k k') as [e|n].
  - subst. apply find_put_same.
  - now apply find_put_other.
Qed.

Lemma find_del_same : forall k (m : list (K * V)), find k (del k m) = None.
Proof.
  unfold del. induction m as [|[k' v'] m IH]; simpl; auto.
  destruct (eqb k k') eqn:e; simpl; auto. rewrite e. auto.
Qed.

Lemma find_filter_key : forall (q : K -> bool) k (m : list (K * V)),
  find k (filter (fun p => q (fst p)) m) = if q k then find k m else None.
Proof.
  induction m as [|[k' v'] m IH]; simpl.
  - now destruct (q k).
  - destruct (q k') eqn:e; simpl.
    + destruct (eqb_spec k k') as [->|n]; [now rewrite e|auto].
    + destruct (eqb_spec k k') as [->|n]; [now rewrite IH, e|auto].
Qed.

Lemma find_del : forall k k' (m : list (K * V)),
  find k (del k' m) = if eqb k' k then None else find k m.
Proof.
  intros. unfold del. rewrite (find_filter_key (fun x => negb (eqb k' x))).
  now destruct (eqb k' k).
Qed.

Lemma find_del_other : forall k k' (m : list (K * V)), k <> k' -> find k (del k' m) = find k m.
Proof. intros. rewrite find_del, eqb_neq_; auto. Qed.

Lemma find_in : forall k (v : V) m, find k m = Some v -> In (k, v) m.
Proof.
  induction m as [|[k' v'] m IH]; simpl; [discriminate|].
  destruct (eqb_spec k k') as [->|n]; [intros [= ->]; auto|auto].
Qed.

Lemma find_none : forall k (m : list (K * V)), find k m = None <-> ~ In k (keys m).
Proof.
  induction m as [|[k' v'] m IH]; simpl; [tauto|].
  destruct (eqb_spec k k') as [->|n].
  - split; [discriminate|intros h; exfalso; auto].
  - rewrite IH. split; intros h; [intros [e|i]; congruence || auto|auto].
Qed.

Lemma find_key : forall k (m : list (K * V)), In k (keys m) -> exists v, find k m = Some v.
Proof.
  intros k m i. destruct (find k m) eqn:e; eauto. apply find_none in e. contradiction.
Qed.

Lemma find_some_key : forall k (v : V) m, find k m = Some v -> In k (keys m).
Proof. intros k v m h. apply find_in in h. apply (in_map fst) in h. exact h. Qed.

Lemma in_find : forall k (v : V) m, NoDup (keys m) -> In (k, v) m -> find k m = Some v.
Proof.
  induction m as [|[k' v'] m IH]; simpl; [contradiction|].
  intros nd [e|i].
  - injection e as -> ->. now rewrite eqb_refl_.
  - inversion nd; subst. destruct (eqb_spec k k') as [->|n]; auto.
    exfalso. apply H1. apply (in_map fst) in i. exact i.
Qed.

Lemma keys_put_in : forall x k (v : V) m, In x (keys (put k v m)) <-> x = k \/ In x (keys m).
Proof.
  induction m as [|[k' v'] m IH]; simpl; [intuition|].
  destruct (eqb_spec k k') as [->|n]; simpl.
  - intuition.
  - rewrite IH. intuition.
Qed.

Lemma nodup_put : forall k (v : V) m, NoDup (keys m) -> NoDup (keys (put k v m)).
Proof.
  induction m as [|[k' v'] m IH]; simpl; intros nd.
  - constructor; auto.
  - inversion nd; subst. destruct (eqb_spec k k') as [->|n]; simpl.
    + constructor; auto.
    + constructor; auto. rewrite keys_put_in. intros [e|i]; congruence || auto.
Qed.

Lemma keys_filter : forall (q : K * V -> bool) m x, In x (keys (filter q m)) -> In x (keys m).
Proof.
  intros q m x h. unfold keys in *. apply in_map_iff in h as [[k v] [e i]].
  apply filter_In in i as [i _]. apply in_map_iff. eauto.
Qed.

Lemma nodup_filter : forall (q : K * V -> bool) m, NoDup (keys m) -> NoDup (keys (filter q m)).
Proof.
  induction m as [|[k v] m IH]; simpl; intros nd; [constructor|].
  inversion nd; subst. destruct (q (k, v)); simpl; auto.
  constructor; auto. intros i. apply H1. eapply keys_filter; eauto.
Qed.

Lemma nodup_del : forall k (m : list (K * V)), NoDup (keys m) -> NoDup (keys (del k m)).
Proof. intros. now apply nodup_filter. Qed.

Lemma length_put : forall k (v : V) m, (List.length m <= List.length (put k v m))%nat.
Proof.
  induction m as [|[k' v'] m IH]; simpl; [lia|]. destruct (eqb k k'); simpl; lia.
Qed.

Lemma find_upsert : forall k k' d f (m : list (K * V)),
  find k (upsert eqb k' d f m) =
    if eqb k k' then Some (f (match find k' m with Some v => v | None => d end)) else find k m.
Proof. intros. unfold upsert. apply find_put. Qed.

Lemma find_put_all : forall k (l m : list (K * V)),
  NoDup (keys l) ->
  find k (put_all eqb l m) = match find k l with Some v => Some v | None => find k m end.
Proof.
  unfold put_all. induction l as [|[k' v'] l IH]; intros m nd; auto.
  inversion nd; subst. cbn [fold_left fst snd]. rewrite IH by auto. rewrite find_put. simpl.
  destruct (eqb_spec k k') as [->|n]; auto.
  destruct (find k' l) eqn:e; auto.
  apply find_some_key in e. contradiction.
Qed.

Lemma nodup_put_all : forall (l m : list (K * V)),
  NoDup (keys m) -> NoDup (keys (put_all eqb l m)).
Proof.
  unfold put_all. induction l as [|[k v] l IH]; simpl; intros m nd; auto.
  apply IH. now apply nodup_put.
Qed.

End Facts.

Lemma str_eqb_spec : forall a b : str, reflect (a = b) (str_eqb a b).
Proof.
  unfold str_eqb. induction a as [|x a IH]; intros [|y b]; try (constructor; congruence).
  cbn [andb]. destruct (N.eqb_spec x y) as [->|n]; simpl.
  - destruct (IH b); constructor; congruence.
  - constructor. congruence.
Qed.
