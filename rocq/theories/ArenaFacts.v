(** Facts about the arena. *)

From Coq Require Import Permutation.
From Verif Require Import Base Assoc AssocFacts Arena.

Section Facts.
Context {T : Type}.
Implicit Types a : arena T.

Definition live a (i : N) : Prop := exists n, node_of a i = Some n.

(** A forest: parents and children agree, nothing is its own ancestor. *)
Record wf a : Prop := mkWf {
  wf_fresh : forall i n, node_of a i = Some n -> i < a_next a;
  wf_keys : NoDup (keys (a_nodes a));
  wf_up : forall i n p, node_of a i = Some n -> n_parent n = Some p ->
    exists m, node_of a p = Some m /\ In i (n_kids m);
  wf_down : forall p m i, node_of a p = Some m -> In i (n_kids m) ->
    exists n, node_of a i = Some n /\ n_parent n = Some p;
  wf_nodup : forall p m, node_of a p = Some m -> NoDup (n_kids m);
  wf_rank : exists rank : N -> nat, forall i n p,
    node_of a i = Some n -> n_parent n = Some p -> (rank p < rank i)%nat
}.

(** [Up a i t]: [t] is [i] or an ancestor of it *)
Inductive Up a : N -> N -> Prop :=
| up_refl : forall i, Up a i i
| up_step : forall i n p t, node_of a i = Some n -> n_parent n = Some p -> Up a p t -> Up a i t.

Lemma Up_trans : forall a i j k, Up a i j -> Up a j k -> Up a i k.
Proof. induction 1; intros; auto. econstructor; eauto. Qed.

Lemma Up_one : forall a i n p, node_of a i = Some n -> n_parent n = Some p -> Up a i p.
Proof. intros. econstructor; eauto. constructor. Qed.

(** Two ancestors of a node are comparable. *)
Lemma Up_linear : forall a i j k, Up a i j -> Up a i k -> Up a j k \/ Up a k j.
Proof.
  intros a i j k u. revert k. induction u; intros k u2; auto.
  inversion u2; subst.
  - right. econstructor; eauto.
  - assert (p0 = p) by congruence. subst. auto.
Qed.

Lemma Up_live : forall a i j, wf a -> live a i -> Up a i j -> live a j.
Proof.
  intros a i j w l u. induction u; auto.
  apply IHu. destruct (wf_up _ w _ _ _ H H0) as [m [h _]]. exists m. auto.
Qed.

Lemma Up_rank : forall a i j, wf a -> Up a i j -> i = j \/ exists rank : N -> nat, (rank j < rank i)%nat.
Proof.
  intros a i j w u. destruct (wf_rank _ w) as [rank hr].
  assert (rank j < rank i \/ i = j)%nat as [h|h]; [|right; exists rank; auto|auto].
  induction u; auto. left. specialize (hr _ _ _ H H0).
  destruct IHu as [h|h]; [lia|subst; auto].
Qed.

Lemma Up_antisym : forall a i j, wf a -> Up a i j -> Up a j i -> i = j.
Proof.
  intros a i j w u v. destruct (wf_rank _ w) as [rank hr].
  assert (k : forall x y, Up a x y -> (rank y < rank x)%nat \/ x = y).
  { induction 1 as [|x n p y h1 h2 h3 IH]; auto. left. specialize (hr _ _ _ h1 h2).
    destruct IH; [lia|subst; auto]. }
  destruct (k _ _ u); auto. destruct (k _ _ v); auto. lia.
Qed.

Lemma find_set_node : forall a i j n, node_of (set_node i n a) j = if j =? i then Some n else node_of a j.
Proof. intros. unfold node_of, set_node. simpl. apply find_put. apply N.eqb_spec. Qed.

Lemma live_key : forall a i, live a i <-> In i (keys (a_nodes a)).
Proof.
  intros a i. unfold live, node_of. split.
  - intros [n h]. eapply find_some_key; eauto. apply N.eqb_spec.
  - intros h. eapply find_key; eauto. apply N.eqb_spec.
Qed.

(** ** Chains *)

(** Consecutive elements are child and parent. *)
Fixpoint chain a (l : list N) : Prop :=
  match l with
  | [] => True
  | x :: r =>
      live a x /\
      match r with
      | [] => True
      | y :: _ => exists n, node_of a x = Some n /\ n_parent n = Some y
      end /\ chain a r
  end.

Lemma chain_up : forall a l x y, chain a (x :: l) -> In y l -> exists n p,
  node_of a x = Some n /\ n_parent n = Some p /\ Up a p y.
Proof.
  induction l as [|z l IH]; intros x y c i; [contradiction|].
  destruct c as (lx & (n & h1 & h2) & c).
  destruct i as [->|i].
  - exists n, y. repeat split; auto. constructor.
  - destruct (IH z y c i) as (m & q & g1 & g2 & g3).
    exists n, z. repeat split; auto. econstructor; eauto.
Qed.

Lemma chain_nodup : forall a l, wf a -> chain a l -> NoDup l.
Proof.
  induction l as [|x l IH]; intros w c; [constructor|].
  constructor.
  - intros i. destruct (chain_up _ _ _ _ c i) as (n & p & h1 & h2 & u).
    destruct (wf_rank _ w) as [rank hr].
    assert (k : forall y z, Up a y z -> (rank z <= rank y)%nat).
    { clear - hr. induction 1 as [|i1 n1 p1 t1 g1 g2 g3 IH2]; auto. specialize (hr _ _ _ g1 g2). lia. }
    specialize (k _ _ u). specialize (hr _ _ _ h1 h2). lia.
  - apply IH; auto. destruct c as (_ & _ & c). exact c.
Qed.

Lemma chain_live : forall a l x, chain a l -> In x l -> live a x.
Proof.
  induction l as [|y l IH]; intros x c i; [contradiction|].
  destruct c as (h & _ & c). destruct i as [->|i]; auto.
Qed.

Lemma chain_short : forall a l, wf a -> chain a l -> (List.length l <= List.length (a_nodes a))%nat.
Proof.
  intros a l w c.
  replace (List.length (a_nodes a)) with (List.length (keys (a_nodes a))).
  - apply NoDup_incl_length.
    + eapply chain_nodup; eauto.
    + intros x i. apply live_key. eapply chain_live; eauto.
  - unfold keys. apply map_length.
Qed.

(** ** Ancestors *)

Lemma climb_spec : forall f a i l, climb f a i = Some l -> forall x, In x l <-> Up a i x.
Proof.
  induction f as [|f IH]; intros a i l h x; [discriminate|].
  simpl in h. destruct (node_of a i) as [n|] eqn:e; [|discriminate].
  destruct (n_parent n) as [p|] eqn:ep.
  - destruct (climb f a p) as [r|] eqn:er; [|discriminate]. injection h as <-.
    simpl. rewrite (IH _ _ _ er). split.
    + intros [->|u]; [constructor|econstructor; eauto].
    + intros u. inversion u; subst; auto.
      replace p with p0 by congruence. auto.
  - injection h as <-. simpl. split.
    + intros [->|[]]. constructor.
    + intros u. inversion u; subst; auto. congruence.
Qed.

Lemma climb_none : forall f a i, wf a -> live a i -> climb f a i = None ->
  exists l, chain a (i :: l) /\ List.length l = f.
Proof.
  induction f as [|f IH]; intros a i w li h.
  - exists []. simpl. auto.
  - simpl in h. destruct li as [n e]. rewrite e in h.
    destruct (n_parent n) as [p|] eqn:ep; [|discriminate].
    destruct (climb f a p) as [r|] eqn:er; [discriminate|].
    destruct (wf_up _ w _ _ _ e ep) as [m [e2 _]].
    destruct (IH a p w) as (l & c & hl); eauto; [exists m; auto|].
    exists (p :: l). split; [|simpl; lia].
    split; [exists n; auto|]. split; [|exact c]. eauto.
Qed.

Lemma ancestors_total : forall a i, wf a -> live a i -> exists l, ancestors a i = Some l.
Proof.
  intros a i w li. unfold ancestors.
  destruct (climb (S (List.length (a_nodes a))) a i) as [l|] eqn:e; eauto.
  destruct (climb_none _ _ _ w li e) as (l & c & hl).
  apply chain_short in c; auto. simpl in c. lia.
Qed.

Lemma ancestors_spec : forall a i l, ancestors a i = Some l -> forall x, In x l <-> Up a i x.
Proof. intros a i l h. eapply climb_spec; eauto. Qed.

Lemma climb_last : forall f a i l, climb f a i = Some l ->
  exists t n, last l t = t /\ In t l /\ node_of a t = Some n /\ n_parent n = None /\
    match rev l with x :: _ => x = t | [] => False end.
Proof.
  induction f as [|f IH]; intros a i l h; [discriminate|].
  simpl in h. destruct (node_of a i) as [n|] eqn:e; [|discriminate].
  destruct (n_parent n) as [p|] eqn:ep.
  - destruct (climb f a p) as [r|] eqn:er; [|discriminate]. injection h as <-.
    destruct (IH _ _ _ er) as (t & m & h1 & h2 & h3 & h4 & h5).
    exists t, m. repeat split; auto.
    + simpl. destruct r; auto; contradiction.
    + simpl; auto.
    + simpl. destruct (rev r); simpl; auto; contradiction.
  - injection h as <-. exists i, n. simpl. auto.
Qed.

(** The root of the tree of a node *)
Definition Root a i t : Prop := Up a i t /\ exists n, node_of a t = Some n /\ n_parent n = None.

Lemma top_spec : forall a i t, top a i = Some t -> Root a i t.
Proof.
  intros a i t h. unfold top in h. destruct (ancestors a i) as [l|] eqn:e; [|discriminate].
  pose proof (ancestors_spec _ _ _ e) as sp.
  destruct (climb_last _ _ _ _ e) as (u & n & _ & h2 & h3 & h4 & h5).
  destruct (rev l); [contradiction|]. subst. injection h as ->.
  split; [now apply sp|]. eauto.
Qed.

Lemma top_total : forall a i, wf a -> live a i -> exists t, top a i = Some t.
Proof.
  intros a i w li. destruct (ancestors_total _ _ w li) as [l e]. unfold top. rewrite e.
  destruct (climb_last _ _ _ _ e) as (u & n & _ & h2 & h3 & h4 & h5).
  destruct (rev l); [contradiction|]. eauto.
Qed.

Lemma Root_unique : forall a i t u, Root a i t -> Root a i u -> t = u.
Proof.
  intros a i t u [h1 (n & h2 & h3)] [g1 (m & g2 & g3)].
  destruct (Up_linear _ _ _ _ h1 g1) as [k|k]; inversion k; subst; auto; congruence.
Qed.

(** ** Descendants *)

Definition below_list (f : nat) a := fix go (l : list N) : option (list N) :=
  match l with
  | [] => Some []
  | c :: r =>
      match below f a c, go r with
      | Some x, Some y => Some (x ++ y)
      | _, _ => None
      end
  end.

Lemma below_S : forall f a i, below (S f) a i =
  match node_of a i with
  | None => None
  | Some n => match below_list f a (n_kids n) with Some l => Some (i :: l) | None => None end
  end.
Proof. reflexivity. Qed.

Lemma below_list_spec : forall f a ks l, below_list f a ks = Some l ->
  forall x, In x l <-> exists c lc, In c ks /\ below f a c = Some lc /\ In x lc.
Proof.
  induction ks as [|c ks IH]; intros l h x; simpl in h.
  - injection h as <-. simpl. split; [contradiction|]. intros (c & lc & [] & _).
  - destruct (below f a c) as [y|] eqn:e; [|discriminate].
    destruct (below_list f a ks) as [z|] eqn:ez; [|discriminate]. injection h as <-.
    rewrite in_app_iff, (IH _ eq_refl). split.
    + intros [i|(c' & lc & i & h & j)].
      * exists c, y. simpl. auto.
      * exists c', lc. simpl. auto.
    + intros (c' & lc & [->|i] & h & j).
      * left. congruence.
      * right. eauto.
Qed.

Lemma below_list_in : forall f a ks l c, below_list f a ks = Some l -> In c ks ->
  exists lc, below f a c = Some lc.
Proof.
  induction ks as [|c ks IH]; intros l d h i; simpl in h; [contradiction|].
  destruct (below f a c) as [y|] eqn:e; [|discriminate].
  destruct (below_list f a ks) as [z|] eqn:ez; [|discriminate].
  destruct i as [->|i]; eauto.
Qed.

Lemma below_spec : forall f a i l, wf a -> below f a i = Some l -> forall x, In x l <-> Up a x i.
Proof.
  induction f as [|f IH]; intros a i l w h x; [discriminate|].
  rewrite below_S in h. destruct (node_of a i) as [n|] eqn:e; [|discriminate].
  destruct (below_list f a (n_kids n)) as [r|] eqn:er; [|discriminate]. injection h as <-.
  simpl. rewrite (below_list_spec _ _ _ _ er). split.
  - intros [->|(c & lc & i1 & h & j)]; [constructor|].
    apply (IH _ _ _ w h) in j. destruct (wf_down _ w _ _ _ e i1) as (m & g1 & g2).
    eapply Up_trans; eauto. eapply Up_one; eauto.
  - intros u.
    assert (k : x = i \/ exists c m, Up a x c /\ node_of a c = Some m /\ n_parent m = Some i).
    { clear - u. induction u; auto. destruct IHu as [->|(c & m & h1 & h2 & h3)].
      - right. exists i, n. repeat split; auto. constructor.
      - right. exists c, m. repeat split; auto. econstructor; eauto. }
    destruct k as [->|(c & m & h1 & h2 & h3)]; auto. right.
    destruct (wf_up _ w _ _ _ h2 h3) as (n' & g1 & g2).
    assert (n' = n) by congruence. subst n'.
    destruct (below_list_in _ _ _ _ _ er g2) as [lc g3].
    exists c, lc. repeat split; auto. now apply (IH _ _ _ w g3).
Qed.

(** Downward chains *)
Lemma below_list_none : forall f a ks, below_list f a ks = None -> exists c, In c ks /\ below f a c = None.
Proof.
  induction ks as [|c ks IH]; intros h; simpl in h; [discriminate|].
  destruct (below f a c) as [y|] eqn:e; [|exists c; simpl; auto].
  destruct (below_list f a ks) as [z|] eqn:ez; [discriminate|].
  destruct (IH eq_refl) as (d & i & j). exists d. simpl. auto.
Qed.

Lemma chain_snoc : forall a l x y n, chain a (l ++ [x]) -> node_of a x = Some n ->
  n_parent n = Some y -> live a y -> chain a (l ++ [x; y]).
Proof.
  induction l as [|z l IH]; intros x y n c h1 h2 ly.
  - simpl. repeat split; auto; [exists n; auto|eauto].
  - destruct c as (c1 & c2 & c3). split; auto. split.
    + destruct l; simpl in *; auto.
    + eapply (IH x y n); eauto.
Qed.

Lemma below_none : forall f a i, wf a -> live a i -> below f a i = None ->
  exists l, chain a (l ++ [i]) /\ List.length l = f.
Proof.
  induction f as [|f IH]; intros a i w li h.
  - exists []. simpl. auto.
  - rewrite below_S in h. destruct li as [n e]. rewrite e in h.
    destruct (below_list f a (n_kids n)) as [r|] eqn:er; [discriminate|].
    destruct (below_list_none _ _ _ er) as (c & i1 & h1).
    destruct (wf_down _ w _ _ _ e i1) as (m & g1 & g2).
    destruct (IH a c w) as (l & k & hl); auto; [exists m; auto|].
    exists (l ++ [c]). split.
    + rewrite <- app_assoc. simpl. eapply chain_snoc; eauto. exists n; auto.
    + rewrite app_length. simpl. lia.
Qed.

Lemma descendants_total : forall a i, wf a -> live a i -> exists l, descendants a i = Some l.
Proof.
  intros a i w li. unfold descendants.
  destruct (below (S (List.length (a_nodes a))) a i) as [l|] eqn:e; eauto.
  destruct (below_none _ _ _ w li e) as (l & c & hl).
  apply chain_short in c; auto. rewrite app_length in c. simpl in c. lia.
Qed.

Lemma descendants_spec : forall a i l, wf a -> descendants a i = Some l ->
  forall x, In x l <-> Up a x i.
Proof. intros a i l w h. eapply below_spec; eauto. Qed.

Lemma below_fuel : forall f a i l, below f a i = Some l -> forall g, (f <= g)%nat -> below g a i = Some l.
Proof.
  induction f as [|f IH]; intros a i l h g le; [discriminate|].
  destruct g as [|g]; [lia|]. rewrite below_S in *.
  destruct (node_of a i) as [n|]; [|discriminate].
  destruct (below_list f a (n_kids n)) as [r|] eqn:er; [|discriminate].
  assert (k : below_list g a (n_kids n) = Some r).
  { clear h. revert r er. induction (n_kids n) as [|c ks IHk]; intros r er; simpl in *; auto.
    destruct (below f a c) as [y|] eqn:e; [|discriminate].
    rewrite (IH _ _ _ e g) by lia.
    destruct (below_list f a ks) as [z|] eqn:ez; [|discriminate].
    rewrite (IHk _ eq_refl). auto. }
  rewrite k. auto.
Qed.

Lemma climb_fuel : forall f a i l, climb f a i = Some l -> forall g, (f <= g)%nat -> climb g a i = Some l.
Proof.
  induction f as [|f IH]; intros a i l h g le; [discriminate|].
  destruct g as [|g]; [lia|]. simpl in *.
  destruct (node_of a i) as [n|]; [|discriminate].
  destruct (n_parent n); auto.
  destruct (climb f a n0) as [r|] eqn:er; [|discriminate].
  rewrite (IH _ _ _ er g) by lia. auto.
Qed.

(** ** Operations *)

Lemma wf_empty : wf empty_arena.
Proof.
  constructor; simpl; try discriminate.
  - constructor.
  - exists (fun _ => O). discriminate.
Qed.

Lemma node_of_new : forall d a i a', new_node d a = (i, a') ->
  i = a_next a /\ a_next a' = a_next a + 1 /\
  forall j, node_of a' j = if j =? a_next a then Some (mkAnode None [] d) else node_of a j.
Proof.
  intros d a i a' h. unfold new_node in h. injection h as <- <-. repeat split.
  intros j. unfold node_of. simpl. apply find_put. apply N.eqb_spec.
Qed.

Lemma wf_not_next : forall a, wf a -> node_of a (a_next a) = None.
Proof.
  intros a w. destruct (node_of a (a_next a)) as [n|] eqn:e; auto.
  apply (wf_fresh _ w) in e. lia.
Qed.

Lemma wf_new : forall d a i a', wf a -> new_node d a = (i, a') -> wf a'.
Proof.
  intros d a i a' w h. destruct (node_of_new _ _ _ _ h) as (hi & hn & sp).
  pose proof (wf_not_next _ w) as nx.
  constructor.
  - intros j n. rewrite sp, hn. destruct (N.eqb_spec j (a_next a)) as [ej|ej]; intros e; [lia|].
    apply (wf_fresh _ w) in e. lia.
  - unfold new_node in h. injection h as _ <-. simpl. apply nodup_put; [apply N.eqb_spec|].
    apply (wf_keys _ w).
  - intros j n p. rewrite sp. destruct (N.eqb_spec j (a_next a)).
    + intros [= <-]. discriminate.
    + intros e1 e2. destruct (wf_up _ w _ _ _ e1 e2) as (m & g1 & g2).
      exists m. rewrite sp. destruct (N.eqb_spec p (a_next a)); [congruence|auto].
  - intros p m j. rewrite !sp. destruct (N.eqb_spec p (a_next a)) as [ep|ep].
    + intros [= <-] [].
    + intros e i1. destruct (wf_down _ w _ _ _ e i1) as (n0 & g1 & g2).
      exists n0. destruct (N.eqb_spec j (a_next a)); [congruence|auto].
  - intros p m. rewrite sp. destruct (N.eqb_spec p (a_next a)).
    + intros [= <-]. constructor.
    + apply (wf_nodup _ w).
  - destruct (wf_rank _ w) as [rank hr]. exists rank. intros j n p. rewrite sp.
    destruct (N.eqb_spec j (a_next a)); [intros [= <-]; discriminate|]. apply hr.
Qed.

Lemma node_of_update : forall i f a a', update i f a = Some a' ->
  a_next a' = a_next a /\ live a i /\
  forall j, node_of a' j =
    match node_of a j with
    | Some n => Some (mkAnode (n_parent n) (n_kids n) (if j =? i then f (n_data n) else n_data n))
    | None => None
    end.
Proof.
  intros i f a a' h. unfold update in h. destruct (node_of a i) as [n|] eqn:e; [|discriminate].
  injection h as <-. repeat split; [exists n; auto|].
  intros j. rewrite find_set_node. destruct (N.eqb_spec j i) as [->|].
  - rewrite e. auto.
  - destruct (node_of a j) as [[]|]; auto.
Qed.

(** Changing data only *)
Lemma wf_same_shape : forall a a',
  wf a -> a_next a' = a_next a -> NoDup (keys (a_nodes a')) ->
  (forall j, opt_map (fun n => (n_parent n, n_kids n)) (node_of a' j) =
             opt_map (fun n => (n_parent n, n_kids n)) (node_of a j)) ->
  wf a'.
Proof.
  intros a a' w hn nd sp.
  assert (k : forall j n', node_of a' j = Some n' -> exists n, node_of a j = Some n /\
    n_parent n = n_parent n' /\ n_kids n = n_kids n').
  { intros j n' e. specialize (sp j). rewrite e in sp. simpl in sp.
    destruct (node_of a j) as [n|]; [|discriminate]. injection sp as h1 h2. exists n. auto. }
  assert (k2 : forall j n, node_of a j = Some n -> exists n', node_of a' j = Some n' /\
    n_parent n' = n_parent n /\ n_kids n' = n_kids n).
  { intros j n e. specialize (sp j). rewrite e in sp. simpl in sp.
    destruct (node_of a' j) as [n'|]; [|discriminate]. injection sp as h1 h2. exists n'. auto. }
  constructor; auto.
  - intros i n e. rewrite hn. destruct (k _ _ e) as (m & h & _). eapply wf_fresh; eauto.
  - intros i n p e ep. destruct (k _ _ e) as (m & h1 & h2 & h3).
    destruct (wf_up _ w i m p) as (q & g1 & g2); [auto|congruence|].
    destruct (k2 _ _ g1) as (q' & f1 & f2 & f3). exists q'. rewrite f3. auto.
  - intros p m i e ip. destruct (k _ _ e) as (m0 & h1 & h2 & h3).
    destruct (wf_down _ w p m0 i) as (q & g1 & g2); [auto|congruence|].
    destruct (k2 _ _ g1) as (q' & f1 & f2 & f3). exists q'. rewrite f2. auto.
  - intros p m e. destruct (k _ _ e) as (m0 & h1 & h2 & h3). rewrite <- h3.
    eapply wf_nodup; eauto.
  - destruct (wf_rank _ w) as [rank hr]. exists rank. intros i n p e ep.
    destruct (k _ _ e) as (m0 & h1 & h2 & h3). eapply hr; eauto. congruence.
Qed.

Lemma wf_update : forall i f a a', wf a -> update i f a = Some a' -> wf a'.
Proof.
  intros i f a a' w h. destruct (node_of_update _ _ _ _ h) as (hn & _ & sp).
  apply wf_same_shape with (a := a); auto.
  - unfold update in h. destruct (node_of a i); [|discriminate]. injection h as <-.
    simpl. apply nodup_put; [apply N.eqb_spec|]. apply (wf_keys _ w).
  - intros j. rewrite sp. destruct (node_of a j); auto.
Qed.

(** *** append *)

Lemma filter_none : forall (c : N) l, ~ In c l -> filter (fun x => negb (x =? c)) l = l.
Proof.
  induction l as [|x l IH]; intros n; simpl; auto.
  destruct (N.eqb_spec x c); simpl.
  - exfalso. apply n. simpl. auto.
  - f_equal. apply IH. intros i. apply n. simpl. auto.
Qed.

Definition appended (p c : N) a (j : N) : option (anode T) :=
  match node_of a j with
  | Some n => Some (mkAnode (if j =? c then Some p else n_parent n)
                      (filter (fun x => negb (x =? c)) (n_kids n) ++ (if j =? p then [c] else []))
                      (n_data n))
  | None => None
  end.

Lemma wf_kid_parent : forall a j m c n, wf a -> node_of a j = Some m -> In c (n_kids m) ->
  node_of a c = Some n -> n_parent n = Some j.
Proof.
  intros a j m c n w e i h. destruct (wf_down _ w _ _ _ e i) as (n' & h1 & h2). congruence.
Qed.

Lemma keys_set_node : forall i n a, NoDup (keys (a_nodes a)) -> NoDup (keys (a_nodes (set_node i n a))).
Proof. intros. simpl. apply nodup_put; auto. apply N.eqb_spec. Qed.

Lemma node_of_append : forall p c a a', wf a -> append p c a = Some a' ->
  a_next a' = a_next a /\ NoDup (keys (a_nodes a')) /\ live a p /\ live a c /\ ~ Up a p c /\
  forall j, node_of a' j = appended p c a j.
Proof.
  intros p c a a' w h. unfold append in h.
  destruct (ancestors a p) as [up|] eqn:ea; [|discriminate].
  destruct (node_of a c) as [n|] eqn:ec; [|discriminate].
  destruct (existsb (N.eqb c) up) eqn:ex; [discriminate|].
  assert (nu : ~ Up a p c).
  { intros u. apply (ancestors_spec _ _ _ ea) in u.
    assert (existsb (N.eqb c) up = true) by (apply existsb_exists; exists c; rewrite N.eqb_refl; auto).
    congruence. }
  assert (pc : p <> c) by (intros ->; apply nu; constructor).
  assert (lp : exists np, node_of a p = Some np).
  { unfold ancestors in ea. simpl in ea. destruct (node_of a p); eauto. discriminate. }
  destruct lp as [np ep].
  set (a1 := unlink (n_parent n) c a) in *.
  assert (sp1 : forall j, node_of a1 j =
    match node_of a j with
    | Some m => Some (mkAnode (n_parent m) (filter (fun x => negb (x =? c)) (n_kids m)) (n_data m))
    | None => None
    end).
  { intros j. unfold a1, unlink. destruct (n_parent n) as [q|] eqn:eq.
    - destruct (wf_up _ w _ _ _ ec eq) as (m & em & im). rewrite em, find_set_node.
      destruct (N.eqb_spec j q) as [->|ne]; [rewrite em; auto|].
      destruct (node_of a j) as [mj|] eqn:ej; auto.
      rewrite filter_none; [destruct mj; auto|].
      intros i. pose proof (wf_kid_parent _ _ _ _ _ w ej i ec). congruence.
    - destruct (node_of a j) as [mj|] eqn:ej; auto.
      rewrite filter_none; [destruct mj; auto|].
      intros i. pose proof (wf_kid_parent _ _ _ _ _ w ej i ec). congruence. }
  assert (k1 : NoDup (keys (a_nodes a1))).
  { unfold a1, unlink. destruct (n_parent n) as [q|]; [|apply (wf_keys _ w)].
    destruct (node_of a q); [|apply (wf_keys _ w)]. apply keys_set_node. apply (wf_keys _ w). }
  assert (n1 : a_next a1 = a_next a).
  { unfold a1, unlink. destruct (n_parent n) as [q|]; auto. destruct (node_of a q); auto. }
  set (a2 := set_node c (mkAnode (Some p) (n_kids n) (n_data n)) a1) in *.
  assert (e2 : node_of a2 p = Some (mkAnode (n_parent np)
     (filter (fun x => negb (x =? c)) (n_kids np)) (n_data np))).
  { unfold a2. rewrite find_set_node, (proj2 (N.eqb_neq _ _) pc), sp1, ep. auto. }
  rewrite e2 in h. injection h as <-.
  repeat split.
  - simpl. exact n1.
  - apply keys_set_node. apply keys_set_node. auto.
  - exists np; auto.
  - exists n; auto.
  - auto.
  - intros j. unfold appended. rewrite find_set_node. destruct (N.eqb_spec j p) as [->|np1].
    + rewrite ep. simpl. rewrite (proj2 (N.eqb_neq _ _) pc). auto.
    + unfold a2. rewrite find_set_node. destruct (N.eqb_spec j c) as [->|nc].
      * rewrite ec. simpl. rewrite app_nil_r, filter_none; auto.
        intros i. pose proof (wf_kid_parent _ _ _ _ _ w ec i ec).
        destruct (wf_rank _ w) as [rank hr]. specialize (hr _ _ _ ec H). lia.
      * rewrite sp1. destruct (node_of a j); simpl; auto. rewrite app_nil_r. auto.
Qed.

Lemma wf_append : forall p c a a', wf a -> append p c a = Some a' -> wf a'.
Proof.
  intros p c a a' w h.
  destruct (node_of_append _ _ _ _ w h) as (hn & nd & lp & lc & nu & sp).
  assert (pc : p <> c) by (intros ->; apply nu; constructor).
  assert (fw : forall j n, node_of a j = Some n -> node_of a' j = Some
    (mkAnode (if j =? c then Some p else n_parent n)
       (filter (fun x => negb (x =? c)) (n_kids n) ++ (if j =? p then [c] else [])) (n_data n))).
  { intros j n e. rewrite sp. unfold appended. rewrite e. auto. }
  assert (bw : forall j n', node_of a' j = Some n' -> exists n, node_of a j = Some n /\ n' =
    mkAnode (if j =? c then Some p else n_parent n)
       (filter (fun x => negb (x =? c)) (n_kids n) ++ (if j =? p then [c] else [])) (n_data n)).
  { intros j n' e. rewrite sp in e. unfold appended in e. destruct (node_of a j) as [n|]; [|discriminate].
    injection e as <-. eauto. }
  constructor; auto.
  - intros i n' e. rewrite hn. destruct (bw _ _ e) as (n & h1 & _). eapply wf_fresh; eauto.
  - intros i n' q e eq. destruct (bw _ _ e) as (n & h1 & ->). simpl in eq.
    destruct (N.eqb_spec i c) as [->|ne].
    + injection eq as <-. destruct lp as [np ep]. eexists. split; [apply (fw _ _ ep)|].
      simpl. rewrite N.eqb_refl. apply in_or_app. right. left. auto.
    + destruct (wf_up _ w _ _ _ h1 eq) as (m & g1 & g2). eexists. split; [apply (fw _ _ g1)|].
      simpl. apply in_or_app. left. apply filter_In. split; auto.
      now rewrite (proj2 (N.eqb_neq _ _) ne).
  - intros q m' i e iq. destruct (bw _ _ e) as (m & h1 & ->). simpl in iq.
    apply in_app_or in iq as [iq|iq].
    + apply filter_In in iq as [iq nc]. destruct (N.eqb_spec i c) as [|ne]; [discriminate|].
      destruct (wf_down _ w _ _ _ h1 iq) as (n & g1 & g2). eexists. split; [apply (fw _ _ g1)|].
      simpl. rewrite (proj2 (N.eqb_neq _ _) ne). auto.
    + destruct (N.eqb_spec q p) as [->|]; [|contradiction]. destruct iq as [<-|[]].
      destruct lc as [nc ec]. eexists. split; [apply (fw _ _ ec)|]. simpl. rewrite N.eqb_refl. auto.
  - intros q m' e. destruct (bw _ _ e) as (m & h1 & ->). simpl.
    assert (nf : NoDup (filter (fun x => negb (x =? c)) (n_kids m))).
    { apply NoDup_filter. eapply wf_nodup; eauto. }
    destruct (q =? p); [|rewrite app_nil_r; auto].
    apply (Permutation_NoDup (Permutation_cons_append _ _)).
    constructor; auto. intros i. apply filter_In in i as [_ i]. rewrite N.eqb_refl in i. discriminate.
  - destruct (wf_rank _ w) as [rank hr].
    exists (fun x => match ancestors a x with
                     | Some l => if existsb (N.eqb c) l then (rank x + rank p + 1)%nat else rank x
                     | None => rank x
                     end).
    assert (rk : forall x, live a x ->
      (Up a x c /\ match ancestors a x with
        | Some l => if existsb (N.eqb c) l then (rank x + rank p + 1)%nat else rank x
        | None => rank x end = (rank x + rank p + 1)%nat) \/
      (~ Up a x c /\ match ancestors a x with
        | Some l => if existsb (N.eqb c) l then (rank x + rank p + 1)%nat else rank x
        | None => rank x end = rank x)).
    { intros x lx. destruct (ancestors_total _ _ w lx) as [l e]. rewrite e.
      pose proof (ancestors_spec _ _ _ e) as s. destruct (existsb (N.eqb c) l) eqn:ex.
      - left. split; auto. apply s. apply existsb_exists in ex as (y & i & ey).
        apply N.eqb_eq in ey. subst. auto.
      - right. split; auto. intros u. apply s in u.
        assert (existsb (N.eqb c) l = true); [|congruence].
        apply existsb_exists. exists c. rewrite N.eqb_refl. auto. }
    intros i n' q e eq. destruct (bw _ _ e) as (n & h1 & ->). simpl in eq.
    destruct (N.eqb_spec i c) as [->|ne].
    + injection eq as <-.
      destruct (rk p lp) as [[u _]|[_ ->]]; [contradiction|].
      destruct (rk c lc) as [[_ ->]|[u _]]; [lia|]. exfalso. apply u. constructor.
    + destruct (wf_up _ w _ _ _ h1 eq) as (m & g1 & g2).
      specialize (hr _ _ _ h1 eq).
      destruct (rk q) as [[u ->]|[u ->]]; [exists m; auto| |];
      destruct (rk i) as [[v ->]|[v ->]]; try (exists n; auto); try lia.
      exfalso. apply v. econstructor; eauto.
Qed.

Lemma append_total : forall p c a, wf a -> live a p -> live a c -> ~ Up a p c ->
  exists a', append p c a = Some a'.
Proof.
  intros p c a w lp lc nu. unfold append.
  destruct (ancestors_total _ _ w lp) as [up e]. rewrite e.
  destruct lc as [n ec]. rewrite ec.
  destruct (existsb (N.eqb c) up) eqn:ex.
  { exfalso. apply nu. apply (ancestors_spec _ _ _ e).
    apply existsb_exists in ex as (y & i & ey). apply N.eqb_eq in ey. subst. auto. }
  assert (pc : p <> c) by (intros ->; apply nu; constructor).
  rewrite find_set_node, (proj2 (N.eqb_neq _ _) pc).
  destruct lp as [np ep].
  assert (l : exists m, node_of (unlink (n_parent n) c a) p = Some m).
  { unfold unlink. destruct (n_parent n) as [q|]; eauto.
    destruct (node_of a q) eqn:eq; eauto. rewrite find_set_node. destruct (p =? q); eauto. }
  destruct l as [m em]. rewrite em. eauto.
Qed.


(** *** remove *)

Lemma splice_none : forall i mid l, ~ In i l -> splice i mid l = l.
Proof.
  induction l as [|x l IH]; intros n; simpl; auto.
  destruct (N.eqb_spec x i); [exfalso; apply n; simpl; auto|].
  f_equal. apply IH. intros h. apply n. simpl. auto.
Qed.

Lemma splice_in : forall i mid l, NoDup l -> In i l ->
  forall x, In x (splice i mid l) <-> In x mid \/ (In x l /\ x <> i).
Proof.
  induction l as [|y l IH]; intros nd h x; [contradiction|].
  inversion nd; subst. simpl. destruct (N.eqb_spec y i) as [->|ne].
  - rewrite in_app_iff. split.
    + intros [h1|h1]; auto. right. split; auto. intros ->. contradiction.
    + intros [h1|[[h1|h1] h4]]; auto. congruence.
  - destruct h as [h|h]; [congruence|]. simpl. rewrite (IH H2 h). split.
    + intros [->|[h1|[h1 h4]]]; auto.
    + intros [h1|[[h1|h1] h4]]; auto.
Qed.

Lemma splice_nodup : forall i mid l, NoDup l -> NoDup mid -> (forall x, In x mid -> ~ In x l) ->
  NoDup (splice i mid l).
Proof.
  induction l as [|y l IH]; intros nd nm dj; simpl; [constructor|].
  inversion nd; subst. destruct (N.eqb_spec y i) as [->|ne].
  - clear IH. induction mid as [|z mid IH]; simpl; auto.
    inversion nm; subst. constructor.
    + rewrite in_app_iff. intros [h|h]; auto. apply (dj z); simpl; auto.
    + apply IH; auto. intros x h. apply dj. simpl; auto.
  - assert (dj2 : forall x, In x mid -> ~ In x l) by (intros x h g; apply (dj x); simpl; auto).
    constructor; auto. intros h.
    destruct (in_dec N.eq_dec i l) as [il|il].
    + apply splice_in in h; auto. destruct h as [h|[h _]]; auto. apply (dj y h). simpl; auto.
    + rewrite splice_none in h by auto. auto.
Qed.

Definition removed (i : N) (ni : anode T) a (j : N) : option (anode T) :=
  if j =? i then None
  else match node_of a j with
       | Some n => Some (mkAnode (match n_parent n with
                                  | Some p => if p =? i then n_parent ni else Some p
                                  | None => None
                                  end) (splice i (n_kids ni) (n_kids n)) (n_data n))
       | None => None
       end.

Lemma node_of_adopt : forall q ks a j,
  node_of (fold_left (fun a c =>
      match node_of a c with
      | Some m => set_node c (mkAnode q (n_kids m) (n_data m)) a
      | None => a
      end) ks a) j =
  match node_of a j with
  | Some m => Some (mkAnode (if existsb (N.eqb j) ks then q else n_parent m) (n_kids m) (n_data m))
  | None => None
  end.
Proof.
  induction ks as [|c ks IH]; intros a j; simpl.
  - destruct (node_of a j) as [[]|]; auto.
  - rewrite IH. destruct (node_of a c) as [m|] eqn:e.
    + rewrite find_set_node. destruct (N.eqb_spec j c) as [->|]; simpl.
      * rewrite e. destruct (existsb (N.eqb c) ks); auto.
      * auto.
    + destruct (N.eqb_spec j c) as [->|]; simpl; [|auto]. rewrite e. auto.
Qed.

Lemma keys_adopt : forall q ks a, NoDup (keys (a_nodes a)) ->
  NoDup (keys (a_nodes (fold_left (fun a c =>
      match node_of a c with
      | Some m => set_node c (mkAnode q (n_kids m) (n_data m)) a
      | None => a
      end) ks a))).
Proof.
  induction ks as [|c ks IH]; intros a nd; simpl; auto.
  apply IH. destruct (node_of a c); auto. now apply keys_set_node.
Qed.

Lemma next_adopt : forall q ks a,
  a_next (fold_left (fun a c =>
      match node_of a c with
      | Some m => set_node c (mkAnode q (n_kids m) (n_data m)) a
      | None => a
      end) ks a) = a_next a.
Proof.
  induction ks as [|c ks IH]; intros a; simpl; auto.
  rewrite IH. destruct (node_of a c); auto.
Qed.

Lemma no_self_parent : forall a i n, wf a -> node_of a i = Some n -> n_parent n <> Some i.
Proof.
  intros a i n w e h. destruct (wf_rank _ w) as [rank hr]. specialize (hr _ _ _ e h). lia.
Qed.

Lemma existsb_eqb : forall x l, existsb (N.eqb x) l = true <-> In x l.
Proof.
  intros. rewrite existsb_exists. split.
  - intros (y & i & e). apply N.eqb_eq in e. subst. auto.
  - intros i. exists x. rewrite N.eqb_refl. auto.
Qed.

Lemma existsb_eqb_not : forall x l, ~ In x l -> existsb (N.eqb x) l = false.
Proof.
  intros x l h. destruct (existsb (N.eqb x) l) eqn:e; auto. apply existsb_eqb in e. contradiction.
Qed.

Lemma node_of_remove : forall i a a', wf a -> remove i a = Some a' ->
  exists ni, node_of a i = Some ni /\ a_next a' = a_next a /\ NoDup (keys (a_nodes a')) /\
  forall j, node_of a' j = removed i ni a j.
Proof.
  intros i a a' w h. unfold remove in h.
  destruct (node_of a i) as [ni|] eqn:ei; [|discriminate].
  exists ni. split; auto.
  set (a1 := mkArena (a_next a) (del N.eqb i (a_nodes a))) in *.
  assert (s1 : forall j, node_of a1 j = if j =? i then None else node_of a j).
  { intros j. unfold a1, node_of. simpl. rewrite find_del by apply N.eqb_spec.
    rewrite N.eqb_sym. auto. }
  assert (k1 : NoDup (keys (a_nodes a1))) by (apply nodup_del; apply (wf_keys _ w)).
  set (a2 := fold_left _ (n_kids ni) a1) in *.
  assert (s2 : forall j, node_of a2 j = match node_of a1 j with
      | Some m => Some (mkAnode (if existsb (N.eqb j) (n_kids ni) then n_parent ni else n_parent m)
                          (n_kids m) (n_data m))
      | None => None end) by (intros; unfold a2; apply node_of_adopt).
  assert (k2 : NoDup (keys (a_nodes a2))) by (unfold a2; now apply keys_adopt).
  assert (n2 : a_next a2 = a_next a) by (unfold a2; now rewrite next_adopt).
  assert (par : forall j m, node_of a j = Some m ->
    (if existsb (N.eqb j) (n_kids ni) then n_parent ni else n_parent m) =
    match n_parent m with
    | Some p => if p =? i then n_parent ni else Some p
    | None => None
    end).
  { intros j m e. destruct (existsb (N.eqb j) (n_kids ni)) eqn:ex.
    - apply existsb_eqb in ex. rewrite (wf_kid_parent _ _ _ _ _ w ei ex e).
      rewrite N.eqb_refl. auto.
    - destruct (n_parent m) as [p|] eqn:ep; auto.
      destruct (N.eqb_spec p i) as [->|]; auto.
      destruct (wf_up _ w _ _ _ e ep) as (ni' & g1 & g2).
      assert (ni' = ni) by congruence. subst.
      apply existsb_eqb in g2. congruence. }
  assert (notin : forall j m, node_of a j = Some m -> n_parent ni <> Some j -> ~ In i (n_kids m)).
  { intros j m e np hin. apply np. eapply wf_kid_parent; eauto. }
  destruct (n_parent ni) as [p|] eqn:ep.
  - destruct (wf_up _ w _ _ _ ei ep) as (mp & emp & imp).
    assert (pi : p <> i). { intros ->. apply (no_self_parent _ _ _ w ei); auto. }
    assert (e2 : node_of a2 p = Some (mkAnode (match n_parent mp with
        | Some q => if q =? i then Some p else Some q | None => None end) (n_kids mp) (n_data mp))).
    { rewrite s2, s1, (proj2 (N.eqb_neq _ _) pi), emp.
      rewrite (par _ _ emp). auto. }
    rewrite e2 in h. injection h as <-. repeat split; auto.
    + apply keys_set_node; auto.
    + intros j. unfold removed. rewrite find_set_node. destruct (N.eqb_spec j p) as [->|jp].
      * rewrite (proj2 (N.eqb_neq _ _) pi), emp. simpl. rewrite ep. auto.
      * rewrite s2, s1. destruct (N.eqb_spec j i); auto.
        destruct (node_of a j) as [m|] eqn:ej; auto.
        rewrite (par _ _ ej), ?ep, splice_none; auto.
        eapply notin; eauto. congruence.
  - injection h as <-. repeat split; auto.
    intros j. unfold removed. rewrite s2, s1. destruct (N.eqb_spec j i); auto.
    destruct (node_of a j) as [m|] eqn:ej; auto.
    rewrite (par _ _ ej), ?ep, splice_none; auto.
    eapply notin; eauto. congruence.
Qed.

Lemma wf_remove : forall i a a', wf a -> remove i a = Some a' -> wf a'.
Proof.
  intros i a a' w h.
  destruct (node_of_remove _ _ _ w h) as (ni & ei & hn & nd & sp).
  assert (fw : forall j n, j <> i -> node_of a j = Some n -> node_of a' j = Some
    (mkAnode (match n_parent n with
              | Some p => if p =? i then n_parent ni else Some p
              | None => None
              end) (splice i (n_kids ni) (n_kids n)) (n_data n))).
  { intros j n ne e. rewrite sp. unfold removed. rewrite (proj2 (N.eqb_neq _ _) ne), e. auto. }
  assert (bw : forall j n', node_of a' j = Some n' -> exists n, j <> i /\ node_of a j = Some n /\ n' =
    (mkAnode (match n_parent n with
              | Some p => if p =? i then n_parent ni else Some p
              | None => None
              end) (splice i (n_kids ni) (n_kids n)) (n_data n))).
  { intros j n' e. rewrite sp in e. unfold removed in e.
    destruct (N.eqb_spec j i); [discriminate|]. destruct (node_of a j) as [n0|]; [|discriminate].
    injection e as <-. eauto. }
  constructor; auto.
  - intros j n' e. rewrite hn. destruct (bw _ _ e) as (n & _ & h1 & _). eapply wf_fresh; eauto.
  - intros j n' q e eq. destruct (bw _ _ e) as (n & ne & h1 & ->). simpl in eq.
    destruct (n_parent n) as [p|] eqn:ep; [|discriminate].
    destruct (wf_up _ w _ _ _ h1 ep) as (m & g1 & g2).
    destruct (N.eqb_spec p i) as [->|npi].
    + assert (m = ni) by congruence. subst m.
      destruct (wf_up _ w _ _ _ ei eq) as (mq & f1 & f2).
      assert (q <> i) by (intros ->; apply (no_self_parent _ _ _ w ei); auto).
      eexists. split; [apply fw; eauto|]. simpl.
      apply splice_in; auto. eapply wf_nodup; eauto.
    + injection eq as <-. eexists. split; [apply fw; eauto|]. simpl.
      destruct (in_dec N.eq_dec i (n_kids m)) as [ii|ii].
      * apply splice_in; auto. eapply wf_nodup; eauto.
      * rewrite splice_none; auto.
  - intros q m' j e iq. destruct (bw _ _ e) as (m & ne & h1 & ->). simpl in iq.
    destruct (in_dec N.eq_dec i (n_kids m)) as [ii|ii].
    + apply splice_in in iq; auto; [|eapply wf_nodup; eauto].
      assert (pi : n_parent ni = Some q) by (eapply wf_kid_parent; eauto).
      destruct iq as [iq|[iq nj]].
      * destruct (wf_down _ w _ _ _ ei iq) as (n & f1 & f2).
        assert (j <> i) by (intros ->; apply (no_self_parent _ _ _ w f1); auto).
        eexists. split; [apply fw; eauto|]. simpl. rewrite f2, N.eqb_refl. auto.
      * destruct (wf_down _ w _ _ _ h1 iq) as (n & f1 & f2).
        eexists. split; [apply fw; eauto|]. simpl. rewrite f2, (proj2 (N.eqb_neq _ _) ne). auto.
    + rewrite splice_none in iq by auto. destruct (wf_down _ w _ _ _ h1 iq) as (n & f1 & f2).
      assert (j <> i) by (intros ->; contradiction).
      eexists. split; [apply fw; eauto|]. simpl. rewrite f2, (proj2 (N.eqb_neq _ _) ne). auto.
  - intros q m' e. destruct (bw _ _ e) as (m & ne & h1 & ->). simpl.
    apply splice_nodup; [eapply wf_nodup; eauto|eapply wf_nodup; eauto|].
    intros x i1 i2. destruct (wf_down _ w _ _ _ ei i1) as (n & f1 & f2).
    destruct (wf_down _ w _ _ _ h1 i2) as (n2 & f3 & f4). congruence.
  - destruct (wf_rank _ w) as [rank hr]. exists rank.
    intros j n' q e eq. destruct (bw _ _ e) as (n & ne & h1 & ->). simpl in eq.
    destruct (n_parent n) as [p|] eqn:ep; [|discriminate].
    pose proof (hr _ _ _ h1 ep). destruct (N.eqb_spec p i) as [->|npi].
    + pose proof (hr _ _ _ ei eq). lia.
    + injection eq as <-. auto.
Qed.

Lemma remove_total : forall i a, live a i -> exists a', remove i a = Some a'.
Proof.
  intros i a [n e]. unfold remove. rewrite e. destruct (n_parent n); eauto.
  match goal with |- context [node_of ?x n0] => destruct (node_of x n0) end; eauto.
Qed.

(** *** remove_subtree *)

Definition pruned (i : N) (l : list N) a (j : N) : option (anode T) :=
  if existsb (N.eqb j) l then None
  else match node_of a j with
       | Some n => Some (mkAnode (n_parent n) (filter (fun x => negb (x =? i)) (n_kids n)) (n_data n))
       | None => None
       end.

Lemma node_of_prune : forall i a a', wf a -> remove_subtree i a = Some a' ->
  exists l, descendants a i = Some l /\ live a i /\ a_next a' = a_next a /\
  NoDup (keys (a_nodes a')) /\ forall j, node_of a' j = pruned i l a j.
Proof.
  intros i a a' w h. unfold remove_subtree in h.
  destruct (node_of a i) as [n|] eqn:e; [|discriminate].
  destruct (descendants a i) as [l|] eqn:el; [|discriminate]. injection h as <-.
  exists l. split; auto. split; [exists n; auto|].
  set (a1 := unlink (n_parent n) i a) in *.
  assert (sp1 : forall j, node_of a1 j =
    match node_of a j with
    | Some m => Some (mkAnode (n_parent m) (filter (fun x => negb (x =? i)) (n_kids m)) (n_data m))
    | None => None
    end).
  { intros j. unfold a1, unlink. destruct (n_parent n) as [q|] eqn:eq.
    - destruct (wf_up _ w _ _ _ e eq) as (m & em & im). rewrite em, find_set_node.
      destruct (N.eqb_spec j q) as [->|ne]; [rewrite em; auto|].
      destruct (node_of a j) as [mj|] eqn:ej; auto.
      rewrite filter_none; [destruct mj; auto|].
      intros i1. pose proof (wf_kid_parent _ _ _ _ _ w ej i1 e). congruence.
    - destruct (node_of a j) as [mj|] eqn:ej; auto.
      rewrite filter_none; [destruct mj; auto|].
      intros i1. pose proof (wf_kid_parent _ _ _ _ _ w ej i1 e). congruence. }
  repeat split.
  - simpl. unfold a1, unlink. destruct (n_parent n) as [q|]; auto. destruct (node_of a q); auto.
  - simpl. apply nodup_filter. unfold a1, unlink. destruct (n_parent n) as [q|]; [|apply (wf_keys _ w)].
    destruct (node_of a q); [|apply (wf_keys _ w)]. apply keys_set_node. apply (wf_keys _ w).
  - intros j. unfold pruned. rewrite <- sp1. unfold node_of at 1. simpl.
    rewrite (find_filter_key N.eqb N.eqb_spec (fun k => negb (existsb (N.eqb k) l))).
    destruct (existsb (N.eqb j) l); auto.
Qed.

(** Nodes outside of the subtree keep everything but the child [i]. *)
Lemma node_of_prune_spec : forall i a a', wf a -> remove_subtree i a = Some a' ->
  (forall j, Up a j i -> node_of a' j = None) /\
  (forall j, ~ Up a j i -> node_of a' j =
    match node_of a j with
    | Some n => Some (mkAnode (n_parent n) (filter (fun x => negb (x =? i)) (n_kids n)) (n_data n))
    | None => None
    end).
Proof.
  intros i a a' w h. destruct (node_of_prune _ _ _ w h) as (l & el & _ & _ & _ & sp).
  pose proof (descendants_spec _ _ _ w el) as ds. split; intros j u; rewrite sp; unfold pruned.
  - apply ds in u. apply existsb_eqb in u. rewrite u. auto.
  - rewrite existsb_eqb_not; auto. intros k. apply ds in k. contradiction.
Qed.

Lemma wf_prune : forall i a a', wf a -> remove_subtree i a = Some a' -> wf a'.
Proof.
  intros i a a' w h.
  destruct (node_of_prune _ _ _ w h) as (l & el & li & hn & nd & sp).
  pose proof (descendants_spec _ _ _ w el) as ds.
  assert (fw : forall j n, ~ Up a j i -> node_of a j = Some n -> node_of a' j = Some
    (mkAnode (n_parent n) (filter (fun x => negb (x =? i)) (n_kids n)) (n_data n))).
  { intros j n ne e. rewrite sp. unfold pruned. rewrite existsb_eqb_not, e; auto.
    intros k. apply ds in k. contradiction. }
  assert (bw : forall j n', node_of a' j = Some n' -> exists n, ~ Up a j i /\ node_of a j = Some n /\
    n' = mkAnode (n_parent n) (filter (fun x => negb (x =? i)) (n_kids n)) (n_data n)).
  { intros j n' e. rewrite sp in e. unfold pruned in e.
    destruct (existsb (N.eqb j) l) eqn:ex; [discriminate|].
    destruct (node_of a j) as [n0|]; [|discriminate].
    injection e as <-. exists n0. repeat split; auto. intros u. apply ds, existsb_eqb in u. congruence. }
  constructor; auto.
  - intros j n' e. rewrite hn. destruct (bw _ _ e) as (n & _ & h1 & _). eapply wf_fresh; eauto.
  - intros j n' q e eq. destruct (bw _ _ e) as (n & ne & h1 & ->). simpl in eq.
    destruct (wf_up _ w _ _ _ h1 eq) as (m & g1 & g2).
    assert (nq : ~ Up a q i). { intros u. apply ne. econstructor; eauto. }
    eexists. split; [apply fw; eauto|]. simpl. apply filter_In. split; auto.
    destruct (N.eqb_spec j i) as [->|]; auto. exfalso. apply ne. constructor.
  - intros q m' j e iq. destruct (bw _ _ e) as (m & ne & h1 & ->). simpl in iq.
    apply filter_In in iq as [iq ni]. destruct (N.eqb_spec j i) as [|nji]; [discriminate|].
    destruct (wf_down _ w _ _ _ h1 iq) as (n & g1 & g2).
    assert (nj : ~ Up a j i).
    { intros u. inversion u; subst; [congruence|]. apply ne. replace q with p; auto. congruence. }
    eexists. split; [apply fw; eauto|]. auto.
  - intros q m' e. destruct (bw _ _ e) as (m & ne & h1 & ->). simpl. apply NoDup_filter.
    eapply wf_nodup; eauto.
  - destruct (wf_rank _ w) as [rank hr]. exists rank.
    intros j n' q e eq. destruct (bw _ _ e) as (n & ne & h1 & ->). eapply hr; eauto.
Qed.

Lemma prune_total : forall i a, wf a -> live a i -> exists a', remove_subtree i a = Some a'.
Proof.
  intros i a w li. destruct (descendants_total _ _ w li) as [l e]. destruct li as [n en].
  unfold remove_subtree. rewrite en, e. eauto.
Qed.

End Facts.
