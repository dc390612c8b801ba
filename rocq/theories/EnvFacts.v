(** Facts about computations over the symbol arena: what every step of the
    resolver leaves alone. *)

From Verif Require Import Base Token Node Assoc AssocFacts Arena ArenaFacts Symbol EnvMonad.

(** * Inversion *)

Lemma ebind_done : forall S A B (m : E S A) (f : A -> E S B) s y s',
  ebind m f s = Done y s' -> exists x t, m s = Done x t /\ f x t = Done y s'.
Proof. unfold ebind. intros. destruct (m s) eqn:e; try discriminate. eauto. Qed.

Lemma eopt_done : forall S A (o : option A) (s : S) x s', eopt o s = Done x s' -> o = Some x /\ s' = s.
Proof. intros S A [a|] s x s' h; [injection h as -> ->; auto|discriminate]. Qed.

(** * Relations between arenas *)

(** What the model needs to know of a relation "the arena has grown from [a]
    to [a']" *)
Record growth (G : arena Symbol -> arena Symbol -> Prop) : Prop := {
  gr_refl : forall a, wf a -> G a a;
  gr_trans : forall a b c, wf a -> G a b -> G b c -> G a c;
  gr_wf : forall a b, wf a -> G a b -> wf b;
  gr_live : forall a b i, wf a -> G a b -> live a i -> live b i
}.

(** Nothing but the data types of symbols changes. *)
Definition same_sym (d d' : Symbol) : Prop := with_types [] d' = with_types [] d.

Lemma same_sym_refl : forall d, same_sym d d.
Proof. reflexivity. Qed.
Lemma same_sym_trans : forall a b c, same_sym a b -> same_sym b c -> same_sym a c.
Proof. unfold same_sym. congruence. Qed.
Lemma same_with_types : forall l d, same_sym d (with_types l d).
Proof. reflexivity. Qed.

(** The arena may have new nodes and nodes may have moved; no node is lost. *)
Record drifts (a a' : arena Symbol) : Prop := {
  df_wf : wf a';
  df_next : a_next a <= a_next a';
  df_data : forall i d, data a i = Some d -> exists d', data a' i = Some d' /\ same_sym d d';
  df_new : forall i, live a' i -> live a i \/ a_next a <= i;
  df_kind : forall i d, data a' i = Some d -> ~ live a i -> y_kind d = KVariable \/ y_kind d = KUnknown
}.

Lemma data_live : forall (a : arena Symbol) i, live a i <-> exists d, data a i = Some d.
Proof.
  intros. unfold live, data. destruct (node_of a i) as [n|]; simpl; split; intros [x h]; eauto; discriminate.
Qed.

Lemma live_dec : forall (a : arena Symbol) i, live a i \/ ~ live a i.
Proof.
  intros a i. unfold live. destruct (node_of a i) as [n|]; [left; eauto|right].
  intros [x h]. discriminate.
Qed.

Lemma growth_drifts : growth drifts.
Proof.
  constructor.
  - intros a w. constructor; auto; try lia.
    + intros i d h. exists d. split; auto. apply same_sym_refl.
    + intros i d h n. exfalso. apply n. apply data_live. eauto.
  - intros a b c w g h. constructor.
    + apply (df_wf _ _ h).
    + pose proof (df_next _ _ g). pose proof (df_next _ _ h). lia.
    + intros i d e. destruct (df_data _ _ g _ _ e) as (d1 & e1 & s1).
      destruct (df_data _ _ h _ _ e1) as (d2 & e2 & s2). exists d2. split; auto.
      eapply same_sym_trans; eauto.
    + intros i l. destruct (df_new _ _ h _ l) as [l1|l1].
      * apply (df_new _ _ g _ l1).
      * right. pose proof (df_next _ _ g). lia.
    + intros i d e n. destruct (live_dec b i) as [l|l].
      * apply data_live in l as [d1 e1]. destruct (df_data _ _ h _ _ e1) as (d2 & e2 & s2).
        assert (d2 = d) by congruence. subst.
        pose proof (df_kind _ _ g _ _ e1 n) as k. unfold same_sym in s2.
        apply (f_equal y_kind) in s2. simpl in s2. rewrite s2. auto.
      * apply (df_kind _ _ h _ _ e l).
  - intros a b _ g. apply (df_wf _ _ g).
  - intros a b i _ g l. apply data_live in l as [d e]. apply data_live.
    destruct (df_data _ _ g _ _ e) as (d' & e' & _). eauto.
Qed.

(** The arena may have new nodes; the old ones stay where they are. *)
Record extends (a a' : arena Symbol) : Prop := {
  ex_drifts : drifts a a';
  ex_parent : forall i n, node_of a i = Some n ->
    exists n' new, node_of a' i = Some n' /\ n_parent n' = n_parent n /\
      n_kids n' = n_kids n ++ new /\ Forall (fun j => a_next a <= j) new
}.

Lemma growth_extends : growth extends.
Proof.
  pose proof growth_drifts as GD.
  constructor.
  - intros a w. constructor; [apply (gr_refl _ GD); auto|].
    intros i n e. exists n, []. rewrite app_nil_r. auto.
  - intros a b c w g h. constructor.
    + eapply (gr_trans _ GD); [auto|apply g|apply h].
    + intros i n e. destruct (ex_parent _ _ g _ _ e) as (n1 & k1 & e1 & p1 & q1 & f1).
      destruct (ex_parent _ _ h _ _ e1) as (n2 & k2 & e2 & p2 & q2 & f2).
      exists n2, (k1 ++ k2). repeat split; auto.
      * congruence.
      * rewrite q2, q1, app_assoc. auto.
      * apply Forall_app. split; auto. eapply Forall_impl; [|apply f2]. simpl.
        pose proof (df_next _ _ (ex_drifts _ _ g)). lia.
  - intros a b w g. eapply (gr_wf _ GD); [apply w|apply g].
  - intros a b i w g. eapply (gr_live _ GD); [apply w|apply g].
Qed.

(** * Steps *)

Lemma data_node : forall (a : arena Symbol) i n, node_of a i = Some n -> data a i = Some (n_data n).
Proof. intros a i n e. unfold data. rewrite e. auto. Qed.

Lemma data_node_inv : forall (a : arena Symbol) i d, data a i = Some d ->
  exists n, node_of a i = Some n /\ n_data n = d.
Proof.
  intros a i d h. unfold data in h. destruct (node_of a i) as [n|]; [|discriminate].
  injection h as <-. eauto.
Qed.

(** A change of the data types of a symbol *)
Lemma extends_update : forall i f a a', wf a -> (forall d, same_sym d (f d)) ->
  update i f a = Some a' -> extends a a'.
Proof.
  intros i f a a' w hf h. pose proof (wf_update _ _ _ _ w h) as w'.
  destruct (node_of_update _ _ _ _ h) as (hn & _ & sp).
  constructor; [constructor|]; auto.
  - lia.
  - intros j d e. apply data_node_inv in e as (n & e & <-).
    eexists. split; [apply data_node; rewrite sp, e; reflexivity|]. simpl.
    destruct (j =? i); auto. apply same_sym_refl.
  - intros j [n e]. left. rewrite sp in e. destruct (node_of a j) eqn:e1; [|discriminate].
    exists a0. auto.
  - intros j d e n. exfalso. apply n. apply data_node_inv in e as (m & e & _). rewrite sp in e.
    destruct (node_of a j) eqn:e1; [|discriminate]. exists a0. auto.
  - intros j n e. eexists. exists []. rewrite sp, e. repeat split; simpl; auto. rewrite app_nil_r. auto.
Qed.

(** Moving a node *)
Lemma drifts_append : forall p c a a', wf a -> append p c a = Some a' -> drifts a a'.
Proof.
  intros p c a a' w h. pose proof (wf_append _ _ _ _ w h) as w'.
  destruct (node_of_append _ _ _ _ w h) as (hn & _ & _ & _ & _ & sp).
  constructor; auto.
  - lia.
  - intros j d e. apply data_node_inv in e as (n & e & <-).
    eexists. split; [apply data_node; rewrite sp; unfold appended; rewrite e; reflexivity|].
    apply same_sym_refl.
  - intros j [n e]. left. rewrite sp in e. unfold appended in e.
    destruct (node_of a j) eqn:e1; [|discriminate]. exists a0. auto.
  - intros j d e n. exfalso. apply n. apply data_node_inv in e as (m & e & _). rewrite sp in e.
    unfold appended in e. destruct (node_of a j) eqn:e1; [|discriminate]. exists a0. auto.
Qed.

(** A new node below [p] *)
Definition local_kind (d : Symbol) : Prop := y_kind d = KVariable \/ y_kind d = KUnknown.

Lemma drifts_new : forall d a i a', wf a -> local_kind d -> new_node d a = (i, a') -> drifts a a'.
Proof.
  intros d a i a' w hd h. pose proof (wf_new _ _ _ _ w h) as w'.
  destruct (node_of_new _ _ _ _ h) as (hi & hn & sp).
  pose proof (wf_not_next _ w) as nx.
  constructor; auto.
  - lia.
  - intros j e f. exists e. split; [|apply same_sym_refl].
    apply data_node_inv in f as (n & f & <-). apply data_node. rewrite sp.
    destruct (N.eqb_spec j (a_next a)); auto. congruence.
  - intros j [n e]. rewrite sp in e. destruct (N.eqb_spec j (a_next a)); [right; lia|left; exists n; auto].
  - intros j f e n. apply data_node_inv in e as (m & e & <-). rewrite sp in e.
    destruct (N.eqb_spec j (a_next a)).
    + injection e as <-. auto.
    + exfalso. apply n. exists m. auto.
Qed.

Lemma extends_child : forall d p a i a1 a', wf a -> local_kind d ->
  new_node d a = (i, a1) -> append p i a1 = Some a' -> extends a a' /\ live a' i.
Proof.
  intros d p a i a1 a' w hd h1 h2.
  pose proof (drifts_new _ _ _ _ w hd h1) as D1.
  pose proof (df_wf _ _ D1) as w1.
  pose proof (drifts_append _ _ _ _ w1 h2) as D2.
  destruct (node_of_new _ _ _ _ h1) as (hi & hn & sp1).
  destruct (node_of_append _ _ _ _ w1 h2) as (hn2 & _ & _ & lc & _ & sp2).
  pose proof (wf_not_next _ w) as nx.
  split.
  - constructor; [eapply (gr_trans _ growth_drifts); eauto|].
    intros j n e. assert (ji : j <> i) by congruence.
    exists (mkAnode (n_parent n) (n_kids n ++ (if j =? p then [i] else [])) (n_data n)),
      (if j =? p then [i] else []).
    rewrite sp2. unfold appended. rewrite sp1. subst i.
    rewrite (proj2 (N.eqb_neq _ _) ji), e. simpl. repeat split.
    + rewrite filter_none; auto. intros k.
      destruct (wf_down _ w _ _ _ e k) as (m & g & _). congruence.
    + destruct (j =? p); auto. constructor; auto. lia.
  - eapply (gr_live _ growth_drifts); eauto.
Qed.
