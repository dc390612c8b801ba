(** What collecting the symbols of a file does to the arena: it builds a tree
    below the node of the file and leaves all other nodes alone. *)

From Verif Require Import Base Token Node Assoc AssocFacts Arena ArenaFacts Symbol EnvMonad
  EnvFacts Workspace Resolver SpecNames ResolverFacts.

Lemma bare_name : forall d, bare (y_name d) = sym_name d.
Proof.
  intros d. unfold sym_name, bare. destruct (y_name d) as [|[|c] r]; auto.
  do 6 (destruct c as [c|c|]; auto).
Qed.

Lemma declares_child : forall D n k, declares_in D n -> In k (children n) -> declares_in D k.
Proof. intros D n k h i m s. apply h. econstructor; eauto. Qed.

(** The kinds of symbols that are collected *)
Definition collected (k : PhpSymbolKind) : Prop := k <> KFile /\ k <> KVariable.

(** Below the file [f] with the name [path] there is a tree of collected
    symbols; the nodes that are older than [f] are those of [a0]. *)
Record tree (D : str -> Prop) (f : N) (path : str) (a0 a : arena Symbol) : Prop := {
  tr_wf : wf a;
  tr_root : exists n, node_of a f = Some n /\ n_parent n = None /\ y_kind (n_data n) = KFile /\
    y_name (n_data n) = path;
  tr_node : forall i n, node_of a i = Some n -> f < i ->
    (exists p, n_parent n = Some p /\ f <= p) /\ collected (y_kind (n_data n)) /\
    (register_global (y_kind (n_data n)) = true -> D (sym_name (n_data n)));
  tr_old : forall i, i < f -> node_of a i = node_of a0 i
}.

Section Hoare.
Variable D : str -> Prop.
Variable f : N.
Variable path : str.
Variable a0 : arena Symbol.
Let J (s : wst) : Prop := tree D f path a0 (w_arena s).

Definition wh {A} (m : W A) (Q : A -> Prop) : Prop :=
  forall s x s', J s -> m s = Done x s' -> J s' /\ Q x.

Lemma wh_bind : forall A B (m : W A) (k : A -> W B) Q Q',
  wh m Q -> (forall x, Q x -> wh (k x) Q') -> wh (ebind m k) Q'.
Proof.
  intros A B m k Q Q' hm hk s x s' j e. apply ebind_done in e as (y & t & e1 & e2).
  destruct (hm _ _ _ j e1) as [j1 q]. eapply hk; eauto.
Qed.

Lemma wh_ret : forall A (x : A) (Q : A -> Prop), Q x -> wh (eret x) Q.
Proof. intros A x Q q s y s' j e. injection e as <- <-. auto. Qed.

Lemma wh_opt : forall A (o : option A) (Q : A -> Prop), (forall x, o = Some x -> Q x) -> wh (eopt o) Q.
Proof. intros A [x|] Q h; [apply wh_ret; auto|]. intros s y s' j e. discriminate. Qed.

Lemma wh_is : forall A (o : option A), wh (eopt o) (fun x => o = Some x).
Proof. intros. apply wh_opt. auto. Qed.

Lemma wh_panic : forall A (Q : A -> Prop), wh epanic Q.
Proof. intros A Q s y s' j e. discriminate. Qed.
Lemma wh_fuel : forall A (Q : A -> Prop), wh efuel Q.
Proof. intros A Q s y s' j e. discriminate. Qed.

Lemma wh_get : forall A (g : wst -> A), wh (eget g) (fun _ => True).
Proof. intros A g s x s' j e. injection e as <- <-. auto. Qed.

Lemma wh_iter : forall A (g : A -> W unit) l, (forall x, In x l -> wh (g x) (fun _ => True)) ->
  wh (eiter g l) (fun _ => True).
Proof.
  induction l as [|x l IH]; intros h; simpl; [apply wh_ret; auto|].
  eapply wh_bind; [apply h; simpl; auto|]. intros _ _. apply IH. intros; apply h; simpl; auto.
Qed.

Lemma wh_set_ns : forall o, wh (set_ns o) (fun _ => True).
Proof. intros o s x s' j e. injection e as <- <-. auto. Qed.

Lemma wh_weak : forall A (m : W A) (Q Q' : A -> Prop), wh m Q -> (forall x, Q x -> Q' x) -> wh m Q'.
Proof. intros A m Q Q' h hq s x s' j e. destruct (h _ _ _ j e). auto. Qed.

Lemma wh_data : forall i, wh (e_data i) (fun _ => True).
Proof.
  intros i s x s' j e. unfold e_data in e. destruct (data (the_arena s) i); [|discriminate].
  injection e as <- <-. auto.
Qed.

Lemma wh_parent : forall i, f <= i ->
  wh (e_parent i) (fun o => match o with Some g => f <= g | None => True end).
Proof.
  intros i hi s x s' j e. unfold e_parent, parent_of in e. simpl in e.
  destruct (node_of (w_arena s) i) as [n|] eqn:en; [|discriminate]. injection e as <- <-. split; auto.
  destruct (N.eq_dec i f) as [->|ne].
  - destruct (tr_root _ _ _ _ _ j) as (n' & e' & q & _). assert (n' = n) by congruence. subst.
    rewrite q. auto.
  - destruct (tr_node _ _ _ _ _ j _ _ en) as ((p & q & h) & _); [lia|]. rewrite q. auto.
Qed.

(** Changes that keep kind and name *)
Definition same_head (g : Symbol -> Symbol) : Prop :=
  forall d, y_kind (g d) = y_kind d /\ y_name (g d) = y_name d.

Lemma wh_update : forall i g, f <= i -> same_head g -> wh (e_update i g) (fun _ => True).
Proof.
  intros i g hi hg s x s' j e. unfold e_update in e. simpl in e.
  destruct (update i g (w_arena s)) as [a|] eqn:eu; [|discriminate]. injection e as <- <-.
  split; auto. unfold J in *. simpl. pose proof (wf_update _ _ _ _ (tr_wf _ _ _ _ _ j) eu) as w'.
  destruct (node_of_update _ _ _ _ eu) as (_ & _ & sp).
  constructor; auto.
  - destruct (tr_root _ _ _ _ _ j) as (n & e & q1 & q2 & q3).
    rewrite sp, e. eexists; (split; [reflexivity|]); cbn [n_parent n_data]. destruct (f =? i).
    + destruct (hg (n_data n)) as [h1 h2]. rewrite h1, h2. auto.
    + auto.
  - intros k n en hk. rewrite sp in en.
    destruct (node_of (w_arena s) k) as [m|] eqn:em; [|discriminate]. injection en as <-.
    cbn [n_parent n_data]. destruct (tr_node _ _ _ _ _ j _ _ em hk) as (h1 & h2 & h3).
    destruct (k =? i); auto.
    destruct (hg (n_data m)) as [q1 q2]. unfold sym_name in *. rewrite q1, q2. auto.
  - intros k hk. rewrite sp. rewrite (proj2 (N.eqb_neq k i)) by lia.
    rewrite <- (tr_old _ _ _ _ _ j _ hk). destruct (node_of (w_arena s) k) as [[]|]; auto.
Qed.

Definition good (d : Symbol) : Prop :=
  collected (y_kind d) /\ (register_global (y_kind d) = true -> D (sym_name d)).

Lemma wh_child : forall p d, f <= p -> good d -> wh (add_child p d) (fun c => f <= c).
Proof.
  intros p d hp [hd1 hd2] s x s' j e. unfold add_child in e.
  apply ebind_done in e as (c & t & e1 & e). apply ebind_done in e as (u & t2 & e2 & e3).
  injection e3 as -> <-. unfold e_new in e1. cbn [the_arena wst_arena with_arena] in e1.
  destruct (new_node d (w_arena s)) as [i a1] eqn:en. injection e1 as -> <-.
  unfold e_append in e2. cbn [the_arena wst_arena with_arena w_arena] in e2.
  destruct (append p x a1) as [a2|] eqn:ea; [|discriminate]. injection e2 as _ <-.
  pose proof (tr_wf _ _ _ _ _ j) as w.
  pose proof (wf_new _ _ _ _ w en) as w1. pose proof (wf_append _ _ _ _ w1 ea) as w2.
  destruct (node_of_new _ _ _ _ en) as (-> & hn & sp1).
  destruct (node_of_append _ _ _ _ w1 ea) as (_ & _ & _ & _ & _ & sp2).
  destruct (tr_root _ _ _ _ _ j) as (nf & ef & q1 & q2 & q3).
  assert (lt : f < a_next (w_arena s)) by (eapply wf_fresh; eauto).
  split; [|lia]. unfold J. cbn [w_arena].
  assert (k : forall i n, i <> a_next (w_arena s) -> node_of a2 i = Some n ->
    exists m, node_of (w_arena s) i = Some m /\ n_parent n = n_parent m /\ n_data n = n_data m).
  { intros i n ne e. rewrite sp2 in e. unfold appended in e. rewrite sp1 in e.
    apply N.eqb_neq in ne. rewrite ne in e.
    destruct (node_of (w_arena s) i) as [m|] eqn:em; [|discriminate].
    exists m. split; auto. simpl in e. injection e as <-. simpl. auto. }
  assert (kf : forall i m, i <> a_next (w_arena s) -> node_of (w_arena s) i = Some m ->
    exists n, node_of a2 i = Some n /\ n_parent n = n_parent m /\ n_data n = n_data m).
  { intros i m ne em. rewrite sp2. unfold appended. rewrite sp1. apply N.eqb_neq in ne. rewrite ne, em.
    simpl. eauto. }
  constructor; auto.
  - destruct (kf f nf) as (n & e & h1 & h2); [lia|auto|]. exists n. rewrite h1, h2. auto.
  - intros i n e hi. destruct (N.eq_dec i (a_next (w_arena s))) as [->|ne].
    + rewrite sp2 in e. unfold appended in e. rewrite sp1, N.eqb_refl in e. simpl in e.
      injection e as <-. simpl. repeat split; auto.
      * exists p. auto.
      * apply hd1.
      * apply hd1.
    + destruct (k _ _ ne e) as (m & em & h1 & h2). rewrite h1, h2. apply (tr_node _ _ _ _ _ j _ _ em hi).
  - intros i hi. rewrite <- (tr_old _ _ _ _ _ j _ hi). rewrite sp2. unfold appended. rewrite sp1.
    rewrite (proj2 (N.eqb_neq i _)) by lia.
    destruct (node_of (w_arena s) i) as [m|] eqn:em; auto. f_equal.
    rewrite (proj2 (N.eqb_neq i p)) by lia. destruct m as [mp mk md]. simpl. f_equal.
    rewrite app_nil_r. apply filter_none. intros hy.
    destruct (wf_down _ w _ _ _ em hy) as (my & ey & _). apply (wf_fresh _ w) in ey. lia.
Qed.

Lemma make_spec : forall k name r s d, make k name r s = Some d ->
  y_kind d = k /\ exists n, name = Some n /\ y_name d = n.
Proof.
  intros k name r s d e. unfold make in e.
  destruct name as [n|]; [|discriminate]. destruct r; [|discriminate]. destruct s; [|discriminate].
  injection e as <-. simpl. eauto.
Qed.

Lemma good_plain : forall d, collected (y_kind d) -> register_global (y_kind d) = false -> good d.
Proof. intros d h e. split; auto. rewrite e. discriminate. Qed.

Lemma good_named : forall d, collected (y_kind d) -> D (bare (y_name d)) -> good d.
Proof. intros d h e. split; auto. intros _. rewrite <- bare_name. exact e. Qed.

Definition fine (o : option N) : Prop := match o with Some p => f <= p | None => True end.

Ltac col := split; discriminate.
Ltac ws :=
  lazymatch goal with
  | |- wh (ebind (add_child _ _) _) _ =>
      eapply wh_bind; [apply wh_child; [try assumption|] | intros ? ?; ws]
  | |- wh (ebind (eopt (make _ _ _ _)) _) _ =>
      let e := fresh "em" in
      eapply wh_bind; [apply wh_is | intros ? e;
        apply make_spec in e as (? & ? & ? & ?); ws]
  | |- wh (ebind (eopt _) _) _ =>
      eapply wh_bind; [apply wh_is | intros ? ?; ws]
  | |- wh (ebind (eget _) _) _ => eapply wh_bind; [apply wh_get | intros ? ?; ws]
  | |- wh (ebind (e_data _) _) _ => eapply wh_bind; [apply wh_data | intros ? ?; ws]
  | |- wh (ebind (e_parent _) _) _ => eapply wh_bind; [apply wh_parent; assumption | intros ? ?; ws]
  | |- wh (ebind (e_update _ _) _) _ =>
      eapply wh_bind; [apply wh_update; [try assumption | try (intros ?; split; reflexivity)] | intros ? ?; ws]
  | |- wh (ebind (eiter _ _) _) _ => eapply wh_bind; [apply wh_iter; intros ? ?; ws | intros ? ?; ws]
  | |- wh (eret _) _ => apply wh_ret; try (exact I); try assumption
  | |- wh (match ?x with _ => _ end) _ => destruct x; ws
  | |- _ => idtac
  end.

Ltac sym :=
  match goal with
  | k : y_kind ?d = _ |- good ?x =>
      first [ apply good_plain;
              [ change (collected (y_kind d)); rewrite k; col | change (register_global (y_kind d) = false); rewrite k; reflexivity ]
            | apply good_named; [ change (collected (y_kind d)); rewrite k; col | change (D (bare (y_name d))) ] ]
  | |- good _ => apply good_plain; [ simpl; col | reflexivity ]
  end.

Lemma wh_visit : forall node parent, declares_in D node -> f <= parent ->
  wh (w_visit node parent) fine.
Proof.
  intros node parent h hp.
  assert (hd : Forall (fun k => D (bare k)) (declares node)) by (apply h; constructor).
  clear h.
  destruct node; try (apply wh_ret; exact hp); cbn [w_visit]; ws; try sym;
  try match goal with
  | h : ?n = Some ?x, e : y_name ?d = ?x |- D (bare (y_name ?d)) =>
      rewrite e; cbn [declares] in hd; try rewrite h in hd; inversion hd; assumption
  end; try (destruct x; assumption).
  - cbv beta in H. cbn [declares] in hd. rewrite H in hd. injection H1 as <-. rewrite H2.
    inversion hd; assumption.
  - match goal with
    | h : ?n = Some ?x, e : y_name ?d = ?x |- D (bare (y_name ?d)) =>
        rewrite e; cbn [declares] in hd; rewrite Forall_forall in hd; apply hd; apply in_flat_map;
        eexists; split; [eassumption|]; cbv beta iota; rewrite h; simpl; auto
    end.
Qed.

Lemma wh_before : forall node, wh (w_before node) (fun _ => True).
Proof.
  destruct node; try (apply wh_ret; exact I); cbn [w_before].
  - destruct node; ws; try apply wh_set_ns; auto.
  - destruct type_ref as [[]|]; ws; try apply wh_set_ns; auto.
Qed.

Lemma wh_after : forall node, wh (w_after node) (fun _ => True).
Proof. destruct node; try (apply wh_ret; exact I). apply wh_set_ns. Qed.

Lemma wh_traverse : forall fuel node parent, declares_in D node -> f <= parent ->
  wh (w_traverse fuel node parent) (fun _ => True).
Proof.
  induction fuel as [|fuel IH]; intros node parent h hp; cbn [w_traverse]; [apply wh_fuel|].
  eapply wh_bind; [apply wh_before|]. intros _ _.
  eapply wh_bind; [apply wh_visit; auto|]. intros o ho.
  apply (wh_bind _ _ _ _ (fun _ => True)); [|intros _ _; apply wh_after].
  destruct o as [p|]; [|apply wh_ret; exact I].
  apply wh_iter. intros x hx. apply IH; auto. eapply declares_child; eauto.
Qed.

End Hoare.
