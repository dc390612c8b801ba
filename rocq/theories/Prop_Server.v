(** Properties of the server: C21 to C29.  The vocabulary is in SpecNames.v
    and SpecServer.v. *)

From Coq Require Import Permutation.
From Verif Require Import Base Token Scanner Node DocBlock Parser ParserFuel Assoc AssocFacts Arena ArenaFacts
  Symbol EnvMonad EnvFacts Workspace WorkspaceFacts WorkspaceSim Resolver SpecNames ResolverFacts
  Backend BackendFacts SpecServer ServerInv IndexFacts.

Local Notation findS := (find str_eqb).

(** * Histories for the examples *)

Local Existing Instance ascii_runtime | 9.
Local Existing Instance plain_hashing | 9.
Local Open Scope string_scope.
Local Open Scope N_scope.
Local Open Scope list_scope.

Definition pA : str := lit "/a.php".
Definition pB : str := lit "/b.php".
Definition disk2 (x y : string) (p : str) : option str :=
  if str_eqb p pA then Some (lit x) else if str_eqb p pB then Some (lit y) else None.

(** * C21: the index *)

Section C21.
Context {RT : Runtime}.

Lemma tame_binv : forall D s, tame D s -> binv D s.
Proof.
  induction 1 as [|s s' hs fuel disk order e h IH ok r]; [apply binv_new|].
  eapply keep_serve; [apply binv_keeps|exact IH|exact ok|exact r].
Qed.

(** Every entry of the index is a living symbol at the top level of an indexed
    file, and its key is its lower-cased qualified name.  What is missing for
    the full statement: the history must be tame, see [C21_refuted]. *)
Theorem C21_index_partial : forall D s, tame D s ->
  forall key i, findS key (b_global s) = Some i ->
  exists d path f, data (b_arena s) i = Some d /\ key = to_lowercase (qualified d) /\
    findS path (b_files s) = Some f /\ alive (b_arena s) f /\ parent_of (b_arena s) i = Some (Some f).
Proof.
  intros D s t key i e. pose proof (tame_binv _ _ t) as I.
  destruct (bi_index _ _ I _ _ e) as (m & p & f & e1 & e2 & e3 & e4 & e5).
  exists (n_data m), p, f. unfold data, parent_of, alive, data. rewrite e1. cbn. rewrite e4.
  split; auto. split.
  - rewrite <- e2. unfold index_key, fqdn, qualified. rewrite bare_name. auto.
  - split; auto. split; auto. destruct (bi_files _ _ I _ _ e5) as [(n & en & _) _]. rewrite en. discriminate.
Qed.

(** If no text has a comment [@var], all histories are tame. *)
Definition no_var_comment (text : str) : Prop :=
  forall fuel nodes, syntax fuel text = Some nodes -> Forall (var_docs_in (fun _ => False)) nodes.

Corollary C21_without_var_comments_partial : forall disk e,
  (forall p text, disk p = Some text -> no_var_comment text) ->
  match e with EvChange _ texts => Forall no_var_comment texts | _ => True end ->
  tame_event (fun _ => True) disk e.
Proof.
  assert (k : forall text, no_var_comment text -> text_ok (fun _ => True) text).
  { intros text h fuel nodes e. apply h in e. eapply Forall_impl; [|exact e].
    intros n hn. split.
    - intros m _. apply Forall_forall. auto.
    - intros m sm. specialize (hn m sm). destruct m; auto. intros k0 ek. elim (hn _ ek). }
  intros disk e h1 h2. split; [intros; split; auto; eauto|].
  destruct e; auto. split; auto. eapply Forall_impl; [|exact h2]. auto.
Qed.

End C21.

(** ** Deciding tameness, for the examples *)

Section Tame.
Context {RT : Runtime}.

Fixpoint clean_in (fuel : nat) (names : list str) (n : Node) : bool :=
  match fuel with
  | O => false
  | S fuel =>
      forallb (fun k => existsb (str_eqb (bare k)) names) (declares n) &&
      (match n with
       | NDocCommentVar name _ _ =>
           match t_label name with
           | Some k => negb (existsb (str_eqb k) names) && negb (str_eqb k (lit "this"))
           | None => true
           end
       | _ => true
       end) &&
      forallb (clean_in fuel names) (children n)
  end.

Lemma str_eq : forall a b, str_eqb a b = true <-> a = b.
Proof. intros a b. destruct (str_eqb_spec a b); split; congruence. Qed.

Lemma str_mem : forall k names, existsb (str_eqb k) names = true <-> In k names.
Proof.
  intros k names. rewrite existsb_exists. split.
  - intros (x & h & e). apply str_eq in e. congruence.
  - intros h. exists k. split; auto. now apply str_eq.
Qed.

Lemma clean_in_sound : forall fuel names n, clean_in fuel names n = true -> clean (fun k => In k names) n.
Proof.
  assert (k : forall names m n, seen m n -> forall fuel, clean_in fuel names n = true ->
    exists fuel, clean_in fuel names m = true).
  { induction 1; intros fuel e; [eauto|]. destruct fuel; [discriminate|]. cbn [clean_in] in e.
    apply andb_prop in e as [_ e]. rewrite forallb_forall in e. eauto. }
  intros fuel names n e. split; intros m sm; destruct (k _ _ _ sm _ e) as [[|g] eg]; try discriminate;
    cbn [clean_in] in eg; apply andb_prop in eg as [eg _]; apply andb_prop in eg as [e1 e2].
  - apply Forall_forall. intros x hx. rewrite forallb_forall in e1. apply str_mem. auto.
  - destruct m; auto. intros x ex. rewrite ex in e2. apply andb_prop in e2 as [e2 e3]. split.
    + intros ->. rewrite (proj2 (str_eq _ _)) in e3; [discriminate|auto].
    + intros h. apply str_mem in h. rewrite h in e2. discriminate.
Qed.

Definition tame_text (names : list str) (text : str) : bool :=
  match syntax 400 text with
  | Some nodes => forallb (clean_in 400 names) nodes
  | None => false
  end.

Lemma syntax_det : forall f g text x y, syntax f text = Some x -> syntax g text = Some y -> x = y.
Proof.
  assert (k : forall f g text x y, (f <= g)%nat -> syntax f text = Some x -> syntax g text = Some y -> x = y).
  { intros f g text x y l e1 e2. unfold syntax in *. destruct (scan_state text) as [t| | |]; try discriminate.
    destruct (ast_mono f g (rev (s_toks t)) l) as [h|h]; rewrite h in e1; [discriminate|].
    destruct (ast g (rev (s_toks t))) as [[a e]| | |]; congruence. }
  intros f g text x y e1 e2. destruct (Nat.le_ge_cases f g); [eapply k; eauto|].
  symmetry. eapply k; eauto.
Qed.

Lemma tame_text_sound : forall names text, tame_text names text = true -> text_ok (fun k => In k names) text.
Proof.
  intros names text e fuel nodes es. unfold tame_text in e.
  destruct (syntax 400 text) as [nodes'|] eqn:e'; [|discriminate].
  rewrite (syntax_det _ _ _ _ _ es e'). apply Forall_forall. intros n hn.
  rewrite forallb_forall in e. eapply clean_in_sound; eauto.
Qed.

Definition tame_step (names : list str) (p : (str -> option str) * event) : Prop :=
  tame_event (fun k => In k names) (fst p) (snd p).

Lemma tame_play : forall {hs : Hashing} names l, Forall (tame_step names) l -> 
  tame (fun k => In k names) (state_after l).
Proof.
  intros hs names l h. unfold state_after.
  assert (k : forall l s s', Forall (tame_step names) l -> tame (fun k => In k names) s ->
    play l s = Done tt s' -> tame (fun k => In k names) s').
  { clear. induction l as [|[disk e] l IH]; intros s s' h hs' e'; cbn [play] in e'.
    - injection e' as <-. auto.
    - unfold ebind in e'. destruct (serve 400 disk (fun m => m) e s) as [[] t| |] eqn:es;
        try discriminate. inversion h; subst. eapply IH; [auto| |exact e']. eapply tame_next; eauto. }
  destruct (play l backend_new) as [[] s| |] eqn:e; try constructor.
  eapply k; [exact h|constructor|exact e].
Qed.

End Tame.

Lemma tame_disk2 : forall names x y, In pA names -> In pB names ->
  tame_text names (lit x) = true -> tame_text names (lit y) = true ->
  forall p text, disk2 x y p = Some text -> In (bare p) names /\ text_ok (fun k => In k names) text.
Proof.
  intros names x y ha hb hx hy p text e. unfold disk2 in e.
  destruct (str_eqb p pA) eqn:ea.
  - apply str_eq in ea. subst. injection e as <-. split; [exact ha|]. apply tame_text_sound. auto.
  - destruct (str_eqb p pB) eqn:eb; [|discriminate].
    apply str_eq in eb. subst. injection e as <-. split; [exact hb|]. apply tame_text_sound. auto.
Qed.

(** Two files, one with a comment [@var]; the first one is opened and edited. *)
Definition text21a : string := "<?php namespace N; class Foo { function m($a) { /** @var Foo $b */ $b = $a; } }".
Definition text21b : string := "<?php namespace N; function bar() { return new Foo(); }".
Definition text21c : string := "<?php namespace N; interface Baz { } class Foo { }".
Definition disk21 := disk2 text21a text21b.
Definition history21 : list ((str -> option str) * event) :=
  [(disk21, EvIndex [pA; pB]); (disk21, EvOpen pA (lit text21a)); (disk21, EvChange pA [lit text21c]);
   (disk21, EvReferences pA (mkPos 0 46)); (disk21, EvClose pA)].
Definition names21 : list str := [pA; pB; lit "Foo"; lit "m"; lit "bar"; lit "Baz"].

Example C21_case :
  tame (fun k => In k names21) (state_after history21) /\
  map fst (b_global (state_after history21)) = [lit "bar"; lit "n\baz"; lit "n\foo"].
Proof.
  split; [|vm_compute; reflexivity]. apply tame_play.
  assert (hd : forall p text, disk21 p = Some text ->
    In (bare p) names21 /\ text_ok (fun k => In k names21) text).
  { apply tame_disk2; try (simpl; tauto); vm_compute; reflexivity. }
  repeat (apply Forall_cons; [split; [apply hd|]|]); try exact I; [|constructor].
  split; [simpl; auto|]. constructor; [|constructor]. apply tame_text_sound. vm_compute. reflexivity.
Qed.

(** A comment [@var] about a variable that is called like a class of the file
    can move the class away from the top level of the file; when the class is
    removed from the file, its entry in the index stays. *)
Definition text21x : string :=
  "<?php namespace N; class Foo {} array_map(function ($Foo) {}, []); array_map(fn($x) => function() { /** @var Foo $Foo */ $x = 1; }, []);".
Definition disk21x := disk2 text21x "<?php".
Definition history21x : list ((str -> option str) * event) :=
  [(disk21x, EvIndex [pA]); (disk21x, EvOpen pA (lit text21x)); (disk21x, EvChange pA [lit "<?php $y = 1;"])].

Theorem C21_refuted : exists s, reachable s /\
  exists key i, findS key (b_global s) = Some i /\ ~ alive (b_arena s) i.
Proof.
  exists (state_after history21x). split; [apply state_after_reachable|].
  exists (lit "n\foo"), 2. split; [vm_compute; reflexivity|]. intros h. apply h. vm_compute. reflexivity.
Qed.

Print Assumptions C21_index_partial.
Print Assumptions C21_refuted.

(** * C22: other files *)

(** At the top level of the file [path] there is a symbol with the lower-cased
    qualified name [key]; with [declared], only kinds of symbols that go into
    the index count. *)
Definition has_named {RT : Runtime} (s : bst) (path key : str) : Prop :=
  exists f i d, findS path (b_files s) = Some f /\ parent_of (b_arena s) i = Some (Some f) /\
    data (b_arena s) i = Some d /\ to_lowercase (qualified d) = key.
Definition has_declared {RT : Runtime} (s : bst) (path key : str) : Prop :=
  exists f i d, findS path (b_files s) = Some f /\ parent_of (b_arena s) i = Some (Some f) /\
    data (b_arena s) i = Some d /\ to_lowercase (qualified d) = key /\ register_global (y_kind d) = true.

Section C22.
Context {RT : Runtime} {HH : Hashing}.

Lemma key_qualified : forall d, index_key d = to_lowercase (qualified d).
Proof. intros d. unfold index_key, fqdn, qualified. rewrite bare_name. auto. Qed.

Lemma entry_alive : forall D s k n, binv D s -> findS k (b_global s) = Some n -> alive (b_arena s) n.
Proof.
  intros D s k n I e. destruct (bi_index _ _ I _ _ e) as (m & _ & _ & em & _).
  unfold alive, data. rewrite em. discriminate.
Qed.

Lemma others_collect : forall D fuel path nodes range s s', binv D s ->
  Forall (declares_in D) nodes -> collect_symbols fuel path nodes range s = Done tt s' ->
  forall k n, findS k (b_global s) = Some n -> ~ has_named s path k -> ~ has_declared s' path k ->
  findS k (b_global s') = Some n.
Proof.
  intros D fuel path nodes range s s' I hn e k n h h1 h2.
  eapply collect_others; eauto.
  - intros f i d ef ep ed ek. apply h1. exists f, i, d. rewrite <- key_qualified. auto.
  - intros f i d ef ep ed er ek. apply h2. exists f, i, d. rewrite <- key_qualified. repeat split; auto.
Qed.

(** If the name of an entry is not at the top level of the file [path], neither
    before nor after an edit of that file, then the entry stays.  What is
    missing for the full statement: names that are at the top level of both
    files, among them variables of the edited file (see [C22_refuted]), and
    histories that are not tame. *)
Theorem C22_edit_partial : forall D s s' fuel disk order path texts,
  tame D s -> tame_event D disk (EvChange path texts) ->
  serve fuel disk order (EvChange path texts) s = Done tt s' ->
  forall key i, findS key (b_global s) = Some i ->
  ~ has_named s path key -> ~ has_declared s' path key ->
  findS key (b_global s') = Some i /\ alive (b_arena s') i.
Proof.
  intros D s s' fuel disk order path texts t ok e key i hk h1 h2.
  pose proof (tame_binv _ _ t) as I.
  assert (I' : binv D s') by (apply tame_binv; eapply tame_next; eauto).
  cut (findS key (b_global s') = Some i); [intros h; split; auto; eapply entry_alive; eauto|].
  destruct ok as [_ [hp ht]]. cbn [serve] in e. unfold did_change in e.
  destruct texts as [|text r]; [injection e as <-; auto|]. inversion ht; subst.
  step e. injection e1 as <- <-. step e. injection e1 as _ <-.
  set (s1 := mkBst _ _ _ _ _ _ _) in e.
  assert (I1 : binv D s1) by (apply (binv_core D s); [exact I|repeat split]).
  assert (hk1 : findS key (b_global s1) = Some i) by exact hk.
  assert (h11 : ~ has_named s1 path key) by exact h1.
  clearbody s1. clear hk h1 I t s. unfold refresh_file in e. step e.
  apply source_spec in e1 as [-> hx]. step e.
  destruct x0 as [[[nodes range] errors]|].
  - step e1. apply H1 in hx.
    destruct (collect_inv _ _ _ _ _ _ _ _ I1 hp (clean_declares _ _ hx) e0) as (I2 & _).
    step e1. apply eopt_done in e2 as [_ ->]. step e1. injection e2 as <- <-.
    step e1. injection e2 as _ <-. step e1. injection e2 as <- <-. injection e1 as _ <-.
    set (s2 := mkBst _ _ _ _ _ _ _) in e.
    assert (I3 : binv D s2) by (apply (keep_put _ _ _ (binv_keeps D) t0 s2 path nodes range); auto; reflexivity).
    step e. injection e1 as <- <-.
    pose proof (tasks_steady D _ _ _ _ _ I3 (open_tasks _ _ I3) e) as st.
    destruct (references_tasks_inv D _ _ _ _ _ I3 (open_tasks _ _ I3) e) as (_ & ef & eg & _).
    rewrite eg. change (b_global s2) with (b_global t0). destruct x0.
    eapply others_collect; [exact I1| |exact e0|exact hk1|exact h11|].
    { apply clean_declares. auto. }
    intros (f & j & d & hf & hj & hd & hq & hg). apply h2.
    unfold parent_of in hj. unfold data in hd.
    destruct (node_of (b_arena t0) j) as [n|] eqn:en; [|discriminate]. cbn in hj, hd.
    injection hj as hj. injection hd as hd.
    destruct (sd_keep _ _ _ st j n) as (n' & en' & sy & pn); auto.
    + rewrite hd. intros [h|h]; rewrite h in hg; discriminate.
    + eapply (bi_names _ _ I2); eauto. rewrite hd. auto.
    + intros p m ep em. destruct (bi_files _ _ I2 _ _ hf) as [(nf & enf & _ & kf & _) _].
      assert (m = nf) by (cbn in em; congruence). subst. congruence.
    + destruct (same_kind _ _ sy) as [k1 m1]. exists f, j, (n_data n').
      rewrite ef. split; [exact hf|]. unfold parent_of, data. rewrite en'. cbn.
      split; [congruence|]. split; [auto|]. split; [|congruence].
      rewrite <- key_qualified in *. rewrite <- hq. unfold index_key, fqdn.
      rewrite <- hd, m1. unfold same_sym in sy. apply (f_equal y_ns) in sy. cbn in sy. rewrite sy. auto.
  - injection e1 as _ <-. step e. injection e1 as <- <-.
    destruct (references_tasks_inv D _ _ _ _ _ I1 (open_tasks _ _ I1) e) as (_ & _ & eg & _).
    rewrite eg. auto.
Qed.

(** The same for a file that is changed outside of the editor *)
Theorem C22_watched_partial : forall D s s' fuel disk order path,
  tame D s -> tame_event D disk (EvWatched [path]) ->
  serve fuel disk order (EvWatched [path]) s = Done tt s' ->
  forall key i, findS key (b_global s) = Some i ->
  ~ has_named s path key -> ~ has_declared s' path key ->
  findS key (b_global s') = Some i /\ alive (b_arena s') i.
Proof.
  intros D s s' fuel disk order path t ok e key i hk h1 h2.
  pose proof (tame_binv _ _ t) as I.
  assert (I' : binv D s') by (apply tame_binv; eapply tame_next; eauto).
  cut (findS key (b_global s') = Some i); [intros h; split; auto; eapply entry_alive; eauto|].
  destruct ok as [hd _]. cbn [serve did_change_watched] in e. step e. injection e1 as <- <-.
  destruct (findS path (b_open s)); [injection e as <-; auto|].
  step e. apply eopt_done in e1 as [ed ->]. destruct (hd _ _ ed) as [hp ht].
  step e. apply source_spec in e1 as [-> hx]. step e. injection e as <-.
  destruct x0 as [[[nodes range] errors]|]; [|injection e1 as _ <-; auto].
  apply ht in hx. unfold index_result in e1. step e1. destruct x0.
  step e1. apply eopt_done in e2 as [_ ->]. step e1. injection e2 as <- <-. injection e1 as _ <-.
  cbn in h2 |- *. eapply others_collect; [exact I| |exact e0|exact hk|exact h1|exact h2].
  apply clean_declares. auto.
Qed.

End C22.

(** In the history of [C21_case] the entry [bar] of the second file is not at
    the top level of the first file, before and after the edit. *)
Example C22_case :
  let before := state_after [(disk21, EvIndex [pA; pB]); (disk21, EvOpen pA (lit text21a))] in
  let after := state_after [(disk21, EvIndex [pA; pB]); (disk21, EvOpen pA (lit text21a));
                            (disk21, EvChange pA [lit text21c])] in
  findS (lit "bar") (b_global before) <> None /\
  ~ has_named before pA (lit "bar") /\ ~ has_declared after pA (lit "bar") /\
  findS (lit "bar") (b_global after) = findS (lit "bar") (b_global before).
Proof.
  assert (k : forall (s : bst) path key f, findS path (b_files s) = Some f ->
    forallb (fun p => match n_parent (snd p) with
                      | Some g => negb (g =? f) || negb (str_eqb (to_lowercase (qualified (n_data (snd p)))) key)
                      | None => true
                      end) (a_nodes (b_arena s)) = true -> ~ has_named s path key).
  { intros s path key f ef all (f' & i & d & ef' & ep & ed & ek).
    assert (f' = f) by congruence. subst f'. rewrite forallb_forall in all.
    unfold parent_of in ep. unfold data in ed. destruct (node_of (b_arena s) i) as [n|] eqn:en; [|discriminate].
    cbn in ep, ed. injection ep as ep. injection ed as ed.
    unfold node_of in en. apply find_in in en; [|intros; apply N.eqb_spec].
    apply all in en. cbn in en. rewrite ep, ed, ek, N.eqb_refl in en.
    destruct (str_eqb_spec key key); [discriminate|congruence]. }
  assert (k' : forall s path key, ~ has_named s path key -> ~ has_declared s path key).
  { intros s path key h (f & i & d & h1 & h2 & h3 & h4 & _). apply h. exists f, i, d. auto. }
  cbv zeta. split; [vm_compute; discriminate|]. split; [|split].
  - apply (k _ _ _ 0); vm_compute; reflexivity.
  - apply k'. eapply k; [vm_compute; reflexivity|]. vm_compute. reflexivity.
  - vm_compute. reflexivity.
Qed.

(** A variable [$foo] of the edited file takes the function [foo] of the other
    file out of the index. *)
Definition disk22x := disk2 "<?php $foo = 1;" "<?php function foo() {}".
Definition history22x : list ((str -> option str) * event) :=
  [(disk22x, EvIndex [pA; pB]); (disk22x, EvOpen pA (lit "<?php $foo = 1;"))].

Theorem C22_refuted : exists s s' fuel disk order path texts, reachable s /\
  serve fuel disk order (EvChange path texts) s = Done tt s' /\
  exists key i other f, findS key (b_global s) = Some i /\ findS other (b_files s) = Some f /\
    parent_of (b_arena s) i = Some (Some f) /\ other <> path /\
    ~ has_declared s path key /\ ~ has_declared s' path key /\
    findS key (b_global s') = None.
Proof.
  exists (state_after history22x),
    (state_after (history22x ++ [(disk22x, EvChange pA [lit "<?php $foo = 2;"])])), 400%nat, disk22x,
    (fun m => m), pA, [lit "<?php $foo = 2;"].
  split; [apply state_after_reachable|]. split; [vm_compute; reflexivity|].
  exists (lit "foo"), 2, pB, 1.
  assert (k : forall (s : bst) path key f, findS path (b_files s) = Some f ->
    forallb (fun p => match n_parent (snd p) with
                      | Some g => negb (g =? f) || negb (register_global (y_kind (n_data (snd p))))
                      | None => true
                      end) (a_nodes (b_arena s)) = true -> ~ has_declared s path key).
  { intros s path key f ef all (f' & i & d & ef' & ep & ed & ek & er).
    assert (f' = f) by congruence. subst f'. rewrite forallb_forall in all.
    unfold parent_of in ep. unfold data in ed. destruct (node_of (b_arena s) i) as [n|] eqn:en; [|discriminate].
    cbn in ep, ed. injection ep as ep. injection ed as ed.
    unfold node_of in en. apply find_in in en; [|intros; apply N.eqb_spec].
    apply all in en. cbn in en. rewrite ep, ed, er, N.eqb_refl in en. discriminate. }
  repeat split; try (vm_compute; reflexivity); try discriminate.
  - eapply k; [vm_compute; reflexivity|]. vm_compute. reflexivity.
  - eapply k; [vm_compute; reflexivity|]. vm_compute. reflexivity.
Qed.

Print Assumptions C22_edit_partial.
Print Assumptions C22_watched_partial.
Print Assumptions C22_refuted.
