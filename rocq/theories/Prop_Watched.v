(** Properties of the server: C28, several files change on the disk, and what
    the lookups of C20 and C36 do in the states the server can be in.
    The vocabulary is in SpecNames.v and SpecServer.v. *)

From Coq Require Import Permutation.
From Verif Require Import Base Token Scanner Node DocBlock Parser Assoc AssocFacts Arena ArenaFacts
  Symbol EnvMonad EnvFacts Workspace WorkspaceFacts WorkspaceSim Resolver SpecNames ResolverFacts
  Backend BackendFacts SpecServer ServerInv IndexFacts Prop_Symbols Prop_Server Prop_Edits.

Local Notation findS := (find str_eqb).
Local Existing Instance ascii_runtime | 9.
Local Existing Instance plain_hashing | 9.
Local Open Scope string_scope.
Local Open Scope N_scope.
Local Open Scope list_scope.

(** * C28: every watched change is applied *)

Section C28.
Context {RT : Runtime} {HH : Hashing}.

(** If the first of the files is open, nothing happens at all, whatever the
    other files are. *)
Theorem C28_dropped_refuted : forall s fuel disk order path rest,
  findS path (b_open s) <> None ->
  serve fuel disk order (EvWatched (path :: rest)) s = Done tt s.
Proof.
  intros s fuel disk order path rest h. cbn [serve did_change_watched].
  unfold ebind at 1. unfold eget at 1. destruct (findS path (b_open s)); [reflexivity|contradiction].
Qed.

(** The symbols of the file are those of its content on the disk, as if it were
    the only file. *)
Definition up_to_date (fuel : nat) (disk : str -> option str) (path : str) (s : bst) : Prop :=
  exists s0 f f0, did_change_watched fuel disk [path] backend_new = Done tt s0 /\
    findS path (b_files s) = Some f /\ findS path (b_files s0) = Some f0 /\
    same_symbols (b_arena s0) f0 (b_arena s) f.

(** Indexing one file leaves the trees of the others as they are. *)
Lemma collect_keeps_tree : forall D fuel path nodes range s u s', binv D s ->
  Forall (declares_in D) nodes -> collect_symbols fuel path nodes range s = Done u s' ->
  forall q f, q <> path -> findS q (b_files s) = Some f ->
  findS q (b_files s') = Some f /\
  (forall i, within (b_arena s) i f <-> within (b_arena s') i f) /\
  (forall i, within (b_arena s) i f -> node_of (b_arena s') i = node_of (b_arena s) i).
Proof.
  intros D fuel path nodes range s u s' I hn e q f ne hf.
  pose proof (bi_wf _ _ I) as w0.
  pose proof (collect_spec D fuel path nodes range s w0
    (fun f h => proj1 (bi_files _ _ I _ _ h)) hn) as sp. cbv zeta in sp.
  destruct (visited fuel path nodes range (b_arena s)) as [v w| |]; try congruence.
  destruct sp as (a' & g & refs & nf & e' & T & ef & (w' & nx & gone & kept) & new & old).
  rewrite e' in e. injection e as _ <-. cbn [b_arena b_files] in *. clear e' old.
  pose proof (bi_files _ _ I _ _ hf) as [rf _].
  assert (same : forall i, live (b_arena s) i -> Up (b_arena s) i f -> node_of a' i = node_of (b_arena s) i).
  { intros i [n l] u0. rewrite kept.
    - rewrite l. eapply old_node; eauto.
    - intros (o & eo & uo). apply (Up_old D path (b_arena s) _ T w0) in uo; [|exists n; auto].
      pose proof (bi_files _ _ I _ _ eo) as [ro _].
      assert (o <> f).
      { intros ->. destruct rf as (m & em & _ & _ & nm), ro as (m' & em' & _ & _ & nm').
        apply ne. congruence. }
      pose proof (root_alone _ _ _ _ _ rf u0 uo H) as k.
      apply (root_top _ _ _ _ ro) in k. congruence. }
  split; [rewrite find_put_other; auto; apply str_eqb_spec|]. 
  assert (all : forall i, within (b_arena s) i f -> node_of a' i = node_of (b_arena s) i).
  { intros i h. apply Up_within in h as [l u0]. auto. }
  split; [|exact all]. intros i. split.
  - intros h. pose proof all as al. induction h as [i h|i p f h1 h2 IH].
    + constructor. unfold alive, data. rewrite al; [exact h|constructor; auto].
    + econstructor; [|apply IH; auto]. unfold parent_of. rewrite al; [exact h1|econstructor; eauto].
  - assert (lf : live (b_arena s) f) by (destruct rf as (m & em & _); exists m; auto).
    assert (af : within (b_arena s) f f).
    { apply within_Up; auto. constructor. }
    intros h. clear same. induction h as [i h|i p f h1 h2 IH]; [exact af|].
    specialize (IH hf rf all lf af).
    unfold parent_of in h1. destruct (node_of a' i) as [n|] eqn:en; [|discriminate].
    cbn in h1. injection h1 as h1. destruct (wf_up _ w' _ _ _ en h1) as (m & em & hk).
    rewrite (all _ IH) in em. destruct (wf_down _ w0 _ _ _ em hk) as (n' & en' & ep').
    econstructor; [|exact IH]. unfold parent_of. rewrite en'. cbn. congruence.
Qed.

Lemma same_symbols_kept : forall a f b b' g, same_symbols a f b g ->
  (forall i, within b i g <-> within b' i g) ->
  (forall i, within b i g -> node_of b' i = node_of b i) -> same_symbols a f b' g.
Proof.
  intros a f b b' g (r & r1 & r2 & r3 & r4) h1 h2. exists r. split; auto. split; auto. split.
  - intros i hi. destruct (r3 i hi) as (k1 & k2 & k3). split; [apply h1; auto|].
    unfold data, kids in *. rewrite (h2 _ k1). auto.
  - intros j hj. apply r4. apply h1. auto.
Qed.

Lemma up_to_date_kept : forall D fuel disk fuel' path nodes range s u s' q, binv D s ->
  Forall (declares_in D) nodes -> collect_symbols fuel' path nodes range s = Done u s' ->
  q <> path -> up_to_date fuel disk q s -> up_to_date fuel disk q s'.
Proof.
  intros D fuel disk fuel' path nodes range s u s' q I hn e ne (s0 & f & f0 & h1 & h2 & h3 & h4).
  destruct (collect_keeps_tree _ _ _ _ _ _ _ _ I hn e _ _ ne h2) as (k1 & k2 & k3).
  exists s0, f, f0. do 3 (split; auto). eapply same_symbols_kept; eauto.
Qed.

Lemma up_to_date_core : forall fuel disk q s s', b_arena s' = b_arena s -> b_files s' = b_files s ->
  up_to_date fuel disk q s -> up_to_date fuel disk q s'.
Proof.
  intros fuel disk q s s' c1 c2 (s0 & f & f0 & h). exists s0, f, f0. rewrite c1, c2. auto.
Qed.

Lemma source_anywhere : forall fuel text (s t : bst) x, source_to_ast fuel text s = Done x s ->
  source_to_ast fuel text t = Done x t.
Proof.
  intros fuel text s t x. unfold source_to_ast. destruct (scan_state text); try discriminate.
  - destruct (ast fuel _) as [[]| | |]; try discriminate; unfold eret; intros q; injection q as <-; reflexivity.
  - unfold eret. intros q. injection q as <-. reflexivity.
Qed.

Lemma root_below : forall {D s p f}, binv D s -> findS p (b_files s) = Some f -> f < a_next (b_arena s).
Proof.
  intros D s p f I h. destruct (bi_files _ _ I _ _ h) as [(n & e & _) _]. eapply wf_fresh; [apply (bi_wf _ _ I)|exact e].
Qed.

(** The file that is indexed becomes up to date. *)
Lemma index_up_to_date : forall D fuel disk path text nodes range errors s u s', binv D s ->
  disk path = Some text -> source_to_ast fuel text s = Done (inl (nodes, range, errors)) s ->
  index_result fuel path nodes range errors s = Done u s' -> up_to_date fuel disk path s'.
Proof.
  intros D fuel disk path text nodes range errors s u s' I ed es e. unfold index_result in e.
  take e as ec. destruct x. take e as e0. apply eopt_done in e0 as [edg ->].
  take e as e0. injection e0 as <- <-. injection e as _ <-.
  destruct (collect_same _ _ _ _ _ _ _ (bi_wf _ _ I) (fun f h => root_below I h) ec)
    as (s0 & f & f0 & c1 & c2 & c3 & c4).
  eexists. exists f, f0. split.
  - cbn [did_change_watched]. unfold ebind at 1. unfold eget at 1. cbn [b_open backend_new find]. rewrite ed.
    cbn [eopt]. unfold ebind at 1. unfold eret at 1. unfold ebind at 1.
    rewrite (source_anywhere _ _ _ _ _ es). unfold ebind at 1. unfold ebind at 1. rewrite c1, edg. cbn. reflexivity.
  - cbn. auto.
Qed.
(** ... and the others stay so. *)
Lemma index_step : forall D fuel disk path text x s u s', binv D s ->
  good_disk (Forall (clean D)) (fun p => D (bare p)) disk ->
  disk path = Some text -> source_to_ast fuel text s = Done x s ->
  match x with
  | inl (nodes, range, errors) => index_result fuel path nodes range errors
  | inr _ => eret tt
  end s = Done u s' ->
  binv D s' /\ b_open s' = b_open s /\
  (forall q, up_to_date fuel disk q s -> up_to_date fuel disk q s') /\
  (syntax fuel text <> None -> up_to_date fuel disk path s').
Proof.
  intros D fuel disk path text x s u s' I hd ed es e.
  destruct (hd _ _ ed) as [hp ht]. pose proof (source_spec _ _ _ _ _ es) as [_ hx].
  destruct x as [[[nodes range] errors]|].
  - assert (here : up_to_date fuel disk path s') by (eapply index_up_to_date; eauto).
    pose proof (ht _ _ hx) as hc.
    split; [eapply (keep_index _ _ _ (binv_keeps D)); eauto|].
    unfold index_result in e. take e as ec. take e as e0. apply eopt_done in e0 as [edg ->].
    take e as e0. injection e0 as <- <-. injection e as _ <-.
    split.
    { cbn. eapply (collect_inv D fuel path nodes range); [exact I|exact hp|apply clean_declares; auto|exact ec]. }
    split; [|auto]. intros q hq. destruct (str_eqb_spec q path) as [->|ne]; [exact here|].
    apply (up_to_date_core fuel disk q t); auto.
    eapply (up_to_date_kept D fuel disk fuel path nodes range s); [exact I|apply clean_declares; auto|exact ec|auto|auto].
  - injection e as _ <-. split; auto. split; auto. split; auto. intros n. contradiction.
Qed.

(** After a notification each of the files that are named before the first open
    one is up to date, provided that it tokenises.  What is missing for the full
    statement: the files behind an open one, see [C28_refuted]; and the history
    must be tame. *)
Theorem C28_watched_partial : forall D s s' fuel disk order front back, tame D s ->
  tame_event D disk (EvWatched (front ++ back)) ->
  (forall path, In path front -> findS path (b_open s) = None) ->
  match back with [] => True | path :: _ => findS path (b_open s) <> None end ->
  serve fuel disk order (EvWatched (front ++ back)) s = Done tt s' ->
  forall path text, In path front -> disk path = Some text -> syntax fuel text <> None ->
  up_to_date fuel disk path s'.
Proof.
  intros D s s' fuel disk order front back ht [hd _] hf hb e.
  apply tame_binv in ht as I. cbn [serve] in e. clear ht.
  assert (k : (forall q, up_to_date fuel disk q s -> up_to_date fuel disk q s') /\
    forall path text, In path front -> disk path = Some text -> syntax fuel text <> None ->
      up_to_date fuel disk path s').
  { revert s I hf hb e. induction front as [|path rest IH]; intros s I hf hb e.
    - split; [|intros ? ? []]. destruct back as [|p back]; cbn [app did_change_watched] in e.
      + injection e as <-. auto.
      + take e as e0. injection e0 as <- <-. destruct (findS p (b_open s)); [|contradiction].
        injection e as <-. auto.
    - cbn [app did_change_watched] in e. take e as e0. injection e0 as <- <-.
      rewrite (hf path (or_introl eq_refl)) in e. take e as e0. apply eopt_done in e0 as [ed ->].
      take e as es. pose proof (source_spec _ _ _ _ _ es) as [-> _]. take e as e0.
      assert (q : binv D t /\ b_open t = b_open s /\
        (forall q, up_to_date fuel disk q s -> up_to_date fuel disk q t) /\
        (syntax fuel x <> None -> up_to_date fuel disk path t)).
      { eapply (index_step D fuel disk path x x0 s x1 t); auto. }
      destruct q as (q1 & q2 & q3 & q4).
      destruct (IH t q1) as [k1 k2]; auto.
      { intros p hp. rewrite q2. apply hf. right. auto. }
      { rewrite q2. auto. }
      split; [auto|]. intros p text [<-|hp] edp hs; [|eauto].
      apply k1, q4. congruence. }
  apply k.
Qed.

(** The same for the files that are found when the server starts. *)
Theorem C28_start_partial : forall D s s' fuel disk order paths, tame D s ->
  tame_event D disk (EvIndex paths) ->
  serve fuel disk order (EvIndex paths) s = Done tt s' ->
  forall path text, In path paths -> disk path = Some text -> syntax fuel text <> None ->
  up_to_date fuel disk path s'.
Proof.
  intros D s s' fuel disk order paths ht [hd _] e.
  apply tame_binv in ht as I. cbn [serve] in e. clear ht. unfold init_workspace in e.
  take e as e0. apply rebuild_core in e as (g & ->).
  assert (k : (forall q, up_to_date fuel disk q s -> up_to_date fuel disk q t) /\
    forall path text, In path paths -> disk path = Some text -> syntax fuel text <> None ->
      up_to_date fuel disk path t).
  { revert s I e0. induction paths as [|path rest IH]; intros s I e; cbn [eiter] in e.
    - injection e as _ <-. split; [auto|intros ? ? []].
    - take e as e0. unfold index_path in e0. destruct (disk path) as [text|] eqn:ed.
      + take e0 as es. pose proof (source_spec _ _ _ _ _ es) as [-> _].
        assert (q : binv D t0 /\ b_open t0 = b_open s /\
          (forall q, up_to_date fuel disk q s -> up_to_date fuel disk q t0) /\
          (syntax fuel text <> None -> up_to_date fuel disk path t0)).
        { eapply (index_step D fuel disk path text x1 s x0 t0); auto. }
        destruct q as (q1 & q2 & q3 & q4). destruct (IH t0 q1 e) as [k1 k2].
        split; [auto|]. intros p text' [<-|hp] edp hs; [|eauto]. apply k1, q4. congruence.
      + injection e0 as _ <-. destruct (IH s I e) as [k1 k2]. split; [auto|].
        intros p text' [<-|hp] edp hs; [congruence|eauto]. }
  intros path text hp ed hs. apply (up_to_date_core fuel disk path t); auto. apply (proj2 k _ _ hp ed hs).
Qed.

End C28.

(** The file that is open hides the change of the other one. *)
Theorem C28_refuted : exists s s' fuel disk order a b text, reachable s /\
  findS a (b_open s) <> None /\ findS b (b_open s) = None /\
  disk b = Some text /\ syntax fuel text <> None /\
  serve fuel disk order (EvWatched [a; b]) s = Done tt s' /\
  ~ up_to_date fuel disk b s'.
Proof.
  set (s := state_after [(disk2 text21a text21b, EvIndex [pA; pB]); (disk2 text21a text21b, EvOpen pA [])]).
  exists s, s, 400%nat, (disk2 text21a text21c), (fun m => m), pA, pB, (lit text21c).
  split; [apply state_after_reachable|]. split; [vm_compute; discriminate|].
  split; [vm_compute; reflexivity|]. split; [vm_compute; reflexivity|].
  split; [vm_compute; discriminate|]. split; [vm_compute; reflexivity|].
  intros (s0 & f & f0 & e & h1 & h2 & (r & r1 & _ & r3 & _)).
  vm_compute in e. injection e as <-. vm_compute in h1, h2. injection h1 as <-. injection h2 as <-.
  destruct (r3 0) as (_ & _ & k); [constructor; vm_compute; discriminate|].
  rewrite r1 in k. vm_compute in k. discriminate.
Qed.

(** Two files change; the third one is open. *)
Definition pC : str := lit "/c.php".
Definition disk28 (p : str) : option str :=
  if str_eqb p pC then Some (lit "<?php class C28 { }") else disk2 text21c text21b p.
Definition names28 : list str := pC :: lit "C28" :: names21.
Definition state28 : bst :=
  state_after [(disk2 text21a text21b, EvIndex [pA; pB]); (disk28, EvOpen pC [])].

Example C28_case : exists s',
  tame (fun k => In k names28) state28 /\
  tame_event (fun k => In k names28) disk28 (EvWatched ([pB; pA] ++ [pC])) /\
  (forall path, In path [pB; pA] -> findS path (b_open state28) = None) /\
  findS pC (b_open state28) <> None /\
  serve 400 disk28 (fun m => m) (EvWatched ([pB; pA] ++ [pC])) state28 = Done tt s' /\
  syntax 400 (lit text21c) <> None /\ findS pA (b_files s') <> findS pA (b_files state28).
Proof.
  assert (t2 : forall p text, disk2 text21a text21b p = Some text ->
    In (bare p) names28 /\ text_ok (fun k => In k names28) text).
  { apply tame_disk2; try (vm_compute; tauto); vm_compute; reflexivity. }
  assert (t3 : forall p text, disk28 p = Some text ->
    In (bare p) names28 /\ text_ok (fun k => In k names28) text).
  { intros p text e. unfold disk28 in e. destruct (str_eqb p pC) eqn:ec.
    - apply str_eq in ec. subst. injection e as <-. split; [vm_compute; tauto|].
      apply tame_text_sound. vm_compute. reflexivity.
    - revert e. apply tame_disk2; try (vm_compute; tauto); vm_compute; reflexivity. }
  eexists. split; [|split; [|split; [|split; [|split; [|split]]]]].
  - apply tame_play. repeat (apply Forall_cons; [split; [assumption|exact I]|]). constructor.
  - split; [exact t3|exact I].
  - intros path [<-|[<-|[]]]; vm_compute; reflexivity.
  - vm_compute. discriminate.
  - vm_compute. reflexivity.
  - vm_compute. discriminate.
  - vm_compute. discriminate.
Qed.

Print Assumptions C28_dropped_refuted.
Print Assumptions C28_watched_partial.
Print Assumptions C28_start_partial.
Print Assumptions C28_refuted.

(** * C20 and C36 in the states of the server *)

Section Lookup.
Context {RT : Runtime} {HH : Hashing}.

(** [C20_innermost_partial] for all states of the server and all files that
    have not been lost *)
Theorem C20_reachable_partial : forall s path f p, reachable s ->
  findS path (b_files s) = Some f -> alive (b_arena s) f ->
  exists i, symbol_at (b_arena s) p f = Some i /\
    within (b_arena s) i f /\
    (i = f \/ exists d, data (b_arena s) i = Some d /\ inside p (y_range d)) /\
    (forall c d, parent_of (b_arena s) c = Some (Some i) -> data (b_arena s) c = Some d ->
       y_kind d <> KNamespace -> y_kind d <> KMagicConst -> ~ inside p (y_range d)).
Proof.
  intros s path f p r _ l. apply reachable_winv in r. apply C20_innermost_partial; auto. apply (wi_wf _ r).
Qed.

(** In a tame history no file is ever lost. *)
Theorem C20_tame_partial : forall D s path f p, tame D s -> findS path (b_files s) = Some f ->
  exists i, symbol_at (b_arena s) p f = Some i /\
    within (b_arena s) i f /\
    (i = f \/ exists d, data (b_arena s) i = Some d /\ inside p (y_range d)) /\
    (forall c d, parent_of (b_arena s) c = Some (Some i) -> data (b_arena s) c = Some d ->
       y_kind d <> KNamespace -> y_kind d <> KMagicConst -> ~ inside p (y_range d)).
Proof.
  intros D s path f p t h. apply tame_binv in t as I. apply C20_innermost_partial; [apply (bi_wf _ _ I)|].
  destruct (bi_files _ _ I _ _ h) as [(n & e & _) _]. unfold alive, data. rewrite e. discriminate.
Qed.

(** The search, see [C36_search_partial], after tame histories *)
Theorem C36_tame_partial : forall D s query, tame D s -> query <> [] ->
  exists l, symbol_query query s = Done (Some l) s /\
  forall name kind path range, In (name, kind, path, range) l <->
    exists f i d, findS path (b_files s) = Some f /\ within (b_arena s) i f /\
      data (b_arena s) i = Some d /\
      (exists rest, to_lowercase name = to_lowercase query ++ rest) /\
      name = sym_name d /\ range = y_range d /\ lsp_kind (y_kind d) = Some kind.
Proof.
  intros D s query t ne. apply tame_binv in t as I.
  apply C36_search_partial; [apply (bi_wf _ _ I)|apply (bi_nodup _ _ I)| |exact ne].
  intros p f h. destruct (bi_files _ _ I _ _ h) as [(n & e & _) _]. unfold alive, data. rewrite e. discriminate.
Qed.

End Lookup.

(** Parameters are indexed but never found, even by their exact name; an empty
    query, that all names start with, has no answer. *)
Theorem C36_refuted : exists s query f i d, reachable s /\
  findS pA (b_files s) = Some f /\ within (b_arena s) i f /\ data (b_arena s) i = Some d /\
  sym_name d = query /\ symbol_query query s = Done (Some []) s /\ symbol_query [] s = Done None s.
Proof.
  exists (state_after [(disk2 "<?php function f($par) {}" "<?php", EvIndex [pA])]), (lit "par"), 0, 2. eexists.
  split; [apply state_after_reachable|]. split; [vm_compute; reflexivity|].
  split.
  { apply within_child with 1; [vm_compute; reflexivity|]. apply within_child with 0; [vm_compute; reflexivity|].
    apply within_self. vm_compute. discriminate. }
  split; [vm_compute; reflexivity|]. split; [vm_compute; reflexivity|].
  split; vm_compute; reflexivity.
Qed.

Print Assumptions C20_reachable_partial.
Print Assumptions C20_tame_partial.
Print Assumptions C36_tame_partial.
Print Assumptions C36_refuted.
