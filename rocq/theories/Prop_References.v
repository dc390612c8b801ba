(** Properties of the server: C24 to C26, references, renaming and diagnostics.
    The vocabulary is in SpecNames.v and SpecServer.v. *)

From Coq Require Import Permutation.
From Verif Require Import Base Token Scanner Node DocBlock Parser Assoc AssocFacts Arena ArenaFacts
  Symbol EnvMonad EnvFacts Workspace WorkspaceFacts WorkspaceSim Resolver SpecNames ResolverFacts
  Backend BackendFacts SpecServer ServerInv IndexFacts Prop_Symbols Prop_Server Prop_Edits.

Local Notation findS := (find str_eqb).
Local Existing Instance ascii_runtime | 9.
Local Existing Instance plain_hashing | 9.
Local Open Scope string_scope.
Local Open Scope N_scope.
Local Open Scope list_scope.

(** * C24: recorded references *)

Section C24.
Context {RT : Runtime}.

(** Histories in which at most one file is open at a time and nobody searches
    for references or renames *)
Definition solo_event (s : bst) (e : event) : Prop :=
  match e with
  | EvOpen path _ | EvChange path _ => forall other, findS other (b_open s) <> None -> other = path
  | EvReferences _ _ | EvRename _ _ _ => False
  | _ => True
  end.
Inductive solo : bst -> Prop :=
| solo_start : solo backend_new
| solo_next : forall s s' (hs : Hashing) fuel disk order e,
    solo s -> solo_event s e -> serve fuel disk order e s = Done tt s' -> solo s'.

Context {HH : Hashing}.

(** The recorded references are alive and belong to open files. *)
Record sound (s : bst) : Prop := {
  so_inv : winv s;
  so_live : forall p m i rs, findS p (b_refs s) = Some m -> In (i, rs) m -> live (b_arena s) i;
  so_open : forall p, findS p (b_refs s) <> None -> findS p (b_open s) <> None
}.

Lemma del_all : forall ds (m : FileReferenceMap) i rs,
  In (i, rs) (fold_left (fun m i => del N.eqb i m) ds m) -> In (i, rs) m /\ ~ In i ds.
Proof.
  induction ds as [|d ds IH]; cbn [fold_left]; intros m i rs h; [auto|].
  apply IH in h as [h1 h2]. unfold del in h1. apply filter_In in h1 as [h1 h3]. cbn in h3.
  split; auto. intros [->|h]; [|auto]. rewrite N.eqb_refl in h3. discriminate.
Qed.

Lemma find_map_refs : forall (f : FileReferenceMap -> FileReferenceMap) p l,
  findS p (map (fun x => (fst x, f (snd x))) l) = opt_map f (findS p l).
Proof.
  intros f p. induction l as [|[k v] l IH]; cbn; auto. destruct (str_eqb p k); auto.
Qed.

Lemma collect_refs : forall fuel path nodes range s u s', winv s ->
  collect_symbols fuel path nodes range s = Done u s' ->
  forall p m', findS p (b_refs s') = Some m' -> exists m, findS p (b_refs s) = Some m /\
  forall i rs, In (i, rs) m' -> In (i, rs) m /\ (live (b_arena s) i -> live (b_arena s') i).
Proof.
  intros fuel path nodes range s u s' I e.
  pose proof (wi_wf _ I) as ws.
  assert (hold : forall f, findS path (b_files s) = Some f -> f < a_next (b_arena s))
    by (intros f h; apply (wi_files _ I _ _ h)).
  assert (hn : Forall (declares_in (fun _ => True)) nodes).
  { apply Forall_forall. intros n _ m _. apply Forall_forall. auto. }
  unfold collect_symbols in e. unfold ebind at 1 in e. unfold e_new in e. cbn [the_arena bst_arena] in e.
  unfold new_node in e. cbn [snd] in e. unfold ebind at 1 in e. unfold visit_symbols in e.
  cbn [b_arena with_arena bst_arena] in e.
  change (eiter (fun node => w_traverse fuel node (a_next (b_arena s))) nodes _)
    with (visited fuel path nodes range (b_arena s)) in e.
  destruct (visited fuel path nodes range (b_arena s)) as [[] w| |] eqn:ev; try discriminate.
  pose proof (visited_tree _ _ _ _ _ _ _ _ ws hn ev) as T.
  pose proof (tr_wf _ _ _ _ _ T) as w2. cbn [b_arena with_arena bst_arena] in e.
  assert (lw : forall i, live (b_arena s) i -> live (w_arena w) i).
  { intros i [n l]. exists n. eapply old_node; eauto. }
  take e as e1. injection e1 as <- <-. take e as e1. injection e1 as _ <-. cbn in e.
  take e as e1. take e as e0. apply reads_kids in e0. subst. apply register_core in e as [g ->]. cbn.
  destruct (findS path (b_files s)) as [old|] eqn:eo.
  - take e1 as e0. apply reads_kids in e0. subst. take e1 as e0. apply deregister_core in e0 as [g' ->].
    take e1 as e0. injection e0 as <- <-. take e1 as e0. apply eopt_done in e0 as [ed ->].
    take e1 as e0. injection e0 as _ <-. unfold on_arena in e1.
    cbn [b_arena with_arena bst_arena with_global] in ed, e1.
    destruct (remove_subtree old (w_arena w)) as [a'|] eqn:er; [|discriminate].
    injection e1 as _ <-. cbn.
    destruct (node_of_prune_spec _ _ _ w2 er) as (_ & sp2).
    intros p m' em. rewrite (find_map_refs (fun m => fold_left (fun m i => del N.eqb i m) x4 m)) in em.
    destruct (findS p (b_refs s)) as [m|]; [|discriminate]. injection em as <-.
    exists m. split; auto. intros i rs h. apply del_all in h as [h1 h2]. split; auto.
    intros l. apply lw in l as [n l].
    rewrite (descendants_spec _ _ _ w2 ed) in h2. unfold live. rewrite (sp2 _ h2), l. eauto.
  - injection e1 as _ <-. cbn. intros p m' em. exists m'. auto.
Qed.

Lemma collect_sound : forall fuel path nodes range s u s', sound s ->
  collect_symbols fuel path nodes range s = Done u s' -> sound s' /\ b_open s' = b_open s.
Proof.
  intros fuel path nodes range s u s' [I L O] e.
  pose proof (collect_refs _ _ _ _ _ _ _ I e) as cr.
  destruct (collect_new _ _ _ _ _ _ _ (wi_wf _ I) (fun f h => proj1 (wi_files _ I _ _ h)) e)
    as (w & _ & _ & _ & _ & _ & eo & _).
  split; auto. constructor.
  - eapply (kp_collect _ _ _ winv_keeps); eauto.
  - intros p m i rs h hi. destruct (cr _ _ h) as (m0 & h0 & k). destruct (k _ _ hi) as [k1 k2]. eauto.
  - intros p h. rewrite eo. apply O. destruct (findS p (b_refs s')) as [m|] eqn:em; [|contradiction].
    destruct (cr _ _ em) as (m0 & h0 & _). congruence.
Qed.

(** The analysis of a file replaces its references by living ones. *)
Lemma references_alive : forall l i rs, In (i, rs) (references_by_node l) -> In i (map snd l).
Proof.
  intros l i rs. unfold references_by_node.
  assert (k : forall l m, In (i, rs) (fold_left (fun m p => upsert N.eqb (snd p) [] (fun rs => rs ++ [fst p]) m) l m) ->
    In i (map snd l) \/ In i (keys m)).
  { clear l. induction l as [|[r j] l IH]; cbn [fold_left map In fst snd]; intros m h.
    - right. unfold keys. apply (in_map fst) in h. auto.
    - apply IH in h as [h|h]; auto. unfold upsert in h.
      apply keys_put_in in h as [->|h]; auto. apply N.eqb_spec. }
  intros h. apply k in h as [h|[]]. auto.
Qed.

Lemma analyse_alive : forall fuel path nodes s m s', winv s ->
  analyse fuel path nodes s = Done (Some m) s' -> forall i rs, In (i, rs) m -> live (b_arena s') i.
Proof.
  intros fuel path nodes s m s' I e i rs hi. unfold analyse in e.
  take e as e1. injection e1 as <- <-. destruct (findS path (b_files s)) as [f|] eqn:ef; [|discriminate].
  assert (lf : exists n, node_of (b_arena s) f = Some n /\ y_kind (n_data n) = KFile).
  { destruct (node_of (b_arena s) f) as [n|] eqn:en.
    - exists n. split; auto. eapply (wi_files _ I); eauto.
    - exfalso. take e as e1. unfold purge_variables in e1. take e1 as e0. injection e0 as <- <-.
      take e1 as e0. apply eopt_done in e0 as [ed ->]. unfold descendants in ed.
      rewrite below_S, en in ed. discriminate. }
  destruct lf as (nf & enf & kf).
  take e as e1. destruct (purge_spec _ _ _ _ (wi_wf _ I) e1) as (a1 & -> & g1).
  destruct (sh_keep _ _ g1 _ _ enf) as (nf1 & enf1 & df1 & _); [congruence|].
  take e as e0. cbn [b_arena with_arena bst_arena] in *.
  apply resolve_drifts in e0 as (-> & g2 & ri); [|apply g1|exists nf1; exact enf1].
  take e as e0. apply notes_core in e0 as (c1 & _). injection e as <- <-. rewrite c1. cbn.
  apply references_alive in hi. destruct ri as [_ ri]. rewrite Forall_forall in ri.
  apply (ri (Al i)). unfold held. rewrite !in_app_iff. do 3 right. left.
  destruct (find N.eqb f (r_refs x0)) as [l|] eqn:el; [|destruct hi].
  apply in_flat_map. exists (f, l). split; [eapply find_in; [apply N.eqb_spec|exact el]|].
  cbn. apply in_map. auto.
Qed.

Lemma references_sound : forall fuel path nodes s u s', sound s ->
  (forall q, findS q (b_open s) <> None -> q = path) -> findS path (b_open s) <> None ->
  collect_references fuel path nodes s = Done u s' -> sound s' /\ b_open s' = b_open s.
Proof.
  intros fuel path nodes s u s' [I L O] only op e. unfold collect_references in e.
  take e as ea. pose proof (analyse_frame _ _ _ _ _ _ ea) as (f1 & f2 & f3 & f4 & f5).
  destruct (analyse_winv _ _ _ _ _ _ I ea) as (I' & _).
  destruct x as [m|].
  - pose proof (analyse_alive _ _ _ _ _ _ I ea) as al.
    take e as e0. injection e0 as <- <-. injection e as _ <-. split; [|exact f4].
    constructor.
    + destruct I'. constructor; auto.
    + cbn. intros p m' i rs h hi. rewrite find_put in h by apply str_eqb_spec.
      destruct (str_eqb p path) eqn:ep.
      * injection h as <-. eauto.
      * exfalso. rewrite f3 in h. assert (p = path) by (apply only, O; congruence). subst.
        destruct (str_eqb_spec path path); congruence.
    + cbn. intros p h. rewrite f4. rewrite find_put in h by apply str_eqb_spec.
      destruct (str_eqb_spec p path) as [q|ne]; [rewrite q; auto|]. rewrite f3 in h. auto.
  - injection e as _ <-. split; auto. unfold analyse in ea. take ea as e0. injection e0 as <- <-.
    destruct (findS path (b_files s)); [|injection ea as <-; constructor; auto].
    take ea as e0. take ea as e2. take ea as e3. discriminate.
Qed.

Lemma sound_same : forall s s', sound s -> b_arena s' = b_arena s -> b_files s' = b_files s ->
  b_refs s' = b_refs s -> b_open s' = b_open s -> sound s'.
Proof.
  intros s s' [[] L O] h1 h2 h3 h4. constructor; [constructor| |]; rewrite ?h1, ?h2, ?h3, ?h4; auto.
Qed.

(** More open files *)
Lemma sound_open : forall s s' path x, sound s -> b_arena s' = b_arena s -> b_files s' = b_files s ->
  b_refs s' = b_refs s -> b_open s' = put str_eqb path x (b_open s) -> sound s'.
Proof.
  intros s s' path x [[] L O] h1 h2 h3 h4.
  constructor; [constructor| |]; rewrite ?h1, ?h2, ?h3, ?h4; auto.
  - apply nodup_put; auto. apply str_eqb_spec.
  - intros p h. rewrite find_put by apply str_eqb_spec. destruct (str_eqb p path); [discriminate|auto].
Qed.

Lemma index_sound : forall fuel path nodes range errors s u s', sound s ->
  index_result fuel path nodes range errors s = Done u s' -> sound s' /\ b_open s' = b_open s.
Proof.
  intros fuel path nodes range errors s u s' I e. unfold index_result in e.
  take e as ec. apply collect_sound in ec as [J q]; auto. take e as e0. apply eopt_done in e0 as [_ ->].
  take e as e0. injection e0 as <- <-. injection e as _ <-. split; [|exact q].
  eapply sound_same; eauto.
Qed.

Lemma only_put : forall path (o : list (str * (list Node * Range))) x,
  (forall q, findS q o <> None -> q = path) ->
  forall q, findS q (put str_eqb path x o) <> None -> q = path.
Proof.
  intros path o x h q. rewrite find_put by apply str_eqb_spec.
  destruct (str_eqb_spec q path); auto.
Qed.

Lemma solo_tasks : forall path (o : list (str * (list Node * Range))), NoDup (keys o) ->
  (forall q, findS q o <> None -> q = path) -> o = [] \/ exists x, o = [(path, x)].
Proof.
  intros path o nd h. destruct o as [|[p x] [|[q y] o]]; auto.
  - right. exists x. rewrite (h p); auto. cbn. destruct (str_eqb_spec p p); congruence.
  - exfalso. inversion nd; subst. apply H1. left. cbn.
    assert (p = path) by (apply h; cbn; destruct (str_eqb_spec p p); congruence).
    assert (q = path); [|congruence].
    apply h; cbn. destruct (str_eqb_spec q p); [discriminate|]. destruct (str_eqb_spec q q); congruence.
Qed.

Lemma serve_sound : forall fuel disk order e s s', sound s -> solo_event s e ->
  serve fuel disk order e s = Done tt s' -> sound s'.
Proof.
  intros fuel disk order e s s' I ok r. destruct e; cbn [serve solo_event] in *; try contradiction.
  - (* indexing *)
    unfold init_workspace in r. take r as r1. apply rebuild_core in r as [g ->].
    assert (sound t). 
    { revert s I ok r1. induction paths as [|p paths IH]; intros s I ok r; cbn [eiter] in r.
      - injection r as _ <-. auto.
      - take r as r1. eapply IH; [|exact Logic.I|exact r]. unfold index_path in r1.
        destruct (disk p); [|injection r1 as _ <-; auto]. take r1 as rs. apply source_spec in rs as [-> _].
        destruct x1 as [[[nodes range] errors]|]; [|injection r1 as _ <-; auto].
        apply index_sound in r1; tauto. }
    eapply sound_same; eauto.
  - injection r as <-. eapply sound_same; eauto.
  - (* opening *)
    unfold did_open in r. take r as r1. apply eopt_done in r1 as [_ ->].
    take r as r1. injection r1 as <- <-. take r as r1. injection r1 as _ <-.
    take r as r1. injection r1 as <- <-. cbn [b_open] in r. set (s1 := mkBst _ _ _ _ _ _ _) in r.
    assert (I1 : sound s1) by (eapply sound_same; eauto).
    take r as r1. destruct (findS path (b_open s)) as [o|] eqn:eo.
    + injection r1 as <- <-. take r as r1. injection r1 as <- <-. cbn [b_open s1] in r. rewrite eo in r.
      destruct o as [nodes range].
      apply (references_sound fuel path nodes s1) in r; auto; [tauto|cbn; congruence].
    + take r1 as rs. apply source_spec in rs as [-> _].
      destruct x2 as [[[nodes range] errors]|]; [|injection r1 as <- <-; injection r as <-; auto].
      take r1 as r2. apply eopt_done in r2 as [_ ->]. take r1 as r2. injection r2 as <- <-.
      take r1 as r2. injection r2 as _ <-. take r1 as r2. injection r2 as _ <-. injection r1 as <- <-.
      set (s2 := mkBst _ _ _ _ _ _ _) in r.
      assert (I2 : sound s2) by (eapply (sound_open s1 s2 path); eauto; reflexivity).
      take r as r1. injection r1 as <- <-.
      assert (eo2 : findS path (b_open s2) = Some (nodes, range)) by (apply find_put_same, str_eqb_spec).
      change (findS path (put str_eqb path (nodes, range) (b_open s)) = Some (nodes, range)) in eo2.
      rewrite eo2 in r. apply (references_sound fuel path nodes s2) in r; auto; [tauto| |cbn [b_open s2]; congruence].
      apply only_put. auto.
  - (* editing *)
    destruct texts as [|text texts]; [injection r as <-; auto|]. cbn [did_change] in r.
    take r as r1. injection r1 as <- <-. take r as r1. injection r1 as _ <-.
    set (s1 := mkBst _ _ _ _ _ _ _) in r.
    assert (I1 : sound s1) by (eapply sound_same; eauto).
    assert (ok1 : forall q, findS q (b_open s1) <> None -> q = path) by exact ok.
    clearbody s1. clear s ok I. unfold refresh_file in r.
    take r as rs. apply source_spec in rs as [-> _]. take r as r1.
    assert (k : sound t /\ (forall q, findS q (b_open t) <> None -> q = path)).
    { destruct x0 as [[[nodes range] errors]|]; [|injection r1 as _ <-; auto].
      take r1 as r2. apply collect_sound in r2 as [J q]; auto.
      take r1 as r2. apply eopt_done in r2 as [_ ->]. take r1 as r2. injection r2 as <- <-.
      take r1 as r2. injection r2 as _ <-. take r1 as r2. injection r2 as <- <-. injection r1 as _ <-.
      split.
      - eapply sound_open; [exact J|reflexivity..].
      - cbn [b_open]. apply only_put. rewrite q. auto. }
    destruct k as [J ok]. take r as r2. injection r2 as <- <-.
    destruct (solo_tasks path (b_open t)) as [eo|[[nodes range] eo]]; auto; [apply J| |].
    + rewrite eo in r. replace (h_order []) with (@nil (str * (list Node * Range))) in r.
      * injection r as <-. auto.
      * symmetry. apply Permutation_nil. apply Permutation_sym, h_perm.
    + rewrite eo in r. replace (h_order [(path, (nodes, range))]) with [(path, (nodes, range))] in r.
      * cbn [eiter] in r. take r as r2. injection r as <-.
        apply references_sound in r2; auto; [tauto|]. cbn [fst]. rewrite eo. cbn.
        destruct (str_eqb_spec path path); congruence.
      * symmetry. apply Permutation_length_1_inv. apply Permutation_sym, h_perm.
  - (* closing *)
    assert (e : did_close path s = Done tt (mkBst (b_arena s) (b_files s) (b_global s) (b_diags s)
      (del str_eqb path (b_refs s)) (del str_eqb path (b_open s)) (del str_eqb path (b_latest s)))) by reflexivity.
    rewrite e in r. injection r as <-. destruct I as [[] L O].
    constructor; [constructor; auto| |]; cbn [b_arena b_refs b_open b_files].
    + apply nodup_del. auto.
    + intros p m i rs h hi. rewrite find_del in h by apply str_eqb_spec.
      destruct (str_eqb path p); [discriminate|]. eauto.
    + intros p. rewrite !find_del by apply str_eqb_spec. destruct (str_eqb path p); auto.
  - (* outside changes *)
    revert s I ok r. induction paths as [|path rest IH]; intros s I ok r; cbn [did_change_watched] in r.
    + injection r as <-. auto.
    + take r as r1. injection r1 as <- <-. destruct (findS path (b_open s)); [injection r as <-; auto|].
      take r as r1. apply eopt_done in r1 as [_ ->]. take r as rs. apply source_spec in rs as [-> _].
      take r as r1. apply IH in r; auto. destruct x0 as [[[nodes range] errors]|]; [|injection r1 as _ <-; auto].
      apply (index_sound fuel path nodes range errors s) in r1; tauto.
  - take r as r1. apply reads_definition in r1. injection r as <-. subst. auto.
  - take r as r1. apply reads_hover in r1. injection r as <-. subst. auto.
  - take r as r1. apply reads_highlight in r1. injection r as <-. subst. auto.
  - take r as r1. apply reads_query in r1. injection r as <-. subst. auto.
  - take r as r1. apply reads_outline in r1. injection r as <-. subst. auto.
Qed.

End C24.

Lemma solo_sound : forall {RT : Runtime} s, solo s -> sound s.
Proof.
  induction 1 as [|s s' hs fuel disk order e h IH ok r].
  - constructor; [apply winv_new|discriminate|]. intros p h. cbn in h. contradiction.
  - eapply serve_sound; eauto.
Qed.

Section C24_theorems.
Context {RT : Runtime} {HH : Hashing}.

(** Every recorded reference of an open file points to a symbol that exists.
    What is missing for the full statement: histories with searches for
    references or renaming (see [C24_refuted]) and several open files (see
    [C24_open_refuted]). *)
Theorem C24_alive_partial : forall s path m i rs, solo s ->
  findS path (b_refs s) = Some m -> In (i, rs) m -> alive (b_arena s) i.
Proof.
  intros s path m i rs h e hi. apply solo_sound in h. destruct (so_live _ h _ _ _ _ e hi) as [n en].
  unfold alive, data. rewrite en. discriminate.
Qed.

Lemma climb_located : forall f a i l, climb f a i = Some l -> wf a -> exists o, location_loop f a i = Some o.
Proof.
  induction f as [|f IH]; cbn [climb location_loop]; intros a i l e w; [discriminate|].
  unfold parent_of. destruct (node_of a i) as [n|] eqn:en; [|discriminate]. cbn.
  destruct (n_parent n) as [p|] eqn:ep; [|eauto].
  destruct (climb f a p) as [r|] eqn:er; [|discriminate].
  destruct (wf_up _ w _ _ _ en ep) as (m & em & _). rewrite (data_node _ _ _ em).
  destruct (kind_eqb _ _); [eauto|]. eapply IH; eauto.
Qed.

Lemma location_total : forall a i, wf a -> live a i -> exists o, symbol_location a i = Some o.
Proof.
  intros a i w l. unfold symbol_location. destruct (ancestors_total a i w l) as (as_ & e).
  apply climb_located in e as [o e]; auto. destruct l as [n en]. rewrite (data_node _ _ _ en), e. eauto.
Qed.

(** So the requests that follow the references do not crash, in whatever order
    they look at them. *)
Theorem C24_definition_partial : forall s order path p, solo s ->
  (forall m, Permutation (order m) m) -> exists x, goto_definition order path p s = Done x s.
Proof.
  intros s order path p h ho. apply solo_sound in h. unfold goto_definition, ebind, eget.
  destruct (findS path (b_refs s)) as [m|] eqn:em; [|exists None; reflexivity].
  assert (al : forall i rs, In (i, rs) (order m) -> live (b_arena s) i).
  { intros i rs hi. apply (Permutation_in _ (ho m)) in hi. eapply (so_live _ h); eauto. }
  induction (order m) as [|[i rs] l IH]; cbn [first_location]; [exists None; reflexivity|].
  assert (alt : exists x, first_location p l s = Done x s) by (apply IH; intros; eapply al; right; eauto).
  destruct (touches p rs); [|exact alt].
  destruct (location_total (b_arena s) i) as [[x|] e]; [apply (wi_wf _ (so_inv _ h))|eapply al; left; eauto| |];
    unfold ebind, eget; rewrite e; cbn [eopt]; unfold eret; [exists (Some x); reflexivity|exact alt].
Qed.

Theorem C24_hover_partial : forall D s order path p, solo s -> tame D s ->
  (forall m, Permutation (order m) m) -> exists x, hover order path p s = Done x s.
Proof.
  intros D s order path p h t ho. apply solo_sound in h. apply tame_binv in t as I.
  pose proof (wi_wf _ (so_inv _ h)) as w.
  assert (rest : exists x, (elet refs <- eget b_refs in
      match find str_eqb path refs with
      | None => eret None
      | Some m =>
          match List.find (fun e => touches p (snd e)) (order m) with
          | None => eret None
          | Some (node, ranges) =>
              edo e_data node in
              edo e_top node in
              eret (opt_map (fun r => (get_range r, node))
                      (List.find (fun r => in_range p (get_range r)) ranges))
          end
      end) s = Done x s).
  { unfold ebind at 1. unfold eget at 1. destruct (findS path (b_refs s)) as [m|] eqn:em; [|eexists; reflexivity].
    destruct (List.find _ (order m)) as [[i rs]|] eqn:ef; [|eexists; reflexivity].
    apply find_some in ef as [hi _]. apply (Permutation_in _ (ho m)) in hi.
    pose proof (so_live _ h _ _ _ _ em hi) as l. destruct (top_total _ _ w l) as [tp et]. destruct l as [n en].
    unfold ebind, e_data, e_top. cbn [the_arena bst_arena]. rewrite (data_node _ _ _ en), et. eexists. reflexivity. }
  unfold hover. unfold ebind at 1. unfold symbol_under_cursor. unfold ebind at 1. unfold eget at 1.
  destruct (findS path (b_files s)) as [f|] eqn:ef.
  - destruct (C20_innermost_partial (b_arena s) p f w) as (i & ei & wi & _).
    { destruct (bi_files _ _ I _ _ ef) as [(n & e & _) _]. unfold alive, data. rewrite e. discriminate. }
    apply Up_within in wi as [l _]. destruct (top_total _ _ w l) as [tp et]. destruct l as [n en].
    unfold ebind at 1. unfold eget at 1. rewrite ei. cbn [eopt]. unfold ebind at 1. unfold eret at 1.
    unfold ebind at 1. unfold e_data at 1. cbn [the_arena bst_arena]. rewrite (data_node _ _ _ en).
    unfold eret at 1. unfold ebind at 1. unfold ebind at 1. unfold e_data at 1. cbn [the_arena bst_arena].
    rewrite (data_node _ _ _ en). destruct (in_range p (y_sel (n_data n))).
    + unfold ebind, e_top. cbn [the_arena bst_arena]. rewrite et. eexists. reflexivity.
    + exact rest.
  - exact rest.
Qed.

Theorem C24_highlight : forall s order path p, exists x, document_highlight order path p s = Done x s.
Proof.
  intros s order path p. unfold document_highlight, ebind, eget.
  destruct (findS path (b_refs s)) as [m|]; [|eexists; reflexivity].
  destruct (List.find _ (order m)) as [[i rs]|]; eexists; reflexivity.
Qed.

End C24_theorems.

(** Searching for the references of a class purges the variables of the open
    file, of which the disk has an older version; looking up the definition of
    the variable [$x] crashes. *)
Definition disk24 := disk2 "<?php class K {}" "<?php".
Definition history24 : list ((str -> option str) * event) :=
  [(disk24, EvIndex [pA]); (disk24, EvOpen pA (lit "<?php class K {}"));
   (disk24, EvChange pA [lit "<?php class K {} $x = 1;"])].

Theorem C24_refuted : exists s path m i rs p, reachable s /\
  findS path (b_refs s) = Some m /\ In (i, rs) m /\ ~ alive (b_arena s) i /\
  goto_definition (fun m => m) path p s = Panic.
Proof.
  exists (state_after (history24 ++ [(disk24, EvReferences pA (mkPos 0 12))])), pA. eexists. eexists. eexists.
  exists (mkPos 0 17).
  split; [apply state_after_reachable|]. split; [vm_compute; reflexivity|].
  split; [right; left; reflexivity|]. split; [|vm_compute; reflexivity].
  intros h. apply h. vm_compute. reflexivity.
Qed.

(** With two open files a search is not needed: [$y] in the class body becomes a
    variable of the class, and [$v->y] in the other file is linked to it.  After
    the next change the other file is analysed first, and the variable is thrown
    away when the file of the class is. *)
Definition disk24o := disk2 "<?php class A { public $p = $y; }" "<?php $v = new A(); $v->y;".
Definition history24o : list ((str -> option str) * event) :=
  [(disk24o, EvIndex [pA; pB]); (disk24o, EvInitialized); (disk24o, EvOpen pB []); (disk24o, EvOpen pA []);
   (disk24o, EvChange pB [lit "<?php $v = new A(); $v->y;"])].
Theorem C24_open_refuted : exists l s path m i rs p,
  play l backend_new = Done tt s /\
  (forall x, In x l -> match snd x with EvReferences _ _ | EvRename _ _ _ => False | _ => True end) /\
  findS path (b_refs s) = Some m /\ In (i, rs) m /\ ~ alive (b_arena s) i /\
  goto_definition (fun m => m) path p s = Panic.
Proof.
  exists history24o, (state_after history24o), pB. do 3 eexists. exists (mkPos 0 24).
  split; [vm_compute; reflexivity|]. split.
  { intros x h. repeat (destruct h as [<-|h]; [exact I|]). destruct h. }
  split; [vm_compute; reflexivity|]. split; [right; right; left; reflexivity|]. split; [|vm_compute; reflexivity].
  intros h. apply h. vm_compute. reflexivity.
Qed.

Fixpoint solo_list {RT : Runtime} {hs : Hashing} (l : list ((str -> option str) * event)) (s : bst) : bool :=
  match l with
  | [] => true
  | (disk, e) :: r =>
      (match e with
       | EvOpen path _ | EvChange path _ => forallb (fun x => str_eqb (fst x) path) (b_open s)
       | EvReferences _ _ | EvRename _ _ _ => false
       | _ => true
       end) &&
      match serve 400 disk (fun m => m) e s with
      | Done _ t => solo_list r t
      | _ => true
      end
  end.

Lemma solo_play : forall {RT : Runtime} {hs : Hashing} l, solo_list l backend_new = true -> solo (state_after l).
Proof.
  intros RT hs l h. unfold state_after.
  assert (k : forall l s s', solo s -> solo_list l s = true -> play l s = Done tt s' -> solo s').
  { clear. induction l as [|[disk e] l IH]; intros s s' hs' h e'; cbn [play] in e'.
    - injection e' as <-. auto.
    - cbn [solo_list] in h. apply andb_prop in h as [h1 h2].
      unfold ebind in e'. destruct (serve 400 disk (fun m => m) e s) as [[] t| |] eqn:es; try discriminate.
      eapply IH; [|exact h2|exact e']. eapply solo_next; [exact hs'| |exact es].
      assert (o : forall path, forallb (fun x => str_eqb (fst x) path) (b_open s) = true ->
        forall other, findS other (b_open s) <> None -> other = path).
      { intros path a other ne. destruct (findS other (b_open s)) as [x|] eqn:ef; [|contradiction].
        apply find_in in ef; [|apply str_eqb_spec]. rewrite forallb_forall in a. apply a in ef.
        apply str_eq in ef. auto. }
      destruct e; cbn; auto; discriminate. }
  destruct (play l backend_new) as [[] s| |] eqn:e; try constructor.
  eapply k; [constructor|exact h|exact e].
Qed.

(** Before the search the history is solo and there are references. *)
Example C24_case : solo (state_after history24) /\
  exists m, findS pA (b_refs (state_after history24)) = Some m /\ m <> [].
Proof.
  split; [|eexists; split; [vm_compute; reflexivity|discriminate]].
  apply solo_play. vm_compute. reflexivity.
Qed.

Print Assumptions C24_alive_partial.
Print Assumptions C24_definition_partial.
Print Assumptions C24_hover_partial.
Print Assumptions C24_highlight.
Print Assumptions C24_refuted.
Print Assumptions C24_open_refuted.

(** * C25: renaming a variable *)

Section C25.
Context {RT : Runtime} {HH : Hashing}.

Lemma efold_vars_all : forall ds (s : bst) acc l s',
  efold (fun l i => elet d <- e_data i in
                    eret (if kind_eqb (y_kind d) KVariable then l ++ [i] else l)) acc ds s = Done l s' ->
  forall i d, In i acc \/ (In i ds /\ data (b_arena s) i = Some d /\ y_kind d = KVariable) -> In i l.
Proof.
  induction ds as [|j ds IH]; intros s acc l s' e i d h; cbn [efold] in e.
  - injection e as <- _. destruct h as [h|[[] _]]; auto.
  - take e as e1. take e1 as e2. unfold e_data in e2. cbn [the_arena bst_arena] in e2.
    destruct (data (b_arena s) j) as [dj|] eqn:ed; [|discriminate]. injection e2 as <- <-.
    injection e1 as <- <-. eapply IH; [exact e|]. destruct h as [h|[[->|h1] [h2 h3]]].
    + left. destruct (kind_eqb (y_kind dj) KVariable); [apply in_or_app|]; auto.
    + left. assert (dj = d) by congruence. subst. rewrite h3. apply in_or_app. right. simpl. auto.
    + right. eauto.
Qed.

Lemma purge_gone : forall file s u s' v d, wf (b_arena s) -> purge_variables file s = Done u s' ->
  Up (b_arena s) v file -> data (b_arena s) v = Some d -> y_kind d = KVariable -> ~ live (b_arena s') v.
Proof.
  intros file s u s' v d w e up ed kd. unfold purge_variables in e.
  take e as e1. injection e1 as <- <-. take e as e1. apply eopt_done in e1 as [eds ->].
  take e as e1. pose proof (efold_vars_all _ _ _ _ _ e1 v d) as hv. pose proof (efold_vars _ _ _ _ _ e1) as [-> _].
  assert (hin : In v x0).
  { apply hv. right. split; [|auto]. apply (descendants_spec _ _ _ w eds). auto. }
  clear hv e1 eds ed.
  assert (k : forall vars s0 u s', wf (b_arena s0) -> In v vars \/ ~ live (b_arena s0) v ->
    eiter (fun v => on_arena (remove v)) vars s0 = Done u s' -> ~ live (b_arena s') v).
  { clear. induction vars as [|j vars IH]; intros s0 u s' w h e; cbn [eiter] in e.
    - injection e as _ <-. destruct h as [[]|h]; auto.
    - take e as e1. unfold on_arena in e1.
      destruct (remove j (b_arena s0)) as [a1|] eqn:er; [|discriminate]. injection e1 as _ <-.
      pose proof (wf_remove _ _ _ w er) as w1. destruct (node_of_remove _ _ _ w er) as (n & en & _ & _ & sp).
      apply (IH (with_arena a1 s0) u s'); [exact w1| |exact e]. cbn.
      destruct h as [[->|h]|h].
      + right. intros [m em]. rewrite sp in em. unfold removed in em. rewrite N.eqb_refl in em. discriminate.
      + auto.
      + right. intros [m em]. apply h. rewrite sp in em. unfold removed in em. destruct (v =? j); [discriminate|].
        unfold live. destruct (node_of (b_arena s0) v); [eauto|discriminate]. }
  eapply k; eauto.
Qed.

(** After an analysis of its file a variable from before is gone for good. *)
Lemma analyse_gone : forall fuel path nodes s m s' f v d, winv s ->
  findS path (b_files s) = Some f -> Up (b_arena s) v f -> data (b_arena s) v = Some d ->
  y_kind d = KVariable -> analyse fuel path nodes s = Done (Some m) s' -> ~ live (b_arena s') v.
Proof.
  intros fuel path nodes s m s' f v d I ef up ed kd e. unfold analyse in e.
  take e as e1. injection e1 as <- <-. rewrite ef in e.
  assert (lf : exists n, node_of (b_arena s) f = Some n /\ y_kind (n_data n) = KFile).
  { destruct (node_of (b_arena s) f) as [n|] eqn:en.
    - exists n. split; auto. eapply (wi_files _ I); eauto.
    - exfalso. take e as e1. unfold purge_variables in e1. take e1 as e0. injection e0 as <- <-.
      take e1 as e0. apply eopt_done in e0 as [ed' ->]. unfold descendants in ed'.
      rewrite below_S, en in ed'. discriminate. }
  destruct lf as (nf & enf & kf).
  take e as e1. pose proof (purge_gone _ _ _ _ _ _ (wi_wf _ I) e1 up ed kd) as gone.
  destruct (purge_spec _ _ _ _ (wi_wf _ I) e1) as (a1 & -> & g1).
  destruct (sh_keep _ _ g1 _ _ enf) as (nf1 & enf1 & df1 & _); [congruence|].
  take e as e0. cbn [b_arena with_arena bst_arena] in *.
  apply resolve_drifts in e0 as (-> & g2 & _); [|apply g1|exists nf1; exact enf1].
  take e as e0. apply notes_core in e0 as (c1 & _). injection e as _ <-. rewrite c1. cbn.
  intros l. destruct (df_new _ _ g2 v l) as [k|k]; [contradiction|].
  cbn in k. rewrite (sh_next _ _ g1) in k. unfold data in ed.
  destruct (node_of (b_arena s) v) as [nv|] eqn:en; [|discriminate].
  apply (wf_fresh _ (wi_wf _ I)) in en. lia.
Qed.

(** In a workspace with a single file renaming a variable never yields any
    edit: the analysis that looks for its occurrences throws the variable away
    and finds them for a new one. *)
Theorem C25_no_edit_refuted : forall s s' fuel disk order path f m p v d new answer, reachable s ->
  b_files s = [(path, f)] -> findS path (b_refs s) = Some m ->
  referenced_symbol order p m = Some v -> within (b_arena s) v f ->
  data (b_arena s) v = Some d -> y_kind d = KVariable ->
  rename fuel disk order path p new s = Done (Some answer) s' ->
  forall file edits, In (file, edits) answer -> edits = [].
Proof.
  intros s s' fuel disk order path f m p v d new answer r ef em er hw ed kd e file edits hin.
  apply reachable_winv in r as I. unfold rename in e. take e as e1. injection e1 as <- <-.
  rewrite em in e. cbn [obind] in e. rewrite er in e. take e as e1.
  unfold e_data in e1. cbn [the_arena bst_arena] in e1. rewrite ed in e1. injection e1 as <- <-.
  take e as e1. injection e as <- <-. unfold references_of in e1. take e1 as e0. injection e0 as <- <-.
  rewrite ef in e1. replace (h_order [(path, f)]) with [(path, f)] in e1.
  2:{ symmetry. apply Permutation_length_1_inv. apply Permutation_sym, h_perm. }
  cbn [map fst efold] in e1. take e1 as e0. injection e1 as -> <-. unfold search_file in e0.
  apply in_map_iff in hin as ((q & mq) & eq & hin). injection eq as <- <-. cbn [snd fst].
  destruct (disk path) as [content|]; [|injection e0 as <- <-; destruct hin].
  destruct (contains content (y_name d)); [|injection e0 as <- <-; destruct hin].
  take e0 as es. apply source_spec in es as [-> _].
  destruct x0 as [[[nodes rg] errors]|]; [|injection e0 as <- <-; destruct hin].
  take e0 as ea. injection e0 as <- <-. destruct x0 as [mq'|]; [|destruct hin].
  cbn in hin. destruct hin as [hin|[]]. injection hin as <- <-.
  assert (ef' : findS path (b_files s) = Some f).
  { rewrite ef. cbn. destruct (str_eqb_spec path path); congruence. }
  apply Up_within in hw as [_ up].
  pose proof (analyse_gone _ _ _ _ _ _ _ _ _ I ef' up ed kd ea) as gone.
  pose proof (analyse_alive _ _ _ _ _ _ I ea) as al.
  clear ea. induction mq' as [|[i rs] mq' IH]; [reflexivity|]. cbn [flat_map fst snd].
  destruct (N.eqb_spec i v) as [->|ne].
  - elim gone. apply (al v rs). left. auto.
  - cbn. apply IH. intros j rs' hj. apply (al j rs'). right. auto.
Qed.

End C25.

(** Two recorded occurrences, no edit *)
Definition disk25 := disk2 "<?php $x = 1; echo $x;" "<?php".
Definition state25 : bst :=
  state_after [(disk25, EvIndex [pA]); (disk25, EvOpen pA (lit "<?php $x = 1; echo $x;"))].
Definition cursor25 : Position := mkPos 0 7.

Theorem C25_refuted : exists s s' m p v rs d f, reachable s /\
  b_files s = [(pA, f)] /\ findS pA (b_refs s) = Some m /\
  referenced_symbol (fun m => m) p m = Some v /\ within (b_arena s) v f /\
  data (b_arena s) v = Some d /\ y_kind d = KVariable /\
  find N.eqb v m = Some rs /\ List.length rs = 2%nat /\
  rename 400 disk25 (fun m => m) pA p (lit "y") s = Done (Some [(pA, [])]) s'.
Proof.
  exists state25. eexists. eexists. exists (mkPos 0 7). eexists. eexists. eexists. eexists.
  split; [apply state_after_reachable|]. split; [vm_compute; reflexivity|].
  split; [vm_compute; reflexivity|]. split; [vm_compute; reflexivity|].
  split. { eapply within_child; [vm_compute; reflexivity|]. apply within_self. vm_compute. discriminate. }
  split; [vm_compute; reflexivity|]. split; [vm_compute; reflexivity|].
  split; [vm_compute; reflexivity|]. split; [vm_compute; reflexivity|].
  vm_compute. reflexivity.
Qed.

Print Assumptions C25_no_edit_refuted.
Print Assumptions C25_refuted.

(** * C26: diagnostics *)

Section C26.
Context {RT : Runtime} {HH : Hashing}.

(** The state with other diagnostics *)
Definition with_diags (d : list (str * list Diagnostic)) (s : bst) : bst :=
  mkBst (b_arena s) (b_files s) (b_global s) d (b_refs s) (b_open s) (b_latest s).

(** [m] neither looks at the diagnostics nor changes them. *)
Definition blind {A} (m : B A) : Prop := forall s d,
  m (with_diags d s) = match m s with
                       | Done x t => Done x (with_diags d t)
                       | Panic => Panic
                       | Fuel => Fuel
                       end.

Lemma blind_keeps : forall A (m : B A) s x t, blind m -> m s = Done x t -> b_diags t = b_diags s.
Proof.
  intros A m s x t h e. specialize (h s (b_diags s)). rewrite e in h.
  replace (with_diags (b_diags s) s) with s in h by (destruct s; reflexivity).
  rewrite h in e. injection e as <-. reflexivity.
Qed.

Lemma blind_ret : forall A (x : A), blind (eret x).
Proof. intros A x s d. reflexivity. Qed.
Lemma blind_opt : forall A (o : option A), blind (eopt o).
Proof. intros A [x|] s d; reflexivity. Qed.
Lemma blind_bind : forall A C (m : B A) (k : A -> B C), blind m -> (forall x, blind (k x)) -> blind (ebind m k).
Proof.
  intros A C m k hm hk s d. unfold ebind. rewrite hm. destruct (m s) as [x t| |]; auto. apply hk.
Qed.
Lemma blind_get : forall A (f : bst -> A), (forall s d, f (with_diags d s) = f s) -> blind (eget f).
Proof. intros A f h s d. unfold eget. rewrite h. reflexivity. Qed.
Lemma blind_mod : forall f, (forall s d, f (with_diags d s) = with_diags d (f s)) -> blind (emod f).
Proof. intros f h s d. unfold emod. rewrite h. reflexivity. Qed.
Lemma blind_data : forall i, blind (e_data (S := bst) i).
Proof. intros i s d. unfold e_data. cbn. destruct (data (b_arena s) i); reflexivity. Qed.
Lemma blind_kids : forall i, blind (e_kids (S := bst) i).
Proof. intros i s d. unfold e_kids. cbn. destruct (kids (b_arena s) i); reflexivity. Qed.
Lemma blind_arena : forall f, blind (on_arena f).
Proof. intros f s d. unfold on_arena. cbn. destruct (f (b_arena s)); reflexivity. Qed.
Lemma blind_iter : forall A (f : A -> B unit) l, (forall x, blind (f x)) -> blind (eiter f l).
Proof.
  intros A f l h. induction l as [|x l IH]; cbn [eiter]; [apply blind_ret|]. apply blind_bind; auto.
Qed.
Lemma blind_fold : forall A C (f : A -> C -> B A) l x, (forall x y, blind (f x y)) -> blind (efold f x l).
Proof.
  intros A C f l x h. revert x. induction l as [|y l IH]; intros x; cbn [efold]; [apply blind_ret|].
  apply blind_bind; auto.
Qed.

Ltac blind := repeat first
  [ apply blind_bind; [|intros]
  | apply blind_ret | apply blind_opt | apply blind_data | apply blind_kids | apply blind_arena
  | apply blind_get; reflexivity | apply blind_mod; reflexivity
  | apply blind_iter; intros | apply blind_fold; intros ].

Lemma blind_collect : forall fuel path nodes range, blind (collect_symbols fuel path nodes range).
Proof.
  intros fuel path nodes range. unfold collect_symbols.
  apply blind_bind; [intros s d; reflexivity|]. intros file.
  apply blind_bind.
  { intros s d. unfold visit_symbols. cbn [b_arena with_diags].
    destruct (eiter _ nodes _) as [u w| |]; reflexivity. }
  intros _. apply blind_bind; [apply blind_get; reflexivity|]. intros files.
  apply blind_bind; [apply blind_mod; reflexivity|]. intros _.
  apply blind_bind.
  { destruct (findS path files) as [old|]; [|apply blind_ret]. unfold deregister, forget_references. blind. }
  intros _. apply blind_bind; [apply blind_kids|]. intros cs. apply blind_iter. intros c. unfold register.
  apply blind_bind; [apply blind_data|]. intros d. destruct (register_global (y_kind d)); blind.
Qed.

Lemma blind_purge : forall file, blind (purge_variables file).
Proof. intros file. unfold purge_variables. blind. Qed.

Lemma blind_resolve : forall fuel nodes file, blind (resolve_names fuel nodes file).
Proof.
  intros fuel nodes file s d. unfold resolve_names. cbn [b_arena b_global with_diags].
  destruct (eiter _ nodes _) as [u r| |]; reflexivity.
Qed.

Lemma blind_source : forall fuel src, blind (source_to_ast fuel src).
Proof.
  intros fuel src s d. unfold source_to_ast. destruct (scan_state src); try reflexivity.
  destruct (ast fuel _) as [[]| | |]; reflexivity.
Qed.

(** Both states are the same, but for the diagnostics of other files. *)
Definition alike (path : str) (s t : bst) : Prop :=
  exists d, t = with_diags d s /\ findS path d = findS path (b_diags s).

Lemma alike_blind : forall A (m : B A) path s t x s', blind m -> alike path s t -> m s = Done x s' ->
  exists t', m t = Done x t' /\ alike path s' t'.
Proof.
  intros A m path s t x s' h (d & -> & ed) e. exists (with_diags d s'). rewrite h, e. split; auto.
  exists d. split; auto. rewrite (blind_keeps _ _ _ _ _ h e). auto.
Qed.

Lemma alike_notes : forall path l s t u s', alike path s t -> eiter add_note l s = Done u s' ->
  exists t', eiter add_note l t = Done u t' /\ alike path s' t'.
Proof.
  intros path. induction l as [|n l IH]; intros s t u s' h e; cbn [eiter] in *.
  - injection e as <- <-. exists t. auto.
  - take e as e1. destruct h as (d & -> & ed). unfold add_note in e1. take e1 as e0. injection e0 as <- <-.
    injection e1 as _ <-. unfold ebind at 1. eapply IH; [|exact e].
    eexists. split; [reflexivity|]. cbn. unfold upsert. rewrite !find_put by apply str_eqb_spec.
    destruct (str_eqb_spec path (nt_file n)) as [<-|]; [|exact ed]. rewrite ed. reflexivity.
Qed.

Lemma alike_references : forall fuel path q nodes s t u s', alike path s t ->
  collect_references fuel q nodes s = Done u s' ->
  exists t', collect_references fuel q nodes t = Done u t' /\ alike path s' t'.
Proof.
  intros fuel path q nodes s t u s' h e. unfold collect_references, analyse in *.
  take e as e1. take e1 as e0. injection e0 as <- <-.
  assert (hf : b_files t = b_files s) by (destruct h as (d & -> & _); reflexivity).
  unfold ebind at 1. unfold ebind at 1. unfold eget at 1. rewrite hf.
  destruct (findS q (b_files s)) as [file|].
  2:{ injection e1 as <- <-. injection e as <- <-. exists t. auto. }
  take e1 as ep. destruct (alike_blind _ _ _ _ _ _ _ (blind_purge file) h ep) as (z1 & ep' & h1).
  take e1 as er. destruct (alike_blind _ _ _ _ _ _ _ (blind_resolve fuel nodes file) h1 er) as (z2 & er' & h2).
  take e1 as en. destruct (alike_notes _ _ _ _ _ _ h2 en) as (z3 & en' & h3).
  injection e1 as <- <-. unfold ebind at 1. rewrite ep'. unfold ebind at 1. rewrite er'.
  unfold ebind at 1. rewrite en'. unfold eret at 1.
  refine (alike_blind _ _ _ _ _ _ _ _ h3 e). blind.
Qed.

Lemma alike_tasks : forall fuel path l s t u s', alike path s t ->
  eiter (fun t : str * (list Node * Range) => collect_references fuel (fst t) (fst (snd t))) l s = Done u s' ->
  exists t', eiter (fun t => collect_references fuel (fst t) (fst (snd t))) l t = Done u t' /\ alike path s' t'.
Proof.
  intros fuel path. induction l as [|[q [nodes r]] l IH]; intros s t u s' h e; cbn [eiter] in *.
  - injection e as <- <-. exists t. auto.
  - take e as e1. cbn [fst snd] in *. destruct (alike_references _ _ _ _ _ _ _ _ h e1) as (z1 & e1' & h1).
    unfold ebind at 1. rewrite e1'. eapply IH; eauto.
Qed.

(** The diagnostics of the file that is edited do not depend on the diagnostics
    from before, of whatever file, if the new text tokenises.  What is missing
    for the full statement: the diagnostics of the other open files, see
    [C26_piles_up_refuted]; and that the symbols of equal workspaces, which
    have other ids, lead to the same diagnostics. *)
Theorem C26_edited_partial : forall s s' fuel disk order path text texts d,
  syntax fuel text <> None ->
  serve fuel disk order (EvChange path (text :: texts)) s = Done tt s' ->
  exists t', serve fuel disk order (EvChange path (text :: texts)) (with_diags d s) = Done tt t' /\
    findS path (b_diags t') = findS path (b_diags s').
Proof.
  intros s s' fuel disk order path text texts d ok e. cbn [serve did_change] in *.
  take e as e1. injection e1 as <- <-. take e as e1. injection e1 as _ <-.
  unfold ebind at 1. unfold eget at 1. unfold ebind at 1. unfold set_latest at 1, emod at 1.
  cbn [b_arena b_files b_global b_diags b_refs b_open b_latest with_diags].
  set (s1 := mkBst _ _ _ _ _ _ _) in e.
  match goal with |- exists t', refresh_file _ _ _ ?t = _ /\ _ => change t with (with_diags d s1) end.
  clearbody s1. unfold refresh_file in *. take e as es. unfold ebind at 1. rewrite blind_source, es.
  apply source_spec in es as [-> hx]. destruct x0 as [[[nodes range] errors]|]; [|contradiction].
  take e as e1. take e1 as ec. unfold ebind at 1. unfold ebind at 1. rewrite blind_collect, ec.
  take e1 as e0. apply eopt_done in e0 as [el ->]. rewrite el. cbn [eopt].
  take e1 as e0. injection e0 as <- <-. take e1 as e0. injection e0 as _ <-.
  take e1 as e0. injection e0 as <- <-. injection e1 as _ <-.
  unfold ebind at 1. unfold eret at 1. unfold ebind at 1. unfold eget at 1. unfold ebind at 1.
  unfold set_diags at 1, emod at 1. unfold ebind at 1. unfold eget at 1. unfold set_open at 1, emod at 1.
  cbn [b_arena b_files b_global b_diags b_refs b_open b_latest with_diags] in *.
  take e as e0. injection e0 as <- <-. unfold ebind at 1. unfold eget at 1.
  cbn [b_arena b_files b_global b_diags b_refs b_open b_latest with_diags] in *.
  match type of e with eiter _ _ ?s2 = _ =>
  match goal with |- exists t', eiter _ _ ?t = _ /\ _ =>
    assert (al : alike path s2 t) end end.
  { eexists. split; [reflexivity|]. cbn [b_diags]. rewrite !find_put_same by apply str_eqb_spec. reflexivity. }
  destruct (alike_tasks fuel path _ _ _ _ _ al e) as (z & ez & (d' & -> & hz)).
  eexists. split; [exact ez|]. exact hz.
Qed.

Lemma notes_grow : forall q l s u s', eiter add_note l s = Done u s' ->
  forall old, findS q (b_diags s) = Some old -> exists more, findS q (b_diags s') = Some (old ++ more).
Proof.
  intros q. induction l as [|n l IH]; intros s u s' e old h; cbn [eiter] in e.
  - injection e as _ <-. exists []. rewrite app_nil_r. auto.
  - take e as e1. unfold add_note in e1. take e1 as e0. injection e0 as <- <-. injection e1 as _ <-.
    match type of e with eiter _ _ ?s1 = _ => assert (k : exists more, findS q (b_diags s1) = Some (old ++ more)) end.
    { cbn. unfold upsert. rewrite find_put by apply str_eqb_spec. destruct (str_eqb_spec q (nt_file n)) as [<-|].
      - rewrite h. eexists. reflexivity.
      - exists []. rewrite app_nil_r. auto. }
    destruct k as [more k]. destruct (IH _ _ _ e _ k) as [more' h']. exists (more ++ more'). rewrite app_assoc. auto.
Qed.

(** The diagnostics of every other file are only ever added to. *)
Theorem C26_piles_up_refuted : forall s s' fuel disk order path texts other old, other <> path ->
  serve fuel disk order (EvChange path texts) s = Done tt s' ->
  findS other (b_diags s) = Some old ->
  exists more, findS other (b_diags s') = Some (old ++ more).
Proof.
  intros s s' fuel disk order path texts other old ne e h. cbn [serve] in e. unfold did_change in e.
  destruct texts as [|text r]; [injection e as <-; exists []; rewrite app_nil_r; auto|].
  take e as e1. injection e1 as <- <-. take e as e1. injection e1 as _ <-.
  set (s1 := mkBst _ _ _ _ _ _ _) in e. assert (h1 : findS other (b_diags s1) = Some old) by exact h.
  clearbody s1. unfold refresh_file in e. take e as es. apply source_spec in es as [-> _].
  take e as e1. assert (h2 : findS other (b_diags t) = Some old).
  { destruct x0 as [[[nodes range] errors]|]; [|injection e1 as _ <-; auto].
    take e1 as ec. rewrite <- (blind_keeps _ _ _ _ _ (blind_collect _ _ _ _) ec) in h1.
    take e1 as e0. apply eopt_done in e0 as [_ ->]. take e1 as e0. injection e0 as <- <-.
    take e1 as e0. injection e0 as _ <-. take e1 as e0. injection e0 as <- <-. injection e1 as _ <-.
    cbn. rewrite find_put_other; auto. apply str_eqb_spec. }
  take e as e0. injection e0 as <- <-. clear e1.
  assert (k : exists more, findS other (b_diags t) = Some (old ++ more)) by (exists []; rewrite app_nil_r; auto).
  clear h2. remember (h_order (b_open t)) as tasks eqn:et. clear et. revert t e k. induction tasks as [|[q [nodes rg]] l IH]; intros t e [more k]; cbn [eiter] in e.
  - injection e as <-. eauto.
  - take e as e1. eapply IH; [exact e|]. cbn [fst snd] in e1. unfold collect_references in e1.
    take e1 as ea. assert (k1 : exists more, findS other (b_diags t1) = Some (old ++ more)).
    { unfold analyse in ea. take ea as e0. injection e0 as <- <-.
      destruct (findS q (b_files t)); [|injection ea as _ <-; eauto].
      take ea as ep. apply (blind_keeps _ _ _ _ _ (blind_purge _)) in ep.
      take ea as er. apply (blind_keeps _ _ _ _ _ (blind_resolve _ _ _)) in er.
      take ea as en. injection ea as _ <-. rewrite <- ep, <- er in k.
      destruct (notes_grow other _ _ _ _ en _ k) as [more' k']. rewrite <- app_assoc in k'. eauto. }
    destruct x3; [|injection e1 as _ <-; auto].
    take e1 as e0. injection e0 as <- <-. injection e1 as _ <-. exact k1.
Qed.

End C26.

(** The same edit, again and again: the other file collects diagnostics. *)
Definition disk26 := disk2 "<?php $y = 1;" "<?php new Foo();".
Definition history26 : list ((str -> option str) * event) :=
  [(disk26, EvIndex [pA; pB]); (disk26, EvOpen pA (lit "<?php $y = 1;"));
   (disk26, EvOpen pB (lit "<?php new Foo();"))].
Definition edit26 := (disk26, EvChange pA [lit "<?php $y = 1;"]).
Definition count26 (l : list ((str -> option str) * event)) : option nat :=
  opt_map (@List.length Diagnostic) (findS pB (b_diags (state_after l))).

Theorem C26_refuted :
  count26 history26 = Some 1%nat /\ count26 (history26 ++ [edit26]) = Some 2%nat /\
  count26 (history26 ++ [edit26; edit26]) = Some 3%nat /\
  count26 (history26 ++ [edit26; edit26; edit26]) = Some 4%nat.
Proof. vm_compute. auto. Qed.

Example C26_case : exists s',
  serve 400 disk26 (fun m => m) (EvChange pA [lit "<?php new Bar();"]) (state_after history26) = Done tt s' /\
  syntax 400 (lit "<?php new Bar();") <> None /\
  findS pB (b_diags (state_after history26)) <> None /\ findS pA (b_diags s') <> Some [].
Proof.
  eexists. split; [vm_compute; reflexivity|]. split; [vm_compute; discriminate|].
  split; vm_compute; discriminate.
Qed.

Print Assumptions C26_edited_partial.
Print Assumptions C26_piles_up_refuted.
Print Assumptions C26_refuted.
