(** Property C65: a symbol that is gone is never found again. *)

From Coq Require Import Permutation.
From Verif Require Import Base Token Scanner Node DocBlock Parser Assoc AssocFacts Arena ArenaFacts
  Symbol EnvMonad EnvFacts Workspace WorkspaceFacts Resolver SpecNames ResolverFacts Backend BackendFacts
  SpecServer ServerInv IndexFacts Prop_Symbols Prop_Server Prop_References Concurrent Prop_Concurrent.

Local Notation findS := (find str_eqb).
Local Open Scope string_scope.
Local Open Scope N_scope.
Local Open Scope list_scope.

Section Gone.
Context {RT : Runtime}.

(** * Specification *)

(** Any number of steps of the server, each with any contents of the file
    system, any bound and any orders of the hash maps *)
Inductive later : bst * list flight -> bst * list flight -> Prop :=
| later_now : forall c, later c c
| later_step : forall HH fuel disk order c c1 c2, server_step HH fuel disk order c c1 -> later c1 c2 -> later c c2.

(** The symbol was there, and after some steps it is not. *)
Inductive gone (i : N) : bst * list flight -> Prop :=
| is_gone : forall s0 fs0 s fs, running (s0, fs0) -> alive (b_arena s0) i -> later (s0, fs0) (s, fs) ->
    ~ alive (b_arena s) i -> gone i (s, fs).

(** Nothing was found for the symbol yet. *)
Definition nothing_found (i : N) (fs : list flight) : Prop :=
  forall name new tasks found path m, In (Searching i name new tasks found) fs -> In (path, m) found -> ~ In i (map fst m).

(** * Proofs *)

Definition dead (i : N) (s : bst) : Prop := winv s /\ i < a_next (b_arena s) /\ ~ live (b_arena s) i.

Lemma live_alive : forall (a : arena Symbol) i, live a i <-> alive a i.
Proof.
  intros a i. unfold live, alive, data. destruct (node_of a i) as [n|]; cbn; split; intros h; try discriminate; eauto.
  - destruct h as [n h]. discriminate h.
  - now elim h.
Qed.

Lemma analyse_new : forall (HH : Hashing) fuel path nodes s x s', winv s -> analyse fuel path nodes s = Done x s' ->
  a_next (b_arena s) <= a_next (b_arena s') /\
  forall i, live (b_arena s') i -> live (b_arena s) i \/ a_next (b_arena s) <= i.
Proof.
  intros HH fuel path nodes s x s' I e.
  unfold analyse in e. take e as e1. injection e1 as <- <-. destruct (findS path (b_files s)) as [f|] eqn:ef.
  2:{ injection e as _ <-. split; [lia|auto]. }
  assert (lf : exists n, node_of (b_arena s) f = Some n /\ y_kind (n_data n) = KFile).
  { destruct (node_of (b_arena s) f) as [n|] eqn:en.
    - exists n. split; auto. eapply (wi_files _ I); eauto.
    - exfalso. take e as e1. unfold purge_variables in e1. take e1 as e0. injection e0 as <- <-.
      take e1 as e0. apply eopt_done in e0 as [ed ->]. unfold descendants in ed.
      rewrite below_S, en in ed. discriminate. }
  destruct lf as (nf & enf & kf).
  take e as e1. destruct (purge_spec _ _ _ _ (wi_wf _ I) e1) as (a1 & -> & g1).
  destruct (sh_keep _ _ g1 _ _ enf) as (nf1 & enf1 & df1 & _); [congruence|].
  take e as e0. cbn [b_arena with_arena bst_arena] in *.
  apply resolve_drifts in e0 as (-> & g2 & _); [|apply g1|exists nf1; exact enf1].
  take e as e0. apply notes_core in e0 as (c1 & _). injection e as _ <-. rewrite c1. cbn in *.
  pose proof (df_next _ _ g2) as nx. rewrite (sh_next _ _ g1) in nx. split; [exact nx|].
  intros i l. destruct (df_new _ _ g2 i l) as [[n k]|k].
  - destruct (sh_back _ _ g1 _ _ k) as (n0 & e0 & _). left. exists n0. exact e0.
  - rewrite (sh_next _ _ g1) in k. right. exact k.
Qed.

Lemma dead_keeps : forall (HH : Hashing) i, keeps (dead i) (fun _ => True) (fun _ => True).
Proof.
  intros HH i. constructor.
  - intros fuel path nodes range s u s' (I & h1 & h2) _ _ e. split; [eapply (kp_collect _ _ _ winv_keeps); eauto|].
    destruct (collect_new _ _ _ _ _ _ _ (wi_wf _ I)
      (fun f h => proj1 (wi_files _ I _ _ h)) e) as (w & ev & T & w' & nx & ef & eo & sn & so).
    pose proof (visited_grows _ _ _ _ _ _ (wi_wf _ I) ev) as gr. split; [lia|].
    intros [n en]. destruct (so _ _ h1 en) as (n0 & e0 & _). apply h2. exists n0. exact e0.
  - intros fuel path nodes s x s' (I & h1 & h2) _ e. split; [eapply analyse_winv; eauto|].
    destruct (analyse_new _ _ _ _ _ _ _ I e) as [k1 k2]. split; [lia|]. intros l. destruct (k2 _ l) as [k|k]; [auto|lia].
  - intros s u s' (I & h) e. split; [eapply (kp_rebuild _ _ _ winv_keeps); eauto|]. apply rebuild_core in e as [g ->]. exact h.
  - intros s s' (I & h) h1 h2 h3 h4 h5. split; [eapply (kp_rest _ _ _ winv_keeps); eauto|]. rewrite h1. exact h.
  - intros s (I & _). apply (wi_open _ I).
  - auto.
Qed.

Lemma all_flights : forall fs, Forall (flight_good (fun _ => True)) fs.
Proof.
  intros fs. apply Forall_forall. intros [| |? ? ? tasks ?] _; cbn; auto.
  apply Forall_forall. intros [|] _; cbn; auto. intros ? ? _. auto.
Qed.

Lemma step_inv : forall (HH : Hashing) (Inv : bst -> Prop), keeps Inv (fun _ => True) (fun _ => True) ->
  forall fuel disk order s fs s' fs', Inv s -> server_step HH fuel disk order (s, fs) (s', fs') -> Inv s'.
Proof.
  intros HH Inv K fuel disk order s fs s' fs' d st.
  eapply step_keeps; [exact K|exact d|apply all_flights| | |exact st].
  - intros p text _. split; auto. intros ? ? _. auto.
  - intros e _ _ _. split; [intros p text _; split; auto; intros ? ? _; auto|]. destruct e; auto. split; auto.
    apply Forall_forall. intros ? _ ? ? _. auto.
Qed.
Lemma later_inv : forall (Inv : bst -> Prop), (forall HH : Hashing, keeps Inv (fun _ => True) (fun _ => True)) ->
  forall c c', later c c' -> Inv (fst c) -> Inv (fst c').
Proof.
  intros Inv K. induction 1 as [c|HH fuel disk order [s fs] [s1 fs1] c2 st _ IH]; auto.
  intros d. apply IH. eapply step_inv; [apply K|exact d|exact st].
Qed.

(** Numbers that were handed out stay so. *)
Definition aged (i : N) (s : bst) : Prop := winv s /\ i < a_next (b_arena s).
Lemma aged_keeps : forall (HH : Hashing) i, keeps (aged i) (fun _ => True) (fun _ => True).
Proof.
  intros HH i. constructor.
  - intros fuel path nodes range s u s' (I & h1) _ _ e. split; [eapply (kp_collect _ _ _ winv_keeps); eauto|].
    destruct (collect_new _ _ _ _ _ _ _ (wi_wf _ I)
      (fun f h => proj1 (wi_files _ I _ _ h)) e) as (w & ev & T & w' & nx & ef & eo & sn & so).
    pose proof (visited_grows _ _ _ _ _ _ (wi_wf _ I) ev) as gr. lia.
  - intros fuel path nodes s x s' (I & h1) _ e. split; [eapply analyse_winv; eauto|].
    destruct (analyse_new _ _ _ _ _ _ _ I e) as [k1 _]. lia.
  - intros s u s' (I & h) e. split; [eapply (kp_rebuild _ _ _ winv_keeps); eauto|]. apply rebuild_core in e as [g ->]. exact h.
  - intros s s' (I & h) h1 h2 h3 h4 h5. split; [eapply (kp_rest _ _ _ winv_keeps); eauto|]. rewrite h1. exact h.
  - intros s (I & _). apply (wi_open _ I).
  - auto.
Qed.

Lemma later_trans : forall a b c, later a b -> later b c -> later a c.
Proof. intros a b c h. induction h; auto. intros k. econstructor 2; eauto. Qed.
Lemma later_running : forall a b, later a b -> running a -> running b.
Proof. intros a b h. induction h; auto. intros k. apply IHh. eapply running_step; eauto. Qed.

Lemma gone_dead : forall i s fs, gone i (s, fs) -> dead i s.
Proof.
  intros i s fs h. inversion h as [s0 fs0 ? ? r a l na]; subst. pose proof (running_winv _ r) as I. cbn in I.
  apply live_alive in a as [n en]. pose proof (wf_fresh _ (wi_wf _ I) _ _ en) as lt.
  assert (k : aged i s) by (apply (later_inv _ (fun HH => aged_keeps HH i) _ _ l); split; auto).
  destruct k as [k1 k2]. split; [exact k1|]. split; [exact k2|]. rewrite live_alive. exact na.
Qed.

(** ** The theorems *)

(** Whatever the server does later, the symbol does not come back. *)
Theorem C65_gone : forall i s fs s' fs', gone i (s, fs) -> later (s, fs) (s', fs') ->
  ~ alive (b_arena s') i /\ gone i (s', fs').
Proof.
  intros i s fs s' fs' h l. pose proof (gone_dead _ _ _ h) as d. apply (later_inv _ (fun HH => dead_keeps HH i) _ _ l) in d as (_ & _ & d).
  cbn in d. rewrite live_alive in d. split; [exact d|]. inversion h; subst. econstructor; eauto. eapply later_trans; eauto.
Qed.

(** Nothing that is found later is about it. *)
Theorem C65_found : forall i s fs s' fs', gone i (s, fs) -> nothing_found i fs -> later (s, fs) (s', fs') ->
  nothing_found i fs'.
Proof.
  intros i s fs s' fs' h n l. apply gone_dead in h. revert h n.
  change s with (fst (s, fs)) at 1. change fs with (snd (s, fs)) at 2. change fs' with (snd (s', fs')).
  induction l as [c|HH fuel disk order [s0 fs0] [s1 fs1] c2 st _ IH]; auto. cbn [fst snd] in *.
  intros d n. pose proof (step_inv _ _ (dead_keeps HH i) _ _ _ _ _ _ _ d st) as d1. apply IH; [exact d1|]. clear IH.
  inversion st; subst.
  - exact n.
  - intros name0 new0 tasks0 found0 q mq [e|e]; [discriminate e|eauto].
  - intros name0 new0 tasks0 found0 q mq [e|e]; [discriminate e|eauto].
  - intros name0 new0 tasks0 found0 q mq e. apply in_app_or in e as [e|[e|e]]; [|discriminate e|];
      eapply n; apply in_or_app; [left; exact e|right; right; exact e].
  - intros name0 new0 tasks0 found0 q mq e. apply in_app_or in e as [e|[e|e]].
    + eapply n. apply in_or_app. left. exact e.
    + injection e as <- <- <- <- <-. intros [].
    + eapply n. apply in_or_app. right. right. exact e.
  - intros name0 new0 tasks0 found0 q mq e. apply in_app_or in e as [e|[e|e]].
    + eapply n. apply in_or_app. left. exact e.
    + injection e as -> -> -> -> ->.
      assert (old : forall q m, In (q, m) found -> ~ In i (map fst m)).
      { intros q0 m0. eapply n. apply in_or_app. right. left. reflexivity. }
      match goal with e : task_step _ _ _ _ _ |- _ => inversion e; subst end; try apply old.
      match goal with e : run_task _ _ _ _ _ = _ |- _ => rename e into er end.
      unfold run_task, ebind in er.
      destruct (source_to_ast fuel content s0) as [x t| |] eqn:es; try discriminate er. apply source_spec in es as [-> es].
      destruct x as [[[nodes r0'] errors]|]; [|injection er as <- _; apply old].
      destruct (analyse fuel p nodes s0) as [[mm|] t| |] eqn:ea; try discriminate er; injection er as <- <-; [|apply old].
      intros hq. apply in_put in hq. destruct hq as [hq|hq]; [|eapply old; exact hq].
      injection hq as -> ->. intros hi. apply in_map_iff in hi as ((j & rs) & ej & hi). cbn in ej. subst j.
      destruct d as (I & _). pose proof (analyse_alive _ _ _ _ _ _ I ea _ _ hi) as al.
      destruct d1 as (_ & _ & nl). apply nl. exact al.
    + eapply n. apply in_or_app. right. right. exact e.
  - intros name0 new0 tasks0 found0 q mq e. eapply n. apply in_app_or in e as [e|e]; apply in_or_app; [left; exact e|right; right; exact e].
Qed.

Lemma nothing_places : forall (HH : Hashing) i (found : found_in),
  (forall path m, In (path, m) found -> ~ In i (map fst m)) -> places i found = [].
Proof.
  intros HH i found h. unfold places.
  assert (k : forall l : found_in, (forall path m, In (path, m) l -> ~ In i (map fst m)) ->
    flat_map (fun f => match find N.eqb i (snd f) with
      | Some rs => map (fun r => (fst f, get_range r)) rs
      | None => []
      end) l = []).
  { clear. induction l as [|[p m] l IH]; intros k; [reflexivity|]. cbn [flat_map fst snd].
    destruct (find N.eqb i m) as [rs|] eqn:e.
    - exfalso. apply (k p m); [left; reflexivity|]. apply find_in in e; [|apply N.eqb_spec]. apply (in_map fst) in e. exact e.
    - apply IH. intros q m' hin. apply (k q). right. exact hin. }
  apply k. intros path m hin. apply h with path. apply in_rev in hin. apply (Permutation_in _ (h_perm _ _)) in hin. exact hin.
Qed.

(** Reading a file again throws away everything that was declared in it. *)
Lemma collect_gone : forall (HH : Hashing) fuel path nodes range s u s' f i, winv s ->
  findS path (b_files s) = Some f -> Up (b_arena s) i f ->
  collect_symbols fuel path nodes range s = Done u s' -> ~ live (b_arena s') i.
Proof.
  intros HH fuel path nodes range s u s' f i I ef up e.
  assert (hn : Forall (declares_in (fun _ => True)) nodes).
  { apply Forall_forall. intros n _ m _. apply Forall_forall. auto. }
  pose proof (wi_wf _ I) as ws. destruct (wi_files _ I _ _ ef) as [lf _].
  unfold collect_symbols in e. unfold ebind at 1 in e. unfold e_new in e. cbn [the_arena bst_arena] in e.
  unfold new_node in e. cbn [snd] in e. unfold ebind at 1 in e. unfold visit_symbols in e.
  cbn [b_arena with_arena bst_arena] in e.
  change (eiter (fun node => w_traverse fuel node (a_next (b_arena s))) nodes _)
    with (visited fuel path nodes range (b_arena s)) in e.
  destruct (visited fuel path nodes range (b_arena s)) as [[] w| |] eqn:ev; try discriminate.
  pose proof (visited_tree _ _ _ _ _ _ _ _ ws hn ev) as T.
  pose proof (tr_wf _ _ _ _ _ T) as w2. cbn [b_arena with_arena bst_arena] in e.
  assert (up2 : Up (w_arena w) i f).
  { clear -T up ws. induction up as [i|i n p t en ep _ IH]; [constructor|].
    econstructor 2; [|exact ep|exact IH]. rewrite (tr_old _ _ _ _ _ T); [exact en|]. eapply wf_fresh; eauto. }
  take e as e1. injection e1 as <- <-. take e as e1. injection e1 as _ <-. cbn in e.
  take e as e1. take e as e2. apply reads_kids in e2. subst. apply register_core in e as [g ->]. cbn.
  rewrite ef in e1. take e1 as e0. apply reads_kids in e0. subst. take e1 as e0. apply deregister_core in e0 as [g' ->].
  take e1 as e0. injection e0 as <- <-. take e1 as e0. apply eopt_done in e0 as [ed ->].
  take e1 as e0. injection e0 as _ <-. unfold on_arena in e1. cbn in ed, e1.
  destruct (remove_subtree f (w_arena w)) as [a'|] eqn:er; [|discriminate].
  injection e1 as _ <-. cbn. destruct (node_of_prune_spec _ _ _ w2 er) as (sp1 & _).
  intros [n en]. rewrite (sp1 _ up2) in en. discriminate.
Qed.

Lemma change_gone : forall (HH : Hashing) fuel disk order path f i text more nodes s s', winv s ->
  findS path (b_files s) = Some f -> within (b_arena s) i f -> syntax fuel text = Some nodes ->
  serve fuel disk order (EvChange path (text :: more)) s = Done tt s' -> dead i s'.
Proof.
  intros HH fuel disk order path f i text more nodes s s' I ef hw es e. apply Up_within in hw as [[ni eni] up].
  cbn [serve] in e. unfold did_change in e. take e as e1. injection e1 as <- <-. take e as e1. injection e1 as _ <-.
  set (s1 := mkBst _ _ _ _ _ _ _) in e.
  assert (I1 : winv s1) by (destruct I; constructor; auto).
  unfold refresh_file in e. take e as e1. apply source_spec in e1 as [-> hx].
  destruct x0 as [[[nodes' range] errors]|]; [|congruence].
  take e as e1. take e1 as e0.
  assert (d : dead i t0).
  { split; [eapply (kp_collect _ _ _ winv_keeps); eauto|]. split.
    - destruct (collect_new _ _ _ _ _ _ _ (wi_wf _ I1)
        (fun f h => proj1 (wi_files _ I1 _ _ h)) e0) as (w & ev & T & w' & nx & _).
      pose proof (visited_grows _ _ _ _ _ _ (wi_wf _ I1) ev) as gr.
      apply (wf_fresh _ (wi_wf _ I)) in eni. cbn in gr. lia.
    - eapply (collect_gone _ _ _ _ _ s1); eauto. }
  take e1 as e2. apply eopt_done in e2 as [_ ->]. take e1 as e2. injection e2 as <- <-.
  take e1 as e2. injection e2 as _ <-. take e1 as e2. injection e2 as <- <-. injection e1 as _ <-.
  take e as e2. injection e2 as <- <-.
  eapply (keep_tasks _ _ _ (dead_keeps HH i)); [| |exact e].
  - eapply (kp_rest _ _ _ (dead_keeps HH i)); [exact d|reflexivity..| |auto]. cbn.
    apply nodup_put; [apply str_eqb_spec|]. apply (wi_open _ (proj1 d)).
  - apply Forall_forall. auto.
Qed.

(** Whatever requests are under way: when a file is changed, to the same text or
    another one, all that was declared in it is gone. *)
Theorem C65_change : forall (HH : Hashing) fuel disk order path f i text more nodes s fs s', running (s, fs) ->
  findS path (b_files s) = Some f -> within (b_arena s) i f -> syntax fuel text = Some nodes ->
  serve fuel disk order (EvChange path (text :: more)) s = Done tt s' -> gone i (s', fs).
Proof.
  intros HH fuel disk order path f i text more nodes s fs s' r ef hw es e.
  pose proof (running_winv _ r) as I. cbn in I. pose proof (change_gone _ _ _ _ _ _ _ _ _ _ _ _ I ef hw es e) as (_ & _ & d).
  econstructor; [exact r| | |].
  - apply Up_within in hw as [l _]. apply live_alive. exact l.
  - econstructor 2; [eapply serve_event; [|exact e]; reflexivity|constructor].
  - rewrite <- live_alive. exact d.
Qed.

(** So the answer of every search that had not found anything at that time is
    empty, however many occurrences there are. *)
Theorem C65_search_refuted : forall (HH : Hashing) fuel disk order path f i text more nodes s fs s', running (s, fs) ->
  findS path (b_files s) = Some f -> within (b_arena s) i f -> syntax fuel text = Some nodes ->
  serve fuel disk order (EvChange path (text :: more)) s = Done tt s' -> nothing_found i fs ->
  forall s'' fs'' name new tasks found (HH' : Hashing), later (s', fs) (s'', fs'') ->
  In (Searching i name new tasks found) fs'' -> places i found = [].
Proof.
  intros HH fuel disk order path f i text more nodes s fs s' r ef hw es e n s'' fs'' name new tasks found HH' l hin.
  pose proof (C65_change _ _ _ _ _ _ _ _ _ _ _ _ _ r ef hw es e) as g.
  pose proof (C65_found _ _ _ _ _ g n l) as n'. apply nothing_places. intros q m hm. eapply n'; eauto.
Qed.

(** A rename that has chosen the symbol before crashes. *)
Theorem C65_rename_refuted : forall i new s fs s' fs', gone i (s, fs) -> later (s, fs) (s', fs') ->
  In (Chosen i new) fs' -> e_data i s' = Panic.
Proof.
  intros i new s fs s' fs' g l _. destruct (C65_gone _ _ _ _ _ g l) as [h _].
  unfold e_data. cbn [the_arena bst_arena]. unfold alive in h. destruct (data (b_arena s') i); [|reflexivity].
  elim h. discriminate.
Qed.

End Gone.

Section Cases.
Local Existing Instance ascii_runtime | 9.
Local Existing Instance plain_hashing | 9.

Definition file65 : N := match findS pA (b_files start64) with Some f => f | None => 0 end.

Lemma later_runs : forall (HH : Hashing) fuel disk name c c', runs fuel disk name c c' ->
  forall target new fs tasks found s tasks' found' s', c = (tasks, found, s) -> c' = (tasks', found', s') ->
  later (s, Searching target name new tasks found :: fs) (s', Searching target name new tasks' found' :: fs).
Proof.
  intros HH fuel disk name c c' h. induction h as [c|c d c' st _ IH]; intros target new fs tasks found s tasks' found' s' -> e.
  - injection e as <- <- <-. constructor.
  - destruct d as [[tasks1 found1] s1]. econstructor 2; [|eapply IH; [reflexivity|exact e]].
    apply (serve_task HH fuel disk (fun m => m) target name new tasks found tasks1 found1 s s1 [] fs st).
Qed.

(** A search for K is under way and has found nothing; the file is changed to
    what it was, and the search goes on to its end. *)
Example C65_case : exists fs, running (start64, fs) /\ In (Searching target64 (lit "K") None (spawn_tasks start64) []) fs /\
  nothing_found target64 fs /\ findS pA (b_files start64) = Some file65 /\ within (b_arena start64) target64 file65 /\
  (exists nodes, syntax 400 (lit text64) = Some nodes) /\
  serve 400 disk64 (fun m => m) (EvChange pA [lit text64]) start64 = Done tt changed64 /\
  gone target64 (changed64, fs) /\
  later (changed64, fs) (end64, [Searching target64 (lit "K") None [] found64]) /\ found64 <> [] /\
  exists l t, references 400 disk64 pA (mkPos 0 12) start64 = Done (Some l) t /\ l <> [].
Proof.
  exists [Searching target64 (lit "K") None (spawn_tasks start64) []].
  assert (r : reachable start64) by apply state_after_reachable.
  assert (c : symbol_under_cursor pA (mkPos 0 12) start64 = Done (Some (target64, lit "K")) start64) by (vm_compute; reflexivity).
  assert (e : serve 400 disk64 (fun m => m) (EvChange pA [lit text64]) start64 = Done tt changed64) by (vm_compute; reflexivity).
  assert (f : findS pA (b_files start64) = Some file65) by (vm_compute; reflexivity).
  assert (w : within (b_arena start64) target64 file65).
  { apply (within_child _ _ file65); [vm_compute; reflexivity|]. apply within_self. vm_compute. discriminate. }
  assert (y : exists nodes, syntax 400 (lit text64) = Some nodes) by (eexists; vm_compute; reflexivity).
  assert (k : runs 400 disk64 (lit "K") (spawn_tasks start64, [], changed64) ([], found64, end64)).
  { econstructor 2; [apply (step_load 400 disk64 (lit "K") [] [Unread pB] pA (lit text64) [] changed64); reflexivity|].
    econstructor 2; [eapply (step_analyse 400 disk64 (lit "K") [] [Unread pB] pA (lit text64)); vm_compute; reflexivity|].
    econstructor 2; [apply (step_load 400 disk64 (lit "K") [] [] pB (lit "<?php new K();")); reflexivity|].
    econstructor 2; [eapply (step_analyse 400 disk64 (lit "K") [] [] pB (lit "<?php new K();")); vm_compute; reflexivity|].
    vm_compute. constructor 1. }
  assert (g : running (start64, [Searching target64 (lit "K") None (spawn_tasks start64) []])).
  { eapply running_step; [|apply (serve_spawn plain_hashing 400 disk64 (fun m => m) target64 (lit "K") None start64 [] [])].
    eapply running_step; [apply C64_covers; exact r|].
    apply (serve_references plain_hashing 400 disk64 (fun m => m) pA (mkPos 0 12) target64 (lit "K") start64 start64 [] c). }
  assert (n : exists l t, references 400 disk64 pA (mkPos 0 12) start64 = Done (Some l) t /\ l <> []) by (do 2 eexists; split; [vm_compute; reflexivity|discriminate]).
  split; [exact g|].
  split; [apply in_eq|].
  split.
  { clear. intros name new tasks found path m [h|[]]. assert (q : found = []) by congruence. rewrite q. intros []. }
  split; [exact f|]. split; [exact w|]. split; [exact y|]. split; [exact e|]. split.
  { destruct y as [nodes y]. exact (C65_change _ _ _ _ _ _ _ _ _ _ _ _ _ g f w y e). }
  split; [eapply later_runs; [exact k|reflexivity|reflexivity]|]. split; [vm_compute; discriminate|].
  exact n.
Qed.
End Cases.

Print Assumptions C65_gone.
Print Assumptions C65_found.
Print Assumptions C65_change.
Print Assumptions C65_search_refuted.
Print Assumptions C65_rename_refuted.
