(** Property C64: requests that are served at the same time. *)

From Coq Require Import Permutation.
From Coq.Relations Require Import Relation_Operators.
From Verif Require Import Base Token Scanner Node DocBlock Parser Assoc AssocFacts Arena ArenaFacts
  Symbol EnvMonad EnvFacts Workspace WorkspaceFacts Resolver SpecNames ResolverFacts Backend BackendFacts
  SpecServer ServerInv IndexFacts Prop_Symbols Prop_Server Concurrent.

Local Notation findS := (find str_eqb).
Local Notation findN := (find N.eqb).
Local Open Scope string_scope.
Local Open Scope N_scope.
Local Open Scope list_scope.

Section Flights.
Context {RT : Runtime}.

(** * Specification *)

(** The tasks of a search run, in any order, and nothing else happens. *)
Definition runs {HH : Hashing} (fuel : nat) (disk : str -> option str) (name : str) :=
  clos_refl_trans_1n _ (task_step fuel disk name).

(** The search looks at the files of the list one after the other. *)
Fixpoint one_by_one {HH : Hashing} (fuel : nat) (disk : str -> option str) (name : str) (l : list str) (found : found_in)
  : B found_in :=
  match l with
  | [] => eret found
  | path :: r => elet f <- search_file fuel disk name found path in one_by_one fuel disk name r f
  end.

(** The answer that a search has got for a file so far comes from an analysis
    of a text of the file that contains the name, in a state the server was in. *)
Definition witnessed (name path : str) (m : FileReferenceMap) : Prop :=
  exists (HH : Hashing) fuel content nodes s s' fs, running (s, fs) /\ contains content name = true /\
    syntax fuel content = Some nodes /\ analyse fuel path nodes s = Done (Some m) s'.

(** As in SpecServer.v: the texts only declare things with names in [D], and
    their [@var] comments are not about such names. *)
Inductive running_tame (D : str -> Prop) : bst * list flight -> Prop :=
| tame_first : running_tame D (backend_new, [])
| tame_request : forall (HH : Hashing) fuel disk order e s s' fs, running_tame D (s, fs) -> tame_event D disk e ->
    searches e = false -> serve fuel disk order e s = Done tt s' -> running_tame D (s', fs)
| tame_flight : forall HH fuel disk order s fs s' fs', running_tame D (s, fs) ->
    (forall p text, disk p = Some text -> D (bare p) /\ text_ok D text) ->
    server_step HH fuel disk order (s, fs) (s', fs') -> fs <> fs' -> running_tame D (s', fs').

(** * Proofs *)

Lemma fold_one : forall (HH : Hashing) fuel disk name l found s,
  efold (search_file fuel disk name) found l s = one_by_one fuel disk name l found s.
Proof.
  intros HH fuel disk name. induction l as [|p l IH]; intros found s; [reflexivity|]. cbn [efold one_by_one].
  unfold ebind. destruct (search_file fuel disk name found p s); auto.
Qed.
Lemma one_app : forall (HH : Hashing) fuel disk name l r found s f s', one_by_one fuel disk name l found s = Done f s' ->
  one_by_one fuel disk name (l ++ r) found s = one_by_one fuel disk name r f s'.
Proof.
  intros HH fuel disk name. induction l as [|p l IH]; intros r found s f s' e; cbn [one_by_one app] in *.
  - injection e as <- <-. reflexivity.
  - unfold ebind in *. destruct (search_file fuel disk name found p s) as [f1 s1| |]; try discriminate e. eapply IH. exact e.
Qed.
Lemma search_loaded : forall (HH : Hashing) fuel disk name found p content, disk p = Some content -> contains content name = true ->
  search_file fuel disk name found p = run_task fuel p content found.
Proof. intros HH fuel disk name found p content e h. unfold search_file. rewrite e, h. reflexivity. Qed.

Definition loaded_right (disk : str -> option str) (name : str) (t : task) : Prop :=
  match t with Unread _ => True | Loaded p content => disk p = Some content /\ contains content name = true end.

Lemma perm_out : forall (A : Type) (d l r all : list A) p, Permutation (d ++ l ++ p :: r) all -> Permutation ((d ++ [p]) ++ l ++ r) all.
Proof.
  intros A d l r all p h. eapply perm_trans; [|exact h]. rewrite <- app_assoc. apply Permutation_app_head.
  cbn. apply Permutation_middle.
Qed.

Local Ltac looks := unfold search_file; repeat (match goal with e : ?disk _ = _ |- context [?disk _] => rewrite e | e : contains _ _ = _ |- _ => rewrite e end); reflexivity.

(** ** Searches that run alone *)
Theorem C64_alone : forall (HH : Hashing) fuel disk name s found s',
  runs fuel disk name (spawn_tasks s, [], s) ([], found, s') ->
  exists order, Permutation order (keys (b_files s)) /\ one_by_one fuel disk name order [] s = Done found s'.
Proof.
  intros HH fuel disk name s0 found0 s0' h.
  assert (k : forall c c', runs fuel disk name c c' -> forall tasks found s, c = (tasks, found, s) ->
    forall done, Permutation (done ++ map task_path tasks) (keys (b_files s0)) -> Forall (loaded_right disk name) tasks ->
    one_by_one fuel disk name done [] s0 = Done found s -> forall found' s', c' = ([], found', s') ->
    exists order, Permutation order (keys (b_files s0)) /\ one_by_one fuel disk name order [] s0 = Done found' s').
  { clear. induction 1 as [c|c d c' st _ IH]; intros tasks found s -> done pm lr eo found' s' e'.
    - injection e' as -> -> ->. exists done. cbn in pm. rewrite app_nil_r in pm. auto.
    - assert (gone : forall l r p f t, tasks = l ++ Unread p :: r \/ (exists content, tasks = l ++ Loaded p content :: r) ->
        search_file fuel disk name found p s = Done f t ->
        Permutation ((done ++ [p]) ++ map task_path (l ++ r)) (keys (b_files s0)) /\ Forall (loaded_right disk name) (l ++ r) /\
        one_by_one fuel disk name (done ++ [p]) [] s0 = Done f t).
      { intros l r p f t ht es. split; [|split].
        - rewrite map_app in *. destruct ht as [->|[content ->]]; rewrite map_app in pm; apply perm_out; exact pm.
        - apply Forall_app. destruct ht as [->|[content ->]]; apply Forall_app in lr as [lr1 lr2]; inversion lr2; auto.
        - erewrite one_app by exact eo. cbn [one_by_one]. unfold ebind. rewrite es. reflexivity. }
      inversion st; subst.
      + destruct (gone l r p found s) as (g1 & g2 & g3); [left; reflexivity|looks|].
        eapply IH; try reflexivity; eassumption.
      + destruct (gone l r p found s) as (g1 & g2 & g3); [left; reflexivity|looks|].
        eapply IH; try reflexivity; eassumption.
      + eapply (IH _ _ _ eq_refl done); try reflexivity; try assumption.
        * rewrite map_app in *. exact pm.
        * apply Forall_app in lr as [lr1 lr2]. inversion lr2; subst. apply Forall_app. split; [assumption|]. constructor; [split; assumption|assumption].
      + assert (lp : loaded_right disk name (Loaded p content)) by (apply Forall_app in lr as [_ lr2]; inversion lr2; assumption).
        destruct lp as [lp1 lp2]. destruct (gone l r p found'0 s'0) as (g1 & g2 & g3); [right; eauto|rewrite (search_loaded _ _ _ _ _ _ _ lp1 lp2); assumption|].
        eapply IH; try reflexivity; eassumption. }
  eapply (k _ _ h _ _ _ eq_refl []); try reflexivity.
  - cbn [app]. unfold spawn_tasks. rewrite map_map. cbn [task_path]. rewrite map_id.
    unfold keys. apply Permutation_map. apply h_perm.
  - unfold spawn_tasks. apply Forall_forall. intros t ht. apply in_map_iff in ht as (p & <- & _). exact I.
Qed.

(** The order of the map of files is one of them. *)
Theorem C64_sequential : forall (HH : Hashing) fuel disk name s found s',
  references_of fuel disk name s = Done found s' -> runs fuel disk name (spawn_tasks s, [], s) ([], found, s').
Proof.
  intros HH fuel disk name s found s' e. unfold references_of, ebind in e. cbn [eget] in e.
  unfold spawn_tasks. revert e. generalize (map fst (h_order (b_files s))). generalize (@nil (str * FileReferenceMap)).
  intros acc l. revert acc s. induction l as [|p l IH]; intros acc s e; cbn [efold map] in *.
  - injection e as <- <-. constructor 1.
  - unfold ebind in e. destruct (search_file fuel disk name acc p s) as [f1 s1| |] eqn:es; try discriminate e.
    destruct (disk p) as [content|] eqn:ed.
    2:{ unfold search_file in es. rewrite ed in es. injection es as <- <-.
        econstructor 2; [apply (step_missing fuel disk name [] (map Unread l) p acc s ed)|]. apply IH. exact e. }
    destruct (contains content name) eqn:ec.
    + rewrite (search_loaded _ _ _ _ _ _ _ ed ec) in es.
      econstructor 2; [apply (step_load fuel disk name [] (map Unread l) p content acc s ed ec)|].
      econstructor 2; [apply (step_analyse fuel disk name [] (map Unread l) p content acc f1 s s1 es)|]. apply IH. exact e.
    + unfold search_file in es. rewrite ed, ec in es. injection es as <- <-.
      econstructor 2; [apply (step_without fuel disk name [] (map Unread l) p content acc s ed ec)|]. apply IH. exact e.
Qed.

(** ** Invariants *)

Lemma run_keeps : forall (HH : Hashing) Inv Good P, keeps Inv Good P ->
  forall fuel p content found s found' s', Inv s -> good_text Good content ->
  run_task fuel p content found s = Done found' s' -> Inv s'.
Proof.
  intros HH Inv Good P K fuel p content found s found' s' I g e. unfold run_task, ebind in e.
  destruct (source_to_ast fuel content s) as [x t| |] eqn:es; try discriminate e. apply source_spec in es as [-> es].
  destruct x as [[[nodes r] errors]|]; [|injection e as _ <-; exact I].
  destruct (analyse fuel p nodes s) as [o t| |] eqn:ea; try discriminate e. injection e as _ <-.
  eapply (kp_analyse _ _ _ K); eauto.
Qed.

(** The texts that tasks have loaded are good. *)
Definition loaded_good (Good : list Node -> Prop) (t : task) : Prop :=
  match t with Unread _ => True | Loaded _ content => good_text Good content end.
Definition flight_good (Good : list Node -> Prop) (f : flight) : Prop :=
  match f with Searching _ _ _ tasks _ => Forall (loaded_good Good) tasks | _ => True end.

Lemma step_keeps : forall (HH : Hashing) Inv Good P, keeps Inv Good P ->
  forall fuel disk order s fs s' fs', Inv s -> Forall (flight_good Good) fs -> good_disk Good P disk ->
  (forall e, serve fuel disk order e s = Done tt s' -> fs' = fs -> searches e = false -> good_event Good P disk e) ->
  server_step HH fuel disk order (s, fs) (s', fs') -> Inv s' /\ Forall (flight_good Good) fs'.
Proof.
  intros HH Inv Good P K fuel disk order s fs s' fs' I F gd ge st.
  assert (mid : forall l r f g, fs = l ++ f :: r -> flight_good Good g -> Forall (flight_good Good) (l ++ g :: r)).
  { intros l r f g -> h. apply Forall_app in F as [F1 F2]. inversion F2; subst. apply Forall_app. split; [assumption|constructor; assumption]. }
  inversion st; subst.
  - split; [|exact F]. eapply keep_serve; eauto.
  - match goal with e : symbol_under_cursor _ _ _ = _ |- _ => apply reads_cursor in e end. subst. split; [exact I|]. constructor; [exact Logic.I|exact F].
  - split; [exact I|]. constructor; [exact Logic.I|exact F].
  - match goal with e : e_data _ _ = _ |- _ => apply reads_data in e end. subst. split; [exact I|]. eapply mid; [reflexivity|exact Logic.I].
  - split; [exact I|]. eapply mid; [reflexivity|]. cbn. unfold spawn_tasks. apply Forall_forall. intros t ht.
    apply in_map_iff in ht as (p & <- & _). exact Logic.I.
  - assert (T : Forall (loaded_good Good) tasks) by (apply Forall_app in F as [_ F2]; inversion F2; assumption).
    assert (out : forall l0 r0 t, tasks = l0 ++ t :: r0 -> Forall (loaded_good Good) (l0 ++ r0)).
    { intros l0 r0 t ->. apply Forall_app in T as [T1 T2]. inversion T2; subst. apply Forall_app. auto. }
    match goal with e : task_step _ _ _ _ _ |- _ => inversion e; subst end.
    + split; [exact I|]. eapply mid; [reflexivity|]. cbn. eauto.
    + split; [exact I|]. eapply mid; [reflexivity|]. cbn. eauto.
    + split; [exact I|]. eapply mid; [reflexivity|]. cbn. apply Forall_app in T as [T1 T2]. inversion T2; subst.
      apply Forall_app. split; [assumption|]. constructor; [|assumption]. cbn. eapply gd. eassumption.
    + assert (g : good_text Good content) by (apply Forall_app in T as [_ T2]; inversion T2; assumption).
      split; [eapply run_keeps; eauto|]. eapply mid; [reflexivity|]. cbn. eauto.
  - split; [exact I|]. apply Forall_app in F as [F1 F2]. inversion F2; subst. apply Forall_app. auto.
Qed.

Lemma running_winv : forall c, running c -> winv (fst c).
Proof.
  assert (K : forall c, running c -> winv (fst c) /\ Forall (flight_good (fun _ => True)) (snd c)).
  { induction 1 as [|HH fuel disk order [s fs] [s' fs'] h IH st].
    - split; [apply winv_new|constructor].
    - destruct IH as [I F]. cbn [fst snd] in *. eapply step_keeps; [apply winv_keeps|exact I|exact F| | |exact st].
      + intros p text _. split; auto. intros ? ? _. auto.
      + intros e _ _ _. split; [intros p text _; split; auto; intros ? ? _; auto|]. destruct e; auto. split; auto.
        apply Forall_forall. intros ? _ ? ? _. auto. }
  intros c h. apply K. exact h.
Qed.

(** Whatever is in flight, the symbols form a forest: a parent has the symbol
    among its children, a child has the symbol as its parent, nothing is its own
    ancestor; every indexed file stands at a symbol of kind file unless this was
    thrown away; and the symbol under every cursor is found as in C20. *)
Theorem C64_forest : forall s fs, running (s, fs) ->
  (forall i p, parent_of (b_arena s) i = Some (Some p) -> exists l, kids (b_arena s) p = Some l /\ In i l) /\
  (forall i l c, kids (b_arena s) i = Some l -> In c l -> parent_of (b_arena s) c = Some (Some i)) /\
  (forall i p, parent_of (b_arena s) i = Some (Some p) -> ~ within (b_arena s) p i) /\
  (forall path f d, findS path (b_files s) = Some f -> data (b_arena s) f = Some d -> y_kind d = KFile) /\
  (forall path f p, findS path (b_files s) = Some f -> alive (b_arena s) f ->
     exists i, symbol_at (b_arena s) p f = Some i /\ within (b_arena s) i f).
Proof.
  intros s fs h. apply running_winv in h. cbn [fst] in h. destruct h as [w _ wf _]. split; [|split; [|split; [|split]]].
  - intros i p e. unfold parent_of in e. destruct (node_of (b_arena s) i) as [n|] eqn:en; [|discriminate e]. injection e as e.
    destruct (wf_up _ w _ _ _ en e) as (m & em & hm). exists (n_kids m). unfold kids. rewrite em. auto.
  - intros i l c e hc. unfold kids in e. destruct (node_of (b_arena s) i) as [n|] eqn:en; [|discriminate e]. injection e as <-.
    destruct (wf_down _ w _ _ _ en hc) as (m & em & hm). unfold parent_of. rewrite em. cbn [opt_map]. rewrite hm. reflexivity.
  - intros i p e hw. destruct (wf_rank _ w) as (rank & hr).
    assert (le : forall x y, within (b_arena s) x y -> (rank y <= rank x)%nat).
    { induction 1 as [x _|x q y ex _ IH]; [lia|]. unfold parent_of in ex.
      destruct (node_of (b_arena s) x) as [n|] eqn:en; [|discriminate ex]. injection ex as ex. pose proof (hr _ _ _ en ex). lia. }
    apply le in hw. unfold parent_of in e. destruct (node_of (b_arena s) i) as [n|] eqn:en; [|discriminate e]. injection e as e.
    pose proof (hr _ _ _ en e). lia.
  - intros path f d ef ed. destruct (wf _ _ ef) as [_ k]. unfold data in ed. destruct (node_of (b_arena s) f) as [n|]; [|discriminate ed].
    injection ed as <-. apply k. reflexivity.
  - intros path f p ef al. destruct (C20_innermost_partial _ p _ w al) as (i & e1 & e2 & _). eauto.
Qed.

(** The same for the index: C21 holds at every moment. *)
Theorem C64_index_partial : forall D s fs, running_tame D (s, fs) ->
  forall key i, findS key (b_global s) = Some i ->
  exists d path f, data (b_arena s) i = Some d /\ key = to_lowercase (qualified d) /\
    findS path (b_files s) = Some f /\ alive (b_arena s) f /\ parent_of (b_arena s) i = Some (Some f).
Proof.
  intros D s fs t key i e.
  assert (K : forall c, running_tame D c -> binv D (fst c) /\ Forall (flight_good (Forall (clean D))) (snd c)).
  { clear. induction 1 as [|HH fuel disk order e s s' fs h IH te _ r|HH fuel disk order s fs s' fs' h IH gd st ne]; cbn [fst snd] in *.
    - split; [apply binv_new|constructor].
    - destruct IH as [I F]. split; [|exact F]. eapply keep_serve; [apply binv_keeps|exact I|exact te|exact r].
    - destruct IH as [I F]. eapply step_keeps; [apply binv_keeps|exact I|exact F|exact gd| |exact st].
      intros e es ef _. subst. now elim ne. }
  apply K in t as [I _]. cbn [fst] in I.
  destruct (bi_index _ _ I _ _ e) as (m & p & f & e1 & e2 & e3 & e4 & e5).
  exists (n_data m), p, f. unfold data, parent_of, alive, data. rewrite e1. cbn. rewrite e4.
  split; auto. split.
  - rewrite <- e2. unfold index_key, fqdn, qualified. rewrite bare_name. auto.
  - split; auto. split; auto. destruct (bi_files _ _ I _ _ e5) as [(n & en & _) _]. rewrite en. discriminate.
Qed.

(** ** Answers *)
Theorem C64_answers : forall s fs target name new tasks found, running (s, fs) ->
  In (Searching target name new tasks found) fs -> forall path m, In (path, m) found -> witnessed name path m.
Proof.
  assert (K : forall c, running c -> Forall (fun f => match f with
      | Searching _ name _ tasks found =>
          Forall (fun t => match t with Unread _ => True | Loaded _ content => contains content name = true end) tasks /\
          Forall (fun e => witnessed name (fst e) (snd e)) found
      | _ => True end) (snd c)).
  { induction 1 as [|HH fuel disk order [s fs] [s' fs'] h IH st]; [constructor|]. cbn [snd] in *.
    set (Q := fun f : flight => _) in *.
    assert (mid : forall l r f g, fs = l ++ f :: r -> Q g -> Forall Q (l ++ g :: r)).
    { intros l r f g -> hq. apply Forall_app in IH as [F1 F2]. inversion F2; subst. apply Forall_app. split; [assumption|constructor; assumption]. }
    inversion st; subst; try exact IH.
    - constructor; [exact I|exact IH].
    - constructor; [exact I|exact IH].
    - eapply mid; [reflexivity|exact I].
    - eapply mid; [reflexivity|]. cbn. split; [|constructor]. unfold spawn_tasks. apply Forall_forall. intros t ht.
      apply in_map_iff in ht as (p & <- & _). exact I.
    - eapply mid; [reflexivity|].
      assert (T : Q (Searching target name new tasks found)) by (apply Forall_app in IH as [_ F2]; inversion F2; assumption).
      destruct T as [T1 T2]. match goal with e : task_step _ _ _ _ _ |- _ => inversion e; subst end; cbn.
      + apply Forall_app in T1 as [T1 T3]. inversion T3; subst. split; [apply Forall_app; auto|exact T2].
      + apply Forall_app in T1 as [T1 T3]. inversion T3; subst. split; [apply Forall_app; auto|exact T2].
      + apply Forall_app in T1 as [T1 T3]. inversion T3; subst. split; [apply Forall_app; auto|exact T2].
      + apply Forall_app in T1 as [T1 T3]. inversion T3; subst. split; [apply Forall_app; auto|].
        match goal with e : run_task _ _ _ _ _ = _ |- _ => rename e into er end.
        unfold run_task, ebind in er.
        destruct (source_to_ast fuel content s) as [x t| |] eqn:es; try discriminate er. apply source_spec in es as [-> es].
        destruct x as [[[nodes r0'] errors]|]; [|injection er as <- _; exact T2].
        destruct (analyse fuel p nodes s) as [[m|] t| |] eqn:ea; try discriminate er; injection er as <- _; [|exact T2].
        apply Forall_forall. intros [q mq] hq. apply in_put in hq. cbn [fst snd]. destruct hq as [hq|hq].
        * injection hq as -> ->. exists HH, fuel, content, nodes, s, t, (l ++ Searching target name new (l0 ++ Loaded p content :: r0) found :: r).
          auto.
        * rewrite Forall_forall in T2. apply (T2 _ hq).
    - apply Forall_app in IH as [F1 F2]. inversion F2; subst. apply Forall_app. auto. }
  intros s fs target name new tasks found h hin path m hm. apply K in h. cbn [snd] in h.
  rewrite Forall_forall in h. apply h in hin. destruct hin as [_ hf]. rewrite Forall_forall in hf. apply (hf _ hm).
Qed.

(** ** One request after the other *)
(** The answer is made of the places that were found for the target, of all of
    them and of nothing else; each was found in a text with the name. *)
Theorem C64_places : forall (HH : Hashing) target found path range,
  In (path, range) (places target found) <->
  exists m rs r, In (path, m) found /\ findN target m = Some rs /\ In r rs /\ range = get_range r.
Proof.
  intros HH target found path range. unfold places. rewrite in_flat_map. split.
  - intros ([p m] & hin & h). apply in_rev in hin. apply (Permutation_in _ (h_perm _ found)) in hin. cbn [fst snd] in h.
    destruct (findN target m) as [rs|] eqn:e; [|elim h]. apply in_map_iff in h as (r & er & hr). injection er as <- <-.
    exists m, rs, r. auto.
  - intros (m & rs & r & hin & e & hr & ->). exists (path, m). split.
    + apply -> in_rev. apply (Permutation_in _ (Permutation_sym (h_perm _ found))). exact hin.
    + cbn [fst snd]. rewrite e. apply in_map_iff. exists r. auto.
Qed.
Theorem C64_answered : forall (HH : Hashing) s fs target name new tasks found, running (s, fs) ->
  In (Searching target name new tasks found) fs -> forall path range, In (path, range) (places target found) ->
  exists m rs r, witnessed name path m /\ findN target m = Some rs /\ In r rs /\ range = get_range r.
Proof.
  intros HH s fs target name new tasks found h hin path range hp. apply C64_places in hp as (m & rs & r & k & e).
  exists m, rs, r. split; [|exact e]. eapply C64_answers; eauto.
Qed.
(** The answer of references to a server that does nothing else is one of those. *)
Theorem C64_references : forall (HH : Hashing) fuel disk path p s l s', references fuel disk path p s = Done (Some l) s' ->
  exists target name found, symbol_under_cursor path p s = Done (Some (target, name)) s /\
    runs fuel disk name (spawn_tasks s, [], s) ([], found, s') /\ l = places target found.
Proof.
  intros HH fuel disk path p s l s' e. unfold references, ebind in e.
  destruct (symbol_under_cursor path p s) as [o t1| |] eqn:eu; try discriminate e.
  pose proof (reads_cursor _ _ _ _ _ eu) as et. subst t1. destruct o as [[suc name]|]; [|discriminate e].
  destruct (references_of fuel disk name s) as [found t2| |] eqn:ef; try discriminate e. injection e as <- <-.
  exists suc, name, found. split; [reflexivity|]. split; [apply C64_sequential; exact ef|reflexivity].
Qed.

Lemma running_runs : forall (HH : Hashing) fuel disk name c c', runs fuel disk name c c' ->
  forall target new fs tasks found s tasks' found' s', c = (tasks, found, s) -> c' = (tasks', found', s') ->
  running (s, Searching target name new tasks found :: fs) -> running (s', Searching target name new tasks' found' :: fs).
Proof.
  intros HH fuel disk name. induction 1 as [c|c d c' st _ IH]; intros target new fs tasks found s tasks' found' s' -> e h.
  - injection e as <- <- <-. exact h.
  - destruct d as [[tasks1 found1] s1]. eapply IH; [reflexivity|exact e|].
    eapply running_step; [exact h|]. apply (serve_task HH fuel disk (fun m => m) target name new tasks found tasks1 found1 s s1 [] fs st).
Qed.
Lemma running_search : forall (HH : Hashing) fuel disk name target new fs s found s', references_of fuel disk name s = Done found s' ->
  running (s, Named target name new :: fs) -> running (s', fs).
Proof.
  intros HH fuel disk name target new fs s found s' e h. apply C64_sequential in e.
  eapply running_step; [|apply (serve_answer HH fuel disk (fun m => m) target name new found s' [] fs)].
  eapply running_runs; [exact e|reflexivity|reflexivity|].
  eapply running_step; [exact h|]. apply (serve_spawn HH fuel disk (fun m => m) target name new s [] fs).
Qed.

(** All states of SpecServer.v are among the states of this system. *)
Theorem C64_covers : forall s, reachable s -> running (s, []).
Proof.
  induction 1 as [|s s' hs fuel disk order e h IH r]; [constructor|].
  destruct (searches e) eqn:es.
  2:{ eapply running_step; [exact IH|]. eapply serve_event; eauto. }
  destruct e; try discriminate es; cbn [serve] in r; unfold ignore, ebind in r.
  - destruct (references fuel disk path p s) as [x t| |] eqn:er; try discriminate r. injection r as <-.
    unfold references, ebind in er. destruct (symbol_under_cursor path p s) as [o t1| |] eqn:eu; try discriminate er.
    pose proof (reads_cursor _ _ _ _ _ eu) as et. subst t1. destruct o as [[suc name]|]; [|injection er as _ <-; exact IH].
    destruct (references_of fuel disk name s) as [found t2| |] eqn:ef; try discriminate er. injection er as _ <-.
    eapply running_search; [exact ef|]. eapply running_step; [exact IH|]. apply (serve_references hs fuel disk order path p suc name s s [] eu).
  - destruct (rename fuel disk order path p new_name s) as [x t| |] eqn:er; try discriminate r. injection r as <-.
    unfold rename, ebind in er. cbn [eget] in er. destruct (findS path (b_refs s)) as [m|] eqn:em; cbn [obind] in er; [|injection er as _ <-; exact IH].
    destruct (referenced_symbol order p m) as [nuc|] eqn:en; [|injection er as _ <-; exact IH].
    destruct (e_data nuc s) as [d t1| |] eqn:ed; try discriminate er. pose proof (reads_data _ _ _ _ ed) as et. subst t1.
    destruct (references_of fuel disk (y_name d) s) as [found t2| |] eqn:ef; try discriminate er. injection er as _ <-.
    eapply running_search; [exact ef|]. eapply running_step; [|apply (serve_name hs fuel disk order nuc new_name d s s [] [] ed)].
    eapply running_step; [exact IH|]. apply (serve_rename hs fuel disk order path p new_name m nuc s [] em en).
Qed.

Lemma steps_differ : forall (HH : Hashing) fuel disk name tasks found s tasks' found' s' target new fs,
  task_step fuel disk name (tasks, found, s) (tasks', found', s') ->
  Searching target name new tasks found :: fs <> Searching target name new tasks' found' :: fs.
Proof.
  intros HH fuel disk name tasks found s tasks' found' s' target new fs st e. injection e as e _.
  assert (len : forall (l r : list task) x, l ++ x :: r = l ++ r -> False).
  { intros l r x k. apply (f_equal (@List.length task)) in k. rewrite !app_length in k. cbn in k. lia. }
  inversion st; subst; try (eapply len; symmetry; eassumption).
  match goal with k : _ ++ _ = _ ++ _ |- _ => apply app_inv_head in k; discriminate k end.
Qed.
Lemma tame_runs : forall D (HH : Hashing) fuel disk name c c', (forall p text, disk p = Some text -> D (bare p) /\ text_ok D text) ->
  runs fuel disk name c c' -> forall target new fs tasks found s tasks' found' s', c = (tasks, found, s) -> c' = (tasks', found', s') ->
  running_tame D (s, Searching target name new tasks found :: fs) -> running_tame D (s', Searching target name new tasks' found' :: fs).
Proof.
  intros D HH fuel disk name c c' gd h. induction h as [c|c d c' st _ IH]; intros target new fs tasks found s tasks' found' s' -> e h.
  - injection e as <- <- <-. exact h.
  - destruct d as [[tasks1 found1] s1]. eapply IH; [reflexivity|exact e|].
    eapply tame_flight; [exact h|exact gd|apply (serve_task HH fuel disk (fun m => m) target name new tasks found tasks1 found1 s s1 [] fs st)|].
    eapply steps_differ. exact st.
Qed.
Lemma tame_search : forall D (HH : Hashing) fuel disk name target new fs s found s', (forall p text, disk p = Some text -> D (bare p) /\ text_ok D text) ->
  references_of fuel disk name s = Done found s' ->
  running_tame D (s, Named target name new :: fs) -> running_tame D (s', fs).
Proof.
  intros D HH fuel disk name target new fs s found s' gd e h. apply C64_sequential in e.
  eapply tame_flight; [|exact gd|apply (serve_answer HH fuel disk (fun m => m) target name new found s' [] fs)|].
  - eapply tame_runs; [exact gd|exact e|reflexivity|reflexivity|].
    eapply tame_flight; [exact h|exact gd|apply (serve_spawn HH fuel disk (fun m => m) target name new s [] fs)|discriminate].
  - cbn. intros k. apply (f_equal (@List.length flight)) in k. cbn in k. lia.
Qed.
Lemma longer : forall (f : flight) fs, fs <> f :: fs.
Proof. intros f fs k. apply (f_equal (@List.length flight)) in k. cbn in k. lia. Qed.
Theorem C64_tame_covers : forall D s, tame D s -> running_tame D (s, []).
Proof.
  induction 1 as [|s s' hs fuel disk order e h IH te r]; [constructor|].
  destruct (searches e) eqn:es; [|eapply tame_request; eauto].
  destruct te as [gd _]. destruct e; try discriminate es; cbn [serve] in r; unfold ignore, ebind in r.
  - destruct (references fuel disk path p s) as [x t| |] eqn:er; try discriminate r. injection r as <-.
    unfold references, ebind in er. destruct (symbol_under_cursor path p s) as [o t1| |] eqn:eu; try discriminate er.
    pose proof (reads_cursor _ _ _ _ _ eu) as et. subst t1. destruct o as [[suc name]|]; [|injection er as _ <-; exact IH].
    destruct (references_of fuel disk name s) as [found t2| |] eqn:ef; try discriminate er. injection er as _ <-.
    eapply tame_search; [exact gd|exact ef|]. eapply tame_flight; [exact IH|exact gd| |apply longer].
    apply (serve_references hs fuel disk order path p suc name s s [] eu).
  - destruct (rename fuel disk order path p new_name s) as [x t| |] eqn:er; try discriminate r. injection r as <-.
    unfold rename, ebind in er. cbn [eget] in er. destruct (findS path (b_refs s)) as [m|] eqn:em; cbn [obind] in er; [|injection er as _ <-; exact IH].
    destruct (referenced_symbol order p m) as [nuc|] eqn:en; [|injection er as _ <-; exact IH].
    destruct (e_data nuc s) as [d t1| |] eqn:ed; try discriminate er. pose proof (reads_data _ _ _ _ ed) as et. subst t1.
    destruct (references_of fuel disk (y_name d) s) as [found t2| |] eqn:ef; try discriminate er. injection er as _ <-.
    eapply tame_search; [exact gd|exact ef|].
    eapply tame_flight; [|exact gd|apply (serve_name hs fuel disk order nuc new_name d s s [] [] ed)|discriminate].
    eapply tame_flight; [exact IH|exact gd|apply (serve_rename hs fuel disk order path p new_name m nuc s [] em en)|apply longer].
Qed.

(** ** Locks *)

(** Threads of the server, each somewhere in its program *)
Definition server_threads (ts : list thread) : Prop :=
  forall t, In t ts -> exists before, threads_of (th_task t) (before ++ th_left t).
Definition finished (ts : list thread) : Prop := forall t, In t ts -> th_left t = [].

(** At most one thread holds a lock. *)
Definition exclusive (ts : list thread) : Prop :=
  forall i j t u l, nth_error ts i = Some t -> nth_error ts j = Some u -> holds l (th_left t) -> holds l (th_left u) -> i = j.

Ltac peel e :=
  match type of e with
  | [] = ?b ++ ?p => symmetry in e; apply app_eq_nil in e as [-> ->]
  | _ :: _ = ?b ++ ?p => destruct b as [|? b]; cbn [app] in e; [subst p|injection e as _ e; peel e]
  end.
Lemma suffixes : forall o p, (exists before, threads_of o (before ++ p)) ->
  p = [] \/ (exists l q, p = Leave l :: q) \/
  (exists q, p = Take State :: q /\ forall l, ~ holds l (Take State :: q)) \/
  (exists i q, p = Take (Results i) :: q /\ forall l, holds l p -> l = State) \/
  (exists i q, p = Join i :: q /\ o = None /\ forall l, ~ holds l q).
Proof.
  intros o p (before & h). remember (before ++ p) as w eqn:e. destruct h; peel e.
  all: try (left; reflexivity).
  all: try (right; left; do 2 eexists; reflexivity).
  all: try (do 4 right; do 2 eexists; split; [reflexivity|split; [reflexivity|intros l hl; cbn in hl; intuition congruence]]).
  all: try (do 3 right; left; do 2 eexists; split; [reflexivity|]; intros l hl; cbn in hl; intuition congruence).
  all: do 2 right; left; eexists; split; [reflexivity|]; intros l hl; cbn in hl; intuition congruence.
Qed.

(** Whoever holds the results of a search is about to leave them. *)
Lemma results_held : forall o p i, (exists before, threads_of o (before ++ p)) -> holds (Results i) p -> exists l q, p = Leave l :: q.
Proof.
  intros o p i h hh. destruct (suffixes _ _ h) as [->|[k|[(q & -> & k)|[(j & q & -> & k)|(j & q & -> & _ & k)]]]].
  - destruct hh.
  - exact k.
  - elim (k _ hh).
  - apply k in hh. discriminate hh.
  - elim (k _ hh).
Qed.
Lemma state_held : forall o p, (exists before, threads_of o (before ++ p)) -> holds State p ->
  (exists l q, p = Leave l :: q) \/ exists i q, p = Take (Results i) :: q.
Proof.
  intros o p h hh. destruct (suffixes _ _ h) as [->|[k|[(q & -> & k)|[(j & q & -> & k)|(j & q & -> & _ & k)]]]]; eauto.
  - destruct hh.
  - elim (k _ hh).
  - elim (k _ hh).
Qed.

Lemma find_thread : forall (P : thread -> Prop) ts, (forall t, P t \/ ~ P t) -> (exists t, In t ts /\ P t) \/ forall t, In t ts -> ~ P t.
Proof.
  intros P ts dec. induction ts as [|t ts IH]; [right; intros t []|].
  destruct (dec t) as [h|h]; [left; exists t; cbn; auto|]. destruct IH as [(u & hu & pu)|IH]; [left; exists u; cbn; auto|].
  right. intros u [<-|hu]; auto.
Qed.

(** As long as a thread is not at its end, some thread can go on. *)
Theorem C64_no_deadlock : forall ts, server_threads ts -> finished ts \/ exists ts', lock_step ts ts'.
Proof.
  intros ts h.
  destruct (find_thread (fun t => exists l q, th_left t = Leave l :: q) ts) as [(t & ht & l & q & e)|no_leave].
  { intros [o [|[l|l|i] q]]; cbn; try (right; intros (? & ? & k); discriminate k). left. eauto. }
  { right. apply in_split in ht as (a & b & ->). destruct t as [o p]. cbn in e. subst p. eexists. apply lock_leave. }
  assert (free : forall i t, In t ts -> ~ holds (Results i) (th_left t)).
  { intros i t ht k. apply (no_leave t ht). eapply results_held; eauto. }
  destruct (find_thread (fun t => exists i q, th_left t = Take (Results i) :: q) ts) as [(t & ht & i & q & e)|no_results].
  { intros [o [|[[|l]|l|i] q]]; cbn; try (right; intros (? & ? & k); discriminate k). left. eauto. }
  { right. apply in_split in ht as (a & b & ->). destruct t as [o p]. cbn in e. subst p. eexists. apply lock_take. eauto. }
  assert (open : forall t, In t ts -> ~ holds State (th_left t)).
  { intros t ht k. destruct (state_held _ _ (h t ht) k) as [k'|k']; [apply (no_leave t ht k')|apply (no_results t ht k')]. }
  destruct (find_thread (fun t => exists q, th_left t = Take State :: q) ts) as [(t & ht & q & e)|no_state].
  { intros [o [|[[|l]|l|i] q]]; cbn; try (right; intros (? & k); discriminate k). left. eauto. }
  { right. apply in_split in ht as (a & b & ->). destruct t as [o p]. cbn in e. subst p. eexists. apply lock_take. eauto. }
  assert (rest : forall t, In t ts -> th_left t = [] \/ exists i q, th_left t = Join i :: q /\ th_task t = None).
  { intros t ht. destruct (suffixes _ _ (h t ht)) as [e|[k|[(q & e & _)|[(j & q & e & _)|(j & q & e & k & _)]]]].
    - auto.
    - elim (no_leave t ht k).
    - elim (no_state t ht). eauto.
    - elim (no_results t ht). eauto.
    - right. eauto. }
  destruct (find_thread (fun t => exists i q, th_left t = Join i :: q) ts) as [(t & ht & i & q & e)|no_join].
  { intros [o [|[[|l]|l|i] q]]; cbn; try (right; intros (? & ? & k); discriminate k). left. eauto. }
  - right. pose proof ht as ht'. apply in_split in ht as (a & b & ->). destruct t as [o p]. cbn in e. subst p. eexists. apply lock_join.
    intros u hu eu. destruct (rest u hu) as [k|(j & q' & _ & k)]; [exact k|congruence].
  - left. intros t ht. destruct (rest t ht) as [k|(j & q & k & _)]; [exact k|elim (no_join t ht); eauto].
Qed.

(** Steps lead from threads of the server to threads of the server, and each
    takes one instruction away: every run ends, with all threads at their ends. *)
Theorem C64_threads : forall ts ts', server_threads ts -> lock_step ts ts' -> server_threads ts' /\
  S (list_sum (map (fun t => List.length (th_left t)) ts')) = list_sum (map (fun t => List.length (th_left t)) ts).
Proof.
  intros ts ts' h st.
  assert (k : forall a b o x p, ts = a ++ mkThread o (x :: p) :: b -> ts' = a ++ mkThread o p :: b -> server_threads ts' /\
    S (list_sum (map (fun t => List.length (th_left t)) ts')) = list_sum (map (fun t => List.length (th_left t)) ts)).
  { intros a b o x p -> ->. split.
    - intros t ht. apply in_app_or in ht as [ht|[<-|ht]].
      + apply h. apply in_or_app. auto.
      + destruct (h (mkThread o (x :: p))) as (before & hb); [apply in_or_app; right; left; reflexivity|].
        exists (before ++ [x]). cbn [th_task th_left] in *. rewrite <- app_assoc. exact hb.
      + apply h. apply in_or_app. right. right. exact ht.
    - rewrite !map_app, !list_sum_app. cbn. lia. }
  inversion st; subst; eapply k; reflexivity.
Qed.

Lemma nth_swap : forall (A : Type) (a b : list A) x y i, i <> List.length a -> nth_error (a ++ x :: b) i = nth_error (a ++ y :: b) i.
Proof.
  intros A. induction a as [|z a IH]; intros b x y [|i] ne; cbn in *; try reflexivity; [now elim ne|]. apply IH. congruence.
Qed.
Lemma nth_here : forall (A : Type) (a b : list A) x, nth_error (a ++ x :: b) (List.length a) = Some x.
Proof. intros A. induction a; intros; cbn; auto. Qed.
Lemma exclusive_step : forall ts ts', exclusive ts -> lock_step ts ts' -> exclusive ts'.
Proof.
  intros ts ts' ex st.
  assert (k : forall a b o x p, ts = a ++ mkThread o (x :: p) :: b -> ts' = a ++ mkThread o p :: b ->
    (forall l, holds l p -> holds l (x :: p) \/ forall u, In u ts -> ~ holds l (th_left u)) -> exclusive ts').
  { intros a b o x p -> -> hl i j t u l ei ej ht hu.
    set (old := a ++ mkThread o (x :: p) :: b) in *.
    assert (back : forall i t, nth_error (a ++ mkThread o p :: b) i = Some t -> holds l (th_left t) ->
      (exists t', nth_error old i = Some t' /\ holds l (th_left t')) \/
      (i = List.length a /\ forall u, In u old -> ~ holds l (th_left u))).
    { clear i t ei ht. intros i t e ht. destruct (Nat.eq_dec i (List.length a)) as [->|ne].
      - rewrite nth_here in e. injection e as <-. destruct (hl _ ht) as [k|k]; [|right; auto].
        left. exists (mkThread o (x :: p)). split; [apply nth_here|exact k].
      - left. exists t. split; [|exact ht]. unfold old. rewrite (nth_swap _ _ _ _ (mkThread o p)) by exact ne. exact e. }
    destruct (back _ _ ei ht) as [(t' & ei' & ht')|(-> & none)], (back _ _ ej hu) as [(u' & ej' & hu')|(-> & none')].
    - eapply ex; eauto.
    - elim (none' t'); [eapply nth_error_In; exact ei'|exact ht'].
    - elim (none u'); [eapply nth_error_In; exact ej'|exact hu'].
    - reflexivity. }
  inversion st; subst.
  - eapply k; [reflexivity|reflexivity|]. intros l0 hl. destruct l as [|i], l0 as [|j].
    + right. assumption.
    + left. cbn. split; [discriminate|exact hl].
    + left. cbn. split; [discriminate|exact hl].
    + destruct (Nat.eq_dec i j) as [->|ne]; [right; assumption|]. left. cbn. split; [congruence|exact hl].
  - eapply k; [reflexivity|reflexivity|]. intros l0 hl. left. cbn. auto.
  - eapply k; [reflexivity|reflexivity|]. intros l0 hl. left. exact hl.
Qed.

(** At no time do two threads hold the same lock. *)
Theorem C64_exclusive : forall ts ts', (forall t, In t ts -> threads_of (th_task t) (th_left t)) ->
  clos_refl_trans_1n _ lock_step ts ts' -> exclusive ts'.
Proof.
  intros ts ts' h st.
  assert (ex : exclusive ts).
  { intros i j t u l ei _ ht _. exfalso. apply nth_error_In, h in ei. destruct ei; cbn in ht; intuition congruence. }
  clear h. induction st as [|ts t1 ts' st _ IH]; [exact ex|]. apply IH. eapply exclusive_step; eauto.
Qed.
End Flights.

(** * Concrete cases *)

(** A search with two tasks, another request, and a rename with one task *)
Definition threads64 : list thread :=
  [mkThread None [Take State; Leave State; Take State; Leave State; Join 0; Take (Results 0); Leave (Results 0)];
   mkThread (Some 0%nat) [Take State; Take (Results 0); Leave (Results 0); Leave State];
   mkThread (Some 0%nat) [Take State; Leave State];
   mkThread None [Take State; Leave State];
   mkThread None [Take State; Leave State; Take State; Leave State; Take State; Leave State; Join 1; Take (Results 1); Leave (Results 1)];
   mkThread (Some 1%nat) [Take State; Take (Results 1); Leave (Results 1); Leave State]].
Example C64_threads_case : server_threads threads64 /\ (forall t, In t threads64 -> threads_of (th_task t) (th_left t)) /\
  exists ts, lock_step threads64 ts.
Proof.
  assert (h : forall t, In t threads64 -> threads_of (th_task t) (th_left t)).
  { intros t h. repeat (destruct h as [<-|h]; [constructor|]). destruct h. }
  assert (k : server_threads threads64) by (intros t ht; exists []; apply h; exact ht).
  split; [exact k|]. split; [exact h|]. destruct (C64_no_deadlock _ k) as [f|st]; [|exact st].
  specialize (f _ (or_introl eq_refl)). discriminate f.
Qed.

Section Cases.
Local Existing Instance ascii_runtime | 9.
Local Existing Instance plain_hashing | 9.

Definition text64 : string := "<?php class K {} new K();".
Definition disk64 : str -> option str := disk2 text64 "<?php new K();".
Definition start64 : bst := state_after [(disk64, EvIndex [pA; pB]); (disk64, EvInitialized); (disk64, EvOpen pA [])].
Definition changed64 : bst := state_after [(disk64, EvIndex [pA; pB]); (disk64, EvInitialized); (disk64, EvOpen pA []); (disk64, EvChange pA [lit text64])].
Definition target64 : N := match symbol_under_cursor pA (mkPos 0 12) start64 with Done (Some (i, _)) _ => i | _ => 0 end.
Definition found64 : found_in := match one_by_one 400 disk64 (lit "K") [pA; pB] [] changed64 with Done f _ => f | _ => [] end.
Definition end64 : bst := match one_by_one 400 disk64 (lit "K") [pA; pB] [] changed64 with Done _ s => s | _ => changed64 end.
Definition other64 : found_in := match one_by_one 400 disk64 (lit "K") [pB; pA] [] start64 with Done f _ => f | _ => [] end.
Definition other_end64 : bst := match one_by_one 400 disk64 (lit "K") [pB; pA] [] start64 with Done _ s => s | _ => start64 end.

(** The tasks of a search run in an order that is not that of the map. *)
Example C64_case : runs 400 disk64 (lit "K") (spawn_tasks start64, [], start64) ([], other64, other_end64) /\
  places target64 other64 <> [].
Proof.
  split; [|vm_compute; discriminate].
  econstructor 2; [apply (step_load 400 disk64 (lit "K") [] [Unread pB] pA (lit text64) [] start64); reflexivity|].
  econstructor 2; [apply (step_load 400 disk64 (lit "K") [Loaded pA (lit text64)] [] pB (lit "<?php new K();") [] start64); reflexivity|].
  econstructor 2; [eapply (step_analyse 400 disk64 (lit "K") [Loaded pA (lit text64)] [] pB (lit "<?php new K();") [] _ start64); vm_compute; reflexivity|].
  econstructor 2; [eapply (step_analyse 400 disk64 (lit "K") [] [] pA (lit text64)); vm_compute; reflexivity|].
  vm_compute. constructor 1.
Qed.

(** Texts without doc comments are tame, also while a search is under way. *)
Example C64_index_case : exists D fs, fs <> [] /\ running_tame D (start64, fs) /\ findS (lit "k") (b_global start64) = Some target64.
Proof.
  exists (fun k => In k [pA; pB; lit "K"; lit "$K"; lit "class"; lit "x"]), [Named target64 (lit "K") None].
  assert (d : forall p text, disk64 p = Some text ->
    In (bare p) [pA; pB; lit "K"; lit "$K"; lit "class"; lit "x"] /\ text_ok (fun k => In k [pA; pB; lit "K"; lit "$K"; lit "class"; lit "x"]) text).
  { apply tame_disk2; try (simpl; tauto); vm_compute; reflexivity. }
  split; [discriminate|]. split; [|vm_compute; reflexivity].
  assert (t : tame (fun k => In k [pA; pB; lit "K"; lit "$K"; lit "class"; lit "x"]) start64).
  { apply (tame_play [pA; pB; lit "K"; lit "$K"; lit "class"; lit "x"]
      [(disk64, EvIndex [pA; pB]); (disk64, EvInitialized); (disk64, EvOpen pA [])]).
    constructor; [|constructor; [|constructor; [|constructor]]]; (split; [exact d|exact I]). }
  eapply (tame_flight _ plain_hashing 400%nat disk64 (fun m => m) start64 []); [|exact d| |apply longer].
  - apply C64_tame_covers. exact t.
  - apply (serve_references plain_hashing 400 disk64 (fun m => m) pA (mkPos 0 12)). vm_compute. reflexivity.
Qed.

(** The full claim is false: a notification that does not even change the text
    while the search is under way, and the answer is empty. *)
Theorem C64_refuted : exists s path text p i name l t s' found t', reachable s /\
  findS path (b_latest s) = Some text /\ symbol_under_cursor path p s = Done (Some (i, name)) s /\
  references 400 disk64 path p s = Done (Some l) t /\ l <> [] /\
  serve 400 disk64 (fun m => m) (EvChange path [text]) s = Done tt s' /\
  runs 400 disk64 name (spawn_tasks s, [], s') ([], found, t') /\
  running (t', [Searching i name None [] found]) /\ places i found = [].
Proof.
  exists start64, pA, (lit text64), (mkPos 0 12), target64, (lit "K"). do 2 eexists. exists changed64, found64, end64.
  assert (r : reachable start64) by apply state_after_reachable.
  assert (c : symbol_under_cursor pA (mkPos 0 12) start64 = Done (Some (target64, lit "K")) start64) by (vm_compute; reflexivity).
  assert (e : serve 400 disk64 (fun m => m) (EvChange pA [lit text64]) start64 = Done tt changed64) by (vm_compute; reflexivity).
  assert (k : runs 400 disk64 (lit "K") (spawn_tasks start64, [], changed64) ([], found64, end64)).
  { econstructor 2; [apply (step_load 400 disk64 (lit "K") [] [Unread pB] pA (lit text64) [] changed64); reflexivity|].
    econstructor 2; [eapply (step_analyse 400 disk64 (lit "K") [] [Unread pB] pA (lit text64)); vm_compute; reflexivity|].
    econstructor 2; [apply (step_load 400 disk64 (lit "K") [] [] pB (lit "<?php new K();")); reflexivity|].
    econstructor 2; [eapply (step_analyse 400 disk64 (lit "K") [] [] pB (lit "<?php new K();")); vm_compute; reflexivity|].
    vm_compute. constructor 1. }
  split; [exact r|]. split; [vm_compute; reflexivity|]. split; [exact c|]. split; [vm_compute; reflexivity|]. split; [discriminate|].
  split; [exact e|]. split; [exact k|]. split; [|vm_compute; reflexivity].
  eapply running_runs; [exact k|reflexivity|reflexivity|].
  eapply running_step; [|eapply serve_event; [|exact e]; reflexivity].
  eapply running_step; [|apply (serve_spawn plain_hashing 400 disk64 (fun m => m) target64 (lit "K") None start64 [] [])].
  eapply running_step; [apply C64_covers; exact r|]. apply (serve_references plain_hashing 400 disk64 (fun m => m) pA (mkPos 0 12) target64 (lit "K") start64 start64 [] c).
Qed.

(** Between the two locks of a rename the symbol can vanish: the request then
    crashes. *)
Theorem C64_rename_refuted : exists s nuc new fs, running (s, Chosen nuc new :: fs) /\ e_data nuc s = Panic.
Proof.
  exists changed64, target64, (lit "L"), []. split; [|vm_compute; reflexivity].
  assert (r : reachable start64) by apply state_after_reachable.
  assert (e : serve 400 disk64 (fun m => m) (EvChange pA [lit text64]) start64 = Done tt changed64) by (vm_compute; reflexivity).
  eapply running_step; [|eapply serve_event; [|exact e]; reflexivity].
  eapply running_step; [apply C64_covers; exact r|].
  eapply (serve_rename plain_hashing 400 disk64 (fun m => m) pA (mkPos 0 12)); vm_compute; reflexivity.
Qed.
End Cases.

Print Assumptions C64_alone.
Print Assumptions C64_sequential.
Print Assumptions C64_forest.
Print Assumptions C64_index_partial.
Print Assumptions C64_answers.
Print Assumptions C64_places.
Print Assumptions C64_answered.
Print Assumptions C64_references.
Print Assumptions C64_covers.
Print Assumptions C64_refuted.
Print Assumptions C64_rename_refuted.
Print Assumptions C64_no_deadlock.
Print Assumptions C64_threads.
Print Assumptions C64_exclusive.
Print Assumptions C64_tame_covers.
