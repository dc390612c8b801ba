(** Property C37: start-up. *)

From Coq Require Import Permutation.
From Verif Require Import Base Token Scanner Node DocBlock Parser Assoc AssocFacts Arena ArenaFacts
  Symbol EnvMonad EnvFacts Workspace WorkspaceFacts WorkspaceSim Resolver SpecNames ResolverFacts
  Backend BackendFacts SpecServer ServerInv IndexFacts Startup Prop_Server Prop_Watched.

Local Notation findS := (find str_eqb).
Local Existing Instance ascii_runtime | 9.
Local Existing Instance plain_hashing | 9.
Local Open Scope string_scope.
Local Open Scope N_scope.
Local Open Scope list_scope.

(** * Specification *)

Section Spec.
Context {RT : Runtime} {HH : Hashing}.
Variables (fuel : nat) (disk : str -> option str) (free_worker : bool).

(** Whatever happens next, the start-up comes to its end: there always is a next
    step until [init_workspace] has returned, and there are only finitely
    many. *)
Inductive always_ends : sys -> Prop :=
| ends_now : forall x, main x = Finished -> always_ends x
| ends_later : forall x, (exists y, step fuel disk free_worker x y) ->
    (forall y, step fuel disk free_worker x y -> always_ends y) -> always_ends x.

(** Indexing the file, if it were the only one, does not crash and ends. *)
Definition fine_alone (path : str) : Prop :=
  exists s, index_path fuel disk path backend_new = Done tt s.

(** The file gives something to insert. *)
Definition sends (path : str) : bool :=
  match work fuel disk path with Some (Some _) => true | _ => false end.
End Spec.

(** * The index that is built at the end *)

Section Rebuild.
Context {RT : Runtime} {HH : Hashing}.

Definition top_symbols (s : bst) (files : list (str * N)) : list N :=
  flat_map (fun pf => match kids (b_arena s) (snd pf) with Some ks => ks | None => [] end) files.

Lemma rebuild_is : forall D s, binv D s ->
  rebuild_global s = Done tt (with_global (fold_left (register_one (b_arena s)) (top_symbols s (h_order (b_files s))) []) s).
Proof.
  intros D s I. unfold rebuild_global, ebind at 1. unfold eget at 1. unfold ebind at 1. unfold set_global, emod.
  change (mkBst (b_arena s) (b_files s) [] (b_diags s) (b_refs s) (b_open s) (b_latest s)) with (with_global [] s).
  assert (hf : forall p f, In (p, f) (h_order (b_files s)) -> findS p (b_files s) = Some f).
  { intros p f hi. apply (Permutation_in _ (h_perm _ _)) in hi.
    apply in_find; auto; [apply str_eqb_spec|apply (bi_nodup _ _ I)]. }
  assert (W : forall l g, (forall p f, In (p, f) l -> findS p (b_files s) = Some f) ->
    eiter (fun f : str * N => ebind (e_kids (snd f)) (fun cs => eiter register cs)) l (with_global g s)
    = Done tt (with_global (fold_left (register_one (b_arena s)) (top_symbols s l) g) s)).
  2:{ apply W. exact hf. }
  clear hf. intros l. induction l as [|[p f] l IH]; intros g hf; cbn [eiter].
  - reflexivity.
  - unfold ebind at 1. cbn [snd]. unfold ebind at 1.
    destruct (bi_files _ _ I p f (hf _ _ (or_introl eq_refl))) as [(nf & enf & _) _].
    rewrite (e_kids_done f (with_global g s) nf enf). rewrite register_all.
    2:{ cbn. intros c hc. destruct (wf_down _ (bi_wf _ _ I) _ _ _ enf hc) as (m & em & _). exists m. auto. }
    unfold top_symbols at 1. cbn [flat_map snd]. unfold kids at 1. rewrite enf. cbn [opt_map].
    rewrite fold_left_app. cbn [with_global b_arena b_global].
    change (with_global (fold_left (register_one (b_arena s)) (n_kids nf) g) (with_global g s))
      with (with_global (fold_left (register_one (b_arena s)) (n_kids nf) g) s).
    apply IH. intros q h hi. apply hf. right. exact hi.
Qed.

(** [i] is at the top level of an indexed file, is of a kind that goes into the
    index and has the key [k]. *)
Definition indexable (s : bst) (k : str) (i : N) : Prop := entry (b_arena s) (b_files s) k i.

Lemma top_symbols_in : forall D s i, binv D s -> In i (top_symbols s (h_order (b_files s))) <->
  exists p f m, findS p (b_files s) = Some f /\ node_of (b_arena s) i = Some m /\ n_parent m = Some f.
Proof.
  intros D s i I. unfold top_symbols. rewrite in_flat_map. split.
  - intros ([p f] & hi & hk). cbn [snd] in hk.
    apply (Permutation_in _ (h_perm _ _)) in hi. apply (in_find _ str_eqb_spec _ _ _ (bi_nodup _ _ I)) in hi.
    unfold kids in hk. destruct (node_of (b_arena s) f) as [nf|] eqn:ef; [|destruct hk]. cbn in hk.
    destruct (wf_down _ (bi_wf _ _ I) _ _ _ ef hk) as (m & em & ep). exists p, f, m. auto.
  - intros (p & f & m & hf & em & ep). exists (p, f). split.
    + apply (Permutation_in _ (Permutation_sym (h_perm _ _))). apply (find_in _ str_eqb_spec). exact hf.
    + cbn [snd]. destruct (wf_up _ (bi_wf _ _ I) _ _ _ em ep) as (nf & ef & hk). unfold kids. rewrite ef. exact hk.
Qed.

Lemma rebuilt_index : forall D s s', binv D s -> rebuild_global s = Done tt s' ->
  (forall k i j, indexable s k i -> indexable s k j -> i = j) ->
  b_arena s' = b_arena s /\ b_files s' = b_files s /\
  forall k i, findS k (b_global s') = Some i <-> indexable s k i.
Proof.
  intros D s s' I e hu. rewrite (rebuild_is D s I) in e. injection e as <-. split; [reflexivity|]. split; [reflexivity|].
  cbn [with_global b_global].
  assert (G : forall i, In i (top_symbols s (h_order (b_files s))) -> is_global (b_arena s) i = true -> indexable s (key_of (b_arena s) i) i).
  { intros i hi hg. apply (top_symbols_in D) in hi; [|exact I]. destruct hi as (p & f & m & h1 & h2 & h3).
    exists m, p, f. unfold is_global, key_of, data in *. rewrite h2 in *. cbn in *. auto. }
  intros k i. split.
  - intros h. apply find_registered in h as [h|(h1 & h2 & h3)]; [discriminate h|]. rewrite <- h3. apply G; auto.
  - intros h. pose proof h as (m & p & f & e1 & e2 & e3 & e4 & e5).
    assert (hi : In i (top_symbols s (h_order (b_files s)))).
    { apply (top_symbols_in D); [exact I|]. exists p, f, m. auto. }
    assert (hg : is_global (b_arena s) i = true) by (unfold is_global, data; rewrite e1; exact e3).
    assert (hk : key_of (b_arena s) i = k) by (unfold key_of, data; rewrite e1; exact e2).
    destruct (find_registered_in (b_arena s) _ [] i hi hg) as (n & q1 & q2 & q3 & q4). rewrite hk in q1, q4.
    rewrite q1. f_equal. apply (hu k); [|exact h]. rewrite <- q4. apply G; auto.
Qed.
End Rebuild.

(** * One file *)

Section One.
Context {RT : Runtime} {HH : Hashing}.
Variables (fuel : nat) (disk : str -> option str).

Let T : str -> Prop := fun _ => True.

Lemma all_declare : forall nodes, Forall (declares_in T) nodes.
Proof. intros nodes. apply Forall_forall. intros n _ m _. apply Forall_forall. constructor. Qed.

Lemma work_path : forall p r, work fuel disk p = Some (Some r) -> fst r = p.
Proof.
  intros p r. unfold work. destruct (disk p); [|discriminate].
  destruct (source_to_ast _ _ _) as [[x|x] ?| |]; try discriminate. intros e. injection e as <-. reflexivity.
Qed.

Lemma work_insert : forall p r s, work fuel disk p = Some (Some r) -> index_path fuel disk p s = insert fuel r s.
Proof.
  intros p r s. unfold work, index_path. destruct (disk p) as [text|]; [|discriminate].
  destruct (source_to_ast fuel text backend_new) as [[x|x] t| |] eqn:e; try discriminate. intros q. injection q as <-.
  pose proof (source_spec _ _ _ _ _ e) as [-> _]. unfold ebind at 1. rewrite (source_anywhere _ _ _ s _ e).
  destruct x as [[nodes range] errors]. reflexivity.
Qed.

Lemma work_nothing : forall p s, work fuel disk p = Some None -> index_path fuel disk p s = Done tt s.
Proof.
  intros p s. unfold work, index_path. destruct (disk p) as [text|]; [|reflexivity].
  destruct (source_to_ast fuel text backend_new) as [[x|x] t| |] eqn:e; try discriminate. intros _.
  pose proof (source_spec _ _ _ _ _ e) as [-> _]. unfold ebind at 1. rewrite (source_anywhere _ _ _ s _ e). reflexivity.
Qed.

Lemma fine_work : forall p, fine_alone fuel disk p -> exists w, work fuel disk p = Some w.
Proof.
  intros p (s & e). unfold work. unfold index_path in e. destruct (disk p) as [text|]; [|eauto].
  take e as es. rewrite es. destruct x; eauto.
Qed.

Lemma with_diags_inv : forall D s d, binv D s ->
  binv D (mkBst (b_arena s) (b_files s) (b_global s) d (b_refs s) (b_open s) (b_latest s)).
Proof. intros D s d []. constructor; assumption. Qed.

Lemma insert_split : forall r s s', insert fuel r s = Done tt s' ->
  exists nodes range t d, collect_symbols fuel (fst r) nodes range s = Done tt t /\
    s' = mkBst (b_arena t) (b_files t) (b_global t) d (b_refs t) (b_open t) (b_latest t).
Proof.
  intros [p [[nodes range] errors]] s s' e. unfold insert, index_result in e. cbn [fst].
  take e as ec. destruct x. take e as e0. apply eopt_done in e0 as [_ ->].
  take e as e0. injection e0 as <- <-. injection e as <-. exists nodes, range, t. eexists. split; [exact ec|reflexivity].
Qed.

Lemma insert_inv : forall r s s', binv T s -> insert fuel r s = Done tt s' -> binv T s' /\ b_open s' = b_open s.
Proof.
  intros r s s' I e. destruct (insert_split _ _ _ e) as (nodes & range & t & d & ec & ->).
  destruct (collect_inv T _ _ _ _ _ _ _ I Logic.I (all_declare nodes) ec) as (It & h & _).
  split; [apply with_diags_inv; exact It|exact h].
Qed.

Lemma insert_files : forall r s s', binv T s -> insert fuel r s = Done tt s' ->
  exists f, b_files s' = put str_eqb (fst r) f (b_files s).
Proof.
  intros r s s' I e. destruct (insert_split _ _ _ e) as (nodes & range & t & d & ec & ->).
  destruct (collect_new _ _ _ _ _ _ _ (bi_wf _ _ I) (fun f h => root_below I h) ec) as (w & _ & _ & _ & _ & ef & _).
  eexists. exact ef.
Qed.

(** What ends alone ends everywhere. *)
Lemma insert_total : forall p r s, work fuel disk p = Some (Some r) -> fine_alone fuel disk p -> binv T s ->
  exists s', insert fuel r s = Done tt s'.
Proof.
  intros p r s hw (s1 & e) I. rewrite (work_insert _ _ _ hw) in e. destruct r as [q [[nodes range] errors]].
  unfold insert, index_result in *.
  take e as ec. destruct x. take e as e0. apply eopt_done in e0 as [ed ->]. clear e.
  pose proof (collect_spec T fuel q nodes range backend_new wf_empty) as c0.
  cbn [b_files b_arena backend_new] in c0. specialize (c0 ltac:(discriminate) (all_declare nodes)). cbv zeta in c0.
  pose proof (visited_sim fuel q nodes range (b_arena s) (bi_wf _ _ I)) as sv.
  pose proof (collect_spec T fuel q nodes range s (bi_wf _ _ I) (fun f h => proj1 (bi_files _ _ I _ _ h)) (all_declare nodes)) as c1.
  cbv zeta in c1. destruct (visited fuel q nodes range empty_arena) as [u w| |]; [|congruence|congruence].
  destruct (visited fuel q nodes range (b_arena s)) as [u' w'| |]; cbn in sv; try contradiction.
  destruct c1 as (a' & g & refs & nf & e1 & _). unfold ebind at 1. rewrite e1. unfold ebind at 1. rewrite ed.
  eexists. reflexivity.
Qed.

Lemma index_inv : forall p s s', binv T s -> fine_alone fuel disk p -> index_path fuel disk p s = Done tt s' -> binv T s'.
Proof.
  intros p s s' I hf e. destruct (fine_work _ hf) as ([r|] & hw).
  - rewrite (work_insert _ _ _ hw) in e. apply (insert_inv _ _ _ I e).
  - rewrite (work_nothing _ _ hw) in e. injection e as <-. exact I.
Qed.
End One.

(** * The runs *)

Section Runs.
Context {RT : Runtime} {HH : Hashing}.
Variables (fuel : nat) (disk : str -> option str) (free_worker : bool).

Let T : str -> Prop := fun _ => True.
Local Notation Step := (step fuel disk free_worker).
Local Notation Steps := (steps fuel disk free_worker).

Definition sending (w : walker) : list str := match w with Sending r => [fst r] | _ => [] end.

Lemma eiter_snoc : forall (f : str -> B unit) l p s t u, eiter f l s = Done tt t -> f p t = Done tt u ->
  eiter f (l ++ [p]) s = Done tt u.
Proof.
  intros f l p s t u. revert s. induction l as [|q l IH]; intros s e1 e2; cbn [app eiter] in *.
  - injection e1 as <-. unfold ebind at 1. rewrite e2. reflexivity.
  - take e1 as e0. unfold ebind at 1. rewrite e0. apply IH; auto.
Qed.

(** [order]: the paths that have been dealt with, in that order *)
Record inv (paths : list str) (x : sys) (order : list str) : Prop := {
  iv_perm : Permutation paths (todo x ++ flat_map sending (walkers x) ++ map fst (chan x) ++ order);
  iv_run : match main x with
           | Finished => init_workspace fuel disk order backend_new = Done tt (state x)
           | _ => eiter (index_path fuel disk) order backend_new = Done tt (state x)
           end;
  iv_hold : forall r, In (Sending r) (walkers x) \/ In r (chan x) -> work fuel disk (fst r) = Some (Some r);
  iv_binv : main x <> Finished -> binv T (state x);
  iv_gone : In Gone (walkers x) -> todo x = [];
  iv_join : main x <> Walking -> Forall (fun w => w = Gone) (walkers x);
  iv_ended : task x = Ended -> chan x = [] /\ main x <> Walking;
  iv_finished : main x = Finished -> task x = Ended;
  iv_six : List.length (walkers x) = 6%nat
}.

Lemma inv_start : forall paths, inv paths (start paths backend_new) [].
Proof.
  intros paths. constructor; cbn.
  - rewrite app_nil_r. apply Permutation_refl.
  - reflexivity.
  - intros r [h|[]]. repeat (destruct h as [h|h]; [discriminate h|]). destruct h.
  - intros _. apply binv_new.
  - intros h. repeat (destruct h as [h|h]; [discriminate h|]). destruct h.
  - congruence.
  - discriminate.
  - discriminate.
  - reflexivity.
Qed.

Lemma six_swap : forall (a : list walker) v w b n, List.length (a ++ v :: b) = n -> List.length (a ++ w :: b) = n.
Proof. intros a v w b n. rewrite !app_length. cbn. auto. Qed.

Lemma in_swap : forall (a : list walker) v w b u, In u (a ++ w :: b) -> u = w \/ In u (a ++ v :: b).
Proof. intros a v w b u h. rewrite in_app_iff in *. cbn in *. intuition congruence. Qed.

Lemma all_gone_not : forall a v b, v <> Gone -> ~ Forall (fun w => w = Gone) (a ++ v :: b).
Proof. intros a v b n h. rewrite Forall_app in h. destruct h as [_ h]. inversion h. contradiction. Qed.

Lemma busy_walking : forall m a v b, (m <> Walking -> Forall (fun w => w = Gone) (a ++ v :: b)) -> v <> Gone -> m = Walking.
Proof. intros m a v b h n. destruct m; auto; exfalso; apply (all_gone_not a v b n); apply h; discriminate. Qed.

Definition same_path : forall p q : str, {p = q} + {p <> q} := list_eq_dec N.eq_dec.

Ltac shuffle h :=
  clear - h; rewrite (Permutation_count_occ same_path) in *;
  let z := fresh "z" in intros z; specialize (h z);
  repeat (rewrite ?flat_map_app, ?map_app, ?count_occ_app in h; rewrite ?flat_map_app, ?map_app, ?count_occ_app;
          progress cbn [flat_map map sending count_occ app] in h |- *);
  rewrite ?flat_map_app, ?map_app, ?count_occ_app in *;
  repeat match goal with |- context[same_path ?p ?q] => destruct (same_path p q) | h : context[same_path ?p ?q] |- _ => destruct (same_path p q) end;
  unfold parsed in *; lia.

Lemma inv_step : forall paths x y order, Forall (fine_alone fuel disk) paths -> inv paths x order -> Step x y ->
  exists order', inv paths y order'.
Proof.
  intros paths x y order fine [i1 i2 i3 i4 i5 i6 i7 i8 i9] st.
  assert (fin : forall p, In p (todo x ++ flat_map sending (walkers x) ++ map fst (chan x) ++ order) -> fine_alone fuel disk p).
  { intros p hp. rewrite Forall_forall in fine. apply fine. apply (Permutation_in _ (Permutation_sym i1)). exact hp. }
  destruct st as [l1 p l2 a b ch t m s hw|l1 p l2 a b ch t m s r hw|l a b r ch t m s hc|a b ch t m s|l ws ch t s hg
    |l ws ch m s hf|l ws r ch m s s' hi|l ws s|l ws ch s s' hr]; cbn [todo walkers chan task main state] in *.
  - apply busy_walking in i6 as ->; [|discriminate].
    exists (order ++ [p]). constructor; cbn [todo walkers chan task main state]; auto.
    + shuffle i1.
    + eapply eiter_snoc; [exact i2|]. apply work_nothing. exact hw.
    + intros h. apply i5 in h. destruct l1; discriminate.
    + congruence.
  - apply busy_walking in i6 as ->; [|discriminate].
    exists order. constructor; cbn [todo walkers chan task main state]; auto.
    + pose proof (work_path _ _ _ _ hw) as hp. subst p. shuffle i1.
    + intros r' [h|h]; [|apply i3; auto]. apply (in_swap _ Idle) in h as [h|h]; [|apply i3; auto].
      injection h as ->. rewrite (work_path _ _ _ _ hw). exact hw.
    + intros h. apply (in_swap _ Idle) in h as [h|h]; [discriminate|]. apply i5 in h. destruct l1; discriminate.
    + congruence.
    + eapply six_swap; eauto.
  - apply busy_walking in i6 as ->; [|discriminate].
    exists order. constructor; cbn [todo walkers chan task main state]; auto.
    + shuffle i1.
    + intros r' [h|h].
      * apply (in_swap _ (Sending r)) in h as [h|h]; [discriminate|]. apply i3; auto.
      * apply in_app_or in h as [h|[<-|[]]]; apply i3; auto. left. apply in_or_app. right. left. reflexivity.
    + intros h. apply (in_swap _ (Sending r)) in h as [h|h]; [discriminate|]. auto.
    + congruence.
    + intros h. destruct (i7 h) as [_ h']. congruence.
    + eapply six_swap; eauto.
  - apply busy_walking in i6 as ->; [|discriminate].
    exists order. constructor; cbn [todo walkers chan task main state]; auto.
    + shuffle i1.
    + intros r' [h|h]; apply i3; auto. apply (in_swap _ Idle) in h as [h|h]; [discriminate|]. auto.
    + congruence.
    + eapply six_swap; eauto.
  - exists order. constructor; cbn [todo walkers chan task main state]; auto; try discriminate.
    + intros _. apply i4. discriminate.
    + intros h. split; [apply i7; exact h|discriminate].
  - exists order. constructor; cbn [todo walkers chan task main state]; auto; try discriminate.
    intros h. apply i8 in h. discriminate.
  - assert (nf : m <> Finished) by (intros h; apply i8 in h; discriminate h).
    assert (hw : work fuel disk (fst r) = Some (Some r)) by (apply i3; right; left; reflexivity).
    assert (hb : binv T s') by (eapply insert_inv; [apply i4; exact nf|exact hi]).
    exists (order ++ [fst r]). constructor; cbn [todo walkers chan task main state]; auto; try discriminate.
    + shuffle i1.
    + assert (e : eiter (index_path fuel disk) (order ++ [fst r]) backend_new = Done tt s').
      { eapply eiter_snoc; [destruct m; [exact i2|exact i2|contradiction]|]. rewrite (work_insert _ _ _ _ _ hw). exact hi. }
      destruct m; [exact e|exact e|contradiction].
    + intros r' [h|h]; apply i3; auto. right. right. exact h.
  - exists order. constructor; cbn [todo walkers chan task main state]; auto; try discriminate.
    intros _. split; [reflexivity|discriminate].
  - exists order. constructor; cbn [todo walkers chan task main state]; auto; try discriminate.
    + unfold init_workspace. unfold ebind at 1. rewrite i2. exact hr.
    + congruence.
    + intros _. apply i6. discriminate.
    + intros _. split; [apply i7; reflexivity|discriminate].
Qed.

Lemma inv_steps : forall paths x y order, Forall (fine_alone fuel disk) paths -> inv paths x order -> Steps x y ->
  exists order', inv paths y order'.
Proof.
  intros paths x y order fine h st. revert order h. induction st as [x|x y z s1 s2 IH]; intros order h; [eauto|].
  destruct (inv_step _ _ _ _ fine h s1) as (o & h1). eauto.
Qed.

(** ** There always is a next step *)

Lemma walker_cases : forall ws : list walker, Forall (fun w => w = Gone) ws \/
  (exists a b, ws = a ++ Idle :: b) \/ (exists a r b, ws = a ++ Sending r :: b).
Proof.
  induction ws as [|w ws IH]; [left; constructor|]. destruct w as [|r|].
  - right. left. exists [], ws. reflexivity.
  - right. right. exists [], r, ws. reflexivity.
  - destruct IH as [h|[(a & b & ->)|(a & r & b & ->)]].
    + left. constructor; auto.
    + right. left. exists (Gone :: a), b. reflexivity.
    + right. right. exists (Gone :: a), r, b. reflexivity.
Qed.

Lemma sent_few : forall paths x order, inv paths x order ->
  (List.length (flat_map sending (walkers x)) + List.length (chan x) <= List.length (filter (sends fuel disk) paths))%nat.
Proof.
  intros paths x order [i1 _ i3 _ _ _ _ _ _].
  assert (P : forall l l' : list str, Permutation l l' -> Permutation (filter (sends fuel disk) l) (filter (sends fuel disk) l')).
  { induction 1; cbn; auto.
    - destruct (sends fuel disk x0); auto.
    - destruct (sends fuel disk x0), (sends fuel disk y); auto. apply perm_swap.
    - eapply Permutation_trans; eauto. }
  rewrite (Permutation_length (P _ _ i1)), !filter_app, !app_length.
  assert (h1 : filter (sends fuel disk) (flat_map sending (walkers x)) = flat_map sending (walkers x)).
  { assert (k : forall p, In p (flat_map sending (walkers x)) -> sends fuel disk p = true).
    { intros p hp. apply in_flat_map in hp as (w & hw & hp). destruct w as [|r|]; try (destruct hp; fail).
      destruct hp as [<-|[]]. unfold sends. rewrite (i3 r); auto. }
    revert k. generalize (flat_map sending (walkers x)). induction l as [|p l IH]; intros k; cbn; auto.
    rewrite (k p) by (left; reflexivity). f_equal. apply IH. intros; apply k; right; auto. }
  assert (h2 : filter (sends fuel disk) (map fst (chan x)) = map fst (chan x)).
  { assert (k : forall p, In p (map fst (chan x)) -> sends fuel disk p = true).
    { intros p hp. apply in_map_iff in hp as (r & <- & hr). unfold sends. rewrite (i3 r); auto. }
    revert k. generalize (map fst (chan x)). induction l as [|p l IH]; intros k; cbn; auto.
    rewrite (k p) by (left; reflexivity). f_equal. apply IH. intros; apply k; right; auto. }
  rewrite h1, h2, map_length. unfold parsed in *. lia.
Qed.

Lemma progress : forall paths x order, Forall (fine_alone fuel disk) paths -> inv paths x order ->
  free_worker = true \/ N.of_nat (List.length (filter (sends fuel disk) paths)) <= capacity ->
  main x <> Finished -> exists y, Step x y.
Proof.
  intros paths x order fine I hw nf. pose proof (sent_few _ _ _ I) as few. destruct I as [i1 i2 i3 i4 i5 i6 i7 i8 i9].
  assert (fin : forall p, In p (todo x ++ flat_map sending (walkers x) ++ map fst (chan x) ++ order) -> fine_alone fuel disk p).
  { intros p hp. rewrite Forall_forall in fine. apply fine. apply (Permutation_in _ (Permutation_sym i1)). exact hp. }
  specialize (i4 nf). destruct x as [td ws ch tk mn s]. cbn [todo walkers chan task main state] in *.
  assert (recv : tk = Receiving -> ch <> [] -> exists y, Step (mkSys td ws ch tk mn s) y).
  { intros -> hc. destruct ch as [|r ch]; [contradiction|].
    assert (hr : work fuel disk (fst r) = Some (Some r)) by (apply i3; right; left; reflexivity).
    destruct (insert_total fuel disk (fst r) r s hr) as (s' & e); [|exact i4|].
    - apply fin. rewrite !in_app_iff. right. right. left. left. reflexivity.
    - eexists. apply st_receive. exact e. }
  destruct mn; [|destruct tk|contradiction].
  - destruct (walker_cases ws) as [h|[(a & b & ->)|(a & r & b & ->)]].
    + eexists. apply st_join. exact h.
    + destruct td as [|p td]; [eexists; apply st_leave|].
      destruct (fine_work fuel disk p) as ([r|] & e); [apply fin; left; reflexivity| |].
      * eexists. apply (st_read fuel disk free_worker [] p td). exact e.
      * eexists. apply (st_skip fuel disk free_worker [] p td). exact e.
    + destruct (N.ltb_spec (N.of_nat (List.length ch)) capacity) as [h|h].
      * eexists. apply st_send. exact h.
      * destruct tk.
        { destruct hw as [hw|hw]; [eexists; apply st_start; auto|]. exfalso.
          rewrite flat_map_app, app_length in few. cbn in few. unfold parsed in *. lia. }
        { apply recv; auto. intros ->. cbn in h. unfold capacity in h. lia. }
        { destruct (i7 eq_refl) as [_ n]. contradiction. }
  - eexists. apply st_start. auto.
  - destruct ch as [|r ch]; [eexists; apply st_end|]. apply recv; auto. discriminate.
  - pose proof (rebuild_is _ _ i4) as e. eexists. apply st_finish. exact e.
Qed.

(** ** There are finitely many *)

Definition left_walker (w : walker) : nat := match w with Idle => 1 | Sending _ => 3 | Gone => 0 end.
Definition left_over (x : sys) : nat :=
  3 * List.length (todo x) + list_sum (map left_walker (walkers x)) + List.length (chan x) +
  (match task x with Submitted => 2 | Receiving => 1 | Ended => 0 end) +
  (match main x with Walking => 2 | Joining => 1 | Finished => 0 end).

Lemma step_less : forall x y, Step x y -> (left_over y < left_over x)%nat.
Proof.
  intros x y st. destruct st; unfold left_over; cbn [todo walkers chan task main state];
    rewrite ?map_app, ?list_sum_app, ?app_length; cbn [map left_walker list_sum fold_right List.length]; lia.
Qed.

Lemma ends : forall paths x order, Forall (fine_alone fuel disk) paths -> inv paths x order ->
  free_worker = true \/ N.of_nat (List.length (filter (sends fuel disk) paths)) <= capacity ->
  always_ends fuel disk free_worker x.
Proof.
  intros paths x order fine I hw. remember (left_over x) as n eqn:en. revert x order I en.
  induction n as [n IH] using lt_wf_ind. intros x order I en.
  assert (d : main x = Finished \/ main x <> Finished) by (destruct (main x); auto; right; discriminate).
  destruct d as [d|d]; [apply ends_now; exact d|]. apply ends_later.
  - eapply progress; eauto.
  - intros y st. destruct (inv_step _ _ _ _ fine I st) as (o & Iy).
    apply (IH (left_over y)) with (order := o); auto. subst n. apply step_less. exact st.
Qed.

(** ** Every order is possible *)

Lemma steps_trans : forall x y z, Steps x y -> Steps y z -> Steps x z.
Proof. induction 1; intros h; auto. econstructor; eauto. Qed.

Lemma one_by_one : forall order l s t, Permutation l order -> eiter (index_path fuel disk) order s = Done tt t ->
  Steps (mkSys l (repeat Idle 6) [] Receiving Walking s) (mkSys [] (repeat Idle 6) [] Receiving Walking t).
Proof.
  induction order as [|p order IH]; intros l s t hp e; cbn [eiter] in e.
  - injection e as <-. apply Permutation_sym, Permutation_nil in hp. subst l. constructor.
  - take e as e0. destruct x.
    assert (hi : In p l) by (apply (Permutation_in _ (Permutation_sym hp)); left; reflexivity).
    apply in_split in hi as (l1 & l2 & ->).
    apply Permutation_sym, Permutation_cons_app_inv, Permutation_sym in hp.
    assert (hw : exists w, work fuel disk p = Some w).
    { unfold work. unfold index_path in e0. destruct (disk p) as [text|]; [|eauto].
      take e0 as es. pose proof (source_spec _ _ _ _ _ es) as [-> _].
      rewrite (source_anywhere _ _ _ backend_new _ es). destruct x; eauto. }
    destruct hw as ([r|] & hw).
    + rewrite (work_insert _ _ _ _ _ hw) in e0.
      eapply steps_more; [apply (st_read _ _ _ l1 p l2 [] (repeat Idle 5)); exact hw|].
      eapply steps_more; [apply (st_send _ _ _ _ [] (repeat Idle 5)); reflexivity|].
      eapply steps_more; [apply st_receive; exact e0|]. apply IH; auto.
    + rewrite (work_nothing _ _ _ _ hw) in e0. injection e0 as <-.
      eapply steps_more; [apply (st_skip _ _ _ l1 p l2 [] (repeat Idle 5)); exact hw|]. apply IH; auto.
Qed.

Lemma leave_all : forall n m ch t mn s,
  Steps (mkSys [] (repeat Gone m ++ repeat Idle n) ch t mn s) (mkSys [] (repeat Gone (m + n)) ch t mn s).
Proof.
  induction n as [|n IH]; intros m ch t mn s; cbn [repeat].
  - rewrite app_nil_r, Nat.add_0_r. constructor.
  - eapply steps_more; [apply st_leave|]. replace (m + S n)%nat with (S m + n)%nat by lia.
    replace (repeat Gone m ++ Gone :: repeat Idle n) with (repeat Gone (S m) ++ repeat Idle n); [apply IH|].
    cbn [repeat]. rewrite repeat_cons, <- app_assoc. reflexivity.
Qed.

Lemma reached : forall order l s, free_worker = true -> Permutation l order ->
  init_workspace fuel disk order backend_new = Done tt s ->
  exists x, Steps (start l backend_new) x /\ main x = Finished /\ state x = s.
Proof.
  intros order l s hf hp e. unfold init_workspace in e. take e as e0. destruct x.
  eexists. split.
  - eapply steps_more; [apply st_start; auto|].
    eapply steps_trans; [apply (one_by_one order); [exact hp|exact e0]|].
    eapply steps_trans; [apply (leave_all 6 0)|].
    eapply steps_more; [apply st_join; repeat constructor|].
    eapply steps_more; [apply st_end|].
    eapply steps_more; [apply st_finish; exact e|]. constructor.
  - split; reflexivity.
Qed.
End Runs.

(** * C37: start-up ends *)

Section C37.
Context {RT : Runtime} {HH : Hashing}.

(** Whatever the walkers, the channel and the runtime do, and in whichever
    order they do it, start-up ends, if each of the files can be indexed alone.
    Either the runtime has a worker for the consumer or the channel is large
    enough for all results. *)
Theorem C37_finishes_partial : forall fuel disk free_worker paths,
  Forall (fine_alone fuel disk) paths ->
  free_worker = true \/ N.of_nat (List.length (filter (sends fuel disk) paths)) <= 1000 ->
  always_ends fuel disk free_worker (start paths backend_new).
Proof. intros fuel disk fw paths fine h. eapply ends; [exact fine|apply inv_start|exact h]. Qed.

(** The states in which it can end: those in which the files have been indexed
    one by one, in some order. *)
Theorem C37_runs : forall fuel disk paths s, Forall (fine_alone fuel disk) paths ->
  (exists x, steps fuel disk true (start paths backend_new) x /\ main x = Finished /\ state x = s) <->
  (exists order, Permutation paths order /\ init_workspace fuel disk order backend_new = Done tt s).
Proof.
  intros fuel disk paths s fine. split.
  - intros (x & st & hm & <-). destruct (inv_steps _ _ _ _ _ _ _ fine (inv_start _ _ paths) st) as (o & I).
    exists o. pose proof (iv_run _ _ _ _ _ I) as hr. rewrite hm in hr. split; [|exact hr].
    pose proof (iv_perm _ _ _ _ _ I) as hp. destruct (iv_ended _ _ _ _ _ I (iv_finished _ _ _ _ _ I hm)) as [hc nw].
    pose proof (iv_join _ _ _ _ _ I nw) as hg. rewrite hc in hp. pose proof (iv_six _ _ _ _ _ I) as h6.
    assert (hs : flat_map sending (walkers x) = []).
    { clear - hg. induction hg as [|w ws -> _ IH]; auto. }
    assert (ht : todo x = []).
    { apply (iv_gone _ _ _ _ _ I). destruct (walkers x) as [|w ws]; [discriminate|]. inversion hg; subst. left. reflexivity. }
    rewrite hs, ht in hp. exact hp.
  - intros (order & hp & e). apply (reached fuel disk true order paths s eq_refl hp e).
Qed.

(** If no worker is free and more results are waiting than the channel holds,
    nothing is ever inserted and [init_workspace] never returns. *)
Theorem C37_blocked_refuted : forall fuel disk paths x,
  1000 < N.of_nat (List.length (filter (sends fuel disk) paths)) ->
  steps fuel disk false (start paths backend_new) x -> main x = Walking /\ state x = backend_new.
Proof.
  intros fuel disk paths x hn st.
  assert (K : forall y, main y = Walking /\ task y = Submitted /\ state y = backend_new /\
      N.of_nat (List.length (chan y)) <= capacity /\ (In Gone (walkers y) -> todo y = []) /\
      List.length (walkers y) = 6%nat /\
      capacity < N.of_nat (List.length (filter (sends fuel disk) (todo y)) + List.length (flat_map sending (walkers y)) +
        List.length (chan y)) -> forall z, steps fuel disk false y z -> main z = Walking /\ state z = backend_new).
  { intros y h z sz. revert h. induction sz as [z|y z v s1 s2 IH]; [tauto|].
    intros (h1 & h2 & h3 & h4 & h5 & h6 & h7). apply IH. clear IH s2.
    destruct s1 as [l1 p l2 a b ch t m s hw|l1 p l2 a b ch t m s r hw|l a b r ch t m s hc|a b ch t m s|l ws ch t s hg
      |l ws ch m s hf|l ws r ch m s s' hi|l ws s|l ws ch s s' hr]; cbn [todo walkers chan task main state] in *.
    - do 4 (split; [assumption|]). split; [|split; [assumption|]].
      + intros h. apply h5 in h. destruct l1; discriminate.
      + rewrite filter_app, app_length in *. cbn [filter] in h7. unfold sends at 2 in h7. rewrite hw in h7. exact h7.
    - do 4 (split; [assumption|]). split; [|split; [eapply six_swap; eauto|]].
      + intros h. apply (in_swap _ Idle) in h as [h|h]; [discriminate|]. apply h5 in h. destruct l1; discriminate.
      + rewrite filter_app, flat_map_app, !app_length in *. cbn [filter flat_map sending app] in *.
        unfold sends at 2 in h7. rewrite hw in h7. cbn [List.length] in *. unfold parsed in *. lia.
    - do 3 (split; [assumption|]). split; [rewrite app_length; cbn; unfold parsed in *; lia|]. split; [|split; [eapply six_swap; eauto|]].
      + intros h. apply (in_swap _ (Sending r)) in h as [h|h]; [discriminate|]. auto.
      + rewrite flat_map_app, !app_length in *. cbn [flat_map sending app List.length] in *. unfold parsed in *. lia.
    - do 4 (split; [assumption|]). split; [auto|split; [eapply six_swap; eauto|]].
      rewrite flat_map_app, !app_length in *. cbn [flat_map sending app List.length] in *. exact h7.
    - exfalso. assert (hs : flat_map sending ws = []).
      { clear - hg. induction hg as [|w ws -> _ IH]; auto. }
      assert (ht : l = []).
      { apply h5. destruct ws as [|w ws]; [discriminate|]. inversion hg; subst. left. reflexivity. }
      rewrite hs, ht in h7. cbn in h7. unfold parsed in *. lia.
    - exfalso. destruct hf as [hf|hf]; congruence.
    - discriminate.
    - discriminate.
    - discriminate. }
  apply (K (start paths backend_new)); [|exact st]. cbn. do 3 (split; [reflexivity|]). split; [unfold capacity; lia|].
  split; [|split; [reflexivity|unfold capacity; lia]].
  intros h. repeat (destruct h as [h|h]; [discriminate h|]). destruct h.
Qed.
End C37.

(** * C37: the order does not matter *)

(** With the file [path] alone, [i] is a symbol at its top level that goes into
    the index as [k]. *)
Definition declared_at_top {RT : Runtime} (fuel : nat) (disk : str -> option str) (path k : str) (s0 : bst) (i : N) : Prop :=
  did_change_watched fuel disk [path] backend_new = Done tt s0 /\
  exists m f, node_of (b_arena s0) i = Some m /\ n_parent m = Some f /\ findS path (b_files s0) = Some f /\
    register_global (y_kind (n_data m)) = true /\ index_key (n_data m) = k.

(** No two declarations have the same name. *)
Definition unique_names {RT : Runtime} (fuel : nat) (disk : str -> option str) (paths : list str) : Prop :=
  forall p q k s t i j, In p paths -> In q paths ->
  declared_at_top fuel disk p k s i -> declared_at_top fuel disk q k t j -> p = q /\ i = j.

(** The symbol [i] of [s] is the declaration of [k] in [path]. *)
Definition declared_in {RT : Runtime} (fuel : nat) (disk : str -> option str) (path k : str) (s : bst) (i : N) : Prop :=
  exists s0 i0, declared_at_top fuel disk path k s0 i0 /\ same_symbols (b_arena s0) i0 (b_arena s) i.

Section Order.
Context {RT : Runtime}.
Variables (fuel : nat) (disk : str -> option str).

Let T : str -> Prop := fun _ => True.

Lemma below_same : forall a f b g i, wf a -> wf b -> forall r : N -> N, (forall i j, r i = r j -> i = j) ->
  (forall i, within a i f -> within b (r i) g /\
     data b (r i) = opt_map (renumber r) (data a i) /\ kids b (r i) = opt_map (map r) (kids a i)) ->
  within a i f -> same_symbols a i b (r i).
Proof.
  intros a f b g i wa wb r r2 r3 hi.
  assert (sub : forall j, within a j i -> within a j f).
  { clear - hi. intros j h. induction h; auto. econstructor; eauto. }
  exists r. split; [reflexivity|]. split; [exact r2|]. split.
  - intros j hj. destruct (r3 j (sub j hj)) as (_ & k2 & k3). split; [|auto].
    clear k2 k3. induction hj as [j al|j p i' hp hw IH].
    + constructor. destruct (r3 j (sub j (within_self _ _ al))) as (_ & k2 & _). unfold alive in *. rewrite k2.
      destruct (data a j); [discriminate|contradiction].
    + assert (hpf : within a p f) by (apply sub; exact hw).
      specialize (IH hi sub).
      destruct (r3 p hpf) as (_ & _ & k3). unfold parent_of in hp. destruct (node_of a j) as [nj|] eqn:ej; [|discriminate].
      cbn in hp. injection hp as hp. destruct (wf_up _ wa _ _ _ ej hp) as (np & ep & hk).
      unfold kids in k3. rewrite ep in k3. cbn in k3. destruct (node_of b (r p)) as [nq|] eqn:eq; [|discriminate].
      cbn in k3. injection k3 as k3. destruct (wf_down _ wb _ _ (r j) eq) as (m & em & epm).
      { rewrite k3. apply in_map. exact hk. }
      econstructor; [|exact IH]. unfold parent_of. rewrite em. cbn. congruence.
  - intros j hj. remember (r i) as ri eqn:eri. induction hj as [j al|j p g' hp hw IH].
    + exists i. split; [|exact eri]. constructor. destruct (r3 i hi) as (_ & k2 & _). subst j. unfold alive in *.
      rewrite k2 in al. destruct (data a i); [discriminate|contradiction].
    + destruct (IH eri) as (q & hq & ->). destruct (r3 q (sub q hq)) as (_ & _ & k3).
      unfold parent_of in hp. destruct (node_of b j) as [nj|] eqn:ej; [|discriminate]. cbn in hp. injection hp as hp.
      destruct (wf_up _ wb _ _ _ ej hp) as (np & ep & hk). unfold kids in k3. rewrite ep in k3. cbn in k3.
      destruct (node_of a q) as [nq|] eqn:eq; [|discriminate]. cbn in k3. injection k3 as k3. rewrite k3 in hk.
      apply in_map_iff in hk as (c & <- & hc). destruct (wf_down _ wa _ _ _ eq hc) as (m & em & epm).
      exists c. split; [|reflexivity]. econstructor; [|exact hq]. unfold parent_of. rewrite em. cbn. congruence.
Qed.

Lemma alone_inv : forall p s0, did_change_watched fuel disk [p] backend_new = Done tt s0 -> binv T s0.
Proof.
  intros p s0 e. cbn [did_change_watched] in e. take e as e0. injection e0 as <- <-. cbn [find b_open backend_new] in e.
  take e as e0. apply eopt_done in e0 as [ed ->]. take e as es. pose proof (source_spec _ _ _ _ _ es) as [-> _].
  take e as e0. injection e as <-. destruct x1.
  assert (e1 : index_path fuel disk p backend_new = Done tt t).
  { unfold index_path. rewrite ed. unfold ebind at 1. rewrite es. exact e0. }
  eapply (index_inv fuel disk p); [apply binv_new|exists t; exact e1|exact e1].
Qed.

Lemma renumber_key : forall r d, index_key (renumber r d) = index_key d.
Proof. intros r []. reflexivity. Qed.
Lemma renumber_kind : forall r d, y_kind (renumber r d) = y_kind d.
Proof. intros r []. reflexivity. Qed.

(** The top level of a file that is up to date *)
Lemma tops : forall p s f, binv T s -> up_to_date fuel disk p s -> findS p (b_files s) = Some f ->
  exists s0 (r : N -> N), did_change_watched fuel disk [p] backend_new = Done tt s0 /\
  (forall k i m, node_of (b_arena s) i = Some m -> n_parent m = Some f ->
     register_global (y_kind (n_data m)) = true -> index_key (n_data m) = k ->
     exists i0, i = r i0 /\ declared_at_top fuel disk p k s0 i0) /\
  (forall k i0, declared_at_top fuel disk p k s0 i0 ->
     same_symbols (b_arena s0) i0 (b_arena s) (r i0) /\
     exists m, node_of (b_arena s) (r i0) = Some m /\ n_parent m = Some f /\
       register_global (y_kind (n_data m)) = true /\ index_key (n_data m) = k).
Proof.
  intros p s f I (s0 & f' & f0 & e0 & h1 & h2 & (r & r1 & r2 & r3 & r4)) hf.
  assert (ff : f' = f) by congruence. rewrite ff in r1, r3. clear h1 ff r4 f'.
  pose proof (alone_inv _ _ e0) as I0. pose proof (bi_wf _ _ I) as w. pose proof (bi_wf _ _ I0) as w0.
  exists s0, r. split; [exact e0|].
  destruct (bi_files _ _ I0 _ _ h2) as [(n0 & en0 & _) _].
  assert (al : within (b_arena s0) f0 f0).
  { constructor. unfold alive, data. rewrite en0. discriminate. }
  destruct (bi_files _ _ I _ _ hf) as [(nf & enf & _) _].
  assert (kk : n_kids nf = map r (n_kids n0)).
  { destruct (r3 f0 al) as (_ & _ & k3). rewrite r1 in k3. unfold kids in k3. rewrite enf, en0 in k3. cbn in k3. congruence. }
  assert (top0 : forall i0 m0, node_of (b_arena s0) i0 = Some m0 -> n_parent m0 = Some f0 -> within (b_arena s0) i0 f0).
  { intros i0 m0 em ep. econstructor; [|exact al]. unfold parent_of. rewrite em. cbn. congruence. }
  split.
  - intros k i m em ep hg hk. destruct (wf_up _ w _ _ _ em ep) as (nf' & enf' & hi).
    assert (nf' = nf) by congruence. subst nf'. rewrite kk in hi. apply in_map_iff in hi as (i0 & <- & hi0).
    destruct (wf_down _ w0 _ _ _ en0 hi0) as (m0 & em0 & ep0). exists i0. split; [reflexivity|].
    split; [exact e0|]. exists m0, f0. do 3 (split; [assumption|]).
    destruct (r3 i0 (top0 _ _ em0 ep0)) as (_ & k2 & _). unfold data in k2. rewrite em, em0 in k2. cbn in k2.
    injection k2 as k2. rewrite k2, renumber_kind in hg. rewrite k2, renumber_key in hk. auto.
  - intros k i0 (_ & m0 & g0 & em0 & ep0 & hg0 & hr & hk). assert (g0 = f0) by congruence. subst g0.
    pose proof (top0 _ _ em0 ep0) as hw. split; [eapply below_same; eauto|].
    destruct (wf_up _ w0 _ _ _ em0 ep0) as (n0' & en0' & hi). assert (n0' = n0) by congruence. subst n0'.
    destruct (wf_down _ w _ _ (r i0) enf) as (m & em & ep).
    { rewrite kk. apply in_map. exact hi. }
    exists m. do 2 (split; [assumption|]).
    destruct (r3 i0 hw) as (_ & k2 & _). unfold data in k2. rewrite em, em0 in k2. cbn in k2. injection k2 as k2.
    rewrite k2, renumber_kind, renumber_key. auto.
Qed.

(** After all files have been indexed *)
Lemma all_indexed : forall order s t, Forall (fine_alone fuel disk) order -> binv T s ->
  eiter (index_path fuel disk) order s = Done tt t ->
  binv T t /\
  (forall q, up_to_date fuel disk q s -> up_to_date fuel disk q t) /\
  (forall p, In p order -> sends fuel disk p = true -> up_to_date fuel disk p t) /\
  (forall p, findS p (b_files t) <> None -> (In p order /\ sends fuel disk p = true) \/ findS p (b_files s) <> None).
Proof.
  induction order as [|p order IH]; intros s t fine I e; cbn [eiter] in e.
  - injection e as <-. split; [exact I|]. split; [auto|]. split; [intros ? []|auto].
  - inversion fine as [|? ? hf fine']; subst. take e as e0. destruct x.
    destruct (fine_work _ _ _ hf) as ([r|] & hw).
    + pose proof e0 as ei. rewrite (work_insert _ _ _ _ _ hw) in ei.
      pose proof (work_path _ _ _ _ hw) as hp.
      destruct (insert_inv _ _ _ _ I ei) as [It _].
      destruct (IH t0 t fine' It e) as (k1 & k2 & k3 & k4).
      assert (here : up_to_date fuel disk p t0).
      { unfold work in hw. destruct (disk p) as [text|] eqn:ed; [|discriminate].
        destruct (source_to_ast fuel text backend_new) as [[[[nodes range] errors]|x] v| |] eqn:es; try discriminate.
        injection hw as <-. pose proof (source_spec _ _ _ _ _ es) as [-> _].
        eapply (index_up_to_date T); [exact I|exact ed|exact (source_anywhere _ _ _ s _ es)|exact ei]. }
      split; [exact k1|]. split.
      { intros q hq. apply k2. destruct (str_eqb_spec q p) as [->|ne]; [exact here|].
        destruct (insert_split _ _ _ _ ei) as (nodes & range & v & d & ec & ->).
        apply (up_to_date_core fuel disk q v); auto. rewrite hp in ec.
        eapply (up_to_date_kept T fuel disk fuel p nodes range s); [exact I|apply all_declare|exact ec|exact ne|exact hq]. }
      split; [intros q [<-|hq] hs; auto|].
      intros q hq. apply k4 in hq as [[h1 h2]|hq]; [left; split; [right|]; auto|].
      destruct (insert_files _ _ _ _ I ei) as (f & ef). rewrite ef, hp in hq.
      destruct (str_eqb_spec q p) as [->|ne].
      * left. split; [left; reflexivity|]. unfold sends. rewrite hw. reflexivity.
      * right. rewrite find_put_other in hq; auto. apply str_eqb_spec.
    + rewrite (work_nothing _ _ _ _ hw) in e0. injection e0 as <-.
      destruct (IH s t fine' I e) as (k1 & k2 & k3 & k4). split; [exact k1|]. split; [exact k2|]. split.
      * intros q [<-|hq] hs; [|auto]. unfold sends in hs. rewrite hw in hs. discriminate.
      * intros q hq. apply k4 in hq as [[h1 h2]|hq]; [left; split; [right|]; auto|auto].
Qed.

Lemma index_is : forall {HH : Hashing} order t, Forall (fine_alone fuel disk) order -> unique_names fuel disk order ->
  init_workspace fuel disk order backend_new = Done tt t ->
  (forall p, findS p (b_files t) <> None <-> In p order /\ sends fuel disk p = true) /\
  (forall p, In p order -> sends fuel disk p = true -> up_to_date fuel disk p t) /\
  (forall k i, findS k (b_global t) = Some i -> exists p, In p order /\ declared_in fuel disk p k t i) /\
  (forall k p s0 i0, In p order -> declared_at_top fuel disk p k s0 i0 ->
     exists i, findS k (b_global t) = Some i /\ declared_in fuel disk p k t i).
Proof.
  intros HH order t fine un e. unfold init_workspace in e. take e as e0. destruct x.
  destruct (all_indexed _ _ _ fine (binv_new T) e0) as (I & _ & k3 & k4).
  assert (k4' : forall p, findS p (b_files t0) <> None -> In p order /\ sends fuel disk p = true).
  { intros p hp. apply k4 in hp as [hp|hp]; [exact hp|]. cbn in hp. contradiction. }
  assert (uu : forall k i j, indexable t0 k i -> indexable t0 k j -> i = j).
  { intros k i j (m & p & f & a1 & a2 & a3 & a4 & a5) (m' & q & g & b1 & b2 & b3 & b4 & b5).
    destruct (k4' p) as [hp sp]; [congruence|]. destruct (k4' q) as [hq sq]; [congruence|].
    destruct (tops p t0 f I (k3 p hp sp) a5) as (s0 & r & e1 & c1 & _).
    destruct (tops q t0 g I (k3 q hq sq) b5) as (s1 & r' & e2 & d1 & _).
    destruct (c1 k i m a1 a4 a3 a2) as (i0 & hi & ti). destruct (d1 k j m' b1 b4 b3 b2) as (j0 & hj & tj).
    destruct (un p q k s0 s1 i0 j0 hp hq ti tj) as [-> ->].
    assert (g = f) by congruence. subst g. destruct (c1 k j m' b1 b4 b3 b2) as (j1 & -> & tj1).
    destruct (un q q k s0 s0 j0 j1 hq hq ti tj1) as [_ ->]. exact hi. }
  destruct (rebuilt_index T t0 t I e uu) as (ea & ef & gi).
  split; [|split; [|split]].
  - intros p. rewrite ef. split; [apply k4'|]. intros [hp sp]. destruct (k3 p hp sp) as (? & f & ? & _ & h & _). congruence.
  - intros p hp sp. apply (up_to_date_core fuel disk p t0); auto.
  - intros k i hk. apply gi in hk as (m & p & f & a1 & a2 & a3 & a4 & a5).
    destruct (k4' p) as [hp sp]; [congruence|]. exists p. split; [exact hp|].
    destruct (tops p t0 f I (k3 p hp sp) a5) as (s0 & r & e1 & c1 & c2).
    destruct (c1 k i m a1 a4 a3 a2) as (i0 & -> & ti). exists s0, i0. split; [exact ti|]. rewrite ea. apply (c2 k i0 ti).
  - intros k p s0 i0 hp ti.
    assert (sp : sends fuel disk p = true).
    { destruct ti as (e1 & _ & f & _ & _ & hf & _). cbn [did_change_watched] in e1. take e1 as x0. injection x0 as <- <-.
      cbn [find b_open backend_new] in e1. take e1 as x0. apply eopt_done in x0 as [ed ->]. unfold sends, work. rewrite ed.
      take e1 as es. rewrite es. destruct x0 as [[[nodes range] errors]|err]; [reflexivity|]. exfalso.
      pose proof (source_spec _ _ _ _ _ es) as [-> _]. take e1 as x1. injection x1 as _ <-. injection e1 as <-.
      cbn in hf. discriminate. }
    destruct (k3 p hp sp) as (? & f & ? & _ & hf & _).
    destruct (tops p t0 f I (k3 p hp sp) hf) as (s1 & r & e1 & c1 & c2).
    assert (s1 = s0) by (destruct ti as [e2 _]; congruence). subst s1.
    destruct (c2 k i0 ti) as (hs & m & q1 & q2 & q3 & q4). exists (r i0). split.
    + apply gi. exists m, p, f. auto.
    + exists s0, i0. split; [exact ti|]. rewrite ea. exact hs.
Qed.
End Order.

(** Two starts over the same files, with whatever schedules, numbers of workers
    and iteration orders of the hash maps: the same files are known, with the
    symbols they have on their own, and each name in the index stands for the
    declaration of that name in one and the same file.  What is missing for the
    full statement: without unique names it is false, see
    [C37_order_refuted]. *)
Theorem C37_order_partial : forall {RT : Runtime} (HH1 HH2 : Hashing) fuel disk fw1 fw2 paths paths' x y,
  Permutation paths paths' -> Forall (fine_alone fuel disk) paths -> unique_names fuel disk paths ->
  @steps RT HH1 fuel disk fw1 (start paths backend_new) x -> main x = Finished ->
  @steps RT HH2 fuel disk fw2 (start paths' backend_new) y -> main y = Finished ->
  (forall p, findS p (b_files (state x)) <> None <-> findS p (b_files (state y)) <> None) /\
  (forall p, findS p (b_files (state x)) <> None ->
     up_to_date fuel disk p (state x) /\ up_to_date fuel disk p (state y)) /\
  (forall k, match findS k (b_global (state x)), findS k (b_global (state y)) with
             | None, None => True
             | Some i, Some j => exists p, declared_in fuel disk p k (state x) i /\ declared_in fuel disk p k (state y) j
             | _, _ => False
             end).
Proof.
  intros RT HH1 HH2 fuel disk fw1 fw2 paths paths' x y hp fine un sx mx sy my.
  assert (fine' : Forall (fine_alone fuel disk) paths') by (eapply Permutation_Forall; eauto).
  assert (end_order : forall (HH : Hashing) fw ps z, Forall (fine_alone fuel disk) ps ->
    @steps RT HH fuel disk fw (start ps backend_new) z -> main z = Finished ->
    exists o, Permutation ps o /\ @init_workspace RT HH fuel disk o backend_new = Done tt (state z)).
  { clear. intros HH fw ps z fine st hm.
    destruct (inv_steps _ _ _ _ _ _ _ fine (inv_start _ _ ps) st) as (o & I).
    exists o. pose proof (iv_run _ _ _ _ _ I) as hr. rewrite hm in hr. split; [|exact hr].
    pose proof (iv_perm _ _ _ _ _ I) as hp. destruct (iv_ended _ _ _ _ _ I (iv_finished _ _ _ _ _ I hm)) as [hc nw].
    pose proof (iv_join _ _ _ _ _ I nw) as hg. rewrite hc in hp. pose proof (iv_six _ _ _ _ _ I) as h6.
    assert (hs : flat_map sending (walkers z) = []).
    { clear - hg. induction hg as [|w ws -> _ IH]; auto. }
    assert (ht : todo z = []).
    { apply (iv_gone _ _ _ _ _ I). destruct (walkers z) as [|w ws]; [discriminate|]. inversion hg; subst. left. reflexivity. }
    rewrite hs, ht in hp. exact hp. }
  destruct (end_order HH1 fw1 paths x fine sx mx) as (o1 & p1 & e1).
  destruct (end_order HH2 fw2 paths' y fine' sy my) as (o2 & p2 & e2). clear end_order.
  assert (p12 : Permutation o1 o2).
  { eapply Permutation_trans; [apply Permutation_sym; exact p1|]. eapply Permutation_trans; [exact hp|exact p2]. }
  assert (f1 : Forall (fine_alone fuel disk) o1) by (eapply Permutation_Forall; eauto).
  assert (f2 : Forall (fine_alone fuel disk) o2) by (eapply Permutation_Forall; [exact p12|exact f1]).
  assert (u1 : unique_names fuel disk o1).
  { intros p q k s t i j hp1 hq1. apply un; apply (Permutation_in _ (Permutation_sym p1)); assumption. }
  assert (u2 : unique_names fuel disk o2).
  { intros p q k s t i j hp1 hq1. apply u1; apply (Permutation_in _ (Permutation_sym p12)); assumption. }
  destruct (index_is fuel disk o1 (state x) f1 u1 e1) as (a1 & a2 & a3 & a4).
  destruct (index_is fuel disk o2 (state y) f2 u2 e2) as (b1 & b2 & b3 & b4).
  assert (io : forall p, In p o1 <-> In p o2).
  { intros p. split; apply Permutation_in; [exact p12|apply Permutation_sym; exact p12]. }
  split; [|split].
  - intros p. rewrite a1, b1, io. reflexivity.
  - intros p h. apply a1 in h as [h1 h2]. split; [apply a2; auto|apply b2; [apply io|]; auto].
  - intros k. destruct (findS k (b_global (state x))) as [i|] eqn:ei.
    + destruct (a3 k i ei) as (p & hpo & hd). pose proof hd as (s0 & i0 & ti & _).
      destruct (b4 k p s0 i0 (proj1 (io p) hpo) ti) as (j & ej & dj). rewrite ej. exists p. auto.
    + destruct (findS k (b_global (state y))) as [j|] eqn:ej; [|exact I].
      destruct (b3 k j ej) as (p & hpo & (s0 & i0 & ti & _)).
      destruct (a4 k p s0 i0 (proj2 (io p) hpo) ti) as (i & ei' & _). congruence.
Qed.

(** ** Cases *)

(** Two files, both fine alone, with different names *)
Definition text37a := "<?php class A37 { public function f() { } }".
Definition text37b := "<?php interface B37 { } function g37() { }".
Definition disk37 : str -> option str := disk2 text37a text37b.

Lemma fine37 : Forall (fine_alone 400 disk37) [pA; pB].
Proof.
  constructor; [|constructor; [|constructor]].
  - eexists. vm_compute. reflexivity.
  - eexists. vm_compute. reflexivity.
Qed.

Example C37_finishes_case :
  Forall (fine_alone 400 disk37) [pA; pB] /\
  N.of_nat (List.length (filter (sends 400 disk37) [pA; pB])) = 2 /\
  always_ends 400 disk37 false (start [pA; pB] backend_new).
Proof.
  split; [exact fine37|]. split; [vm_compute; reflexivity|].
  apply C37_finishes_partial; [exact fine37|]. right. vm_compute. discriminate.
Qed.

(** 1001 small files *)
Definition paths37 : list str := map (fun n => [47; N.of_nat n]) (seq 0 1001).
Definition disk37n (p : str) : option str := Some (lit "<?php ;").

Example C37_blocked_case : forall x, steps 50 disk37n false (start paths37 backend_new) x ->
  main x = Walking /\ state x = backend_new.
Proof. intros x. apply C37_blocked_refuted. vm_compute. reflexivity. Qed.

(** Two files with a class of the same name: the schedule decides which one the
    name stands for. *)
Definition text37c := "<?php class A37 { }".

Theorem C37_order_refuted : exists fuel disk paths x y p q,
  Forall (fine_alone fuel disk) paths /\
  steps fuel disk true (start paths backend_new) x /\ main x = Finished /\
  steps fuel disk true (start paths backend_new) y /\ main y = Finished /\ p <> q /\
  In p paths /\ In q paths /\
  (exists i f, findS (lit "a37") (b_global (state x)) = Some i /\ findS p (b_files (state x)) = Some f /\
     parent_of (b_arena (state x)) i = Some (Some f)) /\
  (exists i f, findS (lit "a37") (b_global (state y)) = Some i /\ findS q (b_files (state y)) = Some f /\
     parent_of (b_arena (state y)) i = Some (Some f)).
Proof.
  assert (fine : Forall (fine_alone 400 (disk2 text37a text37c)) [pA; pB]).
  { constructor; [|constructor; [|constructor]]; (eexists; vm_compute; reflexivity). }
  destruct (reached 400 (disk2 text37a text37c) true [pA; pB] [pA; pB]
    (match init_workspace 400 (disk2 text37a text37c) [pA; pB] backend_new with Done _ s => s | _ => backend_new end))
    as (x & sx & mx & ex); [reflexivity|apply Permutation_refl|vm_compute; reflexivity|].
  destruct (reached 400 (disk2 text37a text37c) true [pB; pA] [pA; pB]
    (match init_workspace 400 (disk2 text37a text37c) [pB; pA] backend_new with Done _ s => s | _ => backend_new end))
    as (y & sy & my & ey); [reflexivity|apply perm_swap|vm_compute; reflexivity|].
  exists 400%nat, (disk2 text37a text37c), [pA; pB], x, y, pB, pA. do 5 (split; [assumption|]).
  split; [vm_compute; discriminate|]. split; [right; left; reflexivity|]. split; [left; reflexivity|]. rewrite ex, ey. split.
  - exists 5, 4. vm_compute. auto.
  - exists 4, 3. vm_compute. auto.
Qed.

Lemma listed_tops : forall {RT : Runtime} fuel disk p s1 nodes f,
  did_change_watched fuel disk [p] backend_new = Done tt s1 -> a_nodes (b_arena s1) = nodes ->
  findS p (b_files s1) = Some f ->
  forall k s i, declared_at_top fuel disk p k s i ->
  exists m, In (i, m) nodes /\ n_parent m = Some f /\ register_global (y_kind (n_data m)) = true /\ index_key (n_data m) = k.
Proof.
  intros RT fuel disk p s1 nodes f e1 <- e3 k s i (e & m & g & h1 & h2 & h3 & h4 & h5).
  assert (s = s1) by congruence. subst s1. assert (g = f) by congruence. subst g. exists m.
  split; [apply (find_in _ N.eqb_spec); exact h1|auto].
Qed.

(** The two files of [C37_finishes_case] have unique names. *)
Definition alone37a : bst := match did_change_watched 400 disk37 [pA] backend_new with Done _ s => s | _ => backend_new end.
Definition alone37b : bst := match did_change_watched 400 disk37 [pB] backend_new with Done _ s => s | _ => backend_new end.
Lemma alone37a_done : did_change_watched 400 disk37 [pA] backend_new = Done tt alone37a.
Proof. vm_compute. reflexivity. Qed.
Lemma alone37b_done : did_change_watched 400 disk37 [pB] backend_new = Done tt alone37b.
Proof. vm_compute. reflexivity. Qed.
Definition nodes37a := Eval vm_compute in a_nodes (b_arena alone37a).
Definition nodes37b := Eval vm_compute in a_nodes (b_arena alone37b).
Lemma alone37a_nodes : a_nodes (b_arena alone37a) = nodes37a.
Proof. vm_compute. reflexivity. Qed.
Lemma alone37b_nodes : a_nodes (b_arena alone37b) = nodes37b.
Proof. vm_compute. reflexivity. Qed.
Lemma alone37a_file : findS pA (b_files alone37a) = Some 0.
Proof. vm_compute. reflexivity. Qed.
Lemma alone37b_file : findS pB (b_files alone37b) = Some 0.
Proof. vm_compute. reflexivity. Qed.

Lemma top37a : forall k s i, declared_at_top 400 disk37 pA k s i -> k = lit "a37" /\ i = 1.
Proof.
  intros k s i h. destruct (listed_tops _ _ _ _ _ _ alone37a_done alone37a_nodes alone37a_file k s i h) as (m & h1 & h2 & h4 & h5).
  clear h. unfold nodes37a in h1.
  do 4 (destruct h1 as [h1|h1]; [apply pair_equal_spec in h1 as [<- <-]; cbn in h2, h4;
    first [discriminate h2|discriminate h4|split; [rewrite <- h5; vm_compute; reflexivity|reflexivity]]|]).
  destruct h1.
Qed.

Lemma top37b : forall k s i, declared_at_top 400 disk37 pB k s i -> (k = lit "b37" /\ i = 1) \/ (k = lit "g37" /\ i = 2).
Proof.
  intros k s i h. destruct (listed_tops _ _ _ _ _ _ alone37b_done alone37b_nodes alone37b_file k s i h) as (m & h1 & h2 & h4 & h5).
  clear h. unfold nodes37b in h1.
  do 3 (destruct h1 as [h1|h1]; [apply pair_equal_spec in h1 as [<- <-]; cbn in h2, h4;
    first [discriminate h2|discriminate h4|left; split; [rewrite <- h5; vm_compute; reflexivity|reflexivity]
      |right; split; [rewrite <- h5; vm_compute; reflexivity|reflexivity]]|]).
  destruct h1.
Qed.

Lemma unique37 : unique_names 400 disk37 [pA; pB].
Proof.
  intros p q k s t i j [<-|[<-|[]]] [<-|[<-|[]]] hp hq.
  - apply top37a in hp as [-> ->]. apply top37a in hq as [_ ->]. split; reflexivity.
  - apply top37a in hp as [-> ->]. apply top37b in hq as [[h _] | [h _]]; discriminate h.
  - apply top37b in hp as [[-> ->] | [-> ->]]; apply top37a in hq as [h _]; discriminate h.
  - apply top37b in hp as [[-> ->] | [-> ->]]; apply top37b in hq as [[h ->] | [h ->]]; first [discriminate h|split; reflexivity].
Qed.

Example C37_order_case : exists x y,
  steps 400 disk37 true (start [pA; pB] backend_new) x /\ main x = Finished /\
  steps 400 disk37 true (start [pA; pB] backend_new) y /\ main y = Finished /\
  findS (lit "a37") (b_global (state x)) <> findS (lit "a37") (b_global (state y)) /\
  (forall k, match findS k (b_global (state x)), findS k (b_global (state y)) with
             | None, None => True
             | Some i, Some j => exists p, declared_in 400 disk37 p k (state x) i /\ declared_in 400 disk37 p k (state y) j
             | _, _ => False
             end).
Proof.
  destruct (reached 400 disk37 true [pA; pB] [pA; pB]
    (match init_workspace 400 disk37 [pA; pB] backend_new with Done _ s => s | _ => backend_new end))
    as (x & sx & mx & ex); [reflexivity|apply Permutation_refl|vm_compute; reflexivity|].
  destruct (reached 400 disk37 true [pB; pA] [pA; pB]
    (match init_workspace 400 disk37 [pB; pA] backend_new with Done _ s => s | _ => backend_new end))
    as (y & sy & my & ey); [reflexivity|apply perm_swap|vm_compute; reflexivity|].
  exists x, y. do 4 (split; [assumption|]). split; [rewrite ex, ey; vm_compute; discriminate|].
  eapply (C37_order_partial _ _ 400 disk37 true true [pA; pB] [pA; pB] x y); auto using fine37, unique37.
Qed.

Print Assumptions C37_finishes_partial.
Print Assumptions C37_runs.
Print Assumptions C37_blocked_refuted.
Print Assumptions C37_order_partial.
Print Assumptions C37_order_refuted.
