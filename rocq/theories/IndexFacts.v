(** What indexing a file leaves behind: the same symbols as in an empty
    workspace, and the entries of the other files. *)

From Coq Require Import Permutation.
From Verif Require Import Base Token Scanner Node DocBlock Parser Assoc AssocFacts Arena ArenaFacts
  Symbol EnvMonad EnvFacts Workspace WorkspaceFacts WorkspaceSim Resolver SpecNames ResolverFacts Backend
  BackendFacts SpecServer ServerInv.

Section Index.
Context {RT : Runtime} {HH : Hashing}.

Local Notation findS := (find str_eqb).

Lemma visited_sim : forall fuel path nodes range a, wf a ->
  osim (sim (a_next a)) eq (visited fuel path nodes range empty_arena) (visited fuel path nodes range a).
Proof.
  intros fuel path nodes range a w. unfold visited.
  apply (sim_iter (a_next a) _ (fun node => w_traverse fuel node (a_next empty_arena))
           (fun node => w_traverse fuel node (a_next a)) nodes).
  - intros x _. change (a_next empty_arena) with 0. replace (a_next a) with (a_next a + 0) at 2 by lia.
    apply sim_traverse.
  - split; [|reflexivity]. cbn [w_arena].
    destruct (new_node (plain_symbol KFile path range range) a) as [f a1] eqn:en.
    destruct (new_node (plain_symbol KFile path range range) empty_arena) as [f0 a0] eqn:e0.
    destruct (node_of_new _ _ _ _ en) as (-> & nx & sp).
    destruct (node_of_new _ _ _ _ e0) as (-> & nx0 & sp0). cbn [snd].
    constructor.
    + eapply wf_new; [apply wf_empty|exact e0].
    + eapply wf_new; [exact w|exact en].
    + rewrite nx, nx0. cbn. lia.
    + intros i. rewrite sp, sp0. cbn [a_next empty_arena].
      destruct (N.eqb_spec i 0) as [->|ne].
      * rewrite N.add_0_r, N.eqb_refl. reflexivity.
      * replace (a_next a + i =? a_next a) with false.
        2:{ symmetry. apply N.eqb_neq. lia. }
        cbn. destruct (node_of a (a_next a + i)) as [n|] eqn:e; auto.
        apply (wf_fresh _ w) in e. lia.
Qed.

Lemma same_within : forall (a b : arena Symbol) f i g, wf a ->
  (forall j, node_of b (f + j) = opt_map (shift_node f) (node_of a j)) ->
  within a i g -> within b (f + i) (f + g).
Proof.
  intros a b f i g w h. induction 1.
  - constructor. unfold alive, data in *. rewrite h. destruct (node_of a i); cbn in *; congruence.
  - econstructor; [|exact IHwithin]. unfold parent_of in *. rewrite h.
    destruct (node_of a i) as [n|]; [|discriminate]. cbn in *. injection H as H. rewrite H. reflexivity.
Qed.

(** Indexing into any workspace and into an empty one *)
Lemma collect_same : forall fuel path nodes range s u s', wf (b_arena s) ->
  (forall f, findS path (b_files s) = Some f -> f < a_next (b_arena s)) ->
  collect_symbols fuel path nodes range s = Done u s' ->
  exists s0 f f0, collect_symbols fuel path nodes range backend_new = Done tt s0 /\
    findS path (b_files s') = Some f /\ findS path (b_files s0) = Some f0 /\
    same_symbols (b_arena s0) f0 (b_arena s') f.
Proof.
  intros fuel path nodes range s u s' w hold e.
  destruct (collect_new _ _ _ _ _ _ _ w hold e) as (w1 & ev & T & ws' & nx & ef & eo & sn & so).
  set (f := a_next (b_arena s)) in *.
  pose proof (visited_sim fuel path nodes range (b_arena s) w) as sv. rewrite ev in sv.
  destruct (visited fuel path nodes range empty_arena) as [[] w0| |] eqn:ev0; cbn in sv; try contradiction.
  destruct sv as [_ [st _]]. fold f in st.
  assert (hn : Forall (declares_in (fun _ => True)) nodes).
  { apply Forall_forall. intros n _ m _. apply Forall_forall. auto. }
  pose proof (collect_spec (fun _ => True) fuel path nodes range backend_new wf_empty) as cs.
  cbn [b_files b_arena backend_new] in cs. rewrite ev0 in cs.
  destruct cs as (a' & g & refs & nf & ec & T0 & enf & wo & sn0 & _); [discriminate|auto|].
  exists (mkBst a' (put str_eqb path 0 []) (fold_left (register_one a') (n_kids nf) g) [] refs [] []), f, 0.
  split; [exact ec|]. rewrite ef. split; [apply find_put_same, str_eqb_spec|].
  split; [apply find_put_same, str_eqb_spec|].
  assert (h : forall j, node_of (b_arena s') (f + j) = opt_map (shift_node f) (node_of a' j)).
  { intros j. rewrite sn by lia. rewrite (st_node _ _ _ st).
    destruct wo as (_ & _ & _ & wo). rewrite wo; auto. intros (o & eq & _). discriminate. }
  cbn [b_arena]. assert (wa' : wf a') by apply wo.
  exists (N.add f). split; [lia|]. split; [intros; lia|]. split.
  - intros i hi. split.
    + replace f with (f + 0) at 2 by lia. eapply same_within; eauto.
    + unfold data, kids. rewrite h. destruct (node_of a' i) as [n|]; auto.
  - intros j hj. revert hj. replace f with (f + 0) at 1 by lia. remember (f + 0) as g0.
    induction 1 as [j al|j p g' hp hw IH].
    + exists 0. split; [|lia]. constructor. subst. unfold alive, data in *. rewrite h in al.
      destruct (node_of a' 0); [|elim al; reflexivity]. cbn. discriminate.
    + destruct (IH Heqg0) as (q & hq & ->). unfold parent_of in hp.
      assert (fj : f <= j).
      { destruct (N.lt_ge_cases j f) as [l|]; auto. exfalso.
        destruct (node_of (b_arena s') j) as [n|] eqn:en; [|discriminate]. injection hp as hp.
        destruct (wf_up _ ws' _ _ _ en hp) as (m & em & hin).
        rewrite h in em. destruct (node_of a' q) as [nq|] eqn:eq; [|discriminate]. injection em as <-.
        cbn in hin. apply in_map_iff in hin as (x & ex & _). lia. }
      exists (j - f). split; [|lia]. replace j with (f + (j - f)) in hp by lia.
      rewrite h in hp. destruct (node_of a' (j - f)) as [n|] eqn:en; [|discriminate].
      cbn in hp. injection hp as hp. destruct (n_parent n) as [q'|] eqn:ep; [|discriminate].
      injection hp as hp. econstructor; [|exact hq]. unfold parent_of. rewrite en. cbn. rewrite ep. f_equal. f_equal. lia.
Qed.

(** ** The entries of the other files *)

Lemma collect_others : forall D fuel path nodes range s u s', binv D s ->
  Forall (declares_in D) nodes -> collect_symbols fuel path nodes range s = Done u s' ->
  forall k n, findS k (b_global s) = Some n ->
  (forall f i d, findS path (b_files s) = Some f -> parent_of (b_arena s) i = Some (Some f) ->
     data (b_arena s) i = Some d -> index_key d <> k) ->
  (forall f i d, findS path (b_files s') = Some f -> parent_of (b_arena s') i = Some (Some f) ->
     data (b_arena s') i = Some d -> register_global (y_kind d) = true -> index_key d <> k) ->
  findS k (b_global s') = Some n.
Proof.
  intros D fuel path nodes range s u s' I hn e k n h h1 h2.
  pose proof (collect_spec D fuel path nodes range s (bi_wf _ _ I)
    (fun f h => proj1 (bi_files _ _ I _ _ h)) hn) as sp. cbv zeta in sp.
  destruct (visited fuel path nodes range (b_arena s)) as [v w| |]; try congruence.
  destruct sp as (a' & g & refs & nf & e' & T & ef & (w' & nx & gone & kept) & new & old).
  rewrite e' in e. injection e as _ <-. cbn [b_arena b_files b_global] in *.
  set (f := a_next (b_arena s)) in *.
  assert (enf : node_of a' f = Some nf) by (rewrite new; auto; lia).
  rewrite find_registered_other.
  - destruct (findS path (b_files s)) as [o|] eqn:eo.
    + destruct old as (no & ds & eno & -> & _). rewrite find_deregistered.
      destruct (existsb _ (n_kids no)) eqn:ex; auto. exfalso.
      apply existsb_exists in ex as (c & hc & ek).
      destruct (wf_down _ (bi_wf _ _ I) _ _ _ eno hc) as (m & em & ep).
      destruct (str_eqb_spec (key_of (b_arena s) c) k) as [ek'|]; [|discriminate].
      unfold key_of in ek'. rewrite (data_node _ _ _ em) in ek'.
      apply (h1 o c (n_data m)); auto.
      * unfold parent_of. rewrite em. cbn. congruence.
      * apply data_node. auto.
    + destruct old as [-> _]. auto.
  - intros c hc ig ek. destruct (wf_down _ w' _ _ _ enf hc) as (m & em & ep).
    unfold is_global, key_of, data in ig, ek. rewrite em in ig, ek. cbn in ig, ek.
    apply (h2 f c (n_data m)); auto.
    + apply find_put_same. apply str_eqb_spec.
    + unfold parent_of. rewrite em. cbn. congruence.
    + apply data_node. auto.
Qed.

Lemma collect_registers : forall D fuel path nodes range s u s', binv D s ->
  Forall (declares_in D) nodes -> collect_symbols fuel path nodes range s = Done u s' ->
  forall f i d, findS path (b_files s') = Some f -> parent_of (b_arena s') i = Some (Some f) ->
     data (b_arena s') i = Some d -> register_global (y_kind d) = true ->
  exists n d', findS (index_key d) (b_global s') = Some n /\ parent_of (b_arena s') n = Some (Some f) /\
    data (b_arena s') n = Some d' /\ index_key d' = index_key d.
Proof.
  intros D fuel path nodes range s u s' I hn e f0 i d hf hi hd hg.
  pose proof (collect_spec D fuel path nodes range s (bi_wf _ _ I)
    (fun f h => proj1 (bi_files _ _ I _ _ h)) hn) as sp. cbv zeta in sp.
  destruct (visited fuel path nodes range (b_arena s)) as [v w| |]; try congruence.
  destruct sp as (a' & g & refs & nf & e' & T & ef & (w' & nx & gone & kept) & new & old).
  rewrite e' in e. injection e as _ <-. cbn [b_arena b_files b_global] in *.
  set (f := a_next (b_arena s)) in *.
  rewrite find_put_same in hf by apply str_eqb_spec. injection hf as <-.
  assert (enf : node_of a' f = Some nf) by (rewrite new; auto; lia).
  unfold parent_of in hi. unfold data in hd. destruct (node_of a' i) as [ni|] eqn:ei; [|discriminate].
  cbn in hi, hd. injection hi as hi. injection hd as hd.
  destruct (wf_up _ w' _ _ _ ei hi) as (nf' & enf' & hk).
  assert (nf' = nf) by congruence. subst nf'.
  assert (ki : key_of a' i = index_key d) by (unfold key_of, data; rewrite ei; cbn; congruence).
  destruct (find_registered_in a' (n_kids nf) g i hk) as (n & e1 & e2 & e3 & e4).
  { unfold is_global, data. rewrite ei. cbn. congruence. }
  destruct (wf_down _ w' _ _ _ enf e2) as (m & em & ep).
  exists n, (n_data m). rewrite <- ki. split; auto. split; [|split].
  - unfold parent_of. rewrite em. cbn. congruence.
  - apply data_node. auto.
  - rewrite <- e4. unfold key_of, data. rewrite em. reflexivity.
Qed.

(** ** The analysis of the open files leaves declarations alone *)

Record steady (D : str -> Prop) (a a' : arena Symbol) : Prop := {
  sd_kind : forall i n, node_of a i = Some n -> y_kind (n_data n) <> KVariable ->
    exists n', node_of a' i = Some n' /\ same_sym (n_data n) (n_data n');
  sd_keep : forall i n, node_of a i = Some n -> ~ local_kind (n_data n) -> D (sym_name (n_data n)) ->
    (forall p m, n_parent n = Some p -> node_of a p = Some m -> y_kind (n_data m) <> KVariable) ->
    exists n', node_of a' i = Some n' /\ same_sym (n_data n) (n_data n') /\ n_parent n' = n_parent n
}.

Lemma steady_refl : forall D a, steady D a a.
Proof. intros D a. constructor; intros i n e; exists n; auto using same_sym_refl. Qed.

Lemma local_same : forall d d', same_sym d d' -> local_kind d' -> local_kind d.
Proof. intros d d' h l. apply same_kind in h as [h _]. unfold local_kind in *. congruence. Qed.

Lemma steady_trans : forall D a b c, wf a -> steady D a b -> steady D b c -> steady D a c.
Proof.
  intros D a b c w g h. constructor.
  - intros i n e k. destruct (sd_kind _ _ _ g _ _ e k) as (n1 & e1 & s1).
    destruct (same_kind _ _ s1) as [k1 _].
    destruct (sd_kind _ _ _ h _ _ e1) as (n2 & e2 & s2); [congruence|].
    exists n2. split; auto. eapply same_sym_trans; eauto.
  - intros i n e k d q. destruct (sd_keep _ _ _ g _ _ e k d q) as (n1 & e1 & s1 & p1).
    destruct (same_kind _ _ s1) as [k1 m1].
    destruct (sd_keep _ _ _ h _ _ e1) as (n2 & e2 & s2 & p2).
    + intros l. apply k. eapply local_same; eauto.
    + rewrite m1. auto.
    + intros p m ep em. rewrite p1 in ep. destruct (wf_up _ w _ _ _ e ep) as (m0 & em0 & _).
      pose proof (q _ _ ep em0) as km. destruct (sd_kind _ _ _ g _ _ em0 km) as (m1' & em1 & sm).
      assert (m1' = m) by congruence. subst m1'. apply same_kind in sm as [sm _]. congruence.
    + exists n2. split; auto. split; [eapply same_sym_trans; eauto|congruence].
Qed.

Lemma steady_sheds : forall D a a', wf a -> sheds a a' -> steady D a a'.
Proof.
  intros D a a' w g. constructor.
  - intros i n e k. destruct (sh_keep _ _ g _ _ e k) as (n' & e' & d & _). exists n'. split; auto.
    rewrite d. apply same_sym_refl.
  - intros i n e k d q. assert (kv : y_kind (n_data n) <> KVariable) by (intros h; apply k; left; auto).
    destruct (sh_keep _ _ g _ _ e kv) as (n' & e' & d' & p1 & p2). exists n'. split; auto.
    split; [rewrite d'; apply same_sym_refl|].
    destruct (n_parent n) as [p|] eqn:ep; auto.
    destruct (wf_up _ w _ _ _ e ep) as (m & em & _). eapply p2; eauto.
Qed.

Lemma steady_pins : forall D a a', pins D a a' -> steady D a a'.
Proof.
  intros D a a' g. constructor.
  - intros i n e k. destruct (df_data _ _ (pi_drifts _ _ _ g) _ _ (data_node _ _ _ e)) as (d & ed & sd).
    unfold data in ed. destruct (node_of a' i) as [n'|]; [|discriminate]. injection ed as <-. eauto.
  - intros i n e k d _. destruct (pi_parent _ _ _ g _ _ e k d) as (n' & e' & p).
    destruct (df_data _ _ (pi_drifts _ _ _ g) _ _ (data_node _ _ _ e)) as (d' & ed & sd).
    unfold data in ed. rewrite e' in ed. injection ed as <-. eauto.
Qed.

Lemma analyse_steady : forall D fuel path nodes s x s', binv D s -> Forall (clean D) nodes ->
  analyse fuel path nodes s = Done x s' -> steady D (b_arena s) (b_arena s').
Proof.
  intros D fuel path nodes s x s' I hn e. unfold analyse in e.
  step e. injection e1 as <- <-.
  destruct (findS path (b_files s)) as [f|] eqn:ef.
  2:{ injection e as _ <-. apply steady_refl. }
  step e. destruct (purge_spec _ _ _ _ (bi_wf _ _ I) e1) as (a1 & -> & g1).
  pose proof (binv_sheds _ _ _ I g1) as I1. step e.
  assert (lf : live (b_arena (with_arena a1 s)) f).
  { destruct (bi_files _ _ I1 path f ef) as [(n & en & _) _]. exists n. auto. }
  destruct (resolve_spec D _ _ _ _ _ _ (bi_wf _ _ I1) lf (clean_docs _ _ hn) e0) as (-> & g2 & _).
  step e. injection e as _ <-. apply notes_core in e2 as (c & _). rewrite c. cbn in *.
  apply steady_trans with (b := a1); [apply (bi_wf _ _ I)|apply steady_sheds; auto; apply (bi_wf _ _ I)|].
  apply steady_pins. auto.
Qed.

Lemma references_steady : forall D fuel path nodes s x s', binv D s -> Forall (clean D) nodes ->
  collect_references fuel path nodes s = Done x s' -> steady D (b_arena s) (b_arena s').
Proof.
  intros D fuel path nodes s x s' I hn e. unfold collect_references in e. step e.
  apply (analyse_steady D) in e1; auto. destruct x0 as [m|].
  - step e. injection e0 as <- <-. injection e as _ <-. auto.
  - injection e as _ <-. auto.
Qed.

Lemma tasks_steady : forall D fuel l s u s', binv D s -> 
  Forall (fun t => Forall (clean D) (fst (snd t))) l ->
  eiter (fun t : str * (list Node * Range) => collect_references fuel (fst t) (fst (snd t))) l s = Done u s' ->
  steady D (b_arena s) (b_arena s').
Proof.
  intros D fuel. induction l as [|t l IH]; intros s u s' I h e; cbn [eiter] in e.
  - injection e as _ <-. apply steady_refl.
  - step e. inversion h; subst.
    destruct (collect_references_inv _ _ _ _ _ _ _ I H1 e1) as (I1 & _).
    eapply steady_trans; [apply (bi_wf _ _ I)| |eapply IH; eauto].
    eapply references_steady; eauto.
Qed.

(** ** What the analysis does not touch *)

Definition frame (s s' : bst) : Prop :=
  b_files s' = b_files s /\ b_global s' = b_global s /\ b_refs s' = b_refs s /\ b_open s' = b_open s /\
  b_latest s' = b_latest s.

Lemma frame_trans : forall a b c, frame a b -> frame b c -> frame a c.
Proof. unfold frame. intuition congruence. Qed.

Lemma purge_frame : forall file s u s', purge_variables file s = Done u s' ->
  frame s s' /\ b_diags s' = b_diags s.
Proof.
  intros file s u s' e. unfold purge_variables in e. step e. injection e1 as <- <-.
  step e. apply eopt_done in e1 as [_ ->]. step e.
  apply reads_fold in e1; [subst|intros; apply reads_bind; [apply reads_data|intros; apply reads_ret]].
  revert s e. induction x0 as [|v l IH]; intros s e; cbn [eiter] in e.
  - injection e as _ <-. repeat split.
  - step e. unfold on_arena in e1. destruct (remove v (b_arena s)); [|discriminate].
    injection e1 as _ <-. apply IH in e as [h1 h2]. split; auto.
Qed.

Lemma notes_frame : forall l s u s', eiter add_note l s = Done u s' ->
  frame s s' /\ b_arena s' = b_arena s.
Proof.
  induction l as [|n l IH]; intros s u s' e; cbn [eiter] in e.
  - injection e as _ <-. repeat split.
  - step e. unfold add_note in e1. step e1. injection e0 as <- <-. injection e1 as _ <-.
    apply IH in e as [h1 h2]. split; auto.
Qed.

Lemma analyse_frame : forall fuel path nodes s x s', analyse fuel path nodes s = Done x s' -> frame s s'.
Proof.
  intros fuel path nodes s x s' e. unfold analyse in e. step e. injection e1 as <- <-.
  destruct (findS path (b_files s)); [|injection e as _ <-; repeat split].
  step e. apply purge_frame in e1 as [h1 _]. step e. unfold resolve_names in e1.
  destruct (eiter _ nodes _) as [? r| |]; try discriminate. injection e1 as <- <-.
  step e. injection e as _ <-. apply notes_frame in e1 as [h2 _].
  eapply frame_trans; [exact h1|]. eapply frame_trans; [|exact h2]. repeat split.
Qed.

Lemma references_frame : forall fuel path nodes s x s', collect_references fuel path nodes s = Done x s' ->
  b_files s' = b_files s /\ b_global s' = b_global s /\ b_open s' = b_open s /\ b_latest s' = b_latest s.
Proof.
  intros fuel path nodes s x s' e. unfold collect_references in e. step e.
  apply analyse_frame in e1 as (h1 & h2 & h3 & h4 & h5). destruct x0.
  - step e. injection e1 as <- <-. injection e as _ <-. cbn. auto.
  - injection e as _ <-. auto.
Qed.

End Index.
