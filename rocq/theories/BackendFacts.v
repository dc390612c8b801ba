(** What the server does to the arena and to the index of global symbols. *)

From Coq Require Import Permutation.
From Verif Require Import Base Token Scanner Node DocBlock Parser Assoc AssocFacts Arena ArenaFacts
  Symbol EnvMonad EnvFacts Workspace WorkspaceFacts WorkspaceSim Resolver SpecNames ResolverFacts Backend.

Section Facts.
Context {RT : Runtime} {HH : Hashing}.

Local Notation findS := (find str_eqb).
Local Notation putS := (put str_eqb).
Local Notation delS := (del str_eqb).

Definition key_of (a : arena Symbol) (c : N) : str :=
  match data a c with Some d => index_key d | None => [] end.
Definition is_global (a : arena Symbol) (c : N) : bool :=
  match data a c with Some d => register_global (y_kind d) | None => false end.

Definition with_global (g : list (str * N)) (s : bst) : bst :=
  mkBst (b_arena s) (b_files s) g (b_diags s) (b_refs s) (b_open s) (b_latest s).

(** ** Steps of [collect_symbols] *)

Lemma deregister_all : forall cs s, (forall c, In c cs -> live (b_arena s) c) ->
  eiter deregister cs s =
  Done tt (with_global (fold_left (fun g c => delS (key_of (b_arena s) c) g) cs (b_global s)) s).
Proof.
  induction cs as [|c cs IH]; intros s h; simpl.
  - destruct s; reflexivity.
  - unfold deregister at 1. unfold ebind. unfold e_data. cbn [the_arena bst_arena].
    destruct (h c (or_introl eq_refl)) as [n e]. unfold key_of at 2, data.
    rewrite e. cbn [opt_map]. unfold eget. unfold set_global, emod.
    rewrite IH by (intros; apply h; simpl; auto). reflexivity.
Qed.

Definition register_one (a : arena Symbol) (g : list (str * N)) (c : N) : list (str * N) :=
  if is_global a c then putS (key_of a c) c g else g.

Lemma register_all : forall cs s, (forall c, In c cs -> live (b_arena s) c) ->
  eiter register cs s =
  Done tt (with_global (fold_left (register_one (b_arena s)) cs (b_global s)) s).
Proof.
  induction cs as [|c cs IH]; intros s h; simpl.
  - destruct s; reflexivity.
  - unfold register at 1. unfold ebind. unfold e_data. cbn [the_arena bst_arena].
    destruct (h c (or_introl eq_refl)) as [n e]. unfold register_one at 2. unfold is_global, key_of, data.
    rewrite e. cbn [opt_map]. destruct (register_global (y_kind (n_data n))).
    + unfold eget. unfold set_global, emod. rewrite IH by (intros; apply h; simpl; auto). reflexivity.
    + unfold eret. rewrite IH by (intros; apply h; simpl; auto). reflexivity.
Qed.

(** The index after entries were removed *)
Lemma find_deregistered : forall a cs (g : list (str * N)) k,
  findS k (fold_left (fun g c => delS (key_of a c) g) cs g) =
  if existsb (fun c => str_eqb (key_of a c) k) cs then None else findS k g.
Proof.
  induction cs as [|c cs IH]; intros g k; simpl; auto.
  rewrite IH, find_del by apply str_eqb_spec. destruct (str_eqb (key_of a c) k); simpl; auto.
  destruct (existsb _ cs); auto.
Qed.

(** The index after entries were added: the last one wins. *)
Lemma find_registered : forall a cs g k n,
  findS k (fold_left (register_one a) cs g) = Some n ->
  findS k g = Some n \/ (In n cs /\ is_global a n = true /\ key_of a n = k).
Proof.
  induction cs as [|c cs IH]; intros g k n e; simpl in e; auto.
  apply IH in e as [e|(h1 & h2 & h3)]; [|right; simpl; auto].
  unfold register_one in e. destruct (is_global a c) eqn:eg; auto.
  rewrite find_put in e by apply str_eqb_spec.
  destruct (str_eqb_spec k (key_of a c)) as [->|ne]; auto. injection e as <-.
  right. simpl. auto.
Qed.

Lemma find_registered_other : forall a cs g k,
  (forall c, In c cs -> is_global a c = true -> key_of a c <> k) ->
  findS k (fold_left (register_one a) cs g) = findS k g.
Proof.
  induction cs as [|c cs IH]; intros g k h; simpl; auto.
  rewrite IH by (intros; apply h; simpl; auto). unfold register_one.
  destruct (is_global a c) eqn:eg; auto. apply find_put_other; [apply str_eqb_spec|].
  intros ->. apply (h c); simpl; auto.
Qed.

Lemma find_registered_in : forall a cs g c, In c cs -> is_global a c = true ->
  exists n, findS (key_of a c) (fold_left (register_one a) cs g) = Some n /\
    In n cs /\ is_global a n = true /\ key_of a n = key_of a c.
Proof.
  induction cs as [|d cs IH]; intros g c i ig; [elim i|]. simpl.
  destruct i as [->|i].
  - destruct (findS (key_of a c) (fold_left (register_one a) cs (register_one a g c))) as [n|] eqn:e.
    + exists n. split; auto. destruct (find_registered _ _ _ _ _ e) as [e'|(h1 & h2 & h3)]; auto.
      unfold register_one in e'. rewrite ig, find_put_same in e' by apply str_eqb_spec.
      injection e' as <-. auto.
    + exfalso. revert e.
      assert (k : forall cs g x, findS (key_of a c) g = Some x ->
        findS (key_of a c) (fold_left (register_one a) cs g) <> None).
      { clear. induction cs as [|d cs IH]; intros g x e; simpl; [congruence|].
        unfold register_one at 2. destruct (is_global a d); [|eapply IH; eauto].
        eapply (IH _ (if str_eqb (key_of a c) (key_of a d) then d else x)).
        rewrite find_put by apply str_eqb_spec. destruct (str_eqb _ _); auto. }
      apply (k _ _ c). unfold register_one. rewrite ig. apply find_put_same. apply str_eqb_spec.
  - destruct (IH (register_one a g d) c i ig) as (n & e & h1 & h2). exists n. auto.
Qed.

(** ** The invariant *)

(** The server is consistent: the arena is a forest, an indexed file is the
    root of a tree, and an entry of the index is a symbol at the top level of
    an indexed file, under its own name.  All registered symbols have names in
    [D]; the [@var] comments in open files are not about these. *)
Definition root_of (a : arena Symbol) (path : str) (f : N) : Prop :=
  exists n, node_of a f = Some n /\ n_parent n = None /\ y_kind (n_data n) = KFile /\
    y_name (n_data n) = path.

Definition entry (a : arena Symbol) (files : list (str * N)) (k : str) (n : N) : Prop :=
  exists m p f, node_of a n = Some m /\ index_key (n_data m) = k /\
    register_global (y_kind (n_data m)) = true /\ n_parent m = Some f /\ findS p files = Some f.

Record binv (D : str -> Prop) (s : bst) : Prop := {
  bi_wf : wf (b_arena s);
  bi_nodup : NoDup (keys (b_files s));
  bi_files : forall p f, findS p (b_files s) = Some f -> root_of (b_arena s) p f /\ D (bare p);
  bi_index : forall k n, findS k (b_global s) = Some n -> entry (b_arena s) (b_files s) k n;
  bi_names : forall i n, node_of (b_arena s) i = Some n ->
    register_global (y_kind (n_data n)) = true -> D (sym_name (n_data n));
  bi_open : forall p nodes r, findS p (b_open s) = Some (nodes, r) -> Forall (clean D) nodes;
  bi_open_nodup : NoDup (keys (b_open s))
}.

Lemma binv_new : forall D, binv D backend_new.
Proof.
  intros D. constructor; simpl; try discriminate; try apply wf_empty; constructor.
Qed.

(** Trees with different roots are disjoint. *)
Lemma root_alone : forall a p f i j, root_of a p f -> Up a i f -> Up a i j -> j <> f -> Up a j f.
Proof.
  intros a p f i j (n & e & q & _) u v ne. destruct (Up_linear _ _ _ _ u v) as [k|k]; auto.
  inversion k; subst; [contradiction|congruence].
Qed.

Lemma root_top : forall a p f i, root_of a p f -> Up a f i -> i = f.
Proof.
  intros a p f i (n & e & q & _) u. inversion u; subst; auto. congruence.
Qed.

(** The state after the visit of the syntax tree, see [collect_symbols] *)
Definition visited (fuel : nat) (path : str) (nodes : list Node) (range : Range) (a : arena Symbol)
  : out wst unit :=
  eiter (fun node => w_traverse fuel node (a_next a)) nodes
    (mkWst (snd (new_node (plain_symbol KFile path range range) a)) None).

Lemma visited_tree : forall (D : str -> Prop) fuel path nodes range a u w, wf a ->
  Forall (declares_in D) nodes -> visited fuel path nodes range a = Done u w ->
  tree D (a_next a) path a (w_arena w).
Proof.
  intros D fuel path nodes range a u w wa hn e. unfold visited in e.
  destruct (new_node (plain_symbol KFile path range range) a) as [f a1] eqn:en.
  destruct (node_of_new _ _ _ _ en) as (-> & nx & sp).
  pose proof (wf_new _ _ _ _ wa en) as w1. cbn [snd] in e.
  apply (wh_iter D (a_next a) path a _ (fun node => w_traverse fuel node (a_next a)) nodes) in e as [j _]; auto.
  - intros x hx. apply wh_traverse; [|lia]. rewrite Forall_forall in hn. auto.
  - cbn [w_arena]. constructor; auto.
    + eexists. split; [rewrite sp, N.eqb_refl; reflexivity|]. auto.
    + intros i n e' hi. exfalso. apply (wf_fresh _ w1) in e'. lia.
    + intros i hi. rewrite sp, (proj2 (N.eqb_neq i _)); auto. lia.
Qed.

(** ** [collect_symbols] *)

(** What is left of the arena [a] when the tree of [old] is removed *)
Definition without (old : option N) (a a' : arena Symbol) : Prop :=
  wf a' /\ a_next a' = a_next a /\
  (forall i, (exists o, old = Some o /\ Up a i o) -> node_of a' i = None) /\
  (forall i, ~ (exists o, old = Some o /\ Up a i o) -> node_of a' i = node_of a i).

Section Tree.
Variables (D : str -> Prop) (path : str) (a0 a : arena Symbol).
Let f := a_next a0.
Hypothesis T : tree D f path a0 a.
Hypothesis W0 : wf a0.

Lemma old_node : forall i n, node_of a0 i = Some n -> node_of a i = Some n.
Proof.
  intros i n e. rewrite (tr_old _ _ _ _ _ T); auto. unfold f. eapply wf_fresh; eauto.
Qed.

Lemma Up_old : forall i j, live a0 i -> Up a i j <-> Up a0 i j.
Proof.
  intros i j [n0 l]. split; intros u.
  - revert n0 l. induction u as [i|i n p t' e ep u IH]; intros n0 l; [constructor|].
    rewrite (old_node _ _ l) in e. injection e as <-.
    destruct (wf_up _ W0 _ _ _ l ep) as (m & em & _). econstructor; eauto.
  - clear n0 l. induction u as [i|i n p t' e ep u IH]; [constructor|].
    econstructor; [apply old_node; eauto|eauto|auto].
Qed.

Lemma Up_new : forall i j, f <= i -> Up a i j -> f <= j.
Proof.
  intros i j hi u. revert hi. induction u as [i|i n p t' e ep u IH]; intros hi; auto.
  apply IH. destruct (N.eq_dec i f) as [->|ne].
  - destruct (tr_root _ _ _ _ _ T) as (n' & e' & q & _). congruence.
  - destruct (tr_node _ _ _ _ _ T i n e) as ((p' & q & h) & _); [lia|]. congruence.
Qed.

Lemma old_or_new : forall i n, node_of a i = Some n -> (i < f /\ node_of a0 i = Some n) \/ f <= i.
Proof.
  intros i n e. destruct (N.lt_ge_cases i f) as [h|h]; auto. left. split; auto.
  rewrite <- (tr_old _ _ _ _ _ T); auto.
Qed.

End Tree.

Lemma e_kids_done : forall i (s : bst) n, node_of (b_arena s) i = Some n ->
  e_kids i s = Done (n_kids n) s.
Proof. intros i s n e. unfold e_kids, kids. cbn [the_arena bst_arena]. rewrite e. reflexivity. Qed.

Definition forget (ds : list N) (refs : list (str * FileReferenceMap)) : list (str * FileReferenceMap) :=
  map (fun p => (fst p, fold_left (fun m i => del N.eqb i m) ds (snd p))) refs.

Lemma collect_spec : forall D fuel path nodes range s,
  wf (b_arena s) ->
  (forall f, findS path (b_files s) = Some f -> root_of (b_arena s) path f) ->
  Forall (declares_in D) nodes ->
  let f := a_next (b_arena s) in
  match visited fuel path nodes range (b_arena s) with
  | Done _ w =>
      exists a' g refs nf,
        collect_symbols fuel path nodes range s =
          Done tt (mkBst a' (putS path f (b_files s)) (fold_left (register_one a') (n_kids nf) g)
                     (b_diags s) refs (b_open s) (b_latest s)) /\
        tree D f path (b_arena s) (w_arena w) /\
        node_of (w_arena w) f = Some nf /\
        without (findS path (b_files s)) (w_arena w) a' /\
        (forall i, f <= i -> node_of a' i = node_of (w_arena w) i) /\
        match findS path (b_files s) with
        | None => g = b_global s /\ refs = b_refs s
        | Some old => exists no ds,
            node_of (b_arena s) old = Some no /\
            g = fold_left (fun g c => delS (key_of (b_arena s) c) g) (n_kids no) (b_global s) /\
            (forall i, In i ds <-> Up (w_arena w) i old) /\ refs = forget ds (b_refs s)
        end
  | Panic => collect_symbols fuel path nodes range s = Panic
  | Fuel => collect_symbols fuel path nodes range s = Fuel
  end.
Proof.
  intros D fuel path nodes range s ws hold hn f.
  assert (start : collect_symbols fuel path nodes range s =
    match visited fuel path nodes range (b_arena s) with
    | Done _ w =>
        (elet files <- eget b_files in
         edo set_files (put str_eqb path f files) in
         edo (match find str_eqb path files with
              | None => eret tt
              | Some old =>
                  elet cs <- e_kids old in
                  edo eiter deregister cs in
                  elet a <- eget b_arena in
                  elet ds <- eopt (descendants a old) in
                  edo forget_references ds in
                  on_arena (remove_subtree old)
              end) in
         elet cs <- e_kids f in
         eiter register cs) (with_arena (w_arena w) s)
    | Panic => Panic
    | Fuel => Fuel
    end).
  { unfold collect_symbols, visited. unfold ebind at 1. unfold e_new. cbn [the_arena bst_arena].
    unfold new_node. cbn [snd]. unfold ebind at 1. unfold visit_symbols. cbn [b_arena with_arena bst_arena].
    destruct (eiter _ nodes _) as [u w| |]; reflexivity. }
  destruct (visited fuel path nodes range (b_arena s)) as [u w| |] eqn:ev; auto.
  pose proof (visited_tree D _ _ _ _ _ _ _ ws hn ev) as T. fold f in T.
  pose proof (tr_wf _ _ _ _ _ T) as w2.
  destruct (tr_root _ _ _ _ _ T) as (nf & ef & pf & kf & nmf).
  rewrite start. clear start ev.
  destruct (findS path (b_files s)) as [old|] eqn:eo.
  - destruct (hold old eq_refl) as (no & en & pn & kn & nn).
    assert (en2 : node_of (w_arena w) old = Some no) by (eapply old_node; eauto).
    destruct (descendants_total (w_arena w) old w2) as (ds & eds); [exists no; auto|].
    destruct (prune_total old (w_arena w) w2) as (a' & ea); [exists no; auto|].
    destruct (node_of_prune_spec _ _ _ w2 ea) as (sp1 & sp2).
    destruct (node_of_prune _ _ _ w2 ea) as (ds' & _ & _ & nx & _).
    assert (notkid : forall j n, node_of (w_arena w) j = Some n -> ~ In old (n_kids n)).
    { intros j n e i. pose proof (wf_kid_parent _ _ _ _ _ w2 e i en2). congruence. }
    assert (sp2' : forall j, ~ Up (w_arena w) j old -> node_of a' j = node_of (w_arena w) j).
    { intros j nu. rewrite (sp2 _ nu). destruct (node_of (w_arena w) j) as [n|] eqn:e; auto.
      rewrite filter_none; [destruct n; auto|]. eapply notkid; eauto. }
    assert (hof : old < f) by (unfold f; eapply wf_fresh; eauto).
    assert (nuf : forall i, f <= i -> ~ Up (w_arena w) i old).
    { intros i hi u'. apply (Up_new D path (b_arena s) _ T) in u'; auto. fold f in u'. lia. }
    exists a', (fold_left (fun g c => delS (key_of (b_arena s) c) g) (n_kids no) (b_global s)),
      (forget ds (b_refs s)), nf.
    split.
    { unfold ebind at 1. unfold eget at 1. cbn [b_files with_arena bst_arena].
      unfold ebind at 1. unfold set_files at 1, emod at 1. rewrite eo.
      unfold ebind at 1. unfold ebind at 1.
      rewrite (e_kids_done old _ no) by (cbn; exact en2).
      unfold ebind at 1. rewrite deregister_all.
      2:{ cbn. intros c hc. destruct (wf_down _ w2 _ _ _ en2 hc) as (m & em & _). exists m. auto. }
      unfold ebind at 1. unfold eget at 1. cbn [b_arena with_global with_arena bst_arena].
      unfold ebind at 1. rewrite eds. cbn [eopt]. unfold eret at 1.
      unfold ebind at 1. unfold forget_references, ebind at 1. unfold eget at 1. unfold set_refs, emod.
      unfold on_arena. cbn [b_arena with_global with_arena bst_arena]. rewrite ea.
      unfold ebind at 1. rewrite (e_kids_done f _ nf).
      2:{ cbn. rewrite sp2'; auto. apply nuf. lia. }
      rewrite register_all.
      2:{ cbn. intros c hc. destruct (wf_down _ w2 _ _ _ ef hc) as (m & em & ep). exists m.
          rewrite sp2'; auto. apply nuf.
          destruct (N.lt_ge_cases c f) as [hl|]; auto. exfalso.
          assert (e0 : node_of (b_arena s) c = Some m) by (rewrite <- (tr_old _ _ _ _ _ T); auto).
          destruct (wf_up _ ws _ _ _ e0 ep) as (q & eq & _). apply (wf_fresh _ ws) in eq. unfold f in *. lia. }
      unfold with_global. cbn. f_equal. f_equal. f_equal.
      assert (ke : forall c, In c (n_kids no) -> key_of (w_arena w) c = key_of (b_arena s) c).
      { intros c hc. destruct (wf_down _ ws _ _ _ en hc) as (m & em & _).
        unfold key_of, data. rewrite em, (old_node D path (b_arena s) _ T ws _ _ em). auto. }
      revert ke. generalize (n_kids no). generalize (b_global s).
      intros g l. revert g. induction l as [|c l IH]; intros g ke; simpl; auto.
      rewrite (ke c) by (simpl; auto). apply IH. intros; apply ke; simpl; auto. }
    split; [auto|]. split; [auto|]. split.
    { split; [eapply wf_prune; eauto|]. split; [auto|]. split.
      - intros i (o & eq & u'). injection eq as <-. auto.
      - intros i nu. apply sp2'. intros u'. apply nu. eauto. }
    split; [intros i hi; apply sp2'; auto|].
    exists no, ds. split; auto. split; auto. split; auto.
    intros i. apply (descendants_spec _ _ _ w2 eds).
  - exists (w_arena w), (b_global s), (b_refs s), nf. split.
    { unfold ebind at 1. unfold eget at 1. cbn [b_files with_arena bst_arena].
      unfold ebind at 1. unfold set_files at 1, emod at 1. rewrite eo.
      unfold ebind at 1. unfold eret at 1.
      unfold ebind at 1. rewrite (e_kids_done f _ nf) by (cbn; auto).
      rewrite register_all.
      2:{ cbn. intros c hc. destruct (wf_down _ w2 _ _ _ ef hc) as (m & em & ep). exists m. auto. }
      reflexivity. }
    split; [auto|]. split; [auto|]. split.
    { split; [auto|]. split; [auto|]. split.
      - intros i (o & eq & _). discriminate.
      - auto. }
    auto.
Qed.

Lemma root_not_below : forall a p f o q, root_of a p f -> root_of a q o -> p <> q -> ~ Up a f o.
Proof.
  intros a p f o q h1 h2 ne u. apply (root_top _ _ _ _ h1) in u. subst o.
  destruct h1 as (n & e & _ & _ & h1). destruct h2 as (m & e' & _ & _ & h2). congruence.
Qed.

Lemma collect_inv : forall D fuel path nodes range s u s', binv D s -> D (bare path) ->
  Forall (declares_in D) nodes ->
  collect_symbols fuel path nodes range s = Done u s' ->
  binv D s' /\ b_open s' = b_open s /\ b_diags s' = b_diags s /\ b_latest s' = b_latest s.
Proof.
  intros D fuel path nodes range s u s' I hp hn e.
  pose proof (collect_spec D fuel path nodes range s (bi_wf _ _ I)
    (fun f h => proj1 (bi_files _ _ I _ _ h)) hn) as sp. cbv zeta in sp.
  destruct (visited fuel path nodes range (b_arena s)) as [v w| |]; try congruence.
  destruct sp as (a' & g & refs & nf & e' & T & ef & (w' & nx & gone & kept) & new & old).
  rewrite e' in e. injection e as _ <-. split; [|auto].
  set (f := a_next (b_arena s)) in *.
  pose proof (tr_wf _ _ _ _ _ T) as w2. pose proof (bi_wf _ _ I) as ws.
  assert (rootf : root_of (w_arena w) path f) by (apply (tr_root _ _ _ _ _ T)).
  assert (oldroot : forall p x, findS p (b_files s) = Some x -> root_of (w_arena w) p x).
  { intros p x h. destruct (bi_files _ _ I _ _ h) as [(n & en & h1) _]. exists n. split; auto.
    eapply old_node; eauto. }
  assert (nb : forall p x, findS p (b_files s) = Some x -> p <> path ->
    ~ exists o, findS path (b_files s) = Some o /\ Up (w_arena w) x o).
  { intros p x h ne (o & eo & u'). revert u'. eapply root_not_below; eauto. }
  assert (nbf : ~ exists o, findS path (b_files s) = Some o /\ Up (w_arena w) f o).
  { intros (o & eo & u'). apply (root_top _ _ _ _ rootf) in u'. subst o.
    destruct (bi_files _ _ I _ _ eo) as [(n & en & _) _]. apply (wf_fresh _ ws) in en. unfold f in en. lia. }
  constructor; cbn [b_arena b_files b_global b_open]; auto.
  - apply nodup_put; [apply str_eqb_spec|]. apply (bi_nodup _ _ I).
  - intros p x h. rewrite find_put in h by apply str_eqb_spec.
    destruct (str_eqb_spec p path) as [->|ne].
    + injection h as <-. split; auto. destruct rootf as (n & en & h). exists n. split; auto.
      rewrite kept; auto.
    + split; [|apply (bi_files _ _ I _ _ h)]. destruct (oldroot _ _ h) as (n & en & h'). exists n. split; auto.
      rewrite kept; auto. eapply nb; eauto.
  - intros k n h. apply find_registered in h as [h|(h1 & h2 & h3)].
    + assert (old_entry : findS k (b_global s) = Some n /\ forall m, node_of (b_arena s) n = Some m ->
        index_key (n_data m) = k -> findS path (b_files s) <> n_parent m).
      { destruct (findS path (b_files s)) as [o|] eqn:eo.
        - destruct old as (no & ds & en & -> & _ & _). rewrite find_deregistered in h.
          destruct (existsb _ (n_kids no)) eqn:ex; [discriminate|]. split; auto.
          intros m em ek eq. destruct (wf_up _ ws _ _ _ em (eq_sym eq)) as (no' & eno & i).
          assert (no' = no) by congruence. subst no'.
          apply Bool.not_true_iff_false in ex. apply ex. apply existsb_exists. exists n. split; auto.
          unfold key_of. rewrite (data_node _ _ _ em), ek.
          destruct (str_eqb_spec k k); congruence.
        - destruct old as [-> _]. split; auto. intros m em ek eq.
          destruct (bi_index _ _ I _ _ h) as (m' & p & x & e1 & _ & _ & e2 & _). congruence. }
      destruct old_entry as [h0 np].
      destruct (bi_index _ _ I _ _ h0) as (m & p & x & e1 & e2 & e3 & e4 & e5).
      assert (ne : p <> path) by (intros ->; apply (np m e1 e2); congruence).
      exists m, p, x. split; [|split; [|split; [|split]]]; auto.
      * rewrite kept; [eapply old_node; eauto|].
        intros (o & eo & u'). apply (nb _ _ e5 ne). exists o. split; auto.
        inversion u' as [|? m' p' ? e1' ep' u'']; subst.
        -- exfalso. destruct (oldroot _ _ eo) as (q & eq & pq & _).
           rewrite (old_node D path (b_arena s) _ T ws _ _ e1) in eq. congruence.
        -- rewrite (old_node D path (b_arena s) _ T ws _ _ e1) in e1'. congruence.
      * rewrite find_put_other; auto. apply str_eqb_spec.
    + (* a new entry *)
      assert (fn : f <= n).
      { destruct (wf_down _ w2 _ _ _ ef h1) as (m & em & ep).
        destruct (N.lt_ge_cases n f) as [hl|]; auto. exfalso.
        assert (e0 : node_of (b_arena s) n = Some m) by (rewrite <- (tr_old _ _ _ _ _ T); auto).
        destruct (wf_up _ ws _ _ _ e0 ep) as (q & eq & _). apply (wf_fresh _ ws) in eq. unfold f in *. lia. }
      destruct (wf_down _ w2 _ _ _ ef h1) as (m & em & ep).
      unfold is_global, data in h2. unfold key_of, data in h3. rewrite (new n fn), em in h2, h3.
      cbn [opt_map] in h2, h3.
      exists m, path, f. split; [rewrite (new n fn); auto|]. split; auto. split; auto. split; auto.
      apply find_put_same. apply str_eqb_spec.
  - intros i n en rg. assert (en2 : node_of (w_arena w) i = Some n).
    { destruct (findS path (b_files s)) as [o|] eqn:eo.
      - destruct old as (no & ds & _ & _ & hds & _).
        destruct (in_dec N.eq_dec i ds) as [hi|hi].
        + rewrite gone in en; [discriminate|]. exists o. split; auto. apply hds. auto.
        + rewrite kept in en; auto. intros (o' & eq & u'). injection eq as <-. apply hi, hds. auto.
      - rewrite kept in en; auto. intros (o' & eq & _). discriminate. }
    destruct (old_or_new D path (b_arena s) _ T _ _ en2) as [[_ en0]|hi].
    + eapply (bi_names _ _ I); eauto.
    + destruct (N.eq_dec i (a_next (b_arena s))) as [->|ne].
      * destruct rootf as (m & em & _ & km & _). assert (m = n) by (unfold f in em; congruence). subst.
        rewrite km in rg. discriminate.
      * apply (tr_node _ _ _ _ _ T i n en2); auto. unfold f. lia.
  - apply (bi_open _ _ I).
  - apply (bi_open_nodup _ _ I).
Qed.

(** ** [purge_variables] *)

(** Only variables are removed. *)
Record sheds (a a' : arena Symbol) : Prop := {
  sh_wf : wf a';
  sh_next : a_next a' = a_next a;
  sh_back : forall i n', node_of a' i = Some n' -> exists n, node_of a i = Some n /\ n_data n' = n_data n;
  sh_keep : forall i n, node_of a i = Some n -> y_kind (n_data n) <> KVariable ->
    exists n', node_of a' i = Some n' /\ n_data n' = n_data n /\
      (n_parent n = None -> n_parent n' = None) /\
      (forall p m, n_parent n = Some p -> node_of a p = Some m -> y_kind (n_data m) <> KVariable ->
         n_parent n' = Some p)
}.

Lemma sheds_refl : forall a, wf a -> sheds a a.
Proof. intros a w. constructor; eauto. Qed.

Lemma sheds_trans : forall a b c, sheds a b -> sheds b c -> sheds a c.
Proof.
  intros a b c g h. constructor.
  - apply (sh_wf _ _ h).
  - rewrite (sh_next _ _ h). apply (sh_next _ _ g).
  - intros i n e. destruct (sh_back _ _ h _ _ e) as (n1 & e1 & q1).
    destruct (sh_back _ _ g _ _ e1) as (n2 & e2 & q2). exists n2. split; auto. congruence.
  - intros i n e k. destruct (sh_keep _ _ g _ _ e k) as (n1 & e1 & d1 & p1 & q1).
    assert (k1 : y_kind (n_data n1) <> KVariable) by congruence.
    destruct (sh_keep _ _ h _ _ e1 k1) as (n2 & e2 & d2 & p2 & q2).
    exists n2. split; auto. split; [congruence|]. split; auto.
    intros p m ep em km. destruct (sh_keep _ _ g _ _ em km) as (m1 & em1 & dm & _).
    apply (q2 p m1); auto; [eapply q1; eauto|congruence].
Qed.

Lemma sheds_remove : forall i a a' n, wf a -> node_of a i = Some n -> y_kind (n_data n) = KVariable ->
  remove i a = Some a' -> sheds a a'.
Proof.
  intros i a a' n w e k er. pose proof (wf_remove _ _ _ w er) as w'.
  destruct (node_of_remove _ _ _ w er) as (ni & ei & nx & _ & sp).
  assert (ni = n) by congruence. subst ni.
  constructor; auto.
  - intros j n' ej. rewrite sp in ej. unfold removed in ej. destruct (j =? i); [discriminate|].
    destruct (node_of a j) as [m|]; [|discriminate]. injection ej as <-. eauto.
  - intros j m ej km. rewrite sp. unfold removed. destruct (N.eqb_spec j i) as [->|ne]; [congruence|].
    rewrite ej. eexists. split; [reflexivity|]. simpl. split; auto. split.
    + intros ->. auto.
    + intros p mp -> ep kp. destruct (N.eqb_spec p i) as [->|]; auto. congruence.
Qed.

Lemma efold_vars : forall ds (s : bst) acc l s',
  efold (fun l i => elet d <- e_data i in
                    eret (if kind_eqb (y_kind d) KVariable then l ++ [i] else l)) acc ds s = Done l s' ->
  s' = s /\ forall i, In i l -> In i acc \/
    (In i ds /\ exists d, data (b_arena s) i = Some d /\ y_kind d = KVariable).
Proof.
  induction ds as [|j ds IH]; intros s acc l s' e; cbn [efold] in e.
  - injection e as <- <-. auto.
  - apply ebind_done in e as (x & t & e1 & e2). apply ebind_done in e1 as (d & t1 & e1 & e3).
    unfold e_data in e1. cbn [the_arena bst_arena] in e1.
    destruct (data (b_arena s) j) as [d'|] eqn:ed; [|discriminate]. injection e1 as -> <-.
    injection e3 as <- <-. apply IH in e2 as [-> h]. split; auto.
    intros i hi. destruct (h i hi) as [h1|[h1 h2]]; [|right; simpl; auto].
    destruct (kind_eqb (y_kind d) KVariable) eqn:ek; auto.
    apply in_app_or in h1 as [h1|[<-|[]]]; auto. right. simpl. split; auto. exists d. split; auto.
    destruct (y_kind d); try discriminate; auto.
Qed.

Lemma purge_spec : forall file s u s', wf (b_arena s) -> purge_variables file s = Done u s' ->
  exists a', s' = with_arena a' s /\ sheds (b_arena s) a'.
Proof.
  intros file s u s' w e. unfold purge_variables in e.
  apply ebind_done in e as (a & t & e1 & e). injection e1 as <- <-.
  apply ebind_done in e as (ds & t & e1 & e). apply eopt_done in e1 as [eds ->].
  apply ebind_done in e as (vars & t & e1 & e). apply efold_vars in e1 as [-> hv].
  assert (hv' : forall v, In v vars -> exists d, data (b_arena s) v = Some d /\ y_kind d = KVariable).
  { intros v hi. destruct (hv v hi) as [[]|[_ h]]. auto. }
  clear hv eds.
  assert (k : forall vars s0 u s', (forall v n, In v vars -> node_of (b_arena s0) v = Some n ->
      y_kind (n_data n) = KVariable) -> wf (b_arena s0) ->
    eiter (fun v => on_arena (remove v)) vars s0 = Done u s' ->
    exists a', s' = with_arena a' s0 /\ sheds (b_arena s0) a').
  { clear. induction vars as [|v vars IH]; intros s0 u s' hv w e; cbn [eiter] in e.
    - injection e as _ <-. exists (b_arena s0). split; [destruct s0; auto|]. apply sheds_refl; auto.
    - apply ebind_done in e as (x & t & e1 & e2). unfold on_arena in e1.
      destruct (remove v (b_arena s0)) as [a1|] eqn:er; [|discriminate]. injection e1 as _ <-.
      destruct (node_of_remove _ _ _ w er) as (n & en & _).
      assert (kn : y_kind (n_data n) = KVariable) by (apply (hv v); simpl; auto).
      pose proof (sheds_remove _ _ _ _ w en kn er) as g.
      destruct (IH (with_arena a1 s0) u s') as (a' & -> & g'); auto.
      + cbn. intros v' n' hi en'. destruct (sh_back _ _ g _ _ en') as (m & em & ->).
        apply (hv v'); simpl; auto.
      + cbn. apply (sh_wf _ _ g).
      + exists a'. split; [reflexivity|]. eapply sheds_trans; eauto. }
  eapply k; eauto. intros v n hi en. destruct (hv' v hi) as (d & ed & kd).
  unfold data in ed. rewrite en in ed. injection ed as <-. auto.
Qed.

Lemma binv_sheds : forall D s a', binv D s -> sheds (b_arena s) a' -> binv D (with_arena a' s).
Proof.
  intros D s a' I g. constructor; cbn [b_arena b_files b_global b_open with_arena bst_arena].
  - apply (sh_wf _ _ g).
  - apply (bi_nodup _ _ I).
  - intros p f h. destruct (bi_files _ _ I _ _ h) as [(n & en & pn & kn & nn) hd]. split; auto.
    destruct (sh_keep _ _ g _ _ en) as (n' & en' & dn' & pn' & _); [congruence|].
    exists n'. rewrite dn'. auto.
  - intros k n h. destruct (bi_index _ _ I _ _ h) as (m & p & f & e1 & e2 & e3 & e4 & e5).
    destruct (bi_files _ _ I _ _ e5) as [(nf & enf & _ & kf & _) _].
    destruct (sh_keep _ _ g _ _ e1) as (m' & em' & dm' & _ & pm').
    { intros q. rewrite q in e3. discriminate. }
    exists m', p, f. rewrite dm'. split; auto. split; auto. split; auto. split; auto.
    apply (pm' f nf); auto. congruence.
  - intros i n' en' rg. destruct (sh_back _ _ g _ _ en') as (n & en & dn). rewrite dn in *.
    eapply (bi_names _ _ I); eauto.
  - apply (bi_open _ _ I).
  - apply (bi_open_nodup _ _ I).
Qed.

(** ** [resolve_names] *)

Lemma binv_pins : forall D s a', binv D s -> pins D (b_arena s) a' -> binv D (with_arena a' s).
Proof.
  intros D s a' I g. pose proof (pi_drifts _ _ _ g) as gd.
  assert (keep : forall i n, node_of (b_arena s) i = Some n -> ~ local_kind (n_data n) ->
    D (sym_name (n_data n)) -> exists n', node_of a' i = Some n' /\ n_parent n' = n_parent n /\
      same_sym (n_data n) (n_data n')).
  { intros i n e nl dn. destruct (pi_parent _ _ _ g _ _ e nl dn) as (n' & e' & p').
    exists n'. split; auto. split; auto.
    destruct (df_data _ _ gd _ _ (data_node _ _ _ e)) as (d' & ed & sd).
    rewrite (data_node _ _ _ e') in ed. injection ed as <-. auto. }
  assert (same_key : forall d d', same_sym d d' -> index_key d' = index_key d /\ y_kind d' = y_kind d /\
    y_name d' = y_name d).
  { unfold same_sym, index_key, fqdn, sym_name. intros d d' h.
    pose proof (f_equal y_kind h) as h1. pose proof (f_equal y_name h) as h2. pose proof (f_equal y_ns h) as h3.
    simpl in h1, h2, h3. rewrite h1, h2, h3. auto. }
  constructor; cbn [b_arena b_files b_global b_open with_arena bst_arena].
  - apply (df_wf _ _ gd).
  - apply (bi_nodup _ _ I).
  - intros p f h. destruct (bi_files _ _ I _ _ h) as [(n & en & pn & kn & nn) hd]. split; auto.
    destruct (keep f n en) as (n' & en' & pn' & sn).
    + unfold local_kind. rewrite kn. intros [q|q]; discriminate.
    + rewrite <- bare_name, nn. auto.
    + destruct (same_key _ _ sn) as (_ & q1 & q2). exists n'. rewrite q1, q2. split; auto. split; [congruence|auto].
  - intros k n h. destruct (bi_index _ _ I _ _ h) as (m & p & f & e1 & e2 & e3 & e4 & e5).
    destruct (keep n m e1) as (m' & em' & pm' & sm).
    + unfold local_kind. intros [q|q]; rewrite q in e3; discriminate.
    + eapply (bi_names _ _ I); eauto.
    + destruct (same_key _ _ sm) as (q0 & q1 & q2). exists m', p, f. rewrite q0, q1. repeat split; auto.
      congruence.
  - intros i n' en' rg. destruct (live_dec (b_arena s) i) as [[n en]|nl].
    + destruct (df_data _ _ gd _ _ (data_node _ _ _ en)) as (d' & ed & sd).
      rewrite (data_node _ _ _ en') in ed. injection ed as <-. destruct (same_key _ _ sd) as (_ & q1 & q2).
      rewrite <- bare_name, q2, bare_name. rewrite q1 in rg. eapply (bi_names _ _ I); eauto.
    + destruct (df_kind _ _ gd _ _ (data_node _ _ _ en') nl) as [q|q]; rewrite q in rg; discriminate.
  - apply (bi_open _ _ I).
  - apply (bi_open_nodup _ _ I).
Qed.

Lemma resolve_spec : forall D fuel nodes file s r s', wf (b_arena s) -> live (b_arena s) file ->
  Forall (fun n => var_docs_in (fun k => k <> lit "this" /\ ~ D k) n) nodes ->
  resolve_names fuel nodes file s = Done r s' ->
  s' = with_arena (r_arena r) s /\ pins D (b_arena s) (r_arena r) /\ rinv r.
Proof.
  intros D fuel nodes file s r s' w lf hn e. unfold resolve_names in e.
  destruct (eiter _ nodes _) as [u r1| |] eqn:ei; try discriminate. injection e as -> <-.
  split; auto.
  assert (ri : rinv (resolver_new (b_arena s) (b_global s) file)).
  { split; auto. constructor; auto. constructor. }
  assert (k : forall nodes r0 u r1, rinv r0 -> live (r_arena r0) file ->
    Forall (fun n => var_docs_in (fun k => k <> lit "this" /\ ~ D k) n) nodes ->
    eiter (fun node => n_traverse fuel file node file) nodes r0 = Done u r1 ->
    pins D (r_arena r0) (r_arena r1) /\ rinv r1).
  { clear. induction nodes as [|n nodes IH]; intros r0 u r1 ri lf hn e; cbn [eiter] in e.
    - injection e as _ <-. split; auto. apply (gr_refl _ (growth_pins D)). apply ri.
    - apply ebind_done in e as (x & t & e1 & e2). inversion hn; subst.
      destruct (traverse_pins D _ _ _ _ _ _ _ H1 ri lf e1) as (ri' & g & _).
      destruct (IH _ _ _ ri' (gr_live _ (growth_pins D) _ _ _ (proj1 ri) g lf) H2 e2) as [g' ri''].
      split; auto. eapply (gr_trans _ (growth_pins D)); eauto. apply ri. }
  eapply (k nodes _ _ _ ri) in ei; eauto.
Qed.

(** ** The handlers *)

(** The syntax tree of a text, if there is one *)
Lemma source_spec : forall fuel src (s : bst) x s', source_to_ast fuel src s = Done x s' ->
  s' = s /\ match x with
            | inl (nodes, _, _) => syntax fuel src = Some nodes
            | inr _ => syntax fuel src = None
            end.
Proof.
  intros fuel src s x s' e. unfold source_to_ast, syntax in *.
  destruct (scan_state src) as [t| | |]; try discriminate.
  - destruct (ast fuel (rev (s_toks t))) as [[a errs] ?| | |]; try discriminate;
      injection e as <- <-; auto.
  - injection e as <- <-. auto.
Qed.

Lemma clean_declares : forall D nodes, Forall (clean D) nodes -> Forall (declares_in D) nodes.
Proof. intros D nodes h. eapply Forall_impl; [|exact h]. intros n [h1 _]. auto. Qed.
Lemma clean_docs : forall D nodes, Forall (clean D) nodes ->
  Forall (fun n => var_docs_in (fun k => k <> lit "this" /\ ~ D k) n) nodes.
Proof. intros D nodes h. eapply Forall_impl; [|exact h]. intros n [_ h1]. auto. Qed.

Definition core_eq (s s' : bst) : Prop :=
  b_arena s' = b_arena s /\ b_files s' = b_files s /\ b_global s' = b_global s /\ b_open s' = b_open s.

Lemma binv_core : forall D s s', binv D s -> core_eq s s' -> binv D s'.
Proof.
  intros D s s' I (h1 & h2 & h3 & h4). destruct I. constructor; rewrite ?h1, ?h2, ?h3, ?h4; auto.
Qed.

Lemma notes_core : forall l s u s', eiter add_note l s = Done u s' -> core_eq s s'.
Proof.
  induction l as [|n l IH]; intros s u s' e; cbn [eiter] in e.
  - injection e as _ <-. repeat split.
  - apply ebind_done in e as (x & t & e1 & e2). unfold add_note in e1.
    apply ebind_done in e1 as (d & t1 & e1 & e3). injection e1 as <- <-. injection e3 as _ <-.
    apply IH in e2. exact e2.
Qed.

Lemma analyse_inv : forall D fuel path nodes s x s', binv D s -> Forall (clean D) nodes ->
  analyse fuel path nodes s = Done x s' ->
  binv D s' /\ b_files s' = b_files s /\ b_global s' = b_global s /\ b_open s' = b_open s.
Proof.
  intros D fuel path nodes s x s' I hn e. unfold analyse in e.
  apply ebind_done in e as (files & t & e1 & e). injection e1 as <- <-.
  destruct (findS path (b_files s)) as [f|] eqn:ef.
  2:{ injection e as _ <-. auto. }
  apply ebind_done in e as (u & t & e1 & e).
  destruct (purge_spec _ _ _ _ (bi_wf _ _ I) e1) as (a1 & -> & g1).
  pose proof (binv_sheds _ _ _ I g1) as I1.
  apply ebind_done in e as (r & t & e2 & e).
  assert (lf : live (b_arena (with_arena a1 s)) f).
  { destruct (bi_files _ _ I1 path f ef) as [(n & en & _) _]. exists n. auto. }
  destruct (resolve_spec D _ _ _ _ _ _ (bi_wf _ _ I1) lf (clean_docs _ _ hn) e2) as (-> & g2 & _).
  pose proof (binv_pins _ _ _ I1 g2) as I2.
  apply ebind_done in e as (v & t & e3 & e). injection e as _ <-.
  pose proof (notes_core _ _ _ _ e3) as c. split; [eapply binv_core; eauto|].
  destruct c as (_ & -> & -> & ->). auto.
Qed.

Lemma collect_references_inv : forall D fuel path nodes s x s', binv D s -> Forall (clean D) nodes ->
  collect_references fuel path nodes s = Done x s' ->
  binv D s' /\ b_files s' = b_files s /\ b_global s' = b_global s /\ b_open s' = b_open s.
Proof.
  intros D fuel path nodes s x s' I hn e. unfold collect_references in e.
  apply ebind_done in e as (o & t & e1 & e).
  destruct (analyse_inv _ _ _ _ _ _ _ I hn e1) as (I1 & h1 & h2 & h3).
  destruct o as [m|].
  - apply ebind_done in e as (refs & t1 & e2 & e). injection e2 as <- <-. injection e as _ <-.
    split; auto. eapply binv_core; eauto. repeat split.
  - injection e as _ <-. auto.
Qed.

Lemma references_tasks_inv : forall D fuel l s u s', binv D s ->
  Forall (fun t => Forall (clean D) (fst (snd t))) l ->
  eiter (fun t : str * (list Node * Range) => collect_references fuel (fst t) (fst (snd t))) l s = Done u s' ->
  binv D s' /\ b_files s' = b_files s /\ b_global s' = b_global s /\ b_open s' = b_open s.
Proof.
  intros D fuel. induction l as [|t l IH]; intros s u s' I h e; cbn [eiter] in e.
  - injection e as _ <-. auto.
  - apply ebind_done in e as (x & t1 & e1 & e2). inversion h; subst.
    destruct (collect_references_inv _ _ _ _ _ _ _ I H1 e1) as (I1 & q1 & q2 & q3).
    destruct (IH _ _ _ I1 H2 e2) as (I2 & r1 & r2 & r3). split; auto. repeat split; congruence.
Qed.

Lemma index_result_inv : forall D fuel path nodes range errors s u s', binv D s -> D (bare path) ->
  Forall (declares_in D) nodes -> index_result fuel path nodes range errors s = Done u s' ->
  binv D s' /\ b_open s' = b_open s.
Proof.
  intros D fuel path nodes range errors s u s' I hp hn e. unfold index_result in e.
  apply ebind_done in e as (x & t & e1 & e).
  destruct (collect_inv _ _ _ _ _ _ _ _ I hp hn e1) as (I1 & h1 & _).
  apply ebind_done in e as (l & t1 & e2 & e). apply eopt_done in e2 as [_ ->].
  apply ebind_done in e as (d & t1 & e2 & e). injection e2 as <- <-. injection e as _ <-.
  split; [eapply binv_core; eauto; repeat split|auto].
Qed.

Lemma binv_set_open : forall D s o, binv D s -> NoDup (keys o) ->
  (forall p nodes r, findS p o = Some (nodes, r) -> Forall (clean D) nodes) ->
  binv D (mkBst (b_arena s) (b_files s) (b_global s) (b_diags s) (b_refs s) o (b_latest s)).
Proof. intros D s o I nd h. destruct I. constructor; auto. Qed.

Lemma open_tasks : forall D s, binv D s -> Forall (fun t : str * (list Node * Range) => Forall (clean D) (fst (snd t)))
    (h_order (b_open s)).
Proof.
  intros D s I. apply Forall_forall. intros [p [nodes r]] hi.
  apply (Permutation_in _ (h_perm _ _)) in hi. cbn. eapply (bi_open _ _ I p nodes r).
  apply in_find; auto; [apply str_eqb_spec|apply (bi_open_nodup _ _ I)].
Qed.

End Facts.
