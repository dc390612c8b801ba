(** C30, the first half: the imports of a file, with which names are read
    (Prop_Names.v), are those that are written in it. *)

From Verif Require Import Base Token Scanner Node DocBlock Parser Assoc AssocFacts Arena ArenaFacts
  Symbol EnvMonad EnvFacts Workspace WorkspaceFacts Resolver SpecNames ResolverFacts
  Backend BackendFacts SpecServer ServerInv Prop_Server Prop_Names Prop_Members.

Local Open Scope string_scope.
Local Open Scope N_scope.
Local Open Scope list_scope.

(** * Specification *)

(** [words w ws]: the tokens spell the words [ws] with backslashes between
    them; [prefix]: with one behind them, too *)
Definition words (ts : list Token) (ws : list str) : Prop :=
  exists t w r v, ts = t :: r /\ ws = w :: v /\ word t w /\ spells_rest r v.
Definition prefix (ts : list Token) (ws : list str) : Prop :=
  exists r b, ts = r ++ [b] /\ words r ws /\ backslash b.

(** [use A\B], [use A\B as C], and the same in the braces of a group, where the
    words of the group stand before *)
Inductive Item (before : list str) : Node -> str * list str -> Prop :=
| Item_name : forall k ts m a ws, words ts ws ->
    Item before (NUseDeclaration k (NTypeRef (mkTypeRef ts m)) a None) (last ws [], before ++ ws)
| Item_as : forall k ts m a al name ws, words ts ws -> t_label al = Some name ->
    Item before (NUseDeclaration k (NTypeRef (mkTypeRef ts m)) a (Some al)) (name, before ++ ws).
(** ... and [use A\{B, C as D}] *)
Inductive Import : Node -> list (str * list str) -> Prop :=
| Import_one : forall n e, Item [] n e -> Import n [e]
| Import_group : forall t ts m oc uses cc ws es, prefix ts ws -> Forall2 (Item ws) uses es ->
    Import (NGroupedUse t (NTypeRef (mkTypeRef ts m)) oc uses cc) es.

(** Import clauses, and the uses of traits *)
Definition import_clause (n : Node) : Prop :=
  match n with
  | NGroupedUse _ _ _ _ _ | NUseDeclaration _ _ _ _ | NUseFunction _ _ _ _ | NUseConst _ _ _ _ => True
  | _ => False
  end.
Definition trait_clause (n : Node) : Prop :=
  match n with
  | NUseTraitInsteadOf _ _ _ _ _ | NUseTraitAs _ _ _ _ _ _ | NUseTraitAlterationBlock _ _ _ _ | NUseTrait _ => True
  | _ => False
  end.
Definition class_like (n : Node) : Prop :=
  match n with
  | NClassStatement _ _ _ _ _ _ _ _ _ | NTraitStatement _ _ _ _ | NInterface _ _ _ _ _ => True
  | _ => False
  end.
(** Nothing is imported in it. *)
Inductive importless : Node -> Prop :=
| importless_node : forall n, ~ import_clause n -> (forall c, In c (children n) -> importless c) -> importless n.
(** ... and traits are used by classes that have a name only. *)
Inductive quiet : Node -> Prop :=
| quiet_class : forall n, class_like n -> (forall c, In c (children n) -> importless c) -> quiet n
| quiet_other : forall n, ~ import_clause n -> ~ trait_clause n -> (forall c, In c (children n) -> quiet c) -> quiet n.

(** The imports of a statement of the file *)
Inductive Imports : Node -> list (str * list str) -> Prop :=
| Imports_none : forall n, quiet n -> Imports n []
| Imports_use : forall t l es, Forall2 Import l es -> Imports (NUseStatement t l) (List.concat es).

(** * What the import clauses say *)

Lemma rest_app : forall r v r' v', spells_rest r v -> spells_rest r' v' -> spells_rest (r ++ r') (v ++ v').
Proof. induction 1; intros; cbn; auto. constructor; auto. Qed.
Lemma words_prefix : forall p ws ts vs, prefix p ws -> words ts vs -> words (p ++ ts) (ws ++ vs).
Proof.
  intros p ws ts vs (r & b & -> & (t & w & r' & v & -> & -> & h1 & h2) & hb) (t' & w' & r'' & v' & -> & -> & h3 & h4).
  exists t, w, (r' ++ b :: t' :: r''), (v ++ w' :: v'). split; [cbn; rewrite <- app_assoc; reflexivity|]. split; [reflexivity|].
  split; auto. apply rest_app; auto. constructor; auto.
Qed.
Lemma words_spell : forall ts m ws, words ts ws -> exists w v, ws = w :: v /\ spells (mkTypeRef ts m) (Written false w v).
Proof. intros ts m ws (t & w & r & v & -> & -> & h1 & h2). exists w, v. split; auto. now constructor. Qed.
Lemma last_app : forall A (l r : list A) d, r <> [] -> last (l ++ r) d = last r d.
Proof.
  intros A l r d h. induction l as [|x l IH]; [reflexivity|]. cbn [app last]. rewrite IH.
  destruct (l ++ r) eqn:e; [|reflexivity]. apply app_eq_nil in e as [_ e]. contradiction.
Qed.

Definition stands_before (p : TypeRef) (ws : list str) : Prop := (kind p = [] /\ ws = []) \/ prefix (kind p) ws.
Lemma item_uses : forall p before n e, stands_before p before -> Item before n e ->
  exists i, collect_uses n p = Some [i] /\ import_spells i e.
Proof.
  intros p before n e hp h.
  assert (W : forall ts ws, words ts ws -> words (kind p ++ ts) (before ++ ws)).
  { intros ts ws hw. destruct hp as [[-> ->]|hp]; [exact hw|now apply words_prefix]. }
  inversion h as [k ts m a ws hw|k ts m a al name ws hw hn]; subst; cbn [collect_uses realias i_path]; eexists; (split; [reflexivity|]);
    destruct (words_spell _ (multiple p) _ (W _ _ hw)) as (w & v & e1 & e2); (split; [exists w, v; auto|]).
  - cbn [i_alias]. rewrite last_app; auto. destruct hw as (? & ? & ? & ? & _ & -> & _). discriminate.
  - exact hn.
Qed.
Lemma no_prefix_before : stands_before no_prefix [].
Proof. left. auto. Qed.
Lemma import_uses : forall n es, Import n es -> exists l, collect_uses n no_prefix = Some l /\ Forall2 import_spells l es.
Proof.
  intros n es h. inversion h as [? e hi|t ts m oc uses cc ws es' hp hu]; subst.
  - destruct (item_uses _ _ _ _ no_prefix_before hi) as (i & h1 & h2). exists [i]. auto.
  - cbn [collect_uses i_path]. unfold tref_append. cbn [kind no_prefix app multiple].
    assert (hb : stands_before (mkTypeRef ts false) ws) by (right; exact hp).
    clear h hp. induction hu as [|n e uses es hi hu IH]; [exists []; split; [reflexivity|constructor]|].
    destruct IH as (l & h1 & h2). destruct (item_uses _ _ _ _ hb hi) as (i & h3 & h4).
    exists (i :: l). split; [|now constructor]. cbn [map concat_opt]. rewrite h3, h1. reflexivity.
Qed.

(** * What collecting does to the imports of the file *)

Section Hoare.
Variable f : N.
Definition holds (I : option (list SymbolImport)) (s : wst) : Prop :=
  wf (w_arena s) /\ exists n, node_of (w_arena s) f = Some n /\ n_parent n = None /\ y_imports (n_data n) = I.

Definition kp {A} I (m : W A) (Q : A -> Prop) : Prop := forall s x s', holds I s -> m s = Done x s' -> holds I s' /\ Q x.

Variable I : option (list SymbolImport).

Lemma kp_bind : forall A B (m : W A) (k : A -> W B) Q Q', kp I m Q -> (forall x, Q x -> kp I (k x) Q') -> kp I (ebind m k) Q'.
Proof. intros A B m k Q Q' hm hk s x s' j e. apply ebind_done in e as (y & t & e1 & e2). destruct (hm _ _ _ j e1) as [j1 q]. eapply hk; eauto. Qed.
Lemma kp_ret : forall A (x : A) (Q : A -> Prop), Q x -> kp I (eret x) Q.
Proof. intros A x Q q s y s' j e. injection e as <- <-. auto. Qed.
Lemma kp_opt : forall A (o : option A), kp I (eopt o) (fun x => o = Some x).
Proof. intros A [x|]; [apply kp_ret; auto|]. intros s y s' j e. discriminate. Qed.
Lemma kp_get : forall A (g : wst -> A), kp I (eget g) (fun _ => True).
Proof. intros A g s x s' j e. injection e as <- <-. auto. Qed.
Lemma kp_iter : forall A (g : A -> W unit) l, (forall x, In x l -> kp I (g x) (fun _ => True)) -> kp I (eiter g l) (fun _ => True).
Proof.
  induction l as [|x l IH]; intros h; cbn [eiter]; [apply kp_ret; auto|].
  eapply kp_bind; [apply h; now left|]. intros _ _. apply IH. intros; apply h; now right.
Qed.
Lemma kp_set_ns : forall o, kp I (set_ns o) (fun _ => True).
Proof. intros o s x s' j e. injection e as <- <-. auto. Qed.
Lemma kp_data : forall i, kp I (e_data i) (fun _ => True).
Proof. intros i s x s' j e. unfold e_data in e. destruct (data (the_arena s) i); [|discriminate]. injection e as <- <-. auto. Qed.
Lemma kp_update : forall i g, i <> f \/ (forall d, y_imports (g d) = y_imports d) -> kp I (e_update i g) (fun _ => True).
Proof.
  intros i g h s x s' [w (n & e1 & e2 & e3)] e. unfold e_update in e. cbn in e.
  destruct (update i g (w_arena s)) as [a|] eqn:eu; [|discriminate]. injection e as <- <-.
  split; auto. split; [exact (wf_update _ _ _ _ w eu)|]. destruct (node_of_update _ _ _ _ eu) as (_ & _ & sp). cbn [w_arena].
  rewrite sp, e1. eexists. split; [reflexivity|]. cbn [n_parent n_data]. split; auto.
  destruct (N.eqb_spec f i) as [<-|ne]; auto. destruct h as [h|h]; [congruence|]. now rewrite h.
Qed.
Lemma kp_child : forall p d, kp I (add_child p d) (fun c => c <> f).
Proof.
  intros p d s x s' [w (nf & ef & q1 & q2)] e. unfold add_child in e.
  apply ebind_done in e as (c & t & e1 & e). apply ebind_done in e as (u & t2 & e2 & e3).
  injection e3 as -> <-. unfold e_new in e1. cbn [the_arena wst_arena with_arena] in e1.
  destruct (new_node d (w_arena s)) as [i a1] eqn:en. injection e1 as -> <-.
  unfold e_append in e2. cbn [the_arena wst_arena with_arena w_arena] in e2.
  destruct (append p x a1) as [a2|] eqn:ea; [|discriminate]. injection e2 as _ <-.
  pose proof (wf_new _ _ _ _ w en) as w1. pose proof (wf_append _ _ _ _ w1 ea) as w2.
  destruct (node_of_new _ _ _ _ en) as (-> & hn & sp1).
  destruct (node_of_append _ _ _ _ w1 ea) as (_ & _ & _ & _ & _ & sp2).
  assert (lt : f < a_next (w_arena s)) by (eapply wf_fresh; eauto).
  split; [|lia]. split; [exact w2|]. cbn [w_arena]. rewrite sp2. unfold appended. rewrite sp1.
  rewrite (proj2 (N.eqb_neq f _)) by lia. rewrite ef. eexists. split; [reflexivity|]. auto.
Qed.

Ltac ks :=
  lazymatch goal with
  | |- kp _ (ebind (add_child _ _) _) _ => eapply kp_bind; [apply kp_child|intros ? ?; ks]
  | |- kp _ (ebind (eopt _) _) _ => eapply kp_bind; [apply kp_opt|intros ? ?; ks]
  | |- kp _ (ebind (eget _) _) _ => eapply kp_bind; [apply kp_get|intros ? ?; ks]
  | |- kp _ (ebind (e_data _) _) _ => eapply kp_bind; [apply kp_data|intros ? ?; ks]
  | |- kp _ (ebind (e_update _ _) _) _ => eapply kp_bind; [apply kp_update; first [left; assumption|right; reflexivity]|intros ? ?; ks]
  | |- kp _ (ebind (eiter _ _) _) _ => eapply kp_bind; [apply kp_iter; intros ? ?; ks|intros ? ?; ks]
  | |- kp _ (eret _) _ => apply kp_ret; auto
  | |- kp _ (match ?x with _ => _ end) _ => destruct x; ks
  | |- _ => idtac
  end.

(** A visit keeps the imports, and the parent of the children is not the file
    if that of the node is not or if it is a class *)
Lemma kp_visit : forall node parent, ~ import_clause node -> (trait_clause node -> parent <> f) ->
  kp I (w_visit node parent) (fun o => match o with Some p => (parent <> f \/ class_like node) -> p <> f | None => True end).
Proof.
  intros node parent h1 h2.
  destruct node; cbn [import_clause trait_clause] in h1, h2; try (exfalso; exact (h1 Logic.I)); cbn [w_visit];
    try specialize (h2 Logic.I); ks; try (intros [?|[]]; assumption); try (intros _; assumption).
Qed.
Lemma kp_before : forall node, kp I (w_before node) (fun _ => True).
Proof.
  destruct node; try (apply kp_ret; exact Logic.I); cbn [w_before].
  - destruct node; ks; apply kp_set_ns.
  - destruct type_ref as [[]|]; ks; apply kp_set_ns.
Qed.
Lemma kp_after : forall node, kp I (w_after node) (fun _ => True).
Proof. destruct node; try (apply kp_ret; exact Logic.I). apply kp_set_ns. Qed.

Lemma kp_importless : forall fuel node parent, importless node -> parent <> f -> kp I (w_traverse fuel node parent) (fun _ => True).
Proof.
  induction fuel as [|fuel IH]; intros node parent h hp; cbn [w_traverse]; [intros s x s' j e; discriminate|].
  inversion h as [? h1 h2]; subst.
  eapply kp_bind; [apply kp_before|]. intros _ _. eapply kp_bind; [apply kp_visit; auto|]. intros o ho.
  apply (kp_bind _ _ _ _ (fun _ => True)); [|intros _ _; apply kp_after].
  destruct o as [p|]; [|apply kp_ret; exact Logic.I]. apply kp_iter. intros x hx. apply IH; auto.
Qed.
Lemma kp_quiet : forall fuel node parent, quiet node -> kp I (w_traverse fuel node parent) (fun _ => True).
Proof.
  induction fuel as [|fuel IH]; intros node parent h; cbn [w_traverse]; [intros s x s' j e; discriminate|].
  eapply kp_bind; [apply kp_before|]. intros _ _.
  inversion h as [? h1 h2|? h1 h2 h3]; subst.
  - eapply kp_bind; [apply kp_visit; destruct node; cbn in *; tauto|]. intros o ho.
    apply (kp_bind _ _ _ _ (fun _ => True)); [|intros _ _; apply kp_after].
    destruct o as [p|]; [|apply kp_ret; exact Logic.I]. apply kp_iter. intros x hx. apply kp_importless; auto.
  - eapply kp_bind; [apply kp_visit; tauto|]. intros o ho.
    apply (kp_bind _ _ _ _ (fun _ => True)); [|intros _ _; apply kp_after].
    destruct o as [p|]; [|apply kp_ret; exact Logic.I]. apply kp_iter. intros x hx. apply IH; auto.
Qed.
End Hoare.

(** An import clause of the file adds what it says. *)
Lemma clause_adds : forall fuel f n es I s x s', Import n es -> holds f I s -> w_traverse fuel n f s = Done x s' ->
  exists l, Forall2 import_spells l es /\ holds f (extend_opt I l) s'.
Proof.
  intros fuel f n es I s x s' h j e. destruct fuel as [|fuel]; [discriminate e|].
  destruct (import_uses _ _ h) as (l & h1 & h2). exists l. split; auto.
  assert (e' : (elet gp <- e_parent f in
      let target := match gp with Some g => g | None => f end in
      elet uses <- eopt (collect_uses n no_prefix) in
      edo e_update target (fun s => with_imports (extend_opt (y_imports s) uses) s) in eret tt) s = Done x s').
  { inversion h as [? ? hi|]; subst; [inversion hi; subst|]; cbn [w_traverse w_before w_visit w_after] in e; unfold ebind, eret in e |- *;
      destruct (e_parent f s) as [gp s1| |]; try discriminate e; destruct (eopt (collect_uses _ _) s1) as [u s2| |]; try discriminate e;
      destruct (e_update _ _ s2) as [u3 s3| |]; try discriminate e; exact e. }
  clear e. rewrite h1 in e'. destruct j as [w (nf & ef & q1 & q2)].
  assert (ep : e_parent f s = Done None s) by (unfold e_parent, parent_of; cbn; rewrite ef; cbn; now rewrite q1).
  unfold ebind at 1 in e'. rewrite ep in e'. cbv zeta in e'. cbn [eopt] in e'.
  unfold ebind at 1, eret at 1 in e'. unfold ebind at 1, e_update in e'. cbn [the_arena wst_arena with_arena] in e'.
  destruct (update f _ (w_arena s)) as [a|] eqn:eu; [|discriminate e']. injection e' as <- <-.
  split; [exact (wf_update _ _ _ _ w eu)|]. destruct (node_of_update _ _ _ _ eu) as (_ & _ & sp). cbn [w_arena].
  rewrite sp, ef, N.eqb_refl. eexists. split; [reflexivity|]. split; [exact q1|]. cbn. now rewrite q2.
Qed.

Lemma extend_list : forall A (I : option (list A)) l, the_list (extend_opt I l) = the_list I ++ l.
Proof. intros A [x|] l; reflexivity. Qed.
Lemma clauses_add : forall fuel f l es I s x s', Forall2 Import l es -> holds f I s ->
  eiter (fun c => w_traverse fuel c f) l s = Done x s' ->
  exists I' r, Forall2 import_spells r (List.concat es) /\ the_list I' = the_list I ++ r /\ holds f I' s'.
Proof.
  intros fuel f l es I s x s' h. revert I s. induction h as [|n e l es hi h IH]; intros I s j ex; cbn [eiter] in ex.
  - injection ex as <- <-. exists I, []. rewrite app_nil_r. split; [constructor|]. auto.
  - apply ebind_done in ex as (u & t & e1 & e2). destruct (clause_adds _ _ _ _ _ _ _ _ hi j e1) as (r1 & h1 & h2).
    destruct (IH _ _ h2 e2) as (I' & r & h3 & h4 & h5). exists I', (r1 ++ r). split; [cbn; now apply Forall2_app|].
    split; [|exact h5]. rewrite h4, extend_list, app_assoc. reflexivity.
Qed.
Lemma statement_adds : forall fuel f n es I s x s', Imports n es -> holds f I s -> w_traverse fuel n f s = Done x s' ->
  exists I' r, Forall2 import_spells r es /\ the_list I' = the_list I ++ r /\ holds f I' s'.
Proof.
  intros fuel f n es I s x s' h j e. inversion h as [? hq|t l es' hl]; subst.
  - exists I, []. rewrite app_nil_r. split; [constructor|]. split; auto. apply (kp_quiet f I fuel n f hq _ _ _ j e).
  - destruct fuel as [|fuel]; [discriminate e|]. cbn [w_traverse w_before w_visit w_after children] in e.
    apply ebind_done in e as (u & t1 & e1 & e). injection e1 as <- <-. apply ebind_done in e as (o & t1 & e1 & e). injection e1 as <- <-.
    apply ebind_done in e as (u1 & t1 & e1 & e). injection e as <- <-. exact (clauses_add _ _ _ _ _ _ _ _ hl j e1).
Qed.
Lemma statements_add : forall fuel f l es I s x s', Forall2 Imports l es -> holds f I s ->
  eiter (fun c => w_traverse fuel c f) l s = Done x s' ->
  exists I' r, Forall2 import_spells r (List.concat es) /\ the_list I' = the_list I ++ r /\ holds f I' s'.
Proof.
  intros fuel f l es I s x s' h. revert I s. induction h as [|n e l es hi h IH]; intros I s j ex; cbn [eiter] in ex.
  - injection ex as <- <-. exists I, []. rewrite app_nil_r. split; [constructor|]. auto.
  - apply ebind_done in ex as (u & t & e1 & e2). destruct (statement_adds _ _ _ _ _ _ _ _ hi j e1) as (I1 & r1 & h1 & h0 & h2).
    destruct (IH _ _ h2 e2) as (I' & r & h3 & h4 & h5). exists I', (r1 ++ r). split; [cbn; now apply Forall2_app|].
    split; [|exact h5]. rewrite h4, h0, app_assoc. reflexivity.
Qed.

Section C30.
Context {RT : Runtime} {HH : Hashing}.
Local Notation findS := (find str_eqb).

(** When a file has been indexed, the imports of its symbol are exactly those
    that its statements write, in their order.  Partial: for files without
    imports of functions and constants, imports in the braces of a namespace
    and classes without a name that use traits, all of which end up among the
    imports of the file, see [C30_imports_refuted]. *)
Theorem C30_imports_partial : forall fuel path nodes range s s' es,
  wf (b_arena s) -> (forall f, findS path (b_files s) = Some f -> f < a_next (b_arena s)) ->
  Forall2 Imports nodes es ->
  collect_symbols fuel path nodes range s = Done tt s' ->
  exists file d, findS path (b_files s') = Some file /\ data (b_arena s') file = Some d /\
    Forall2 import_spells (match y_imports d with Some l => l | None => [] end) (List.concat es).
Proof.
  intros fuel path nodes range s s' es w hf h e.
  destruct (collect_new _ _ _ _ _ _ _ w hf e) as (w1 & ev & T & ws' & nx & ef & eo & sn & so). cbv zeta in *.
  unfold visited in ev. destruct (new_node (plain_symbol KFile path range range) (b_arena s)) as [f a1] eqn:en.
  destruct (node_of_new _ _ _ _ en) as (-> & hn & sp). cbn [snd] in ev.
  assert (j : holds (a_next (b_arena s)) None (mkWst a1 None)).
  { split; [exact (wf_new _ _ _ _ w en)|]. cbn [w_arena]. rewrite sp, N.eqb_refl. eexists. split; [reflexivity|]. auto. }
  destruct (statements_add _ _ _ _ _ _ _ _ h j ev) as (I & r & h1 & h2 & _ & n & h3 & h4 & h5).
  exists (a_next (b_arena s)), (n_data n). rewrite ef. split; [apply find_put_same, str_eqb_spec|].
  unfold data. rewrite sn by lia. rewrite h3. split; [reflexivity|]. rewrite h5.
  cbn in h2. subst r. unfold the_list in h1. exact h1.
Qed.
End C30.

(** * Cases *)

Local Existing Instance ascii_runtime | 9.
Local Existing Instance plain_hashing | 9.

Local Notation findS := (find str_eqb).

Definition is_import (n : Node) : bool :=
  match n with NGroupedUse _ _ _ _ _ | NUseDeclaration _ _ _ _ | NUseFunction _ _ _ _ | NUseConst _ _ _ _ => true | _ => false end.
Definition is_trait (n : Node) : bool :=
  match n with NUseTraitInsteadOf _ _ _ _ _ | NUseTraitAs _ _ _ _ _ _ | NUseTraitAlterationBlock _ _ _ _ | NUseTrait _ => true | _ => false end.
Definition is_class (n : Node) : bool :=
  match n with NClassStatement _ _ _ _ _ _ _ _ _ | NTraitStatement _ _ _ _ | NInterface _ _ _ _ _ => true | _ => false end.
Fixpoint importlessb (k : nat) (n : Node) : bool :=
  match k with O => false | S k => negb (is_import n) && forallb (importlessb k) (children n) end.
Fixpoint quietb (k : nat) (n : Node) : bool :=
  match k with
  | O => false
  | S k => is_class n && forallb (importlessb k) (children n)
           || negb (is_import n) && negb (is_trait n) && forallb (quietb k) (children n)
  end.
Lemma importlessb_ok : forall k n, importlessb k n = true -> importless n.
Proof.
  induction k as [|k IH]; intros n h; [discriminate h|]. cbn [importlessb] in h. apply andb_prop in h as [h1 h2]. constructor.
  - destruct n; cbn in *; auto; discriminate h1.
  - rewrite forallb_forall in h2. auto.
Qed.
Lemma quietb_ok : forall k n, quietb k n = true -> quiet n.
Proof.
  induction k as [|k IH]; intros n h; [discriminate h|]. cbn [quietb] in h. apply Bool.orb_prop in h as [h|h].
  - apply andb_prop in h as [h1 h2]. apply quiet_class; [destruct n; cbn in *; auto; discriminate h1|].
    rewrite forallb_forall in h2. intros c hc. eapply importlessb_ok; eauto.
  - apply andb_prop in h as [h h2]. apply andb_prop in h as [h0 h1]. apply quiet_other.
    + destruct n; cbn in *; auto; discriminate h0.
    + destruct n; cbn in *; auto; discriminate h1.
    + rewrite forallb_forall in h2. auto.
Qed.

(** Two plain imports, a group, and a class that uses a trait *)
Definition imports_text : str :=
  lit "<?php namespace U; use A\B, A\C as D; use X\Y\{Z, W as V}; class Q extends V { use T; function f() { return 1; } }".
Definition imports_tokens : list Token := Eval vm_compute in match scan imports_text with SOk l => l | _ => [] end.
Definition imports_nodes : list Node := Eval vm_compute in match ast 60 imports_tokens with POk (l, _) _ => l | _ => [] end.
Example C30_imports_case :
  Forall2 Imports imports_nodes
    [[]; [(lit "B", [lit "A"; lit "B"]); (lit "D", [lit "A"; lit "C"])];
     [(lit "Z", [lit "X"; lit "Y"; lit "Z"]); (lit "V", [lit "X"; lit "Y"; lit "W"])]; []] /\
  exists s', collect_symbols 60 (lit "/a") imports_nodes (mkRng (mkPos 0 0) (mkPos 0 0)) backend_new = Done tt s'.
Proof.
  assert (W1 : forall t w, word t w -> words [t] [w]) by (intros t w h; exists t, w, [], []; repeat split; auto; [apply h|apply h|constructor]).
  split; [|eexists; vm_compute; reflexivity]. unfold imports_nodes.
  apply Forall2_cons; [apply Imports_none, (quietb_ok 40); vm_compute; reflexivity|].
  apply Forall2_cons.
  { apply (Imports_use _ _ [[_]; [_]]). repeat apply Forall2_cons; [| |constructor]; apply Import_one.
    - apply (Item_name [] _ _ _ _ [lit "A"; lit "B"]). eexists _, _, _, _. repeat split. repeat constructor.
    - apply (Item_as [] _ _ _ _ _ _ [lit "A"; lit "C"]); [|reflexivity]. eexists _, _, _, _. repeat split. repeat constructor. }
  apply Forall2_cons.
  { apply (Imports_use _ _ [[_; _]]). apply Forall2_cons; [|constructor]. eapply (Import_group _ _ _ _ _ _ [lit "X"; lit "Y"]).
    - eexists [_; _; _], _. split; [reflexivity|]. split; [|split; reflexivity]. eexists _, _, _, _. repeat split. repeat constructor.
    - repeat apply Forall2_cons; [| |constructor].
      + apply (Item_name [lit "X"; lit "Y"] _ _ _ _ [lit "Z"]). apply W1. split; reflexivity.
      + apply (Item_as [lit "X"; lit "Y"] _ _ _ _ _ _ [lit "W"]); [|reflexivity]. apply W1. split; reflexivity. }
  apply Forall2_cons; [apply Imports_none, (quietb_ok 40); vm_compute; reflexivity|constructor].
Qed.

(** Names of classes are read with the imports of functions and with the traits
    of classes without a name: in these two cases they stand for [U\foo] and
    [U\T].  In a namespace with braces the name of a class is not found at
    all, not even one that is written in full. *)
Theorem C30_imports_refuted :
  (exists s, reachable s /\ s = opened "<?php namespace M; class foo {}" "<?php namespace U; use function M\foo; class D extends foo {}" /\
     stands_for s pB (mkPos 0 55) (mkPos 0 58) (lit "M\foo")) /\
  (exists s, reachable s /\ s = opened "<?php namespace A; class T {}" "<?php namespace U; $x = new class { use A\T; }; class D extends T {}" /\
     stands_for s pB (mkPos 0 64) (mkPos 0 65) (lit "A\T")) /\
  (exists s, reachable s /\ s = opened "<?php namespace A; class B {}" "<?php namespace N { class D extends \A\B {} }" /\
     findS (lit "a\b") (b_global s) <> None /\ forall from to full, ~ stands_for s pB from to full).
Proof.
  split; [|split]; eexists; (split; [|split; [reflexivity|]]; [apply state_after_reachable|]).
  - eexists. exists 2. eexists. eexists. split; [vm_compute; reflexivity|]. split; [right; left; reflexivity|]. split; [left; reflexivity|].
    split; vm_compute; reflexivity.
  - eexists. exists 2. eexists. eexists. split; [vm_compute; reflexivity|]. split; [right; right; left; reflexivity|]. split; [left; reflexivity|].
    split; vm_compute; reflexivity.
  - split; [vm_compute; discriminate|]. intros from to full (m & i & rs & d & h1 & h2 & _).
    assert (e : findS pB (b_refs (opened "<?php namespace A; class B {}" "<?php namespace N { class D extends \A\B {} }")) = Some [])
      by (vm_compute; reflexivity).
    rewrite e in h1. injection h1 as <-. destruct h2.
Qed.

Print Assumptions C30_imports_partial.
Print Assumptions C30_imports_refuted.
