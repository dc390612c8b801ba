(** Property C43, the positive part: where completion does not crash. *)

From Coq Require Import Permutation.
From Verif Require Import Base Token TokenFacts Scanner Node NodeFacts DocBlock Parser ParserSpec ParserAst Assoc AssocFacts Arena ArenaFacts
  Symbol EnvMonad EnvFacts Workspace WorkspaceFacts Resolver SpecNames ResolverFacts
  Backend BackendFacts SpecServer ServerInv Prop_Server Suggester.
From Verif Require Prop_Symbols Prop_Parser Prop_Scanner Prop_Suggest Prop_Complete.

Local Notation findS := (find str_eqb).
Local Existing Instance ascii_runtime | 9.
Local Existing Instance plain_hashing | 9.
Local Open Scope string_scope.
Local Open Scope N_scope.
Local Open Scope list_scope.

(** * Specification *)

(** [ast] is the tree of a text without a heredoc that has no name (C10) and
    without the constructs that have no range (C18). *)
Definition ordinary {RT : Runtime} (ast : list Node) : Prop :=
  (exists fuel text, syntax fuel text = Some ast /\
     forall ts, scan text = SOk ts -> ~ (exists t, In t ts /\ t_type t = THereDocEnd /\ t_label t = Some [])) /\
  (forall root n, In root ast -> node_in n root -> ~ hollow n).
(** The imports that are recorded for the file have names that can be shown. *)
Definition shows (i : SymbolImport) : Prop :=
  kind (i_path i) <> [] /\ Forall (fun t => exists e, token_end t = Some e) (kind (i_path i)).
(** The name of a member is at the cursor, or a literal *)
Definition member_at (ast : list Node) (p : Position) : Prop :=
  exists around m, Prop_Complete.at_cursor ast p around m /\
    match m with NMissing _ | NLiteral _ | NMember _ _ _ _ _ => True | _ => False end.

(** * Proofs *)

Definition fine {A} (b : bst) (m : B A) (P : A -> Prop) : Prop := exists x, m b = Done x b /\ P x.
Lemma f_ret : forall A b (x : A) (P : A -> Prop), P x -> fine b (eret x) P.
Proof. intros A b x P h. exists x. split; [reflexivity|exact h]. Qed.
Lemma f_bind : forall A C b (m : B A) (k : A -> B C) (P : A -> Prop) (Q : C -> Prop),
  fine b m P -> (forall x, P x -> fine b (k x) Q) -> fine b (ebind m k) Q.
Proof. intros A C b m k P Q (x & e & h) hk. destruct (hk x h) as (y & e' & h'). exists y. unfold ebind. rewrite e. auto. Qed.
Lemma f_weak : forall A b (m : B A) (P Q : A -> Prop), fine b m P -> (forall x, P x -> Q x) -> fine b m Q.
Proof. intros A b m P Q (x & e & h) hq. exists x. auto. Qed.
Lemma f_opt : forall A b (o : option A), o <> None -> fine b (eopt o) (fun x => o = Some x).
Proof. intros A b [x|] h; [exists x; split; reflexivity|congruence]. Qed.
Lemma f_get : forall A b (f : bst -> A), fine b (eget f) (fun x => x = f b).
Proof. intros A b f. exists (f b). split; reflexivity. Qed.
Lemma f_fold : forall A C b (f : C -> A -> B C) (I : C -> Prop) l c0,
  I c0 -> (forall x y, I x -> In y l -> fine b (f x y) I) -> fine b (efold f c0 l) I.
Proof.
  intros A C b f I l. induction l as [|y l IH]; intros c0 h0 h; cbn [efold]; [apply f_ret; exact h0|].
  eapply f_bind; [apply h; [exact h0|left; reflexivity]|]. intros x hx. apply IH; [exact hx|].
  intros x' y' hx' hy'. apply h; [exact hx'|right; exact hy'].
Qed.
Lemma f_find : forall A C b (f : A -> B (option C)) (P : C -> Prop) l,
  (forall y, In y l -> fine b (f y) (fun o => forall c, o = Some c -> P c)) ->
  fine b (efind f l) (fun o => forall c, o = Some c -> P c).
Proof.
  intros A C b f P l. induction l as [|y l IH]; intros h; cbn [efind]; [apply f_ret; discriminate|].
  eapply f_bind; [apply h; left; reflexivity|]. cbv beta. intros [c|] hc; [apply f_ret; exact hc|].
  apply IH. intros y' hy'. apply h. right. exact hy'.
Qed.
Lemma f_map : forall A C b (f : A -> B C) l, (forall y, In y l -> fine b (f y) (fun _ => True)) ->
  fine b (emap f l) (fun _ => True).
Proof.
  intros A C b f l. induction l as [|y l IH]; intros h; cbn [emap]; [apply f_ret; exact I|].
  eapply f_bind; [apply h; left; reflexivity|]. intros x _. eapply f_bind; [apply IH; intros; apply h; right; assumption|].
  intros xs _. apply f_ret. exact I.
Qed.
Lemma f_data : forall b i, live (b_arena b) i -> fine b (e_data i) (fun d => data (b_arena b) i = Some d).
Proof.
  intros b i (n & e). exists (n_data n). unfold e_data. change (the_arena b) with (b_arena b). unfold data. rewrite e. split; reflexivity.
Qed.
Lemma f_kids : forall b i, wf (b_arena b) -> live (b_arena b) i ->
  fine b (e_kids i) (fun l => forall c, In c l -> live (b_arena b) c).
Proof.
  intros b i w (n & e). exists (n_kids n). unfold e_kids. change (the_arena b) with (b_arena b). unfold kids. rewrite e. split; [reflexivity|].
  intros c hc. destruct (wf_down _ w _ _ _ e hc) as (m & em & _). exists m. exact em.
Qed.
Lemma up_live : forall (a : arena Symbol) i x, wf a -> Up a i x -> live a i -> live a x.
Proof.
  intros a i x w u. induction u as [i|i p n t e q u IH]; [auto|]. intros _. apply IH. destruct (wf_up _ w _ _ _ e q) as (m & em & _).
  exists m. exact em.
Qed.
Lemma f_ancestors : forall b i, wf (b_arena b) -> live (b_arena b) i ->
  fine b (e_ancestors i) (fun l => forall c, In c l -> live (b_arena b) c).
Proof.
  intros b i w li. unfold e_ancestors. eapply f_bind; [apply f_get|]. intros a ->.
  destruct (ancestors_total _ _ w li) as (l & e). eapply f_weak; [apply f_opt; congruence|]. cbv beta. intros x hx c hc.
  apply (ancestors_spec _ _ _ hx) in hc. eapply up_live; eassumption.
Qed.

(** ** Trees *)

Lemma child_below : forall n c, In c (children n) -> exists k, In k (subnodes n) /\ node_in c k.
Proof.
  fix F 1. intros n c h.
  assert (q : In c (subnodes n) -> exists k, In k (subnodes n) /\ node_in c k) by (intros h0; exists c; split; [exact h0|constructor]).
  destruct n; cbn [children] in h; cbn [subnodes] in q |- *; try contradiction; try (apply q; exact h).
  all: try (apply q; repeat (rewrite ?in_app_iff in *; cbn [In] in * ); tauto).
  all: repeat match goal with o : option Node |- _ => destruct o end.
  all: cbn [opt_list app] in *; try (apply q; exact h); try (apply q; cbn in *; tauto).
  apply F in h as (k & hk & hc). exists n. split; [left; reflexivity|]. eapply in_sub; eassumption.
Qed.
Lemma child_in : forall n c, In c (children n) -> node_in c n.
Proof. intros n c h. destruct (child_below _ _ h) as (k & hk & hc). eapply in_sub; eassumption. Qed.
Lemma size_list : forall m l, In m l -> (node_size m <= list_sum (map node_size l))%nat.
Proof. intros m l. unfold list_sum in *; induction l as [|x l IH]; cbn; [tauto|]. intros [->|h]; [lia|]. specialize (IH h). lia. Qed.
Lemma size_opts : forall m l, In m (flat_map opt_list l) ->
  (node_size m <= list_sum (map (fun o => match o with Some x => node_size x | None => O end) l))%nat.
Proof.
  intros m l. unfold list_sum in *; induction l as [|x l IH]; cbn; [tauto|]. intros h. apply in_app_or in h as [h|h]; [|specialize (IH h); lia].
  destruct x as [x|]; cbn in h; [destruct h as [->|[]]; lia|tauto].
Qed.
Lemma subnode_size : forall n m, In m (subnodes n) -> (node_size m < node_size n)%nat.
Proof.
  intros n m h. destruct n; cbn [subnodes] in h; cbn [node_size]; try contradiction.
  all: repeat match goal with o : option Node |- _ => destruct o | o : option (list Node) |- _ => destruct o end.
  all: cbn [opt_list opt_nodes app] in h; unfold list_sum in *; cbv zeta.
  all: repeat match type of h with
    | In _ (_ ++ _) => apply in_app_or in h as [h|h]
    | In _ (_ :: _) => destruct h as [<-|h]
    | In _ [] => destruct h
    | In _ (flat_map opt_list _) => apply size_opts in h; unfold list_sum in h
    | In _ _ => apply size_list in h; unfold list_sum in h
    end; try lia.
Qed.
Lemma in_size : forall m n, node_in m n -> (node_size m <= node_size n)%nat.
Proof. intros m n h. induction h as [n|m k n hk hm IH]; [lia|]. pose proof (subnode_size _ _ hk). lia. Qed.
Lemma child_size : forall n c, In c (children n) -> (node_size c < node_size n)%nat.
Proof.
  intros n c h. destruct (child_below _ _ h) as (k & hk & hc). pose proof (subnode_size _ _ hk). pose proof (in_size _ _ hc). lia.
Qed.

Section Trees.
Context {RT : Runtime} {HH : Hashing}.

Definition sound (n : Node) : Prop := node_range n <> None /\ node_name n <> None.

Lemma end_shown : forall t e, token_end t = Some e -> display_token t <> None.
Proof. intros t e h. unfold token_end in h. destruct (display_token t); [discriminate|discriminate h]. Qed.
Lemma shown_all : forall l, Forall (fun t => display_token t <> None) l -> display_tokens l <> None.
Proof.
  induction 1 as [|t l h _ IH]; cbn [display_tokens]; [discriminate|].
  destruct (display_token t) as [x|]; [|congruence]. destruct (display_tokens l) as [y|]; [|congruence]. discriminate.
Qed.

Lemma ordinary_sound : forall ast root n, ordinary ast -> In root ast -> node_in n root -> sound n.
Proof.
  intros ast root n ((fuel & text & hs & no) & hh) hr hi. unfold syntax in hs.
  destruct (scan_state text) as [t| | |] eqn:es; try discriminate hs.
  destruct (Parser.ast fuel (rev (s_toks t))) as [[st er]| | |] eqn:ea; try discriminate hs. injection hs as ->.
  assert (sc : scan text = SOk (rev (s_toks t))) by (unfold scan; rewrite es; reflexivity).
  split.
  - destruct (Prop_Parser.C18_ranges_partial fuel text (rev (s_toks t)) ast er s sc (no _ sc) ea root n hr hi) as (r & hr'); [|congruence].
    intros m hm. apply (hh root m hr). eapply node_in_trans; eassumption.
  - destruct (ast_any _ _ _ _ _ ea) as [G _]. rewrite Forall_forall in G. specialize (G root hr).
    pose proof (Good_in _ _ _ _ _ G hi) as [n0 [ht _] _].
    assert (sh : forall u, In u (own_toks n0) -> display_token u <> None).
    { intros u hu. rewrite Forall_forall in ht. destruct (ht u hu) as [hT|[_ hp]].
      - destruct (Prop_Scanner.C09_token_end_partial RT text _ u sc hT) as (e & he); [|eapply end_shown; exact he].
        intros q. apply (no _ sc). exists u. auto.
      - destruct hp as (h1 & h2 & _). unfold display_token. rewrite h2, h1. discriminate. }
    destruct n0; cbn [node_name]; try discriminate; try (apply sh; cbn [own_toks]; auto with datatypes; fail).
    + apply shown_all. apply Forall_forall. intros u hu. apply sh. cbn [own_toks]. auto.
Qed.

(** ** The node at the cursor *)

Lemma f_find_node : forall b p n anc, (forall m, node_in m n -> sound m) ->
  forall fuel, (node_size n <= fuel)%nat ->
  fine b (find_node fuel n p anc) (fun o => match o with Some (m, _) => node_in m n | None => True end).
Proof.
  intros b p n anc hs fuel. revert n anc hs. induction fuel as [|fuel IH]; intros n anc hs le.
  { destruct n; cbn in le; lia. }
  cbn [find_node].
  eapply f_bind with (P := fun o => forall c, o = Some c -> match c with Some (m, _) => node_in m n | None => True end).
  - apply f_find. intros c hc. eapply f_bind; [apply f_opt; apply hs; apply child_in; exact hc|]. intros r hr.
    destruct (in_range p (get_range r)); [|apply f_ret; discriminate].
    eapply f_bind; [apply IH|].
    + intros m hm. apply hs. eapply node_in_trans; [exact hm|apply child_in; exact hc].
    + pose proof (child_size _ _ hc). lia.
    + cbv beta. intros o ho. apply f_ret. intros c0 [= <-]. destruct o as [[m l]|]; [|exact I].
      eapply node_in_trans; [exact ho|apply child_in; exact hc].
  - intros [o|] ho; [apply f_ret; exact (ho o eq_refl)|].
    eapply f_bind; [apply f_opt; apply hs; constructor|]. intros r hr. apply f_ret.
    destruct (in_range p (get_range r)); [constructor|exact I].
Qed.
End Trees.

(** ** Every name is in the index once. *)

Section Index.
Context {RT : Runtime}.
Definition ginv (s : bst) : Prop := winv s /\ NoDup (keys (b_global s)).

Lemma deregister_once : forall l s u s', NoDup (keys (b_global s)) -> eiter deregister l s = Done u s' -> NoDup (keys (b_global s')).
Proof.
  induction l as [|c l IH]; intros s u s' h e; cbn [eiter] in e.
  - injection e as _ <-. exact h.
  - step e. unfold deregister in e1. step e1. apply reads_data in e0. subst.
    step e1. injection e0 as <- <-. injection e1 as _ <-. eapply IH; [|exact e]. cbn. apply nodup_del. exact h.
Qed.
Lemma register_once : forall l s u s', NoDup (keys (b_global s)) -> eiter register l s = Done u s' -> NoDup (keys (b_global s')).
Proof.
  induction l as [|c l IH]; intros s u s' h e; cbn [eiter] in e.
  - injection e as _ <-. exact h.
  - step e. unfold register in e1. step e1. apply reads_data in e0. subst.
    destruct (register_global (y_kind x0)).
    + step e1. injection e0 as <- <-. injection e1 as _ <-. eapply IH; [|exact e]. cbn. apply nodup_put; [apply str_eqb_spec|exact h].
    + injection e1 as _ <-. eapply IH; [|exact e]. exact h.
Qed.

Lemma collect_once : forall {HH : Hashing} fuel path nodes range s u s', NoDup (keys (b_global s)) ->
  collect_symbols fuel path nodes range s = Done u s' -> NoDup (keys (b_global s')).
Proof.
  intros HH fuel path nodes range s u s' h e. unfold collect_symbols in e.
  take e as en. unfold e_new in en. destruct (new_node _ _) as [f a1] in en. injection en as <- <-.
  take e as ev. unfold visit_symbols in ev. destruct (eiter _ nodes _) as [[] w| |] in ev; try discriminate ev. injection ev as <- <-.
  take e as ef. injection ef as <- <-. take e as es. injection es as <- <-.
  take e as eo. take e as ek. apply reads_kids in ek. subst. eapply register_once; [|exact e]. clear e.
  destruct (find str_eqb path _) as [old|] in eo; [|injection eo as _ <-; exact h].
  take eo as ek. apply reads_kids in ek. subst.
  take eo as ed. apply deregister_once in ed; [|exact h].
  take eo as ea. injection ea as <- <-. take eo as eds. apply eopt_done in eds as [_ ->].
  take eo as er. unfold forget_references in er. take er as eg. injection eg as <- <-. injection er as _ <-.
  unfold on_arena in eo. destruct (remove_subtree _ _) in eo; [|discriminate eo]. injection eo as _ <-. exact ed.
Qed.

Lemma rebuild_once : forall {HH : Hashing} s u s', rebuild_global s = Done u s' -> NoDup (keys (b_global s')).
Proof.
  intros HH s u s' e. unfold rebuild_global in e. step e. injection e1 as <- <-.
  step e. injection e1 as _ <-.
  change (mkBst _ _ [] _ _ _ _) with (with_global [] s) in e.
  assert (k : forall l b u s', NoDup (keys (b_global b)) -> eiter (fun f : str * N => elet cs <- e_kids (snd f) in eiter register cs) l b
    = Done u s' -> NoDup (keys (b_global s'))).
  { clear. induction l as [|f l IH]; intros b u s' h e; cbn [eiter] in e.
    - injection e as _ <-. exact h.
    - step e. step e1. apply reads_kids in e0. subst. apply register_once in e1; [|exact h]. eapply IH; eauto. }
  eapply k; [|exact e]. constructor.
Qed.

Lemma ginv_keeps : forall {HH : Hashing}, keeps ginv (fun _ => True) (fun _ => True).
Proof.
  intros HH. constructor.
  - intros fuel path nodes range s u s' [I h] _ _ e. split.
    + eapply (kp_collect _ _ _ winv_keeps); eauto.
    + eapply collect_once; eauto.
  - intros fuel path nodes s x s' [I h] _ e. destruct (analyse_winv _ _ _ _ _ _ I e) as (I' & _ & q & _). split; [exact I'|]. rewrite q. exact h.
  - intros s u s' [I h] e. split; [eapply (kp_rebuild _ _ _ winv_keeps); eauto|eapply rebuild_once; eauto].
  - intros s s' [I h] h1 h2 h3 h4 h5. split; [eapply (kp_rest _ _ _ winv_keeps); eauto|]. rewrite h3. exact h.
  - intros s [I _]. apply (wi_open _ I).
  - auto.
Qed.

Lemma reachable_ginv : forall s, reachable s -> ginv s.
Proof.
  induction 1 as [|s s' hs fuel disk order e h IH r]; [split; [apply winv_new|constructor]|].
  eapply keep_serve; [apply ginv_keeps|exact IH| |exact r].
  split; [split; auto; intros ? ? _; auto|]. destruct e; auto. split; auto.
  apply Forall_forall. intros ? _ ? ? _. auto.
Qed.
End Index.

(** ** Suggestions *)

Section Offers.
Context {RT : Runtime} {HH : Hashing}.

(** A suggestion that can be shown *)
Definition usable (b : bst) (g : Suggestion) : Prop :=
  g_this g = true \/ (exists t, g_token g = Some t /\ display_type t <> None) \/
  (g_token g = None /\ exists i, g_node g = Some i /\ live (b_arena b) i /\ (g_context g = SImport -> g_replace g <> None)).

Variable b : bst.
Hypothesis w : wf (b_arena b).
Hypothesis gl : forall k i, In (k, i) (b_global b) -> live (b_arena b) i.

Lemma in_order : forall k i, In (k, i) (h_order (b_global b)) -> live (b_arena b) i.
Proof. intros k i h. apply (gl k). eapply Permutation_in; [apply h_perm|exact h]. Qed.

Lemma usable_app : forall l g, (forall x, In x l -> usable b x) -> usable b g -> forall x, In x (l ++ [g]) -> usable b x.
Proof. intros l g h hg x hx. apply in_app_or in hx as [hx|[<-|[]]]; auto. Qed.
Lemma usable_node : forall i c r, live (b_arena b) i -> (c = SImport -> r <> None) -> usable b (sug_node i c r).
Proof. intros i c r l h. right. right. split; [reflexivity|]. exists i. auto. Qed.

Lemma f_imports : forall d, sound d -> fine b (suggest_imports d) (fun l => forall g, In g l -> usable b g).
Proof.
  intros d [hr hn]. unfold suggest_imports. eapply f_bind; [apply f_opt|].
  { unfold node_normalized_name. destruct (node_name d); [discriminate|congruence]. }
  intros prefix _. eapply f_bind; [apply f_get|]. intros g ->. apply f_fold; [intros ? []|].
  intros l [k i] hl hi. destruct (starts_with prefix (fst (k, i))); [|apply f_ret; exact hl].
  eapply f_bind; [apply f_opt; exact hr|]. intros r _. apply f_ret. apply usable_app; [exact hl|].
  apply usable_node; [apply (in_order k); exact hi|discriminate].
Qed.
Lemma f_traits : forall d n, sound d -> sound n -> fine b (suggest_traits d n) (fun l => forall g, In g l -> usable b g).
Proof.
  intros d n [_ hn] [hr _]. unfold suggest_traits. eapply f_bind; [apply f_opt|].
  { unfold node_normalized_name. destruct (node_name d); [discriminate|congruence]. }
  intros prefix _. eapply f_bind; [apply f_get|]. intros g ->. apply f_fold; [intros ? []|].
  intros l [k i] hl hi. eapply f_bind; [apply f_data; apply (in_order k); exact hi|]. intros s _.
  destruct (negb _); [apply f_ret; exact hl|]. destruct (starts_with _ _); [|apply f_ret; exact hl].
  eapply f_bind; [apply f_opt; exact hr|]. intros r _. apply f_ret. apply usable_app; [exact hl|].
  apply usable_node; [apply (in_order k); exact hi|discriminate].
Qed.
Lemma f_symbols : forall n, sound n -> fine b (suggest_symbols n) (fun l => forall g, In g l -> usable b g).
Proof.
  intros n [hr hn]. unfold suggest_symbols. eapply f_bind; [apply f_opt|].
  { unfold node_normalized_name. destruct (node_name n); [discriminate|congruence]. }
  intros prefix _. eapply f_bind; [apply f_get|]. intros g ->. apply f_fold; [intros ? []|].
  intros l [k i] hl hi. eapply f_bind; [apply f_data; apply (in_order k); exact hi|]. intros s _.
  destruct (starts_with _ _); [|apply f_ret; exact hl].
  eapply f_bind; [apply f_opt; exact hr|]. intros r _. apply f_ret. apply usable_app; [exact hl|].
  apply usable_node; [apply (in_order k); exact hi|discriminate].
Qed.
Lemma f_variables : forall i, live (b_arena b) i -> fine b (suggest_variables i) (fun l => forall g, In g l -> usable b g).
Proof.
  intros i li. unfold suggest_variables. eapply f_bind; [apply f_kids; assumption|]. intros cs hcs.
  eapply f_bind with (P := fun l => forall g, In g l -> usable b g).
  { apply f_fold; [intros ? []|]. intros l c hl hc. eapply f_bind; [apply f_data; auto|]. intros d _. apply f_ret.
    destruct (_ || _); [|exact hl]. apply usable_app; [exact hl|]. apply usable_node; [auto|discriminate]. }
  intros l hl. eapply f_bind; [apply f_ancestors; assumption|]. intros anc hanc.
  eapply f_bind with (P := fun _ => True).
  { eapply f_weak; [|intros; exact I]. unfold first_class. apply (f_find _ _ b _ (fun _ => True)). intros y hy.
    eapply f_bind; [apply f_data; auto|]. intros d _. apply f_ret. auto. }
  intros o _. apply f_ret. intros g hg. apply in_app_or in hg as [hg|hg]; [auto|].
  destruct o; cbn in hg; [destruct hg as [<-|[]]; left; reflexivity|destruct hg].
Qed.
Lemma f_keywords : forall i, live (b_arena b) i -> fine b (suggest_keywords i) (fun l => forall g, In g l -> usable b g).
Proof.
  intros i li. unfold suggest_keywords. eapply f_bind; [apply f_data; exact li|]. intros d _. apply f_ret.
  intros g hg. right. left. destruct (y_kind d); try contradiction. cbn in hg.
  repeat (destruct hg as [<-|hg]; [eexists; split; [reflexivity|discriminate]|]). destruct hg.
Qed.

Lemma f_suggestions : forall order trigger p suc ast refs, live (b_arena b) suc ->
  (forall root n, In root ast -> node_in n root -> sound n) -> ~ member_at ast p ->
  exists enough, forall fuel, (enough <= fuel)%nat ->
  fine b (get_suggestions_at fuel order trigger p suc ast refs) (fun l => forall g, In g l -> usable b g).
Proof.
  intros order trigger p suc ast refs ls hs nm. exists (list_sum (map node_size ast)). intros fuel le.
  assert (sz : forall n, In n ast -> (node_size n <= fuel)%nat) by (intros n hn; pose proof (size_list _ _ hn); lia).
  assert (F : fine b (efind (fun n => find_node fuel n p []) ast)
    (fun o => forall c, o = Some c -> exists root, In root ast /\ node_in (fst c) root)).
  { apply f_find. intros n hn. eapply f_weak; [apply f_find_node; [intros m hm; eapply hs; eassumption|auto]|].
    cbv beta. intros o ho [m l] ->. exists n. auto. }
  destruct F as (o & eo & ho). pose proof (Prop_Complete.C59_node_found _ _ _ _ _ _ eo) as at_.
  unfold get_suggestions_at. eapply f_bind with (P := eq o); [exists o; split; [exact eo|reflexivity]|]. intros ? <-.
  destruct o as [[m l]|].
  2:{ destruct (match trigger with Some c => c =? 36 | None => false end); [apply f_variables|apply f_keywords]; exact ls. }
  destruct (ho _ eq_refl) as (root & hr & hm). cbn [fst] in hm. destruct at_ as (around & _ & hat).
  assert (sm : sound m) by (eapply hs; eassumption).
  assert (sub : forall k, In k (subnodes m) -> sound k).
  { intros k hk. eapply hs; [exact hr|]. eapply node_in_trans; [|exact hm]. eapply in_sub; [exact hk|constructor]. }
  assert (nm' : match m with NMissing _ | NLiteral _ | NMember _ _ _ _ _ => False | _ => True end).
  { destruct m; try exact I; apply nm; exists around; (eexists; split; [exact hat|exact I]). }
  assert (kw : fine b (if class_block (rev (removelast l)) then eret (map sug_token [TPublic; TPrivate; TProtected]) else suggest_symbols m)
     (fun l => forall g, In g l -> usable b g)).
  { destruct (class_block _); [|apply f_symbols; exact sm]. apply f_ret. intros g hg. right. left. cbn in hg.
    repeat (destruct hg as [<-|hg]; [eexists; split; [reflexivity|discriminate]|]). destruct hg. }
  destruct m; try exact kw; try contradiction.
  all: try (apply f_variables; exact ls).
  all: try (apply f_imports; apply sub; cbn [subnodes]; auto with datatypes; fail).
  all: try (apply f_traits; [apply sub; cbn [subnodes]; auto with datatypes|exact sm]).
Qed.

(** ** The answer *)

Lemma f_line : forall file sym, (forall l i, y_imports file = Some l -> In i l -> shows i) ->
  fine b (import_line file sym) (fun _ => True).
Proof.
  intros file sym h. unfold import_line. destruct (y_ns sym) as [ns|]; [|apply f_ret; exact I].
  destruct (match y_ns file with Some n => str_eqb n ns | None => false end); [apply f_ret; exact I|].
  destruct (y_imports file) as [l|]; [|apply f_ret; exact I]. specialize (h l).
  assert (sh : forall i, In i l -> shows i) by auto.
  eapply f_bind with (P := fun _ => True).
  { eapply f_weak; [|intros; exact I]. apply (f_find _ _ b _ (fun _ => True)). intros i hi. destruct (sh i hi) as [_ q].
    eapply f_bind; [apply f_opt|].
    - unfold import_full_name, tref_to_fqdn. apply shown_all. eapply Forall_impl; [|exact q]. cbv beta. intros t (e & he). eapply end_shown; exact he.
    - intros n _. apply f_ret. auto. }
  intros [|] _; [apply f_ret; exact I|]. destruct l as [|i l]; [apply f_ret; exact I|].
  destruct (sh i (or_introl eq_refl)) as [ne q]. eapply f_bind; [apply f_opt|intros; apply f_ret; exact I].
  unfold tref_range. destruct (kind (i_path i)) as [|t ts] eqn:ek; [congruence|]. cbn [first_opt obind].
  destruct (last_opt (t :: ts)) as [u|] eqn:el.
  - assert (hu : In u (t :: ts)).
    { unfold last_opt in el. destruct (rev (t :: ts)) as [|v r] eqn:er; [discriminate el|]. injection el as ->. apply in_rev. rewrite er. left. reflexivity. }
    rewrite Forall_forall in q. destruct (q t (or_introl eq_refl)) as (e1 & h1). destruct (q u hu) as (e2 & h2).
    cbn [obind]. unfold token_range, rng_tok_tok. rewrite h1, h2. destruct e1, e2. discriminate.
  - unfold last_opt in el. destruct (rev (t :: ts)) eqn:er; [|discriminate el]. apply (f_equal (@List.length _)) in er. rewrite rev_length in er. discriminate er.
Qed.

Lemma f_item : forall file g, (forall l i, y_imports file = Some l -> In i l -> shows i) -> usable b g ->
  fine b (completion_item file g) (fun _ => True).
Proof.
  intros file g hi hg. unfold completion_item. destruct (g_this g) eqn:et; [apply f_ret; exact I|].
  destruct hg as [hg|[(t & ht & hd)|(ht & i & hn & hl & hc)]]; [congruence| |]; rewrite ht.
  - eapply f_bind; [apply f_opt; exact hd|]. intros l _. apply f_ret. exact I.
  - eapply f_bind; [apply f_opt; congruence|]. intros n hn'. assert (n = i) by congruence. subst n.
    eapply f_bind; [apply f_data; exact hl|]. intros d _. destruct (_ || _).
    + assert (line : fine b (elet line <- import_line file d in
            eret (mkItem (sym_name d) None
                    (opt_map (fun line => [(mkRng (mkPos line 0) (mkPos line 0), lit "use " ++ fqdn d ++ lit ";" ++ [10])]) line))) (fun _ => True)).
      { eapply f_bind; [apply f_line; exact hi|]. intros line _. apply f_ret. exact I. }
      destruct (g_context g) eqn:ec; try exact line.
      eapply f_bind; [apply f_opt; apply hc; reflexivity|]. intros r _. apply f_ret. exact I.
    + eapply f_bind with (P := fun _ => True); [|intros text _; apply f_ret; exact I].
      assert (call : fine b (elet cs <- e_kids i in elet ds <- emap e_data cs in
         eret (Some (y_name d ++ lit "(" ++ join (lit ", ") (snippets 1 (map sym_name ds)) ++ lit ")"))) (fun _ => True)).
      { eapply f_bind; [apply f_kids; assumption|]. intros cs hcs. eapply f_bind.
        - apply f_map. intros c hcc. eapply f_weak; [apply f_data; auto|]. auto.
        - intros ds _. apply f_ret. exact I. }
      unfold insert_text. destruct (y_kind d); try exact call; apply f_ret; exact I.
Qed.
End Offers.

(** C43, partial: in a file that is open, at a place that is not the name of a
    member, completion is answered, and the server goes on as before. *)
Theorem C43_answered_partial : forall {RT : Runtime} {HH : Hashing} D s order path ast range f fd refs p trigger,
  tame D s ->
  findS path (b_open s) = Some (ast, range) -> ordinary ast -> ~ member_at ast p ->
  findS path (b_files s) = Some f -> data (b_arena s) f = Some fd ->
  (forall l i, y_imports fd = Some l -> In i l -> shows i) -> findS path (b_refs s) = Some refs ->
  exists enough, forall fuel, (enough <= fuel)%nat ->
    exists items, completion fuel order path p trigger s = Done (Some items) s.
Proof.
  intros RT HH D s order path ast range f fd refs p trigger t ho hast nm hf hd hi hrefs.
  assert (r : reachable s).
  { clear - t. induction t as [|s s' hs fuel disk order e t IH te h]; [constructor|]. eapply reach_event; eassumption. }
  destruct (reachable_ginv _ r) as [_ nd]. pose proof (tame_binv _ _ t) as I. pose proof (bi_wf _ _ I) as w.
  assert (gl : forall k i, In (k, i) (b_global s) -> live (b_arena s) i).
  { intros k i h. apply (in_find str_eqb str_eqb_spec) in h; [|exact nd]. destruct (bi_index _ _ I _ _ h) as (m & _ & _ & em & _). exists m. exact em. }
  destruct (Prop_Symbols.C20_innermost_partial (b_arena s) p f w) as (suc & hsuc & win & _).
  { unfold SpecServer.alive. congruence. }
  assert (lsuc : live (b_arena s) suc).
  { destruct win as [j|j k l e u]; [|unfold parent_of in e; destruct (node_of (b_arena s) j) as [n|] eqn:en; [exists n; exact en|discriminate e]].
    unfold data in hd. destruct (node_of (b_arena s) j) as [n|] eqn:en; [exists n; exact en|discriminate hd]. }
  destruct (f_suggestions s w gl order trigger p suc ast refs lsuc (fun root n => ordinary_sound ast root n hast) nm) as (enough & H).
  exists enough. intros fuel le. destruct (H fuel le) as (l & el & hl).
  assert (F : fine s (emap (completion_item fd) l) (fun _ => True)) by (apply f_map; intros g hg; apply f_item; auto).
  destruct F as (items & ei & _). exists items.
  unfold completion. unfold ebind at 1. unfold eget at 1. rewrite ho. unfold ebind at 1. unfold eget at 1. rewrite hf.
  unfold ebind at 1. unfold e_data at 1. change (the_arena s) with (b_arena s). rewrite hd.
  unfold ebind at 1. unfold eget at 1. unfold ebind at 1. unfold eopt at 1. rewrite hsuc. unfold ebind at 1. unfold eget at 1. unfold eret at 1. rewrite hrefs.
  unfold ebind at 1. rewrite el. unfold ebind at 1. rewrite ei. reflexivity.
Qed.

(** A file with an import and a class is opened; the cursor is on the variable
    [$x] of a method, on the name [Fo] and behind the class. *)
Definition text43c : string :=
  "<?php namespace N; use M\Foo; class Baz { function m($a) { $x = $a; $x; Fo; } } ".
Definition disk43c := disk2 "<?php namespace M; class Foo { }" text43c.
Definition names43c : list str := [pA; pB; lit "Foo"; lit "Baz"; lit "m"].
Definition case43c : bst := state_after [(disk43c, EvIndex [pA; pB]); (disk43c, EvOpen pB (lit text43c))].

Fixpoint solid (k : nat) (n : Node) : bool :=
  match k with
  | O => false
  | S k => negb (Prop_Parser.hollowb n) && forallb (solid k) (subnodes n)
  end.
Lemma solid_spec : forall m n, node_in m n -> forall k, solid k n = true -> ~ hollow m.
Proof.
  intros m n h. induction h as [n|m c n hc hm IH]; intros [|k] e; cbn [solid] in e; try discriminate e; apply andb_true_iff in e as [e1 e2].
  - intros h. destruct n; cbn [hollow] in h; try contradiction; match type of h with match ?l with _ => _ end => destruct l; [discriminate e1|contradiction] end.
  - rewrite forallb_forall in e2. eapply IH. apply e2. exact hc.
Qed.
Definition shownb (i : SymbolImport) : bool :=
  match kind (i_path i) with [] => false | l => forallb (fun t => match token_end t with Some _ => true | None => false end) l end.
Lemma shownb_spec : forall i, shownb i = true -> shows i.
Proof.
  intros i e. unfold shownb in e. split; [intros q; rewrite q in e; discriminate e|]. apply Forall_forall. intros t ht.
  destruct (kind (i_path i)) as [|u l]; [contradiction|]. rewrite forallb_forall in e. specialize (e t ht).
  destruct (token_end t) as [x|]; [exists x; reflexivity|discriminate e].
Qed.
Definition member_node (m : Node) : bool := match m with NMissing _ | NLiteral _ | NMember _ _ _ _ _ => true | _ => false end.
Lemma not_member : forall ast p fuel b o b', efind (fun n => find_node fuel n p []) ast b = Done o b' ->
  match o with Some (m, _) => member_node m | None => false end = false -> ~ member_at ast p.
Proof.
  intros ast p fuel b o b' e h (around & m & hm & k). pose proof (Prop_Complete.r_cursor _ _ _ _ fuel b hm) as R.
  destruct (R _ _ e) as [_ R']. cbv beta in R'. subst o. destruct m; try contradiction; discriminate h.
Qed.

Definition labels43 (c : N) : option (list str) :=
  match completion 60 (fun l => l) pB (mkPos 0 c) None case43c with Done o _ => opt_map (map i_label) o | _ => None end.
Example C43_answered_case :
  tame (fun k => In k names43c) case43c /\
  (exists ast range, findS pB (b_open case43c) = Some (ast, range) /\ ordinary ast /\
     Forall (fun c => ~ member_at ast (mkPos 0 c)) [69; 73; 80]) /\
  (exists f fd i, findS pB (b_files case43c) = Some f /\ data (b_arena case43c) f = Some fd /\
     y_imports fd = Some [i] /\ shows i) /\
  (exists refs, findS pB (b_refs case43c) = Some refs) /\
  labels43 69 = Some [lit "$a"; lit "$x"; lit "$this"] /\ labels43 73 = Some [lit "Foo"].
Proof.
  split; [|split; [|split; [|split; [|split]]]].
  - apply tame_play.
    assert (hd : forall p text, disk43c p = Some text -> In (bare p) names43c /\ text_ok (fun k => In k names43c) text).
    { apply tame_disk2; try (simpl; tauto); vm_compute; reflexivity. }
    repeat (apply Forall_cons; [split; [apply hd|]|]); try exact I; constructor.
  - destruct (findS pB (b_open case43c)) as [[ast range]|] eqn:e; [|vm_compute in e; discriminate e].
    exists ast, range. split; [reflexivity|].
    assert (q : ast = Prop_Complete.ast_of case43c) by (unfold Prop_Complete.ast_of; rewrite e; reflexivity). clear e. subst ast. split.
    + split.
      * exists 400%nat, (lit text43c). split; [vm_compute; reflexivity|]. intros ts h (t & ht & h1 & h2). vm_compute in h. injection h as <-.
        repeat (destruct ht as [<-|ht]; [cbn in h1; discriminate h1|]). exact ht.
      * intros root n hr hn. apply (solid_spec _ _ hn 60). revert root hr hn.
        assert (all : forallb (solid 60) (Prop_Complete.ast_of case43c) = true) by (vm_compute; reflexivity).
        rewrite forallb_forall in all. intros root hr _. exact (all root hr).
    + repeat constructor; eapply (not_member _ _ 60 case43c); vm_compute; reflexivity.
  - eexists _, _, _. split; [vm_compute; reflexivity|]. split; [vm_compute; reflexivity|]. split; [cbn; reflexivity|].
    apply shownb_spec. vm_compute. reflexivity.
  - eexists. vm_compute. reflexivity.
  - vm_compute. reflexivity.
  - vm_compute. reflexivity.
Qed.

Print Assumptions C43_answered_partial.
