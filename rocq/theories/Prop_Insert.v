(** Property C48: what an editor inserts for a suggestion, and C42 for traits. *)

From Coq Require Import Permutation Relations.
From Verif Require Import Base Token Scanner Node DocBlock Parser Assoc AssocFacts Arena ArenaFacts
  Symbol EnvMonad EnvFacts Workspace WorkspaceFacts Resolver SpecNames ResolverFacts
  Backend BackendFacts SpecServer ServerInv Prop_Server Prop_Names Prop_Members Prop_Overrides Suggester Prop_Suggest.

Local Existing Instance ascii_runtime | 9.
Local Existing Instance plain_hashing | 9.
Local Open Scope string_scope.
Local Open Scope N_scope.
Local Open Scope list_scope.

(** * Specification *)

(** An editor inserts the text of the item, or the label if there is none. *)
Definition inserted (it : item) : str := match i_insert it with Some t => t | None => i_label it end.

(** The k-th placeholder of a snippet, with [$name] as its text; a dollar sign
    that stands for itself is escaped. *)
Definition placeholder (k : N) (name : str) : str := lit "${" ++ decimal k ++ lit ":\$" ++ name ++ lit "}".
Inductive Placeholders : N -> list str -> str -> Prop :=
| Ph_none : forall k, Placeholders k [] []
| Ph_one : forall k n, Placeholders k [n] (placeholder k n)
| Ph_more : forall k n m l t, Placeholders (k + 1) (m :: l) t -> Placeholders k (n :: m :: l) (placeholder k n ++ lit ", " ++ t).

Section Insert.
Context {RT : Runtime} {HH : Hashing}.

Lemma placeholders_snippets : forall names k, Placeholders k names (join (lit ", ") (snippets k names)).
Proof.
  induction names as [|n names IH]; intros k; [constructor|]. destruct names as [|m names]; [constructor|].
  specialize (IH (k + 1)). cbn [snippets] in *. cbn [join]. constructor. exact IH.
Qed.

Lemma r_map : forall A C b (f : A -> B C) (P : A -> C -> Prop) l, (forall y, In y l -> reads b (f y) (P y)) ->
  reads b (emap f l) (Forall2 P l).
Proof.
  intros A C b f P l. induction l as [|y l IH]; intros h; cbn [emap]; [apply r_ret; constructor|].
  eapply r_bind; [apply h; now left|]. intros c hc. eapply r_bind; [apply IH; intros; apply h; now right|].
  intros cs hcs. apply r_ret. now constructor.
Qed.

(** The suggestion that the class [c] around the cursor leads to at a variable
    (see C59) is inserted as [$this]. *)
Theorem C48_this : forall fd c b, exists it, completion_item fd (sug_this c) b = Done it b /\ inserted it = lit "$this".
Proof. intros fd c b. eexists. split; reflexivity. Qed.

(** The symbols that are declared in [i], in the order of their declaration *)
Definition declares (a : arena Symbol) (i : N) (ds : list Symbol) : Prop :=
  exists ks, kids a i = Some ks /\ Forall2 (fun k d => data a k = Some d) ks ds.

(** Methods and functions: the name and one placeholder for every symbol that
    is declared in it, in parentheses.  Partial: these are the parameters only
    as long as nothing else is declared in it, and the name is that of the
    declaration even if a class uses the method under another name, see the
    refutations. *)
Theorem C48_call_partial : forall fd g i d it b b',
  g_this g = false -> g_token g = None -> g_node g = Some i -> data (b_arena b) i = Some d ->
  y_kind d = KMethod \/ y_kind d = KFunction ->
  completion_item fd g b = Done it b' ->
  b' = b /\ i_edits it = None /\ exists ds t, declares (b_arena b) i ds /\ Placeholders 1 (map sym_name ds) t /\
    inserted it = y_name d ++ lit "(" ++ t ++ lit ")".
Proof.
  intros fd g i d it b b' h1 h2 h3 hd hk e. unfold completion_item in e. rewrite h1, h2, h3 in e.
  assert (R : reads b (elet n <- eopt (Some i) in elet d <- e_data n in
      if kind_eqb (y_kind d) KClass || kind_eqb (y_kind d) KTrait then
        match g_context g with
        | SImport =>
            elet r <- eopt (g_replace g) in
            eret (mkItem (fqdn d) None (Some [(get_range r, [])]))
        | _ =>
            elet line <- import_line fd d in
            eret (mkItem (sym_name d) None
                    (opt_map (fun line => [(mkRng (mkPos line 0) (mkPos line 0), lit "use " ++ fqdn d ++ lit ";" ++ [10])]) line))
        end
      else
        elet text <- insert_text n d in
        eret (mkItem (lit "$" ++ match g_alias g with Some a => a | None => sym_name d end) text None))
    (fun it => i_edits it = None /\ exists ds t, declares (b_arena b) i ds /\ Placeholders 1 (map sym_name ds) t /\
      inserted it = y_name d ++ lit "(" ++ t ++ lit ")")).
  { eapply r_bind; [apply r_opt|]. cbv beta. intros n [= <-]. eapply r_bind; [apply r_data|]. cbv beta. intros d' hd'.
    rewrite hd in hd'. injection hd' as <-.
    replace (kind_eqb (y_kind d) KClass || kind_eqb (y_kind d) KTrait) with false by (destruct hk as [-> | ->]; reflexivity).
    eapply (r_bind _ _ _ _ _ (fun text => exists ds t, text = Some (y_name d ++ lit "(" ++ t ++ lit ")") /\
      declares (b_arena b) i ds /\ Placeholders 1 (map sym_name ds) t)).
    - unfold insert_text.
      assert (R : reads b (elet cs <- e_kids i in elet ds <- emap e_data cs in
        eret (Some (y_name d ++ lit "(" ++ join (lit ", ") (snippets 1 (map sym_name ds)) ++ lit ")")))
        (fun text => exists ds t, text = Some (y_name d ++ lit "(" ++ t ++ lit ")") /\
          declares (b_arena b) i ds /\ Placeholders 1 (map sym_name ds) t)).
      { eapply r_bind; [apply r_kids|]. cbv beta. intros ks hks. eapply r_bind.
        - apply (r_map _ _ _ _ (fun k d => data (b_arena b) k = Some d)). intros y _. apply r_data.
        - intros ds hds. apply r_ret. eexists ds, _. split; [reflexivity|]. split; [exists ks; auto|apply placeholders_snippets]. }
      destruct hk as [-> | ->]; exact R.
    - intros text (ds & t & -> & h4 & h5). apply r_ret. split; [reflexivity|]. exists ds, t. auto. }
  exact (R _ _ e).
Qed.

(** Everything that is neither this nor a class or trait is inserted with a
    dollar sign: right for variables and parameters. *)
Lemma with_dollar : forall fd g i d it b b',
  g_this g = false -> g_token g = None -> g_node g = Some i -> data (b_arena b) i = Some d ->
  y_kind d <> KClass -> y_kind d <> KTrait -> y_kind d <> KMethod -> y_kind d <> KFunction ->
  completion_item fd g b = Done it b' ->
  inserted it = lit "$" ++ match g_alias g with Some a => a | None => sym_name d end /\ i_edits it = None.
Proof.
  intros fd g i d it b b' h1 h2 h3 hd k1 k2 k3 k4 e. unfold completion_item in e. rewrite h1, h2, h3 in e.
  assert (hd' : e_data i b = Done d b) by (unfold e_data; cbn; now rewrite hd).
  unfold ebind, eopt, eret in e. rewrite hd' in e. unfold insert_text in e.
  destruct (y_kind d); try contradiction; cbn in e; injection e as <- <-; auto.
Qed.
Theorem C48_variable : forall fd g i d it b b',
  g_this g = false -> g_token g = None -> g_node g = Some i -> data (b_arena b) i = Some d ->
  y_kind d = KVariable \/ y_kind d = KFunctionParameter -> g_alias g = None ->
  completion_item fd g b = Done it b' -> inserted it = lit "$" ++ sym_name d /\ i_edits it = None.
Proof.
  intros fd g i d it b b' h1 h2 h3 hd hk ha e.
  assert (X := with_dollar fd g i d it b b' h1 h2 h3 hd). rewrite ha in X. apply X; try exact e; destruct hk as [-> | ->]; congruence.
Qed.

(** Wrong for properties and constants behind [->] and [::], where the
    suggestion carries the name of the member: [$this->$bar], [A::$K].  Wrong
    for interfaces, of which no name ever is inserted without a dollar sign. *)
Theorem C48_member_refuted : forall fd g i d it b b',
  g_this g = false -> g_token g = None -> g_node g = Some i -> data (b_arena b) i = Some d ->
  y_kind d = KProperty \/ y_kind d = KConstant \/ y_kind d = KInterface ->
  completion_item fd g b = Done it b' -> exists name, inserted it = lit "$" ++ name.
Proof.
  intros fd g i d it b b' h1 h2 h3 hd hk e.
  destruct (with_dollar fd g i d it b b' h1 h2 h3 hd) as [h _]; try exact e; try (destruct hk as [-> | [-> | ->]]; congruence). eauto.
Qed.

(** * C42 for traits *)

Lemma r_fold_seen : forall A C b (f : C -> A -> B C) (I : list A -> C -> Prop) l c0,
  I [] c0 -> (forall seen x y, I seen x -> In y l -> reads b (f x y) (I (seen ++ [y]))) -> reads b (efold f c0 l) (I l).
Proof.
  intros A C b f I l c0 h0 h.
  enough (X : forall done rest x, (forall y, In y rest -> In y l) -> I done x -> reads b (efold f x rest) (I (done ++ rest))) by exact (X [] l c0 (fun y h => h) h0).
  intros done rest. revert done. induction rest as [|y rest IH]; intros done x hin hx; cbn [efold].
  - apply r_ret. now rewrite app_nil_r.
  - eapply r_bind; [apply h; [exact hx|apply hin; now left]|]. cbv beta. intros x' hx'.
    replace (done ++ y :: rest) with ((done ++ [y]) ++ rest) by now rewrite <- app_assoc. apply IH; [|exact hx'].
    intros z hz. apply hin. now right.
Qed.

(** With the cursor in a [use] of a class: exactly the traits of the index whose
    names start with what is typed are offered, whatever the letter case. *)
Theorem C42_traits_partial : forall ty node w b l b',
  node_name ty = Some w -> suggest_traits ty node b = Done l b' ->
  b' = b /\ forall i, (exists g, In g l /\ g_node g = Some i) <->
    (exists k d r, In (k, i) (b_global b) /\ data (b_arena b) i = Some d /\ y_kind d = KTrait /\
      lower_name d = to_lowercase w ++ r).
Proof.
  intros ty node w b l b' hw e. 
  assert (R : reads b (suggest_traits ty node) (fun l => forall i, (exists g, In g l /\ g_node g = Some i) <->
    (exists k d r, In (k, i) (h_order (b_global b)) /\ data (b_arena b) i = Some d /\ y_kind d = KTrait /\
      lower_name d = to_lowercase w ++ r))).
  { unfold suggest_traits. eapply r_bind; [apply r_opt|]. cbv beta. intros prefix hp. unfold node_normalized_name in hp. rewrite hw in hp.
    injection hp as <-. eapply r_bind; [apply r_get|]. cbv beta. intros g ->.
    apply (r_fold_seen _ _ _ _ (fun seen l => forall i, (exists g, In g l /\ g_node g = Some i) <->
      (exists k d r, In (k, i) seen /\ data (b_arena b) i = Some d /\ y_kind d = KTrait /\ lower_name d = to_lowercase w ++ r))).
    { intros i. split; [intros (? & [] & _)|intros (? & ? & ? & [] & _)]. }
    intros seen acc [k n] IH _. eapply r_bind; [apply r_data|]. cbv beta. cbn [snd]. intros d hd.
    assert (skip : (forall r, y_kind d = KTrait -> lower_name d <> to_lowercase w ++ r) ->
      forall i, (exists g, In g acc /\ g_node g = Some i) <->
        (exists k' d r, In (k', i) (seen ++ [(k, n)]) /\ data (b_arena b) i = Some d /\ y_kind d = KTrait /\ lower_name d = to_lowercase w ++ r)).
    { intros no i. rewrite (IH i). split; intros (k' & d' & r & h1 & h2 & h3 & h4).
      - exists k', d', r. split; [apply in_or_app; now left|auto].
      - apply in_app_or in h1 as [h1|[h1|[]]]; [exists k', d', r; auto|]. injection h1 as <- <-. rewrite hd in h2. injection h2 as <-.
        exfalso. exact (no r h3 h4). }
    destruct (kind_eqb (y_kind d) KTrait) eqn:ek; cbn [negb].
    2:{ apply r_ret. apply skip. intros r hk. rewrite hk in ek. discriminate ek. }
    apply kind_eqb_eq in ek. destruct (starts_with (to_lowercase w) (normalized_name d)) eqn:es.
    2:{ apply r_ret. apply skip. intros r _ h. unfold lower_name, normalized_name in *. rewrite h in es. clear - es.
        induction (to_lowercase w) as [|c v IHv]; cbn in es; [discriminate es|]. rewrite N.eqb_refl in es. auto. }
    destruct (starts_with_app _ _ es) as (r & hr).
    eapply r_bind; [apply r_opt|]. cbv beta. intros rg _. apply r_ret. intros i. split.
    - intros (g & hg & hi). apply in_app_or in hg as [hg|[<-|[]]].
      + destruct (proj1 (IH i)) as (k' & d' & r' & h1 & h2); [eauto|]. exists k', d', r'. split; [apply in_or_app; now left|exact h2].
      + injection hi as <-. exists k, d, r. split; [apply in_or_app; right; now left|]. auto.
    - intros (k' & d' & r' & h1 & h2). apply in_app_or in h1 as [h1|[h1|[]]].
      + destruct (proj2 (IH i)) as (g & hg & hi); [eauto|]. exists g. split; [apply in_or_app; now left|exact hi].
      + injection h1 as <- <-. eexists. split; [apply in_or_app; right; left; reflexivity|reflexivity]. }
  destruct (R _ _ e) as [hb h]. split; [exact hb|]. intros i. rewrite (h i). split; intros (k & d & r & h1 & h2); exists k, d, r; (split; [|exact h2]).
  - eapply Permutation_in; [apply h_perm|exact h1].
  - eapply Permutation_in; [apply Permutation_sym, h_perm|exact h1].
Qed.
End Insert.

(** * Cases *)

Definition offers (b : bst) (p : Position) (texts : list str) : Prop :=
  exists fuel l, completion fuel (fun l => l) pB p None b = Done (Some l) b /\ map inserted l = texts.
Ltac case_ := split; [apply state_after_reachable|exists 40%nat; eexists; split; vm_compute; reflexivity].

(** The parameters of a method *)
Definition case48 : bst := opened "<?php" "<?php class A { function g($p, $q) { } function f() { $this->g; } }".
Example C48_case : reachable case48 /\ offers case48 (mkPos 0 61) [lit "g(${1:\$p}, ${2:\$q})"].
Proof. case_. Qed.
(** The variables of a function *)
Definition case48b : bst := opened "<?php" "<?php function g($p, $q) { $zz = 1; $p; } ".
Example C48_variables : reachable case48b /\ offers case48b (mkPos 0 37) [lit "$p"; lit "$q"; lit "$zz"].
Proof. case_. Qed.

(** A property and a constant come with a dollar sign, ... *)
Theorem C48_refuted_property : exists b p, reachable b /\
  b = opened "<?php" "<?php class A { public $bar; function f() { $this->b; } }" /\ offers b p [lit "$bar"].
Proof. eexists. exists (mkPos 0 51). split; [|split; [reflexivity|]]; [apply state_after_reachable|]. exists 40%nat; eexists; split; vm_compute; reflexivity. Qed.
Theorem C48_refuted_constant : exists b p, reachable b /\
  b = opened "<?php" "<?php class A { const K = 1; function f() { A::K; } }" /\ offers b p [lit "$K"].
Proof. eexists. exists (mkPos 0 47). split; [|split; [reflexivity|]]; [apply state_after_reachable|]. exists 40%nat; eexists; split; vm_compute; reflexivity. Qed.
(** ... and so does an interface, even in an import. *)
Theorem C48_refuted_interface : exists b p, reachable b /\
  b = opened "<?php interface Foo { }" "<?php use F; " /\ offers b p [lit "$Foo"].
Proof. eexists. exists (mkPos 0 11). split; [|split; [reflexivity|]]; [apply state_after_reachable|]. exists 40%nat; eexists; split; vm_compute; reflexivity. Qed.
(** A local variable of a method is taken for a parameter. *)
Theorem C48_refuted_local : exists b p, reachable b /\
  b = opened "<?php" "<?php class A { function g($p) { $x = 1; return $x; } function f() { $this->g; } }" /\
  offers b p [lit "g(${1:\$p}, ${2:\$x})"].
Proof. eexists. exists (mkPos 0 76). split; [|split; [reflexivity|]]; [apply state_after_reachable|]. exists 40%nat; eexists; split; vm_compute; reflexivity. Qed.
(** Behind [$this->h], where [h] is another name for the [g] of a trait, [g] is inserted. *)
Theorem C48_refuted_alias : exists b p, reachable b /\
  b = opened "<?php" "<?php trait T { function g($p) { } } class A { use T { g as h; } function f() { $this->h; } }" /\
  offers b p [lit "g(${1:\$p})"].
Proof. eexists. exists (mkPos 0 87). split; [|split; [reflexivity|]]; [apply state_after_reachable|]. exists 40%nat; eexists; split; vm_compute; reflexivity. Qed.

(** C44 in an import: with [use F] typed, the class [M\Foo] comes as [Foo], and
    with an edit that puts the right import before the start of the file.  With
    [use M\F] typed it is not offered. *)
Theorem C44_use_refuted :
  (exists b p, reachable b /\ b = opened "<?php namespace M; class Foo { }" "<?php use F; " /\
     answers b p (lit "Foo") (Some [(mkRng (mkPos 0 0) (mkPos 0 0), lit "use M\Foo;" ++ [10])]) /\ offers b p [lit "Foo"]) /\
  (exists b p, reachable b /\ b = opened "<?php namespace M; class Foo { }" "<?php use M\F; " /\ offers b p []).
Proof.
  split; eexists; [exists (mkPos 0 11)|exists (mkPos 0 13)]; (split; [|split; [reflexivity|]]; [apply state_after_reachable|]).
  - split; exists 40%nat; eexists; (split; [vm_compute; reflexivity|]); [left|]; reflexivity.
  - exists 40%nat; eexists; split; vm_compute; reflexivity.
Qed.

(** A trait of the index *)
Definition case42t : bst := opened "<?php trait Ta { } class Tc { }" "<?php class A { use T; }".
Example C42_traits_case : reachable case42t /\ offers case42t (mkPos 0 21) [lit "Ta"].
Proof. case_. Qed.

Print Assumptions C48_call_partial.
Print Assumptions C48_variable.
Print Assumptions C48_member_refuted.
Print Assumptions C48_refuted_property.
Print Assumptions C48_refuted_constant.
Print Assumptions C48_refuted_interface.
Print Assumptions C48_refuted_local.
Print Assumptions C48_refuted_alias.
Print Assumptions C42_traits_partial.
Print Assumptions C44_use_refuted.
Print Assumptions C48_this.
