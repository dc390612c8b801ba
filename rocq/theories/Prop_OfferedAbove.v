(** Property C42: inherited members and members of traits are offered. *)

From Coq Require Import Permutation Relations.
From Verif Require Import Base Token TokenFacts Scanner Node DocBlock Parser Assoc AssocFacts Arena ArenaFacts
  Symbol EnvMonad EnvFacts Workspace WorkspaceFacts Resolver SpecNames ResolverFacts
  Backend BackendFacts SpecServer ServerInv Prop_Server Prop_Names Prop_Members Prop_Access Prop_Scopes Prop_Locals Prop_Types
  Prop_Overrides Prop_Inherit Suggester Prop_Suggest Prop_Offered Prop_Complete.
From Verif Require Prop_Definition Prop_Symbols Prop_Chains.

Local Notation findS := (find str_eqb).
Local Existing Instance ascii_runtime | 9.
Local Existing Instance plain_hashing | 9.
Local Open Scope string_scope.
Local Open Scope N_scope.
Local Open Scope list_scope.

Section Above.
Context {RT : Runtime} {HH : Hashing}.

(** * Specification *)

(** Code in the class [c] may use the member [d]: the class has it from itself, from
    a trait, or from above, where it is not private. *)
Definition may_use (s : rst) (c i : N) (d : Symbol) : Prop :=
  exists n, above s c n /\ declares_last (r_arena s) n (lower_name d) i d /\ only s c (lower_name d) n /\
    (n = c \/ (exists t, takes s c t /\ above s t n) \/ y_vis d <> VPrivate).

(** * Proofs *)

Local Notation some k := (fun m : members => exists al, findS k m = Some al).

Lemma vis_fold : forall (s : rst) (k : str) i d (l : members) (al : SymbolAlias),
  data (r_arena s) i = Some d -> y_vis d <> VPrivate -> In (k, al) l -> al_symbol al = i ->
  yields s (efold (fun acc p =>
    elet d <- e_data (al_symbol (snd p)) in
    eret (if vis_ge (y_vis d) VProtected then acc ++ [p] else acc)) ([] : members) l) (fun m => In (k, al) m).
Proof.
  intros s k i d l al hd hv hin hi.
  eapply y_weak; [apply (y_fold s _ _ _ (fun done m => In (k, al) done -> In (k, al) m))|auto]; [intros []|].
  intros done acc p hacc _. eapply y_bind; [apply y_data|]. intros dp hdp. apply y_ret. intros h.
  apply in_app_iff in h as [h|[->|[]]].
  - destruct (vis_ge (y_vis dp) VProtected); [apply in_or_app; left|]; auto.
  - cbn [snd] in hdp. rewrite hi, hd in hdp. injection hdp as <-.
    assert (e : vis_ge (y_vis d) VProtected = true) by (destruct (y_vis d); reflexivity || congruence).
    rewrite e. apply in_or_app. right. left. reflexivity.
Qed.

Lemma in_put_all : forall (es m : members) k v, In (k, v) es -> exists v', findS k (put_all str_eqb es m) = Some v'.
Proof.
  intros es. induction es as [|[k0 v0] es IH]; intros m k v h; [destruct h|]. cbn [put_all fold_left].
  destruct h as [h|h].
  - injection h as -> ->. eapply (keys_put_all es (put str_eqb k v m)). apply (find_put_same _ str_eqb_spec).
  - eapply (IH (put str_eqb k0 v0 m)). exact h.
Qed.
Lemma in_find : forall (m : members) k v, findS k m = Some v -> In (k, v) m.
Proof. intros m k v h. apply (find_in _ str_eqb_spec _ _ _ h). Qed.

(** What a class may use is in the list of what can be used. *)
Lemma y_usable : forall s fuel c i d, may_use s c i d ->
  yields s (accessible_members fuel c) (fun m => is_some (findS (lower_name d) m) = true).
Proof.
  intros s fuel c i d (n & ha & hl & ho & hv).
  destruct (N.eq_dec n c) as [->|ne]; [eapply y_accessible; exact hl|].
  unfold accessible_members. eapply y_bind with (P := fun _ => True).
  { unfold own_symbols. eapply y_bind; [apply y_kids|]. intros ks _. eapply y_weak; [apply own_fold|]. auto. }
  intros own _. eapply y_bind; [apply y_data|]. intros me hme.
  eapply y_bind; [apply (y_got s (lower_name d) n i d hl fuel c me hme ho (y_most s (lower_name d) n i d hl fuel))|].
  intros imp ((ni & _) & hi).
  eapply y_bind; [apply (y_passed s (lower_name d) n i d fuel c me hme ho (y_most s (lower_name d) n i d hl fuel))|].
  intros inh ((nh & hs) & hh).
  assert (hd : data (r_arena s) i = Some d) by (destruct hl as (l1 & l2 & _ & h & _); exact h).
  assert (S : forall p, extends s c p \/ takes s c p -> above s p n ->
    forall f, yields s (get_all_symbols f p) (some (lower_name d))).
  { intros p hp hap. apply (y_some s (lower_name d) n i d hl p hap). eapply only_follows; [exact ho|].
    destruct hp as [hp|hp]; [apply extends_follows; exact hp|].
    destruct hp as (me' & im & dt & h1 & h2 & _ & _ & h4 & _). right. left. eapply found_means; [exact h1| |exact h4].
    unfold trait_names. apply (in_map i_path) in h2. exact h2. }
  assert (T : (exists t, takes s c t /\ above s t n) \/ (exists p, extends s c p /\ above s p n) /\ y_vis d <> VPrivate).
  { destruct hv as [hv|[hv|hv]]; [congruence|auto|].
    inversion ha as [|p z hp hap]; subst; [congruence|]. destruct hp as [hp|hp]; [right|left]; eauto. }
  destruct T as [(t & ht & hat)|((p & hp & hap) & hvis)].
  - destruct (hi t ht (S t (or_intror ht) hat)) as (al & hal).
    eapply y_bind with (P := fun _ => True).
    + apply (y_fold s _ _ _ (fun _ _ => True)); [exact I|]. intros done acc p _ _. eapply y_bind; [apply y_data|]. intros. apply y_ret. exact I.
    + intros vis _. apply y_ret. destruct (in_put_all imp own _ _ (in_find _ _ _ hal)) as (v1 & h1).
      destruct (keys_put_all vis _ _ _ h1) as (v2 & h2). rewrite h2. reflexivity.
  - destruct (hh p hp (S p (or_introl hp) hap)) as (al & hal). destruct (hs al hal) as (q1 & _).
    eapply y_bind.
    + apply (vis_fold s (lower_name d) i d _ al hd hvis); [|exact q1].
      eapply Permutation_in; [apply Permutation_sym, h_perm|]. apply in_find. exact hal.
    + cbv beta. intros vis hvi. apply y_ret. destruct (in_put_all vis (put_all str_eqb imp own) _ _ hvi) as (v2 & h2).
      rewrite h2. reflexivity.
Qed.

(** What a class has is offered. *)
Lemma r_offers_has : forall b suc fuel w st acc t c i d, has (resolver_at b suc) c (lower_name d) i d ->
  (exists r, sym_name d = w ++ r) -> y_kind d <> KMagicConst -> (st = true -> y_static d = true) ->
  (is_public d \/ is_some (findS (lower_name d) acc) = true) ->
  reads b (with_resolver suc (offered fuel w st true acc t)) (fun l => t = c -> In (sug_aliased i (sym_name d) SCall) l).
Proof.
  intros b suc fuel w st acc t c i d (n & ha & hl & ho) hw hm hs hv.
  destruct (N.eq_dec t c) as [->|ne].
  2:{ intros x b' e. unfold with_resolver in e. destruct (offered _ _ _ _ _ _ _); try discriminate e. injection e as _ <-. split; [reflexivity|congruence]. }
  eapply r_with. unfold offered.
  eapply y_bind with (P := fun m => exists al, findS (lower_name d) m = Some al /\ entry_for i d al).
  { eapply y_weak; [apply y_both; [apply (y_some _ (lower_name d) n i d hl c ha ho)|apply (y_most _ (lower_name d) n i d hl fuel c ho)]|].
    cbv beta. intros m ((al & q) & h). eauto. }
  intros all (al0 & hall & q1 & q2 & q3).
  assert (hin : In (lower_name d, al0) (h_order all)).
  { eapply Permutation_in; [apply Permutation_sym, h_perm|]. apply in_find. exact hall. }
  eapply y_weak; [apply (y_fold _ _ _ _ (fun done l => In (lower_name d, al0) done -> In (sug_aliased i (sym_name d) SCall) l))|auto].
  { intros []. }
  intros done l [k al] hl' _. cbn [snd].
  assert (E : forall l', incl l l' -> (al = al0 -> In (sug_aliased i (sym_name d) SCall) l') ->
    In (lower_name d, al0) (done ++ [(k, al)]) -> In (sug_aliased i (sym_name d) SCall) l').
  { intros l' hi ha' h. apply in_app_iff in h as [h|[h|[]]]; [auto|]. injection h as _ h. auto. }
  destruct (starts_with w (al_alias al)) eqn:ew; cbn [negb].
  - eapply y_bind; [apply y_data|]. intros d' hd'. apply y_ret. apply E.
    + destruct (_ || _); [apply incl_refl|]. destruct (_ || _); [|apply incl_refl]. apply incl_appl, incl_refl.
    + intros ->. rewrite q1 in hd'. destruct hl as (l1 & l2 & _ & hd & _). rewrite hd in hd'. injection hd' as <-. rewrite q1, q2, q3.
      assert (e1 : (st && negb (y_static d)) || (true && kind_eqb (y_kind d) KMagicConst) = false).
      { apply Bool.orb_false_iff. split; [destruct st; [rewrite (hs eq_refl)|]; reflexivity|]. destruct (y_kind d); try reflexivity. congruence. }
      assert (e2 : vis_ge (y_vis d) VPublic || is_some (findS (normalized_name d) acc) = true).
      { apply Bool.orb_true_iff. destruct hv as [[hv|hv]|hv]; [left; rewrite hv; reflexivity|left; rewrite hv; reflexivity|right; exact hv]. }
      rewrite e1, e2. apply in_or_app. right. left. reflexivity.
  - apply y_ret. apply E; [apply incl_refl|]. intros ->. exfalso. rewrite q2 in ew.
    assert (e : starts_with w (sym_name d) = true) by (apply Prop_Symbols.starts_with_spec; exact hw). congruence.
Qed.

Lemma offered_given : forall fuel order trigger node parent suc refs b l b' w k c i d,
  suggest_members fuel order trigger node parent suc refs b = Done l b' ->
  node_name node = Some w ->
  reads b (object_of node parent suc) (fun ob => picks (order refs) k ob /\ snd ob = true) -> has_class b suc k c ->
  has (resolver_at b suc) c (lower_name d) i d -> (exists r, sym_name d = w ++ r) -> y_kind d <> KMagicConst ->
  (trigger = Some 58 -> y_static d = true) ->
  (is_public d \/ exists c0, innermost_class (b_arena b) suc c0 /\ may_use (resolver_at b c0) c0 i d) ->
  In (sug_aliased i (sym_name d) SCall) l.
Proof.
  intros fuel order trigger node parent suc refs b l b' w k c i d e hw ho hc hm hr hmag hst hv.
  assert (G : reads b (suggest_members fuel order trigger node parent suc refs)
    (fun l => In (sug_aliased i (sym_name d) SCall) l)); [|apply G in e as [_ e]; exact e].
  unfold suggest_members. eapply r_bind; [apply r_opt|]. intros w' hw'. rewrite hw in hw'. injection hw' as <-.
  eapply r_bind; [exact ho|]. intros [[range this] nm] [hp hnm]. cbn [snd] in hnm. subst nm.
  unfold picks in hp. cbv zeta. rewrite hp.
  eapply r_bind; [apply r_ancestors|]. intros anc hanc.
  eapply r_bind with (P := fun o => forall c0, innermost_class (b_arena b) suc c0 -> o = Some c0).
  { intros o b1 eo. assert (b1 = b) as -> by (apply r_class in eo as [-> _]; reflexivity). split; [reflexivity|].
    intros c0 (l1 & l2 & dc & q1 & q2 & q3 & q4). rewrite hanc in q1. injection q1 as ->.
    destruct (r_innermost b _ l1 c0 l2 dc eq_refl q2 q3 q4 _ _ eo) as [_ r]. exact r. }
  intros cur hcur.
  eapply r_bind with (P := fun acc : members => is_public d \/ is_some (findS (lower_name d) acc) = true).
  { destruct hv as [hv|(c0 & h1 & h2)].
    - intros ac b1 ea. split; [|auto]. destruct cur as [c'|].
      + unfold with_resolver in ea. destruct (accessible_members _ _ _); try discriminate ea. injection ea as _ <-. reflexivity.
      + injection ea as _ <-. reflexivity.
    - rewrite (hcur c0 h1). apply r_with. eapply y_weak; [apply (y_usable _ fuel c0 i d h2)|]. auto. }
  intros acc hacc. eapply r_bind; [apply r_data|]. intros dk hdk.
  eapply r_bind with (P := fun types => In c types).
  { intros ts b1 et. unfold with_resolver in et. fold (resolver_at b suc) in et.
    destruct (object_types _ _ _ _ _) as [ts' s'| |] eqn:eo; try discriminate et. injection et as <- <-.
    split; [reflexivity|]. eapply y_object_types; [exact hc|exact hdk|exact eo]. }
  intros types ht.
  assert (F : forall ts a0, In c ts \/ In (sug_aliased i (sym_name d) SCall) a0 ->
    reads b (efold (fun acc0 t =>
      elet l <- with_resolver suc (offered fuel w (match trigger with Some c => c =? 58 | None => false end) true acc t) in
      eret (acc0 ++ l)) a0 ts) (fun l => In (sug_aliased i (sym_name d) SCall) l)).
  { induction ts as [|t ts IH]; intros a0 h; cbn [efold].
    - apply r_ret. destruct h as [[]|h]; exact h.
    - eapply r_bind with (P := fun a1 => In c ts \/ In (sug_aliased i (sym_name d) SCall) a1); [|apply IH].
      eapply r_bind.
      + eapply (r_offers_has b suc fuel w _ acc t c i d); [exact hm|exact hr|exact hmag| |exact hacc].
        intros q. apply hst. destruct trigger as [tc|]; [|discriminate q]. apply N.eqb_eq in q. congruence.
      + cbv beta. intros l0 hl0. apply r_ret. destruct h as [[<-|h]|h]; auto; right; apply in_or_app; auto. }
  apply F. left. exact ht.
Qed.

(** Completion at a member of an object: the members that the class of the
    object has, its own, inherited ones and those of traits, are offered if they
    begin with the letters that have been typed.  They are public, or the class
    around the cursor may use them.  Missing: names that more than one of the
    class, its ancestors and its traits have. *)
Theorem C42_inherited_partial : forall fuel order trigger node object op x m y suc refs b l b' w k c i d,
  suggest_members fuel order trigger node (NMember object op x m y) suc refs b = Done l b' ->
  ~ is_member node -> node_name node = Some w ->
  stands_for (b_arena b) suc (order refs) (NMember object op x m y) object k -> has_class b suc k c ->
  has (resolver_at b suc) c (lower_name d) i d -> (exists r, sym_name d = w ++ r) -> y_kind d <> KMagicConst ->
  (trigger = Some 58 -> y_static d = true) ->
  (is_public d \/ exists c0, innermost_class (b_arena b) suc c0 /\ may_use (resolver_at b c0) c0 i d) ->
  In (sug_aliased i (sym_name d) SCall) l.
Proof.
  intros fuel order trigger node object op x m y suc refs b l b' w k c i d e hn hw ho. intros.
  eapply offered_given; try eassumption. apply r_object_of; assumption.
Qed.

(** With the cursor between object and member, where no letter has been typed:
    the object is what is recorded at its first character. *)
Theorem C42_arrow_partial : forall fuel order trigger object op x m y parent suc refs b l b' p k c i d,
  suggest_members fuel order trigger (NMember object op x m y) parent suc refs b = Done l b' ->
  begins object p -> noted_at (order refs) p k -> has_class b suc k c ->
  has (resolver_at b suc) c (lower_name d) i d -> y_kind d <> KMagicConst ->
  (trigger = Some 58 -> y_static d = true) ->
  (is_public d \/ exists c0, innermost_class (b_arena b) suc c0 /\ may_use (resolver_at b c0) c0 i d) ->
  In (sug_aliased i (sym_name d) SCall) l.
Proof.
  intros fuel order trigger object op x m y parent suc refs b l b' p k c i d e (r & hr & ->) hn. intros.
  eapply (offered_given _ _ _ (NMember object op x m y) _ _ _ _ _ _ []); try eassumption; [reflexivity| |exists (sym_name d); reflexivity].
  unfold object_of. eapply r_bind; [apply r_opt|]. intros pr _. rewrite hr. apply r_ret. split; [|reflexivity].
  apply noted_found in hn. exact hn.
Qed.

(** The same from the position of the cursor on *)
Theorem C42_inherited_position_partial : forall fuel order trigger p suc ast refs b l b' around node object op x m y w k c i d,
  get_suggestions_at fuel order trigger p suc ast refs b = Done l b' ->
  at_cursor ast p (around ++ [NMember object op x m y]) node ->
  (exists t, node = NLiteral t \/ node = NMissing t) -> node_name node = Some w ->
  stands_for (b_arena b) suc (order refs) (NMember object op x m y) object k -> has_class b suc k c ->
  has (resolver_at b suc) c (lower_name d) i d -> (exists r, sym_name d = w ++ r) -> y_kind d <> KMagicConst ->
  (trigger = Some 58 -> y_static d = true) ->
  (is_public d \/ exists c0, innermost_class (b_arena b) suc c0 /\ may_use (resolver_at b c0) c0 i d) ->
  In (sug_aliased i (sym_name d) SCall) l.
Proof.
  intros fuel order trigger p suc ast refs b l b' around node object op x m y w k c i d e hc hn hw h1 h2 h3 h4 h5 h6 h7.
  assert (G : reads b (get_suggestions_at fuel order trigger p suc ast refs) (fun l => In (sug_aliased i (sym_name d) SCall) l)).
  { unfold get_suggestions_at. eapply r_bind; [apply r_cursor; exact hc|]. cbv beta. intros o ->. cbv zeta.
    rewrite removelast_last.
    assert (M : reads b (elet parent <- eopt (last_opt (around ++ [NMember object op x m y])) in
      suggest_members fuel order trigger node parent suc refs) (fun l => In (sug_aliased i (sym_name d) SCall) l)).
    { eapply r_bind; [apply r_opt|]. cbv beta. intros parent hp. unfold last_opt in hp. rewrite rev_app_distr in hp. injection hp as <-.
      intros l0 b0 e0. split; [apply r_members in e0; apply e0|].
      eapply C42_inherited_partial; try eassumption. destruct hn as (t & [->| ->]); intros []. }
    destruct hn as (t & [->| ->]); exact M. }
  apply (G _ _ e).
Qed.

Theorem C42_arrow_position_partial : forall fuel order trigger p suc ast refs b l b' around parent object op x m y q k c i d,
  get_suggestions_at fuel order trigger p suc ast refs b = Done l b' ->
  at_cursor ast p (around ++ [parent]) (NMember object op x m y) ->
  begins object q -> noted_at (order refs) q k -> has_class b suc k c ->
  has (resolver_at b suc) c (lower_name d) i d -> y_kind d <> KMagicConst ->
  (trigger = Some 58 -> y_static d = true) ->
  (is_public d \/ exists c0, innermost_class (b_arena b) suc c0 /\ may_use (resolver_at b c0) c0 i d) ->
  In (sug_aliased i (sym_name d) SCall) l.
Proof.
  intros fuel order trigger p suc ast refs b l b' around parent object op x m y q k c i d e hc h1 h2 h3 h4 h5 h6 h7.
  assert (G : reads b (get_suggestions_at fuel order trigger p suc ast refs) (fun l => In (sug_aliased i (sym_name d) SCall) l)).
  { unfold get_suggestions_at. eapply r_bind; [apply r_cursor; exact hc|]. cbv beta. intros o ->. cbv zeta.
    rewrite removelast_last. eapply r_bind; [apply r_opt|]. cbv beta. intros parent' hp. unfold last_opt in hp. rewrite rev_app_distr in hp. injection hp as <-.
    intros l0 b0 e0. split; [apply r_members in e0; apply e0|].
    eapply C42_arrow_partial; eassumption. }
  apply (G _ _ e).
Qed.
End Above.

(** * Cases *)

(** [$this->p] in the method [c] of [B], which extends [A]: the protected method
    [p] of [A] is offered. *)
Lemma good_at : forall i, Prop_Chains.goodC None (resolver_at Prop_Chains.backC i).
Proof. intros i. eexists _, _, _, _, _. split; [vm_compute; reflexivity|]. intros f r o []. Qed.
Lemma has_at : forall i, has (resolver_at Prop_Chains.backC i) 6 (lit "p") 4 (Prop_Chains.symbolC 4).
Proof. intros i. eapply (Prop_Chains.hasC None _ 6 2); [apply good_at|cbn; auto]. Qed.

Example C42_inherited_case : exists node object op x m y l,
  reachable Prop_Chains.backC /\
  syntax 60 (lit "<?php $this->p;") = Some [NExpressionStatement node] /\ node = NMember object op x m y /\
  ~ is_member m /\ node_name m = Some (lit "p") /\
  stands_for (b_arena Prop_Chains.backC) 8 [] node object 6 /\ has_class Prop_Chains.backC 8 6 6 /\
  has (resolver_at Prop_Chains.backC 8) 6 (lower_name (Prop_Chains.symbolC 4)) 4 (Prop_Chains.symbolC 4) /\ (exists r, sym_name (Prop_Chains.symbolC 4) = lit "p" ++ r) /\
  y_vis (Prop_Chains.symbolC 4) = VProtected /\
  innermost_class (b_arena Prop_Chains.backC) 8 6 /\ may_use (resolver_at Prop_Chains.backC 6) 6 4 (Prop_Chains.symbolC 4) /\
  suggest_members 50 (fun l => l) None m node 8 [] Prop_Chains.backC = Done l Prop_Chains.backC.
Proof.
  assert (hr : reachable Prop_Chains.backC) by apply state_after_reachable.
  eexists _, _, _, _, _, _, _. split; [exact hr|]. split; [vm_compute; reflexivity|]. split; [reflexivity|].
  split; [intros []|]. split; [reflexivity|].
  split; [apply sf_this; [reflexivity|vm_compute; reflexivity]|].
  split.
  { eapply hc_named; [vm_compute; reflexivity|reflexivity|reflexivity|vm_compute; discriminate|].
    eexists (Written false (lit "B") []), [lit "B"], _. split; [|split; vm_compute; reflexivity]. constructor.
    - change (wf (b_arena Prop_Chains.backC)). apply (wi_wf _ (reachable_winv _ hr)).
    - vm_compute. apply spells_relative; [split; reflexivity|constructor].
    - vm_compute. intros [e|[e|[e|[]]]]; discriminate.
    - exists 1. eexists. eexists. eexists. exists [], [].
      split; [vm_compute; reflexivity|]. split; [vm_compute; reflexivity|]. split; [vm_compute; reflexivity|].
      split; [vm_compute; reflexivity|]. split; [vm_compute; reflexivity|].
      split; [vm_compute; constructor|]. split; [constructor|].
      split.
      { eapply placed_global; [reflexivity|vm_compute; reflexivity|]. intros i d hi hd.
        repeat (destruct hi as [<-|hi]; [vm_compute in hd; injection hd as <-; discriminate|]). destruct hi. }
      split; [constructor|]. change [lit "B"] with ([] ++ lit "B" :: []). apply means_local. intros al f []. }
  split; [exact (has_at 8)|]. split; [exists []; reflexivity|]. split; [reflexivity|].
  split.
  { exists [8], [1]. eexists. split; [vm_compute; reflexivity|]. split; [vm_compute; reflexivity|]. split; [reflexivity|].
    intros j dj [<-|[]] h. vm_compute in h. injection h as <-. discriminate. }
  split; [|vm_compute; reflexivity].
  destruct (has_at 6) as (n & h1 & h2 & h3). exists n. split; [exact h1|]. split; [exact h2|]. split; [exact h3|].
  right. right. discriminate.
Qed.

(** The cursor on the arrow of [$a->x] in the class [A]: the private [$xz] is
    offered. *)
Lemma alone42f : forall n, ~ Prop_Overrides.ancestor (resolver_at case42f 7) 2 n.
Proof.
  intros n hn. revert n hn. eapply no_ancestors with (V := fun n => n = 2).
  - split; [|split].
    + intros k n q. vm_compute in q. destruct q as [q|[]]. injection q as _ <-. reflexivity.
    + intros c q. discriminate q.
    + intros k n [].
  - vm_compute. reflexivity.
  - reflexivity.
  - reflexivity.
  - auto.
Qed.
Example C42_arrow_case : exists object op x m y d l, Prop_Offered.member42f 2 = NMember object op x m y /\
  begins object (mkPos 0 129) /\ noted_at refs42f (mkPos 0 129) 8 /\ has_class case42f 7 8 2 /\
  data (b_arena case42f) 5 = Some d /\ has (resolver_at case42f 7) 2 (lower_name d) 5 d /\ y_vis d = VPrivate /\ y_kind d <> KMagicConst /\
  innermost_class (b_arena case42f) 7 2 /\
  suggest_members 50 (fun l => l) None (Prop_Offered.member42f 2) (NExpressionStatement (Prop_Offered.member42f 2)) 7 refs42f case42f = Done l case42f /\
  In (sug_aliased 5 (sym_name d) SCall) l.
Proof.
  eexists _, _, _, _, _, _, _. split; [vm_compute; reflexivity|].
  split; [eexists; split; [vm_compute; reflexivity|reflexivity]|].
  split; [apply found_noted; vm_compute; reflexivity|].
  split; [eapply hc_known; [vm_compute; reflexivity|left; reflexivity|reflexivity]|].
  split; [vm_compute; reflexivity|].
  split.
  { exists 2. split; [constructor 1|]. split.
    - exists [3; 4], [6; 7]. split; [vm_compute; reflexivity|]. split; [vm_compute; reflexivity|]. split; [vm_compute; reflexivity|].
      intros j dj hj hd. repeat (destruct hj as [<-|hj]; [vm_compute in hd; injection hd as <-; vm_compute; discriminate|]). destruct hj.
    - intros z [->|hz]; [|elim (alone42f _ hz)]. split; [|congruence].
      intros dz hd ht. vm_compute in hd. injection hd as <-. vm_compute in ht. destruct ht as (v & cl & mm & al & hr & _). destruct hr. }
  split; [reflexivity|]. split; [discriminate|]. split.
  { exists [7], [1]. eexists. split; [vm_compute; reflexivity|]. split; [vm_compute; reflexivity|]. split; [reflexivity|].
    intros j dj [<-|[]] h. vm_compute in h. injection h as <-. discriminate. }
  split; [vm_compute; reflexivity|]. vm_compute. tauto.
Qed.

Print Assumptions C42_inherited_partial.
Print Assumptions C42_inherited_position_partial.
Print Assumptions C42_arrow_partial.
Print Assumptions C42_arrow_position_partial.
