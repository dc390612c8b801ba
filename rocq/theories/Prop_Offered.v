(** Property C42: the members that fit are offered. *)

From Coq Require Import Permutation Relations.
From Verif Require Import Base Token TokenFacts Scanner Node DocBlock Parser Assoc AssocFacts Arena ArenaFacts
  Symbol EnvMonad EnvFacts Workspace WorkspaceFacts Resolver SpecNames ResolverFacts
  Backend BackendFacts SpecServer ServerInv Prop_Server Prop_Names Prop_Members Prop_Access Prop_Scopes Prop_Locals Prop_Types
  Prop_Overrides Suggester Prop_Suggest.
From Verif Require Prop_Definition Prop_Symbols.

Local Notation findS := (find str_eqb).
Local Existing Instance ascii_runtime | 9.
Local Existing Instance plain_hashing | 9.
Local Open Scope string_scope.
Local Open Scope N_scope.
Local Open Scope list_scope.

(** * Specification *)

Section Offered.
Context {RT : Runtime} {HH : Hashing}.

(** The places of [i] are the first in [l] that the position is in. *)
Definition noted_at (l : FileReferenceMap) (p : Position) (i : N) : Prop :=
  exists l1 rs l2 r, l = l1 ++ (i, rs) :: l2 /\ In r rs /\ inside p (get_range r) /\
    forall j qs q, In (j, qs) l1 -> In q qs -> ~ inside p (get_range q).
(** The position at which the node begins *)
Definition begins (n : Node) (p : Position) : Prop :=
  exists r, node_range n = Some r /\ p = mkPos (start_line r) (start_col r).

(** [stands_for a suc l whole object i]: [object], in front of an arrow, is the symbol
    [i]: [$this] is the class around the function [suc]; a variable, property
    or method is what is recorded at its place. *)
Inductive stands_for (a : arena Symbol) (suc : N) (l : FileReferenceMap) (whole : Node) : Node -> N -> Prop :=
| sf_this : forall t c, t_label t = Some (lit "this") -> parent_of a suc = Some (Some c) ->
    stands_for a suc l whole (NVariable t) c
| sf_variable : forall t p i, t_label t <> Some (lit "this") -> begins whole p -> noted_at l p i ->
    stands_for a suc l whole (NVariable t) i
| sf_property : forall o op x m y p i, begins m p -> noted_at l p i ->
    stands_for a suc l whole (NMember o op x m y) i
| sf_method : forall o op x m y op' args cl p i, begins m p -> noted_at l p i ->
    stands_for a suc l whole (NCall (NMember o op x m y) op' args cl) i.

(** [c] is one of the classes of the symbol [i]: a type that has been looked up
    before, the class of a method that returns [$this], or the first type. *)
Inductive has_class (b : bst) (suc i c : N) : Prop :=
| hc_known : forall d r, data (b_arena b) i = Some d -> In r (y_types d) -> sr_node r = Some c -> has_class b suc i c
| hc_this : forall d r, data (b_arena b) i = Some d -> In r (y_types d) -> sr_node r = None ->
    tref_root (sr_type r) = Some (Some (lit "$this")) -> parent_of (b_arena b) i = Some (Some c) -> has_class b suc i c
| hc_named : forall d r rs, data (b_arena b) i = Some d -> y_types d = r :: rs -> sr_node r = None ->
    tref_root (sr_type r) <> Some (Some (lit "$this")) -> names_class (resolver_at b suc) (sr_type r) suc c -> has_class b suc i c.

(** [i] is the member [d] that the class [c] has under its name, and nothing
    above the class has a member of the name. *)
Definition own_member (b : bst) (suc c i : N) (d : Symbol) : Prop :=
  declares_last (b_arena b) c (lower_name d) i d /\ ~ renames (b_arena b) c (lower_name d) /\
  forall n, ancestor (resolver_at b suc) c n ->
    (forall j, ~ declares (b_arena b) n (lower_name d) j) /\ ~ renames (b_arena b) n (lower_name d).

(** * Proofs *)

Lemma noted_found : forall l p i, noted_at l p i -> opt_map fst (List.find (fun e => touches p (snd e)) l) = Some i.
Proof.
  intros l p i (l1 & rs & l2 & r & -> & hr & hp & h). induction l1 as [|[j qs] l1 IH]; cbn [app List.find snd].
  - assert (e : touches p rs = true) by (apply Prop_Definition.touches_spec; eauto). rewrite e. reflexivity.
  - destruct (touches p qs) eqn:e.
    + apply Prop_Definition.touches_spec in e as (q & hq & hpq). exfalso. eapply h; [left; reflexivity|exact hq|exact hpq].
    + apply IH. intros j' qs' q hj. apply (h j' qs' q). right. exact hj.
Qed.

(** The symbol that is found *)
Definition picks (l : FileReferenceMap) (i : N) (ob : NodeRange * option N * bool) : Prop :=
  let '(range, this, _) := ob in
  match this with
  | Some t => Some t
  | None => opt_map fst (List.find (fun e => touches (mkPos (start_line range) (start_col range)) (snd e)) l)
  end = Some i.

Lemma r_member_object : forall b suc l whole r object i, stands_for (b_arena b) suc l whole object i ->
  node_range whole = Some r ->
  reads b (member_object r suc object) (fun ro => picks l i (fst ro, snd ro, true)).
Proof.
  intros b suc l whole r object i h hr.
  inversion h as [t c h1 h2|t p j h1 h2 h3|o op x m y p j h2 h3|o op x m y op' args cl p j h2 h3]; subst; cbn [member_object].
  - unfold this_object. rewrite h1. destruct (str_eqb_spec (lit "this") (lit "this")) as [_|ne]; [|congruence].
    intros ro b' e. unfold ebind, e_parent in e. cbn [the_arena bst_arena] in e. rewrite h2 in e. injection e as <- <-. split; reflexivity.
  - destruct h2 as (r' & h2 & ->). rewrite hr in h2. injection h2 as <-. apply noted_found in h3.
    unfold this_object. destruct (t_label t) as [lb|]; [|apply r_ret; exact h3].
    destruct (str_eqb_spec lb (lit "this")); [congruence|]. apply r_ret. exact h3.
  - destruct h2 as (r' & h2 & ->). apply noted_found in h3. rewrite h2. apply r_ret. exact h3.
  - destruct h2 as (r' & h2 & ->). apply noted_found in h3. rewrite h2. apply r_ret. exact h3.
Qed.

Definition is_member (n : Node) : Prop := match n with NMember _ _ _ _ _ => True | _ => False end.
Lemma r_object_of : forall b node suc l object op x m y i, ~ is_member node ->
  stands_for (b_arena b) suc l (NMember object op x m y) object i ->
  reads b (object_of node (NMember object op x m y) suc) (fun ob => picks l i ob /\ snd ob = true).
Proof.
  intros b node suc l object op x m y i hn h. unfold object_of. eapply r_bind; [apply r_opt|]. intros pr hpr.
  assert (G : reads b (elet ro <- member_object pr suc object in eret (fst ro, snd ro, true)) (fun ob => picks l i ob /\ snd ob = true)).
  { eapply r_bind; [eapply r_member_object; eassumption|]. intros ro hro. apply r_ret. auto. }
  destruct node; try exact G. destruct hn. exact I.
Qed.

Lemma r_innermost : forall b l l1 c l2 d, l = l1 ++ c :: l2 -> data (b_arena b) c = Some d -> y_kind d = KClass ->
  (forall j dj, In j l1 -> data (b_arena b) j = Some dj -> y_kind dj <> KClass) ->
  reads b (first_class l) (fun o => o = Some c).
Proof.
  intros b l l1 c l2 d -> hd hk h. induction l1 as [|j l1 IH]; unfold first_class; cbn [app efind].
  - eapply r_bind with (P := fun o => o = Some c); [|intros o ->; apply r_ret; reflexivity].
    eapply r_bind; [apply r_data|]. cbv beta. intros d' hd'. rewrite hd in hd'. injection hd' as <-. apply r_ret. rewrite hk. reflexivity.
  - eapply r_bind with (P := fun o => o = None); [|intros o ->; apply IH; intros j' dj hj; apply h; right; exact hj].
    eapply r_bind; [apply r_data|]. cbv beta. intros d' hd'. apply r_ret. specialize (h j d' (or_introl eq_refl) hd').
    destruct (y_kind d') eqn:e; try reflexivity. congruence.
Qed.

Lemma keys_put_all : forall (es m : members) k v, findS k m = Some v -> exists v', findS k (put_all str_eqb es m) = Some v'.
Proof.
  intros es. induction es as [|[k0 v0] es IH]; intros m k v h; cbn [put_all fold_left]; [eauto|].
  destruct (str_eqb_spec k k0) as [->|ne].
  - eapply (IH (put str_eqb k0 v0 m)). apply (find_put_same _ str_eqb_spec).
  - eapply (IH (put str_eqb k0 v0 m)). rewrite (find_put_other _ str_eqb_spec); [exact h|congruence].
Qed.

(** What the class itself declares can be used in it. *)
Lemma y_accessible : forall s fuel c i d, declares_last (r_arena s) c (lower_name d) i d ->
  yields s (accessible_members fuel c) (fun m => is_some (findS (lower_name d) m) = true).
Proof.
  intros s fuel c i d (l1 & l2 & hk & hd & _ & hl). unfold accessible_members.
  eapply y_bind with (P := fun own => exists v, findS (lower_name d) own = Some v).
  - unfold own_symbols. eapply y_bind; [apply y_kids|]. intros ks hks. rewrite hk in hks. injection hks as <-.
    eapply y_weak; [apply own_fold|]. cbv beta. intros own (_ & _ & h2). eexists. eapply h2; eauto.
  - intros own (v & hv). eapply y_bind; [apply y_data|]. intros me hme.
    eapply y_bind; [apply (import_entries s fuel c me hme (all_entries s fuel))|]. intros imp _.
    eapply y_bind; [apply (parent_entries s fuel c me hme (all_entries s fuel))|]. intros inh _.
    eapply y_bind with (P := fun _ => True).
    + apply (y_fold s _ _ _ (fun _ _ => True)); [exact I|]. intros done acc p _ _. eapply y_bind; [apply y_data|]. intros. apply y_ret. exact I.
    + intros vis _. apply y_ret. destruct (keys_put_all imp own _ _ hv) as (v1 & h1). destruct (keys_put_all vis _ _ _ h1) as (v2 & h2).
      rewrite h2. reflexivity.
Qed.

Lemma r_offers : forall b suc fuel w st acc t c i d, own_member b suc c i d ->
  (exists r, sym_name d = w ++ r) -> y_kind d <> KMagicConst -> (st = true -> y_static d = true) ->
  (is_public d \/ is_some (findS (lower_name d) acc) = true) ->
  reads b (with_resolver suc (offered fuel w st true acc t)) (fun l => t = c -> In (sug_aliased i (sym_name d) SCall) l).
Proof.
  intros b suc fuel w st acc t c i d (h1 & h2 & h3) hw hm hs hv.
  destruct (N.eq_dec t c) as [->|ne].
  2:{ intros x b' e. unfold with_resolver in e. destruct (offered _ _ _ _ _ _ _); try discriminate e. injection e as _ <-. split; [reflexivity|congruence]. }
  eapply r_with. unfold offered.
  assert (Y : yields (resolver_at b suc) (get_all_symbols fuel c) (fun m => findS (lower_name d) m = Some (mkAlias i (sym_name d) (y_vis d) c))).
  { apply y_own; [exact h1|]. split; [exact h2|]. intros n hn p hp. apply h3. unfold ancestor.
    assert (H : clos_refl_trans N (Prop_Members.follows (resolver_at b suc)) n p ->
      n = p \/ clos_trans N (Prop_Members.follows (resolver_at b suc)) n p).
    { clear. induction 1 as [x y h|x|x y z h1 [q1|t1] h2 [q2|t2]]; subst; auto.
      - right. apply t_step. exact h.
      - right. eapply t_trans; eauto. }
    destruct (H hp) as [->|ht]; [apply t_step; exact hn|eapply t_trans; [apply t_step; exact hn|exact ht]]. }
  eapply y_bind; [exact Y|]. cbv beta. intros all hall.
  assert (hin : In (lower_name d, mkAlias i (sym_name d) (y_vis d) c) (h_order all)).
  { eapply Permutation_in; [apply Permutation_sym, h_perm|]. apply (find_in _ str_eqb_spec _ _ _ hall). }
  eapply y_weak; [apply (y_fold _ _ _ _ (fun done l => In (lower_name d, mkAlias i (sym_name d) (y_vis d) c) done -> In (sug_aliased i (sym_name d) SCall) l))|auto].
  { intros []. }
  intros done l [k al] hl _. cbn [snd].
  assert (B : forall m : R (list Suggestion), (k, al) <> (lower_name d, mkAlias i (sym_name d) (y_vis d) c) ->
    yields (resolver_at b suc) m (fun l' => incl l l') ->
    yields (resolver_at b suc) m (fun l0 => In (lower_name d, mkAlias i (sym_name d) (y_vis d) c) (done ++ [(k, al)]) -> In (sug_aliased i (sym_name d) SCall) l0)).
  { intros m ne hy. eapply y_weak; [exact hy|]. cbv beta. intros l' hi hx. apply in_app_iff in hx as [hx|[hx|[]]]; [auto|congruence]. }
  assert (D : (k, al) = (lower_name d, mkAlias i (sym_name d) (y_vis d) c) \/ (k, al) <> (lower_name d, mkAlias i (sym_name d) (y_vis d) c)).
  { destruct (str_eqb_spec k (lower_name d)) as [->|]; [|right; congruence].
    destruct al as [y1 y2 y3 y4]. destruct (N.eq_dec y1 i); [|right; congruence]. destruct (str_eqb_spec y2 (sym_name d)); [|right; congruence].
    destruct (N.eq_dec y4 c); [|right; congruence]. assert (dv : y3 = y_vis d \/ y3 <> y_vis d) by (destruct y3, (y_vis d); auto; right; discriminate).
    destruct dv; [left; congruence|right; congruence]. }
  destruct D as [D|D].
  - injection D as -> ->. cbn [al_alias al_symbol al_vis].
    assert (e : starts_with w (sym_name d) = true) by (apply Prop_Symbols.starts_with_spec; exact hw). rewrite e. cbn [negb].
    eapply y_bind; [apply y_data|]. cbn [r_arena resolver_at resolver_new]. intros d' hd'. destruct h1 as (q1 & q2 & _ & hd & _).
    rewrite hd in hd'. injection hd' as <-. apply y_ret. intros _.
    assert (e1 : (st && negb (y_static d)) || (true && kind_eqb (y_kind d) KMagicConst) = false).
    { apply Bool.orb_false_iff. split; [destruct st; [rewrite (hs eq_refl)|]; reflexivity|]. destruct (y_kind d); try reflexivity. congruence. }
    assert (e2 : vis_ge (y_vis d) VPublic || is_some (findS (normalized_name d) acc) = true).
    { apply Bool.orb_true_iff. destruct hv as [[hv|hv]|hv]; [left; rewrite hv; reflexivity|left; rewrite hv; reflexivity|right; exact hv]. }
    rewrite e1, e2. apply in_or_app. right. left. reflexivity.
  - apply B; [exact D|]. destruct (negb _); [apply y_ret, incl_refl|]. eapply y_bind; [apply y_data|]. intros da _. apply y_ret.
    destruct (_ || _); [apply incl_refl|]. destruct (_ || _); [|apply incl_refl]. apply incl_appl, incl_refl.
Qed.

(** The classes of the object *)
Lemma y_object_types : forall b fuel resolved suc c d, has_class b suc resolved c -> data (b_arena b) resolved = Some d ->
  forall x s', object_types fuel resolved suc (y_types d) (resolver_at b suc) = Done x s' -> In c x.
Proof.
  intros b fuel resolved suc c d h hd x s' e. unfold object_types in e.
  assert (K : forall acc r s1 acc' s2, (match sr_node r with
    | Some n => eret (acc ++ [n])
    | None =>
        elet root <- eopt (tref_root (sr_type r)) in
        elet root <- eopt root in
        if str_eqb root (lit "$this") then
          elet p <- e_parent resolved in eret (acc ++ opt_list p)
        else
          elet o <- resolve_type_ref fuel (sr_type r) suc false in eret (acc ++ opt_list o)
    end) s1 = Done acc' s2 -> incl acc acc' /\ (r_arena s1 = b_arena b -> r_arena s2 = b_arena b) /\
      (sr_node r = Some c -> In c acc') /\
      (sr_node r = None -> tref_root (sr_type r) = Some (Some (lit "$this")) -> r_arena s1 = b_arena b ->
        parent_of (b_arena b) resolved = Some (Some c) -> In c acc') /\
      (sr_node r = None -> tref_root (sr_type r) <> Some (Some (lit "$this")) -> names_class s1 (sr_type r) suc c -> In c acc')).
  { intros acc r s1 acc' s2 q. destruct (sr_node r) as [n|] eqn:en.
    - injection q as <- <-. split; [apply incl_appl, incl_refl|]. split; [auto|].
      split; [intros [= ->]; apply in_or_app; right; left; reflexivity|]. split; intros [=].
    - take q as q1. take q as q2. destruct (tref_root (sr_type r)) as [o|] eqn:er; [|discriminate q1]. injection q1 as <- <-.
      destruct o as [rt|]; [|discriminate q2]. injection q2 as <- <-.
      destruct (str_eqb_spec rt (lit "$this")) as [->|ne].
      + take q as q3. injection q as <- <-. unfold e_parent in q3. cbn [the_arena rst_arena] in q3.
        destruct (parent_of (r_arena s1) resolved) as [po|] eqn:ep; [|discriminate q3]. injection q3 as <- <-.
        split; [apply incl_appl, incl_refl|]. split; [auto|]. split; [intros [=]|]. split.
        * intros _ _ ha hp. rewrite <- ha, ep in hp. injection hp as ->. apply in_or_app. right. left. reflexivity.
        * congruence.
      + take q as q3. injection q as <- <-.
        split; [apply incl_appl, incl_refl|]. split; [|split; [intros [=]|]; split].
        * intros ha. destruct (kept_resolve fuel (sr_type r) suc false _ _ _ q3) as [k _]. congruence.
        * intros _ q4. exfalso. apply ne. congruence.
        * intros _ _ hc. pose proof (resolves _ _ _ _ _ _ _ _ hc q3) as hk. subst. apply in_or_app. right. left. reflexivity. }
  assert (M : forall l acc s1 x s2, efold (fun acc dt =>
    match sr_node dt with
    | Some n => eret (acc ++ [n])
    | None =>
        elet root <- eopt (tref_root (sr_type dt)) in
        elet root <- eopt root in
        if str_eqb root (lit "$this") then
          elet p <- e_parent resolved in eret (acc ++ opt_list p)
        else
          elet o <- resolve_type_ref fuel (sr_type dt) suc false in eret (acc ++ opt_list o)
    end) acc l s1 = Done x s2 -> r_arena s1 = b_arena b ->
    incl acc x /\ (forall r, In r l -> sr_node r = Some c -> In c x) /\
    (forall r, In r l -> sr_node r = None -> tref_root (sr_type r) = Some (Some (lit "$this")) ->
       parent_of (b_arena b) resolved = Some (Some c) -> In c x) /\
    (forall r rs, l = r :: rs -> sr_node r = None -> tref_root (sr_type r) <> Some (Some (lit "$this")) ->
       names_class s1 (sr_type r) suc c -> In c x)).
  { induction l as [|r l IH]; intros acc s1 y s2 q ha; cbn [efold] in q.
    - injection q as <- <-. split; [apply incl_refl|]. split; [intros r []|]. split; [intros r []|]. intros r rs [=].
    - unfold ebind at 1 in q. match type of q with match ?m with _ => _ end = _ => destruct m as [acc1 s3| |] eqn:em; try discriminate q end.
      destruct (K _ _ _ _ _ em) as (k1 & k2 & k3 & k4 & k5). destruct (IH _ _ _ _ q (k2 ha)) as (i1 & i2 & i3 & i4).
      split; [eapply incl_tran; eassumption|]. split; [intros r0 [<-|hr]; [intros hn; apply i1, k3, hn|apply i2; exact hr]|].
      split; [intros r0 [<-|hr]; [intros; apply i1, k4; assumption|apply i3; exact hr]|].
      intros r0 rs [= <- <-] h1 h2 h3. apply i1. auto. }
  destruct (M _ _ _ _ _ e eq_refl) as (_ & m1 & m2 & m3).
  inversion h as [d0 r q1 q2 q3|d0 r q1 q2 q3 q4 q5|d0 r rs q1 q2 q3 q4 q5]; subst; rewrite hd in q1; injection q1 as <-; eauto.
Qed.

(** Completion at a member of an object: the members that the class of the
    object declares are offered, with all of the letters that have been typed,
    and none of the others in front of them.  Members are public, or those of
    the class around the cursor.  Missing: inherited members and members of
    traits, and names that more than one of the class and its ancestors has. *)
Theorem C42_offered_partial : forall fuel order trigger node object op x m y suc refs b l b' w k c i d,
  suggest_members fuel order trigger node (NMember object op x m y) suc refs b = Done l b' ->
  ~ is_member node -> node_name node = Some w ->
  stands_for (b_arena b) suc (order refs) (NMember object op x m y) object k -> has_class b suc k c ->
  own_member b suc c i d -> (exists r, sym_name d = w ++ r) -> y_kind d <> KMagicConst ->
  (trigger = Some 58 -> y_static d = true) -> (is_public d \/ innermost_class (b_arena b) suc c) ->
  In (sug_aliased i (sym_name d) SCall) l.
Proof.
  intros fuel order trigger node object op x m y suc refs b l b' w k c i d e hn hw ho hc hm hr hmag hst hv.
  assert (G : reads b (suggest_members fuel order trigger node (NMember object op x m y) suc refs)
    (fun l => In (sug_aliased i (sym_name d) SCall) l)); [|apply G in e as [_ e]; exact e].
  unfold suggest_members. eapply r_bind; [apply r_opt|]. intros w' hw'. rewrite hw in hw'. injection hw' as <-.
  eapply r_bind; [eapply r_object_of; eassumption|]. intros [[range this] nm] [hp hnm]. cbn [snd] in hnm. subst nm.
  unfold picks in hp. cbv zeta. rewrite hp.
  eapply r_bind; [apply r_ancestors|]. intros anc hanc.
  eapply r_bind with (P := fun o => innermost_class (b_arena b) suc c -> o = Some c).
  { intros o b1 eo. assert (b1 = b) as -> by (apply r_class in eo as [-> _]; reflexivity). split; [reflexivity|].
    intros (l1 & l2 & dc & q1 & q2 & q3 & q4). rewrite hanc in q1. injection q1 as ->.
    destruct (r_innermost b _ l1 c l2 dc eq_refl q2 q3 q4 _ _ eo) as [_ r]. exact r. }
  intros cur hcur.
  eapply r_bind with (P := fun acc : members => innermost_class (b_arena b) suc c -> is_some (findS (lower_name d) acc) = true).
  { destruct cur as [c'|].
    - destruct (N.eq_dec c' c) as [->|ne].
      + apply r_with. eapply y_weak; [apply (y_accessible _ fuel c i d); apply hm|]. auto.
      + intros ac b1 ea. unfold with_resolver in ea. destruct (accessible_members _ _ _); try discriminate ea. injection ea as _ <-.
        split; [reflexivity|]. intros q. specialize (hcur q). congruence.
    - apply r_ret. intros q. specialize (hcur q). discriminate hcur. }
  intros acc hacc. eapply r_bind; [apply r_data|]. intros dk hdk.
  eapply r_bind with (P := fun types => In c types).
  { intros ts b1 et. unfold with_resolver in et. fold (resolver_at b suc) in et.
    destruct (object_types _ _ _ _ _) as [ts' s'| |] eqn:eo; try discriminate et. injection et as <- <-.
    split; [reflexivity|]. eapply y_object_types; [exact hc|exact hdk|exact eo]. }
  intros types ht.
  assert (F : forall ts a0, In c ts \/ In (sug_aliased i (sym_name d) SCall) a0 ->
    reads b (efold (fun acc0 t =>
      elet l <- with_resolver suc (offered fuel w (match trigger with Some c => c =? 58 | None => false end) true acc t) in
      eret (acc0 ++ l)) a0 ts) (fun l => In (sug_aliased i (sym_name d) SCall) l)).
  { induction ts as [|t ts IH]; intros a0 h; cbn [efold].
    - apply r_ret. destruct h as [[]|h]; exact h.
    - eapply r_bind with (P := fun a1 => In c ts \/ In (sug_aliased i (sym_name d) SCall) a1); [|apply IH].
      eapply r_bind.
      + eapply (r_offers b suc fuel w _ acc t c i d); [exact hm|exact hr|exact hmag| |].
        * intros q. apply hst. destruct trigger as [tc|]; [|discriminate q]. apply N.eqb_eq in q. congruence.
        * destruct hv as [hv|hv]; auto.
      + cbv beta. intros l0 hl0. apply r_ret. destruct h as [[<-|h]|h]; auto; right; apply in_or_app; auto. }
  apply F. left. exact ht.
Qed.
End Offered.

(** * Cases *)

(** At [$a->me()->x], where [me] returns [$this], and at [$this->x] and
    [$a->x]: the property [$xy] and the private [$xz] are offered. *)
Definition text42f : string :=
  "<?php class A { public $xy; private $xz; /** @return $this */ public function me() { } function f(A $a) { $a->me()->x; $this->x; $a->x; } }".
Definition case42f : bst := opened "<?php" text42f.
Definition refs42f : FileReferenceMap := Eval vm_compute in match findS pB (b_refs case42f) with Some l => l | None => [] end.
(** The members at the cursor: in the statements of [f] *)
Definition members42f : list Node :=
  Eval vm_compute in match syntax 400 (lit text42f) with
  | Some [NClassStatement _ _ _ _ _ _ (NBlock _ l _) _ _] =>
      match rev l with
      | NMethodDefinitionStatement _ _ _ _ _ _ (NFunctionDefinitionStatement _ _ _ _ (Some (NBlock _ q _)) _) _ _ _ :: _ =>
          map (fun n => match n with NExpressionStatement e => e | _ => n end) q
      | _ => []
      end
  | _ => []
  end.
Definition member42f (i : nat) : Node := nth i members42f (NVariable (mkToken 0 0 TVariable None None)).

(** The members [$xy] and [$xz] are those of the class. *)
Lemma owns42f : forall i d, (i = 4 \/ i = 5) -> data (b_arena case42f) i = Some d -> own_member case42f 7 2 i d.
Proof.
  intros i d hi hd. split; [|split].
  - destruct hi as [->| ->]; vm_compute in hd; injection hd as <-.
    + exists [3], [5; 6; 7]. split; [vm_compute; reflexivity|]. split; [vm_compute; reflexivity|]. split; [vm_compute; reflexivity|].
      intros j dj hj hd. repeat (destruct hj as [<-|hj]; [vm_compute in hd; injection hd as <-; vm_compute; discriminate|]). destruct hj.
    + exists [3; 4], [6; 7]. split; [vm_compute; reflexivity|]. split; [vm_compute; reflexivity|]. split; [vm_compute; reflexivity|].
      intros j dj hj hd. repeat (destruct hj as [<-|hj]; [vm_compute in hd; injection hd as <-; vm_compute; discriminate|]). destruct hj.
  - intros (dc & v & cl & m & tk & l & h & hin & _). vm_compute in h. injection h as <-. destruct hin.
  - intros n hn. exfalso. revert n hn. eapply no_ancestors with (V := fun n => n = 2).
    + split; [|split].
      * intros k n q. vm_compute in q. destruct q as [q|[]]. injection q as _ <-. reflexivity.
      * intros c q. discriminate q.
      * intros k n [].
    + vm_compute. reflexivity.
    + reflexivity.
    + reflexivity.
    + auto.
Qed.
Lemma found_noted : forall l p i, opt_map fst (List.find (fun e => touches p (snd e)) l) = Some i -> noted_at l p i.
Proof.
  induction l as [|[j qs] l IH]; intros p i h; [discriminate h|]. cbn [List.find snd] in h. destruct (touches p qs) eqn:e.
  - injection h as ->. apply Prop_Definition.touches_spec in e as (q & hq & hp). exists [], qs, l, q. split; [reflexivity|].
    split; [exact hq|]. split; [exact hp|]. intros ? ? ? [].
  - destruct (IH _ _ h) as (l1 & rs & l2 & r & -> & h1 & h2 & h3). exists ((j, qs) :: l1), rs, l2, r.
    split; [reflexivity|]. split; [exact h1|]. split; [exact h2|]. intros j' qs' q [hj|hj] hq hp; [|eapply h3; eauto].
    injection hj as -> ->. assert (touches p qs' = true) by (apply Prop_Definition.touches_spec; eauto). congruence.
Qed.

Example C42_offered_case : reachable case42f /\ innermost_class (b_arena case42f) 7 2 /\
  (forall i d, (i = 4 \/ i = 5) -> data (b_arena case42f) i = Some d -> own_member case42f 7 2 i d /\
    (exists r, sym_name d = lit "x" ++ r) /\ y_kind d <> KMagicConst /\ (i = 5 -> y_vis d = VPrivate)) /\
  Forall2 (fun n k => exists object op x m y l, n = NMember object op x m y /\ ~ is_member m /\ node_name m = Some (lit "x") /\
    stands_for (b_arena case42f) 7 refs42f n object k /\ has_class case42f 7 k 2 /\
    suggest_members 50 (fun l => l) None m n 7 refs42f case42f = Done l case42f /\ List.length l = 2%nat) members42f [6; 2; 8].
Proof.
  split; [apply state_after_reachable|]. split.
  { exists [7], [1]. eexists. split; [vm_compute; reflexivity|]. split; [vm_compute; reflexivity|]. split; [reflexivity|].
    intros j dj [<-|[]] h. vm_compute in h. injection h as <-. discriminate. }
  split.
  { intros i d hi hd. split; [apply owns42f; assumption|].
    destruct hi as [->| ->]; vm_compute in hd; injection hd as <-; (split; [eexists; vm_compute; reflexivity|]; split; [discriminate|]).
    - intros [=].
    - reflexivity. }
  unfold members42f. repeat constructor.
  - eexists _, _, _, _, _, _. split; [reflexivity|]. split; [intros []|]. split; [reflexivity|]. split.
    + eapply sf_method; [eexists; split; [vm_compute; reflexivity|reflexivity]|]. apply found_noted. vm_compute. reflexivity.
    + split; [|split; [vm_compute; reflexivity|reflexivity]].
      eapply hc_this; [vm_compute; reflexivity|left; reflexivity|reflexivity|vm_compute; reflexivity|vm_compute; reflexivity].
  - eexists _, _, _, _, _, _. split; [reflexivity|]. split; [intros []|]. split; [reflexivity|]. split.
    + apply sf_this; [reflexivity|vm_compute; reflexivity].
    + split; [|split; [vm_compute; reflexivity|reflexivity]].
      eapply hc_named; [vm_compute; reflexivity|reflexivity|reflexivity|vm_compute; discriminate|].
      assert (wf (r_arena (resolver_at case42f 7))) by apply (wi_wf _ (reachable_winv _ (state_after_reachable _))).
      names_A.
  - eexists _, _, _, _, _, _. split; [reflexivity|]. split; [intros []|]. split; [reflexivity|]. split.
    + eapply sf_variable; [discriminate|eexists; split; [vm_compute; reflexivity|reflexivity]|]. apply found_noted. vm_compute. reflexivity.
    + split; [|split; [vm_compute; reflexivity|reflexivity]].
      eapply hc_known; [vm_compute; reflexivity|left; reflexivity|reflexivity].
Qed.

Print Assumptions C42_offered_partial.
