(** Properties C35, C42, C43 and C44: what completion offers. *)

From Coq Require Import Permutation Relations.
From Verif Require Import Base Token Scanner Node DocBlock Parser Assoc AssocFacts Arena ArenaFacts
  Symbol EnvMonad EnvFacts Workspace WorkspaceFacts Resolver SpecNames ResolverFacts
  Backend BackendFacts SpecServer ServerInv Prop_Server Prop_Names Prop_Members Prop_Overrides Suggester.

Local Notation findS := (find str_eqb).
Local Existing Instance ascii_runtime | 9.
Local Existing Instance plain_hashing | 9.
Local Open Scope string_scope.
Local Open Scope N_scope.
Local Open Scope list_scope.

(** * Specification *)

(** [i] is declared in [n] *)
Definition declared_in (a : arena Symbol) (n i : N) : Prop := exists ks, kids a n = Some ks /\ In i ks.
(** No modifier counts as [public]. *)
Definition is_public (d : Symbol) : Prop := y_vis d = VPublic \/ y_vis d = VNone.
(** [c] is the innermost class around [i] *)
Definition innermost_class (a : arena Symbol) (i c : N) : Prop :=
  exists l1 l2 d, ancestors a i = Some (l1 ++ c :: l2) /\ data a c = Some d /\ y_kind d = KClass /\
    forall j dj, In j l1 -> data a j = Some dj -> y_kind dj <> KClass.
(** Names are compared in lower case. *)
Definition lower_name {RT : Runtime} (d : Symbol) : str := to_lowercase (sym_name d).

Section C35.
Context {RT : Runtime} {HH : Hashing}.

(** From [ctx] on, over any number of parents, traits and data types *)
Definition reaches (s : rst) : N -> N -> Prop := clos_refl_trans N (follows s).
(** The members of the traits that [c] uses *)
Definition in_trait_of (s : rst) (c i : N) : Prop :=
  exists t n, means_in s trait_names c c t /\ reaches s t n /\ declared_in (r_arena s) n i.
(** The members of the classes that [c] inherits from *)
Definition in_parent_of (s : rst) (c i : N) : Prop :=
  exists p n, means_in s parent_names c c p /\ reaches s p n /\ declared_in (r_arena s) n i.

(** What may be used inside [c]: what it declares itself, the members of its
    traits, and the members of its parents that are not private *)
Definition usable_in (s : rst) (c i : N) (d : Symbol) : Prop :=
  declared_in (r_arena s) c i \/ in_trait_of s c i \/ (in_parent_of s c i /\ y_vis d <> VPrivate).

(** A rule [m as public ..] about a member of that name *)
Definition opens_up (a : arena Symbol) (k : str) : Prop :=
  exists c dc v cl m al, data a c = Some dc /\ In (AltAs v cl m al) (the_list (y_alterations dc)) /\
    vis_of v = VPublic /\ (to_lowercase m = k \/ exists c', renames a c' (to_lowercase m)).

(** * Proofs *)

(** ** Where the members of a class come from *)
Section Entries.
Variable s : rst.
Local Notation a := (r_arena s).

(** An [as] rule of a symbol that sets the visibility [v] of a member [k] *)
Definition sets (c : N) (k : str) (v : Visibility) : Prop :=
  exists dc t cl m al, data a c = Some dc /\ In (AltAs t cl m al) (the_list (y_alterations dc)) /\
    vis_of t = v /\ v <> VNone /\ to_lowercase m = k.

Definition named (ctx : N) (d : Symbol) (k : str) : Prop :=
  lower_name d = k \/ exists m, reaches s ctx m /\ renames a m k.
(** [al], at the key [k], is a member declared in one of the symbols [P] *)
Definition entry (P : N -> Prop) (ctx : N) (k : str) (al : SymbolAlias) : Prop :=
  exists n d, P n /\ declared_in a n (al_symbol al) /\ data a (al_symbol al) = Some d /\ named ctx d k /\
    (al_vis al = y_vis d \/ exists m k', reaches s ctx m /\ named ctx d k' /\ sets m k' (al_vis al)).

Lemma named_up : forall c ctx d k, reaches s c ctx -> named ctx d k -> named c d k.
Proof.
  intros c ctx d k h [e|(m & hm & hr)]; [left; exact e|right]. exists m. split; [eapply rt_trans; eauto|exact hr].
Qed.
Lemma entry_up : forall (P Q : N -> Prop) c ctx k al, reaches s c ctx -> (forall n, P n -> Q n) ->
  entry P ctx k al -> entry Q c k al.
Proof.
  intros P Q c ctx k al h hpq (n & d & hn & hi & hd & hk & hv). exists n, d. split; [auto|]. split; [exact hi|].
  split; [exact hd|]. split; [eapply named_up; eauto|]. destruct hv as [e|(m & k' & hm & hk' & hs)]; [left; exact e|right].
  exists m, k'. split; [eapply rt_trans; eauto|]. split; [eapply named_up; eauto|exact hs].
Qed.
Definition full (ctx : N) (m : members) : Prop := forall k al, In (k, al) m -> entry (reaches s ctx) ctx k al.

Lemma in_put_all : forall (es m : members) p, In p (put_all str_eqb es m) -> In p es \/ In p m.
Proof.
  induction es as [|[k v] es IH]; intros m p h; cbn [put_all fold_left] in h; [auto|].
  unfold put_all in IH, h. cbn [fold_left] in h. apply IH in h. destruct h as [h|h]; [left; right; exact h|].
  cbn [fst snd] in h. apply in_put in h. destruct h as [->|h]; [left; left; reflexivity|auto].
Qed.

Lemma own_entries : forall ctx, yields s (own_symbols ctx)
  (fun m => forall k al, In (k, al) m -> entry (eq ctx) ctx k al).
Proof.
  intros ctx. unfold own_symbols. eapply y_bind; [apply y_kids|]. intros ks hks.
  apply (y_fold s _ _ _ (fun _ m => forall k al, In (k, al) m -> entry (eq ctx) ctx k al)); [intros k al []|].
  intros done m i hm (r & er). eapply y_bind; [apply y_data|]. intros d hd. apply y_ret.
  intros k al h. apply in_put in h. destruct h as [h|h]; [|auto]. injection h as -> ->.
  exists ctx, d. cbn [al_symbol al_vis]. split; [reflexivity|]. split.
  - exists ks. split; [exact hks|]. rewrite er. apply in_or_app. right. left. reflexivity.
  - split; [exact hd|]. split; left; reflexivity.
Qed.

Section One.
Variables (fuel : nat) (ctx : N) (me : Symbol).
Hypothesis hme : data a ctx = Some me.
Hypothesis rec : forall n, yields s (get_all_symbols fuel n) (full n).
Local Notation alts := (the_list (y_alterations me)).

Definition in_trait (n : N) : Prop := exists t, means_in s trait_names ctx ctx t /\ reaches s t n.
Definition in_parent (n : N) : Prop := exists t, means_in s parent_names ctx ctx t /\ reaches s t n.

Lemma trait_entries : yields s (trait_symbols (resolve_type_ref fuel) (get_all_symbols fuel) me ctx)
  (fun m => forall k l al, In (k, l) m -> In al l -> entry in_trait ctx k al).
Proof.
  unfold trait_symbols. fold (the_list (y_imports me)).
  apply (y_fold s _ _ _ (fun _ m => forall k l al, In (k, l) m -> In al l -> entry in_trait ctx k al)); [intros k l al []|].
  intros done m i hm (r & er).
  assert (hl : In (i_path i) (trait_names me)).
  { unfold trait_names. rewrite er. apply in_map. apply in_or_app. right. left. reflexivity. }
  eapply y_bind; [apply (y_resolve s fuel trait_names ctx ctx me (i_path i) hme hl (links_trait me))|].
  intros [t|] ht; [|apply y_ret; exact hm]. eapply y_bind; [apply y_data|]. intros d hd.
  destruct (negb _); [apply y_ret; exact hm|]. eapply y_bind; [apply rec|]. intros ms hms. apply y_ret.
  specialize (ht t eq_refl).
  assert (hms' : forall k al, In (k, al) ms -> entry in_trait ctx k al).
  { intros k al h. eapply entry_up; [|intros n hn; exists t; split; [exact ht|exact hn]|apply hms; exact h].
    apply rt_step. right. left. exact ht. }
  clear - hm hms'. revert m hm hms'. induction ms as [|[k0 v] ms IH]; intros m hm hms; [exact hm|].
  cbn [fold_left]. apply IH; [|intros k al h; apply hms; right; exact h].
  intros k l al h hi. unfold upsert in h. apply in_put in h. destruct h as [h|h]; [|eapply hm; eauto].
  injection h as -> ->. cbn [fst snd] in hi. apply in_app_iff in hi. destruct hi as [hi|[<-|[]]].
  - destruct (findS k0 m) as [l0|] eqn:ef; [|destruct hi]. eapply hm; [apply (find_in _ str_eqb_spec _ _ _ ef)|exact hi].
  - apply hms. left. reflexivity.
Qed.

Lemma insteadof_entries : forall m0 (m : list (str * list SymbolAlias)), 
  (forall k l al, In (k, l) m0 -> In al l -> entry in_trait ctx k al) ->
  yields s (efold (apply_insteadof (resolve_type_ref fuel) ctx) m0 alts)
    (fun m => forall k l al, In (k, l) m -> In al l -> entry in_trait ctx k al).
Proof.
  intros m0 _ h0.
  apply (y_fold s _ _ _ (fun _ m => forall k l al, In (k, l) m -> In al l -> entry in_trait ctx k al)); [exact h0|].
  intros done m alt hm (r & er). destruct alt as [|class member insts]; cbn [apply_insteadof]; [apply y_ret; exact hm|].
  assert (hi : incl (class :: insts) (links me)).
  { intros x hx. unfold links. rewrite !in_app_iff. right. right. right. apply in_flat_map.
    eexists. split; [rewrite er; apply in_or_app; right; left; reflexivity|]. exact hx. }
  eapply y_bind; [apply (y_all s fuel ctx me hme); intros x hx; apply hi; right; exact hx|]. intros losers _.
  eapply y_bind; [apply (y_found s fuel ctx me hme); apply hi; left; reflexivity|]. intros [w|] _; [|apply y_ret; exact hm].
  apply y_ret. cbv zeta. destruct (findS _ m) as [l0|] eqn:ef; [|exact hm].
  intros k l al h ha. apply in_put in h. destruct h as [h|h]; [|eapply hm; eauto]. injection h as -> ->.
  apply filter_In in ha. eapply hm; [apply (find_in _ str_eqb_spec _ _ _ ef)|apply ha].
Qed.

Lemma drain_entries : forall (m : list (str * list SymbolAlias)) ch, drain m = Some ch ->
  forall k al, In (k, al) ch -> exists l, In (k, l) m /\ In al l.
Proof.
  induction m as [|[k0 v] m IH]; intros ch e k al h; cbn [drain] in e.
  - injection e as <-. destruct h.
  - destruct v as [|x v]; [discriminate e|]. cbn [first_opt obind] in e. destruct (drain m) as [r|]; [|discriminate e].
    injection e as <-. destruct h as [h|h].
    + injection h as <- <-. exists (x :: v). split; left; reflexivity.
    + destruct (IH _ eq_refl _ _ h) as (l & h1 & h2). exists l. split; [right; exact h1|exact h2].
Qed.

Lemma entry_set : forall P k0 al k v0 cl m0 al0 (alias : str),
  In (AltAs v0 cl m0 al0) alts -> entry P ctx k0 al -> to_lowercase m0 = k0 ->
  (k = k0 \/ renames a ctx k) ->
  forall x, x = (if vis_eqb (vis_of v0) VNone then al else set_vis (vis_of v0) al) \/
            x = (if vis_eqb (vis_of v0) VNone then aliased al alias else set_vis (vis_of v0) (aliased al alias)) ->
  entry P ctx k x.
Proof.
  intros P k0 al k v0 cl m0 al0 alias hin (n & d & hn & hi & hd & hk & hv) hm hkk x hx.
  assert (e1 : al_symbol x = al_symbol al /\ (al_vis x = al_vis al \/ (al_vis x = vis_of v0 /\ vis_of v0 <> VNone))).
  { destruct (vis_of v0); destruct hx as [-> | ->]; cbn; (split; [reflexivity|]); first [left; reflexivity|right; split; [reflexivity|discriminate]]. }
  destruct e1 as [e1 e2]. exists n, d. rewrite e1. split; [exact hn|]. split; [exact hi|]. split; [exact hd|]. split.
  - destruct hkk as [-> |hr]; [exact hk|]. right. exists ctx. split; [apply rt_refl|exact hr].
  - destruct e2 as [-> |[-> ne]]; [exact hv|]. right. exists ctx, k0. split; [apply rt_refl|]. split; [exact hk|].
    exists me, v0, cl, m0, al0. auto.
Qed.

Lemma import_entries : yields s (get_imports (resolve_type_ref fuel) (get_all_symbols fuel) me ctx)
  (fun m => forall k al, In (k, al) m -> entry in_trait ctx k al).
Proof.
  unfold get_imports. eapply y_bind; [apply trait_entries|]. intros orig horig. cbv zeta. fold alts.
  eapply y_bind; [apply insteadof_entries; [exact orig|exact horig]|]. cbv beta. intros kept hkept.
  eapply y_bind; [apply y_opt|]. cbv beta. intros ch0 hch.
  apply (y_fold s _ _ _ (fun _ m => forall k al, In (k, al) m -> entry in_trait ctx k al)).
  { intros k al h. destruct (drain_entries _ _ hch _ _ h) as (l & h1 & h2). eapply hkept; eauto. }
  intros done m alt hm (r & er).
  assert (hin : In alt alts) by (rewrite er; apply in_or_app; right; left; reflexivity).
  destruct alt as [v cl mem al0|]; cbn [apply_as]; [|apply y_ret; exact hm]. cbv zeta.
  destruct al0 as [tk|].
  - destruct (t_label tk) as [label|] eqn:el; [|apply y_ret; exact hm].
    assert (hr : renames a ctx (to_lowercase label)) by (exists me, v, cl, mem, tk, label; auto).
    eapply y_bind with (P := fun new => forall x, new = Some x -> exists al, x = aliased al label /\ entry in_trait ctx (to_lowercase mem) al).
    + destruct cl as [cl|].
      * eapply y_bind.
        { apply (y_found s fuel ctx me hme). unfold links. rewrite !in_app_iff. right. right. right. apply in_flat_map.
          eexists. split; [exact hin|]. left. reflexivity. }
        intros [c|] _; [|apply y_ret; discriminate]. apply y_ret. intros x ex.
        destruct (findS (to_lowercase mem) orig) as [l|] eqn:ef; [|discriminate ex].
        destruct (List.find _ l) as [al|] eqn:eg; [|discriminate ex]. injection ex as <-. exists al. split; [reflexivity|].
        apply find_some in eg. eapply horig; [apply (find_in _ str_eqb_spec _ _ _ ef)|apply eg].
      * apply y_ret. intros x ex. destruct (findS (to_lowercase mem) m) as [al|] eqn:ef; [|discriminate ex].
        injection ex as <-. exists al. split; [reflexivity|]. apply hm. apply (find_in _ str_eqb_spec _ _ _ ef).
    + cbv beta. intros [x|] hx; apply y_ret; [|exact hm]. destruct (hx x eq_refl) as (al & -> & ha).
      intros k al1 h. apply in_put in h. destruct h as [h|h]; [|auto]. injection h as -> ->.
      eapply entry_set; [exact hin|exact ha|reflexivity|right; exact hr|right; reflexivity].
  - apply y_ret. destruct (vis_eqb (vis_of v) VNone) eqn:ev; [exact hm|].
    destruct (findS (to_lowercase mem) m) as [al|] eqn:ef; [|exact hm].
    intros k al1 h. apply in_put in h. destruct h as [h|h]; [|auto]. injection h as -> ->.
    apply (entry_set _ (to_lowercase mem) al _ v cl mem None (lit "") hin); [|reflexivity|left; reflexivity|left; rewrite ev; reflexivity].
    apply hm. apply (find_in _ str_eqb_spec _ _ _ ef).
Qed.

Lemma parent_entries : yields s (inherited_symbols (resolve_type_ref fuel) (get_all_symbols fuel) me ctx)
  (fun m => forall k al, In (k, al) m -> entry in_parent ctx k al).
Proof.
  unfold inherited_symbols. eapply y_bind; [apply (y_parents s fuel ctx me hme)|]. intros parents hp.
  eapply y_bind with (P := fun m : members => forall k al, In (k, al) m -> entry in_parent ctx k al).
  - apply (y_fold s _ _ _ (fun _ m => forall k al, In (k, al) m -> entry in_parent ctx k al)); [intros k al []|].
    intros done cur p hc (r & er).
    assert (hf : means_in s parent_names ctx ctx (snd p)).
    { apply hp. eapply Permutation_in; [apply h_perm|]. rewrite er. apply in_or_app. right. left. reflexivity. }
    eapply y_bind; [apply rec|]. intros tot ht. apply y_ret. intros k al h. apply in_put_all in h. destruct h as [h|h]; [auto|].
    eapply entry_up; [|intros n hn; exists (snd p); split; [exact hf|exact hn]|apply ht; exact h].
    apply rt_step. left. exact hf.
  - cbv beta. intros m hm. apply y_ret. intros k al h. apply in_map_iff in h. destruct h as ([k0 al0] & e & h).
    injection e as <- <-. exact (hm _ _ h).
Qed.
End One.

Lemma all_entries : forall fuel ctx, yields s (get_all_symbols fuel ctx) (full ctx).
Proof.
  induction fuel as [|fuel IH]; intros ctx; cbn [get_all_symbols]; [intros s1 x s2 l e; discriminate e|].
  eapply y_bind; [apply y_data|]. intros me hme. eapply y_bind; [apply own_entries|]. intros own ho.
  eapply y_bind; [apply (import_entries fuel ctx me hme IH)|]. intros imp hi. cbv zeta.
  eapply y_bind; [apply (y_type_names s fuel ctx me hme (type_names me)); apply incl_refl|]. intros types ht.
  eapply y_bind with (P := full ctx).
  - apply (y_fold s _ _ _ (fun _ => full ctx)).
    { intros k al h. apply in_put_all in h. destruct h as [h|h].
      - eapply entry_up; [apply rt_refl| |apply hi; exact h]. intros n (t & h1 & h2).
        eapply rt_trans; [apply rt_step; right; left; exact h1|exact h2].
      - eapply entry_up; [apply rt_refl| |apply ho; exact h]. intros n <-. apply rt_refl. }
    intros done m dt hm (r & er). destruct (N.eqb_spec dt ctx) as [|ne]; [apply y_ret; exact hm|].
    assert (hf : follows s ctx dt).
    { right. right. split; [exact ne|]. apply ht. rewrite er. apply in_or_app. right. left. reflexivity. }
    eapply y_bind; [apply IH|]. intros l hl. apply y_ret. intros k al h. apply in_put_all in h. destruct h as [h|h]; [|auto].
    eapply entry_up; [apply rt_step; exact hf| |apply hl; exact h]. intros n hn.
    eapply rt_trans; [apply rt_step; exact hf|exact hn].
  - intros m hm. eapply y_bind; [apply (parent_entries fuel ctx me hme IH)|]. intros inh hh. apply y_ret.
    intros k al h. apply in_put_all in h. destruct h as [h|h]; [|auto].
    eapply entry_up; [apply rt_refl| |apply hh; exact h]. intros n (t & h1 & h2).
    eapply rt_trans; [apply rt_step; left; exact h1|exact h2].
Qed.

(** ** What the current class may use *)
Lemma access_entries : forall fuel c, yields s (accessible_members fuel c) (fun m => forall k al, In (k, al) m ->
  exists d, data a (al_symbol al) = Some d /\ named c d k /\ usable_in s c (al_symbol al) d).
Proof.
  intros fuel c. unfold accessible_members. eapply y_bind; [apply own_entries|]. intros own ho.
  eapply y_bind; [apply y_data|]. intros me hme.
  eapply y_bind; [apply (import_entries fuel c me hme (all_entries fuel))|]. intros imp hi.
  eapply y_bind; [apply (parent_entries fuel c me hme (all_entries fuel))|]. intros inh hh.
  eapply y_bind with (P := fun m : members => forall k al, In (k, al) m ->
    entry (in_parent c) c k al /\ forall d, data a (al_symbol al) = Some d -> y_vis d <> VPrivate).
  - apply (y_fold s _ _ _ (fun _ (m : members) => forall k al, In (k, al) m ->
      entry (in_parent c) c k al /\ forall d, data a (al_symbol al) = Some d -> y_vis d <> VPrivate)); [intros k al []|].
    intros done acc [k0 al0] hacc (r & er). eapply y_bind; [apply y_data|]. cbn [snd]. intros d hd. apply y_ret.
    destruct (vis_ge (y_vis d) VProtected) eqn:ev; [|exact hacc]. intros k al h. apply in_app_iff in h.
    destruct h as [h|[h|[]]]; [auto|]. injection h as <- <-. split.
    + apply hh. eapply Permutation_in; [apply h_perm|]. rewrite er. apply in_or_app. right. left. reflexivity.
    + intros d' hd'. rewrite hd in hd'. injection hd' as <-. intros e. rewrite e in ev. discriminate ev.
  - cbv beta. intros vis hv. apply y_ret. intros k al h. apply in_put_all in h. destruct h as [h|h]; [|apply in_put_all in h; destruct h as [h|h]].
    + destruct (hv _ _ h) as [(n & d & (p & h1 & h2) & h3 & hd & hn & _) hp]. exists d. split; [exact hd|]. split; [exact hn|].
      right. right. split; [exists p, n; auto|auto].
    + destruct (hi _ _ h) as (n & d & (p & h1 & h2) & h3 & hd & hn & _). exists d. split; [exact hd|]. split; [exact hn|].
      right. left. exists p, n. auto.
    + destruct (ho _ _ h) as (n & d & <- & h3 & hd & hn & _). exists d. split; [exact hd|]. split; [exact hn|].
      left. exact h3.
Qed.

End Entries.

(** ** The request *)

(** The resolver that is asked when the cursor is inside [i] *)
Definition resolver_at (b : bst) (i : N) : rst := resolver_new (b_arena b) (b_global b) i.

(** Running [m] changes nothing and answers with an [x] that satisfies [P] *)
Definition reads {A} (b : bst) (m : B A) (P : A -> Prop) : Prop :=
  forall x b', m b = Done x b' -> b' = b /\ P x.
Lemma r_ret : forall A b (x : A) (P : A -> Prop), P x -> reads b (eret x) P.
Proof. intros A b x P h y b' e. injection e as <- <-. auto. Qed.
Lemma r_opt : forall A b (o : option A), reads b (eopt o) (fun x => o = Some x).
Proof. intros A b [x|] y b' e; [|discriminate e]. injection e as <- <-. auto. Qed.
Lemma r_get : forall A b (f : bst -> A), reads b (eget f) (fun x => x = f b).
Proof. intros A b f y b' e. injection e as <- <-. auto. Qed.
Lemma r_fuel : forall A b (P : A -> Prop), reads b efuel P.
Proof. intros A b P y b' e. discriminate e. Qed.
Lemma r_bind : forall A C b (m : B A) (f : A -> B C) P Q, reads b m P -> (forall x, P x -> reads b (f x) Q) ->
  reads b (ebind m f) Q.
Proof.
  intros A C b m f P Q hm hf y b' e. unfold ebind in e. destruct (m b) as [x b1| |] eqn:e1; try discriminate e.
  destruct (hm _ _ e1) as [-> p]. eapply hf; eauto.
Qed.
Lemma r_weak : forall A b (m : B A) (P Q : A -> Prop), reads b m P -> (forall x, P x -> Q x) -> reads b m Q.
Proof. intros A b m P Q h hp x b' e. destruct (h _ _ e). auto. Qed.
Lemma r_data : forall b i, reads b (e_data i) (fun d => data (b_arena b) i = Some d).
Proof.
  intros b i x b' e. unfold e_data in e. cbn [the_arena bst_arena] in e. destruct (data (b_arena b) i); [|discriminate e].
  injection e as <- <-. auto.
Qed.
Lemma r_kids : forall b i, reads b (e_kids i) (fun d => kids (b_arena b) i = Some d).
Proof.
  intros b i x b' e. unfold e_kids in e. cbn [the_arena bst_arena] in e. destruct (kids (b_arena b) i); [|discriminate e].
  injection e as <- <-. auto.
Qed.
Lemma r_parent : forall b i, reads b (e_parent i) (fun _ => True).
Proof.
  intros b i x b' e. unfold e_parent in e. cbn [the_arena bst_arena] in e. destruct (parent_of (b_arena b) i); [|discriminate e].
  injection e as <- <-. auto.
Qed.
Lemma r_ancestors : forall b i, reads b (e_ancestors i) (fun l => ancestors (b_arena b) i = Some l).
Proof.
  intros b i. unfold e_ancestors. eapply r_bind; [apply r_get|]. cbv beta. intros x ->. apply r_opt.
Qed.
Lemma r_fold : forall A C b (f : C -> A -> B C) (I : C -> Prop) l c0,
  I c0 -> (forall x y, I x -> In y l -> reads b (f x y) I) -> reads b (efold f c0 l) I.
Proof.
  intros A C b f I l. induction l as [|y l IH]; intros c0 h0 h; cbn [efold]; [apply r_ret; exact h0|].
  eapply r_bind; [apply h; [exact h0|left; reflexivity]|]. intros x hx. apply IH; [exact hx|].
  intros x' y' hx' hy'. apply h; [exact hx'|right; exact hy'].
Qed.
Lemma r_find : forall A C b (f : A -> B (option C)) (P : C -> Prop) l,
  (forall y, In y l -> reads b (f y) (fun o => forall c, o = Some c -> P c)) ->
  reads b (efind f l) (fun o => forall c, o = Some c -> P c).
Proof.
  intros A C b f P l. induction l as [|y l IH]; intros h; cbn [efind]; [apply r_ret; discriminate|].
  eapply r_bind; [apply h; left; reflexivity|]. cbv beta. intros [c|] hc; [apply r_ret; exact hc|].
  apply IH. intros y' hy'. apply h. right. exact hy'.
Qed.
Lemma r_with : forall A b i (m : R A) (P : A -> Prop), yields (resolver_at b i) m P -> reads b (with_resolver i m) P.
Proof.
  intros A b i m P h x b' e. unfold with_resolver in e. fold (resolver_at b i) in e.
  destruct (m (resolver_at b i)) as [y s'| |] eqn:em; try discriminate e. injection e as <- <-.
  split; [reflexivity|]. apply (h _ _ _ (looked_none _) em).
Qed.

Lemma r_class : forall b l, reads b (first_class l) (fun o => forall c, o = Some c ->
  exists l1 l2 d, l = l1 ++ c :: l2 /\ data (b_arena b) c = Some d /\ y_kind d = KClass /\
    forall j dj, In j l1 -> data (b_arena b) j = Some dj -> y_kind dj <> KClass).
Proof.
  intros b l. induction l as [|i l IH]; unfold first_class; cbn [efind]; [apply r_ret; discriminate|].
  eapply r_bind.
  - eapply r_bind; [apply r_data|]. intros d hd. apply r_ret.
    instantiate (1 := fun o => exists d, data (b_arena b) i = Some d /\ o = (if kind_eqb (y_kind d) KClass then Some i else None)).
    exists d. auto.
  - cbv beta. intros o (d & hd & ->). destruct (kind_eqb (y_kind d) KClass) eqn:ek.
    + apply r_ret. intros c [= <-]. exists [], l, d. split; [reflexivity|]. split; [exact hd|].
      split; [destruct (y_kind d); try discriminate ek; reflexivity|]. intros j dj [].
    + eapply r_weak; [apply IH|]. cbv beta. intros o h c ec. destruct (h c ec) as (l1 & l2 & dc & -> & h1 & h2 & h3).
      exists (i :: l1), l2, dc. split; [reflexivity|]. split; [exact h1|]. split; [exact h2|].
      intros j dj [<-|hj] hdj; [|eauto]. rewrite hd in hdj. injection hdj as <-. intros e. rewrite e in ek. discriminate ek.
Qed.

Lemma kind_eqb_eq : forall x y, kind_eqb x y = true -> x = y.
Proof. intros x y. destruct x; destruct y; intros h; try reflexivity; discriminate h. Qed.

(** What is known of an offered member *)
Definition fine_member (b : bst) (suc : N) (g : Suggestion) : Prop :=
  g_context g = SCall -> exists i d, g_node g = Some i /\ data (b_arena b) i = Some d /\
    (is_public d \/ opens_up (b_arena b) (lower_name d) \/
     exists c j dj, innermost_class (b_arena b) suc c /\ data (b_arena b) j = Some dj /\
       usable_in (resolver_at b c) c j dj /\
       (lower_name dj = lower_name d \/
        exists m, reaches (resolver_at b c) c m /\ renames (b_arena b) m (lower_name d))).

Lemma other_fold : forall A b suc (f : list Suggestion -> A -> B (list Suggestion)) l,
  (forall acc y, Forall (fine_member b suc) acc -> reads b (f acc y) (Forall (fine_member b suc))) ->
  reads b (efold f [] l) (Forall (fine_member b suc)).
Proof. intros A b suc f l h. apply r_fold; [constructor|]. intros x y hx _. auto. Qed.

Lemma r_object : forall b node parent suc, reads b (object_of node parent suc) (fun _ => True).
Proof.
  intros b node parent suc.
  assert (V : forall pr token, reads b (this_object pr suc token) (fun _ => True)).
  { intros pr token. unfold this_object. destruct (t_label token) as [l|]; [|apply r_ret; exact I].
    destruct (str_eqb _ _); [|apply r_ret; exact I]. eapply r_bind; [apply r_parent|]. intros p _. apply r_ret. exact I. }
  assert (M : forall pr object, reads b (member_object pr suc object) (fun _ => True)).
  { intros pr object.
    assert (R : forall x, reads b (elet r <- eopt (node_range x) in eret (r, @None N)) (fun _ => True)).
    { intros x. eapply r_bind; [apply r_opt|]. intros r _. apply r_ret. exact I. }
    destruct object; cbn [member_object]; try (apply r_ret; exact I); try apply V; try apply R.
    destruct object; first [apply r_ret; exact I|apply R]. }
  unfold object_of. eapply r_bind; [apply r_opt|]. intros pr _.
  assert (R : reads b (match parent with
    | NMember object _ _ _ _ => elet ro <- member_object pr suc object in eret (fst ro, snd ro, true)
    | _ => eret (pr, None, false) end) (fun _ => True)).
  { destruct parent; try (apply r_ret; exact I). eapply r_bind; [apply M|]. intros ro _. apply r_ret. exact I. }
  destruct node; try exact R. eapply r_bind; [apply r_opt|]. intros r _. apply r_ret. exact I.
Qed.

Lemma r_offered : forall b suc fuel prefix st nm acc t,
  (forall k al, In (k, al) acc -> exists c d, innermost_class (b_arena b) suc c /\ data (b_arena b) (al_symbol al) = Some d /\
     named (resolver_at b c) c d k /\ usable_in (resolver_at b c) c (al_symbol al) d) ->
  reads b (with_resolver suc (offered fuel prefix st nm acc t)) (Forall (fine_member b suc)).
Proof.
  intros b suc fuel prefix st nm acc t hacc. apply r_with. unfold offered.
  eapply y_bind; [apply all_entries|]. intros all hall.
  apply (y_fold _ _ _ _ (fun _ => Forall (fine_member b suc))); [constructor|].
  intros done l [k al] hl (r & er). cbn [snd]. destruct (negb _); [apply y_ret; exact hl|].
  eapply y_bind; [apply y_data|]. cbn [r_arena resolver_at resolver_new]. intros d hd. apply y_ret.
  destruct (_ || _); [exact hl|]. destruct (_ || _) eqn:ev; [|exact hl].
  apply Forall_app. split; [exact hl|]. constructor; [|constructor]. intros _. exists (al_symbol al), d.
  split; [reflexivity|]. split; [exact hd|].
  assert (he : entry (resolver_at b suc) (reaches (resolver_at b suc) t) t k al).
  { apply hall. eapply Permutation_in; [apply h_perm|]. rewrite er. apply in_or_app. right. left. reflexivity. }
  destruct he as (n & d0 & _ & _ & hd0 & _ & hv). cbn [r_arena resolver_at resolver_new] in hd0. rewrite hd in hd0. injection hd0 as <-.
  apply Bool.orb_true_iff in ev. destruct ev as [ev|ev].
  - destruct hv as [e|(m & k' & _ & hk' & (dc & tk & cl & mem & al0 & h1 & h2 & h3 & hne & h4))].
    + left. rewrite e in ev. unfold is_public. destruct (y_vis d); try discriminate ev; auto.
    + assert (hp : al_vis al = VPublic \/ al_vis al = VNone) by (destruct (al_vis al); try discriminate ev; auto).
      right. left. exists m, dc, tk, cl, mem, al0. split; [exact h1|]. split; [exact h2|].
      split; [destruct hp; congruence|]. rewrite h4. destruct hk' as [<-|(m' & _ & hr)]; [left; reflexivity|right].
      exists m'. exact hr.
  - right. right. destruct (findS (normalized_name d) acc) as [al1|] eqn:ef; [|discriminate ev].
    destruct (hacc _ _ (find_in _ str_eqb_spec _ _ _ ef)) as (c & dj & h1 & h2 & h3 & h4).
    exists c, (al_symbol al1), dj. split; [exact h1|]. split; [exact h2|]. split; [exact h4|]. exact h3.
Qed.

Lemma r_members : forall b fuel order trigger node parent suc refs,
  reads b (suggest_members fuel order trigger node parent suc refs) (Forall (fine_member b suc)).
Proof.
  intros b fuel order trigger node parent suc refs. unfold suggest_members.
  eapply r_bind; [apply r_opt|]. intros prefix _. eapply r_bind; [apply r_object|]. intros [[range this] nm] _. cbv zeta.
  destruct (match this with Some _ => _ | None => _ end) as [resolved|]; [|apply r_ret; constructor].
  eapply r_bind; [apply r_ancestors|]. intros anc hanc. eapply r_bind; [apply r_class|]. cbv beta. intros current hcur.
  eapply r_bind with (P := fun acc : members => forall k al, In (k, al) acc ->
    exists c d, innermost_class (b_arena b) suc c /\ data (b_arena b) (al_symbol al) = Some d /\
     named (resolver_at b c) c d k /\ usable_in (resolver_at b c) c (al_symbol al) d).
  - destruct current as [c|]; [|apply r_ret; intros k al []]. apply r_with. eapply y_weak; [apply access_entries|].
    cbv beta. intros m hm k al h. destruct (hm k al h) as (d & h1 & h2 & h3). exists c, d. split; [|auto].
    destruct (hcur c eq_refl) as (l1 & l2 & dc & -> & q1 & q2 & q3). exists l1, l2, dc. auto.
  - cbv beta. intros acc hacc. eapply r_bind; [apply r_data|]. intros d hd.
    eapply r_bind.
    { intros x b' e. unfold with_resolver in e. destruct (object_types _ _ _ _ _) as [y s'| |]; try discriminate e.
      injection e as <- <-. split; [reflexivity|exact I]. }
    intros types _. apply other_fold. intros l t hl. eapply r_bind; [apply r_offered; exact hacc|].
    intros l' hl'. apply r_ret. apply Forall_app. auto.
Qed.

Lemma r_node : forall fuel n p anc b, reads b (find_node fuel n p anc) (fun _ => True).
Proof.
  induction fuel as [|fuel IH]; intros n p anc b; cbn [find_node]; [apply r_fuel|]. cbv zeta.
  eapply r_bind.
  - eapply r_weak; [apply (r_find _ _ _ _ (fun _ => True))|intros; exact I].
    intros y _. eapply r_bind; [apply r_opt|]. intros r _. destruct (in_range _ _); [|apply r_ret; auto].
    eapply r_bind; [apply IH|]. intros o _. apply r_ret. auto.
  - intros [o|] _; [apply r_ret; exact I|]. eapply r_bind; [apply r_opt|]. intros r _. apply r_ret. exact I.
Qed.

Ltac not_a_call := intros hc; discriminate hc.
Ltac other := repeat first
  [ progress cbv beta
  | apply r_ret; solve [assumption | constructor]
  | eapply r_bind; [first [apply r_opt|apply r_data|apply r_get|apply r_kids|apply r_ancestors|apply r_class]|intros ? _]
  | apply other_fold; intros ? ? ?
  | apply r_ret; apply Forall_app; split; [assumption|constructor; [not_a_call|constructor]]
  | match goal with |- reads _ (if ?x then _ else _) _ => destruct x end ].

Lemma r_suggestions : forall fuel order trigger p suc ast refs b,
  reads b (get_suggestions_at fuel order trigger p suc ast refs) (Forall (fine_member b suc)).
Proof.
  intros fuel order trigger p suc ast refs b. unfold get_suggestions_at.
  assert (hv : reads b (suggest_variables suc) (Forall (fine_member b suc))).
  { unfold suggest_variables. eapply r_bind; [apply r_kids|]. intros cs _.
    eapply r_bind with (P := Forall (fine_member b suc)).
    - apply other_fold. intros acc y hacc. eapply r_bind; [apply r_data|]. intros d _. apply r_ret.
      destruct (_ || _); [|exact hacc]. apply Forall_app. split; [exact hacc|]. constructor; [not_a_call|constructor].
    - intros l hl. eapply r_bind; [apply r_ancestors|]. intros anc _. eapply r_bind; [apply r_class|]. intros cl _.
      apply r_ret. apply Forall_app. split; [exact hl|]. destruct cl as [c|]; [|constructor]. constructor; [not_a_call|constructor]. }
  assert (hi : forall n, reads b (suggest_imports n) (Forall (fine_member b suc))) by (intros n; unfold suggest_imports; other).
  assert (ht : forall n n', reads b (suggest_traits n n') (Forall (fine_member b suc))) by (intros n n'; unfold suggest_traits; other).
  assert (hs : forall n, reads b (suggest_symbols n) (Forall (fine_member b suc))) by (intros n; unfold suggest_symbols; other).
  assert (hk : reads b (suggest_keywords suc) (Forall (fine_member b suc))).
  { unfold suggest_keywords. eapply r_bind; [apply r_data|]. intros d _. apply r_ret.
    destruct (y_kind d); repeat (constructor; [not_a_call|]); constructor. }
  eapply r_bind with (P := fun _ => True).
  { eapply r_weak; [apply (r_find _ _ _ _ (fun _ => True))|intros; exact I]. intros y _.
    eapply r_weak; [apply r_node|]. auto. }
  intros [[node anc]|] _.
  - cbv zeta.
    assert (hm : reads b (elet parent <- eopt (last_opt (removelast anc)) in
      suggest_members fuel order trigger node parent suc refs) (Forall (fine_member b suc))).
    { eapply r_bind; [apply r_opt|]. intros parent _. apply r_members. }
    assert (hb : reads b (if class_block (rev (removelast anc)) then eret (map sug_token [TPublic; TPrivate; TProtected])
          else suggest_symbols node) (Forall (fine_member b suc))).
    { destruct (class_block _); [|apply hs]. apply r_ret. repeat (constructor; [not_a_call|]). constructor. }
    destruct node; first [exact hb|exact hm|exact hv|apply hi|apply ht].
  - destruct (match trigger with Some c => c =? 36 | None => false end); assumption.
Qed.

(** * C35 *)

(** An offered member is public, opened up by an [as] rule, or has the name of
    a member that the class around the cursor may use.  Missing for the full
    claim: that it is this member. *)
Theorem C35_checked_partial : forall fuel order trigger p suc ast refs b l b' g,
  get_suggestions_at fuel order trigger p suc ast refs b = Done l b' -> In g l -> g_context g = SCall ->
  exists i d, g_node g = Some i /\ data (b_arena b) i = Some d /\
    (is_public d \/ opens_up (b_arena b) (lower_name d) \/
     exists c j dj, innermost_class (b_arena b) suc c /\ data (b_arena b) j = Some dj /\
       usable_in (resolver_at b c) c j dj /\
       (lower_name dj = lower_name d \/
        exists m, reaches (resolver_at b c) c m /\ renames (b_arena b) m (lower_name d))).
Proof.
  intros fuel order trigger p suc ast refs b l b' g e hg hc.
  destruct (r_suggestions _ _ _ _ _ _ _ _ _ _ e) as [_ h]. rewrite Forall_forall in h. exact (h g hg hc).
Qed.

(** So the claim holds where names tell the members apart and no [as] rule
    changes names or visibilities. *)
Theorem C35_partial : forall fuel order trigger p suc ast refs b l b' g i d,
  get_suggestions_at fuel order trigger p suc ast refs b = Done l b' -> In g l -> g_context g = SCall ->
  g_node g = Some i -> data (b_arena b) i = Some d ->
  (forall n dn v cl m al, data (b_arena b) n = Some dn -> ~ In (AltAs v cl m al) (the_list (y_alterations dn))) ->
  (forall c j dj, innermost_class (b_arena b) suc c -> data (b_arena b) j = Some dj ->
     usable_in (resolver_at b c) c j dj -> lower_name dj = lower_name d -> j = i) ->
  is_public d \/
  exists c, innermost_class (b_arena b) suc c /\
    (declared_in (b_arena b) c i \/ in_trait_of (resolver_at b c) c i \/
     (y_vis d = VProtected /\ in_parent_of (resolver_at b c) c i)).
Proof.
  intros fuel order trigger p suc ast refs b l b' g i d e hg hc hi hd hrules hone.
  destruct (C35_checked_partial _ _ _ _ _ _ _ _ _ _ _ e hg hc) as (i' & d' & hi' & hd' & h).
  rewrite hi in hi'. injection hi' as <-. rewrite hd in hd'. injection hd' as <-.
  destruct h as [h|[h|(c & j & dj & h1 & h2 & h3 & h4)]].
  - left. exact h.
  - destruct h as (c & dc & v & cl & m & al & hdc & hin & _). exfalso. exact (hrules _ _ _ _ _ _ hdc hin).
  - destruct h4 as [h4|(m & _ & (dm & v & cl & me & t & l0 & hdm & hin & _))]; [|exfalso; exact (hrules _ _ _ _ _ _ hdm hin)].
    assert (j = i) by eauto. subst j. rewrite hd in h2. injection h2 as <-.
    destruct (y_vis d) eqn:ev; try (left; unfold is_public; rewrite ev; auto; fail); right; exists c; split; auto;
      destruct h3 as [h3|[h3|[h3 h5]]]; auto; congruence.
Qed.

(** * C42: offered members fit what is typed *)

(** A node of the tree at the cursor, with the name [w] *)
Definition typed_at (ast : list Node) (p : Position) (w : str) : Prop :=
  exists root n r, In root ast /\ seen n root /\ node_range n = Some r /\ in_range p (get_range r) = true /\
    node_name n = Some w.

Lemma seen_trans : forall x y, seen x y -> forall z, seen y z -> seen x z.
Proof. intros x y h z h2. revert x h. induction h2; intros x h; [exact h|]. eapply seen_child; eauto. Qed.

Lemma node_at : forall fuel n p anc b, reads b (find_node fuel n p anc) (fun o => forall m anc', o = Some (m, anc') ->
  seen m n /\ exists r, node_range m = Some r /\ in_range p (get_range r) = true).
Proof.
  induction fuel as [|fuel IH]; intros n p anc b; cbn [find_node]; [apply r_fuel|]. cbv zeta.
  eapply r_bind.
  - apply (r_find _ _ _ _ (fun o : option (Node * list Node) => forall m anc', o = Some (m, anc') ->
      seen m n /\ exists r, node_range m = Some r /\ in_range p (get_range r) = true)).
    intros c hc. eapply r_bind; [apply r_opt|]. intros r _. destruct (in_range _ _); [|apply r_ret; discriminate].
    eapply r_bind; [apply IH|]. cbv beta. intros o ho. apply r_ret. intros o' [= <-] m anc' e.
    destruct (ho m anc' e) as [h1 h2]. split; [|exact h2]. eapply seen_child; eauto.
  - cbv beta. intros [o|] ho; [apply r_ret; apply ho; reflexivity|]. eapply r_bind; [apply r_opt|]. intros r hr. apply r_ret.
    destruct (in_range p (get_range r)) eqn:er; [|discriminate]. intros m anc' [= <- _]. split; [apply seen_self|].
    exists r. auto.
Qed.

Lemma starts_with_app : forall p w, Base.starts_with p w = true -> exists r, w = p ++ r.
Proof.
  induction p as [|c p IH]; intros w h; [exists w; reflexivity|]. destruct w as [|c' w]; [discriminate h|].
  cbn [Base.starts_with] in h. apply Bool.andb_true_iff in h. destruct h as [h1 h2]. apply N.eqb_eq in h1. subst c'.
  destruct (IH w h2) as (r & ->). exists r. reflexivity.
Qed.

Definition fits (b : bst) (trigger : option N) (w : str) (g : Suggestion) : Prop :=
  exists i d alias r, g_node g = Some i /\ data (b_arena b) i = Some d /\ g_alias g = Some alias /\
    alias = w ++ r /\ (trigger = Some 58 -> y_static d = true).

Lemma r_fits : forall b fuel order trigger node parent suc refs w, node_name node = Some w ->
  reads b (suggest_members fuel order trigger node parent suc refs) (Forall (fits b trigger w)).
Proof.
  intros b fuel order trigger node parent suc refs w hw. unfold suggest_members.
  eapply r_bind; [apply r_opt|]. cbv beta. rewrite hw. intros prefix [= <-].
  eapply r_bind; [apply r_object|]. intros [[range this] nm] _. cbv zeta.
  destruct (match this with Some _ => _ | None => _ end) as [resolved|]; [|apply r_ret; constructor].
  eapply r_bind; [apply r_ancestors|]. intros anc _. eapply r_bind; [apply r_class|]. intros current _.
  assert (any : forall A (m : R A) i, reads b (with_resolver i m) (fun _ => True)).
  { intros A m i x b' e. unfold with_resolver in e. destruct (m _) as [y s'| |]; try discriminate e.
    injection e as <- <-. split; [reflexivity|exact I]. }
  eapply r_bind with (P := fun _ => True); [destruct current; [apply any|apply r_ret; exact I]|]. intros acc _.
  eapply r_bind; [apply r_data|]. intros d hd. eapply r_bind; [apply any|]. intros types _.
  apply r_fold; [constructor|]. intros l t hl _. eapply r_bind with (P := Forall (fits b trigger w)).
  - apply r_with. unfold offered. eapply y_bind; [apply all_entries|]. intros all hall.
    apply (y_fold _ _ _ _ (fun _ => Forall (fits b trigger w))); [constructor|].
    intros done l0 [k al] hl0 (r & er). cbn [snd]. destruct (negb _) eqn:en; [apply y_ret; exact hl0|].
    eapply y_bind; [apply y_data|]. cbn [r_arena resolver_at resolver_new]. intros da hda. apply y_ret.
    match goal with |- Forall _ (if ?x then _ else _) => destruct x eqn:es end; [exact hl0|].
    match goal with |- Forall _ (if ?x then _ else _) => destruct x end; [|exact hl0].
    apply Forall_app. split; [exact hl0|]. constructor; [|constructor].
    apply Bool.negb_false_iff in en. destruct (starts_with_app _ _ en) as (q & hq).
    exists (al_symbol al), da, (al_alias al), q. split; [reflexivity|]. split; [exact hda|]. split; [reflexivity|].
    split; [exact hq|]. intros ->. apply Bool.orb_false_iff in es. destruct es as [es _]. cbn in es.
    apply Bool.negb_false_iff in es. exact es.
  - intros l' hl'. apply r_ret. apply Forall_app. auto.
Qed.

Ltac harmless := intros hc; discriminate hc.
Ltac others := repeat first
  [ progress cbv beta
  | apply r_ret; solve [assumption | constructor]
  | eapply r_bind; [first [apply r_opt|apply r_data|apply r_get|apply r_kids|apply r_ancestors|apply r_class]|intros ? _]
  | apply r_fold; [constructor|intros ? ? ? _]
  | apply r_ret; apply Forall_app; split; [assumption|constructor; [harmless|constructor]]
  | match goal with |- reads _ (if ?x then _ else _) _ => destruct x end ].

(** Every offered member starts with the name that is typed at the cursor, and
    is marked as static if [:] triggered the request.  Missing: that the
    members that fit are offered, see [C42_refuted]. *)
Theorem C42_partial : forall fuel order trigger p suc ast refs b l b' g,
  get_suggestions_at fuel order trigger p suc ast refs b = Done l b' -> In g l -> g_context g = SCall ->
  exists w i d r, typed_at ast p w /\ g_node g = Some i /\ data (b_arena b) i = Some d /\
    g_alias g = Some (w ++ r) /\ (trigger = Some 58 -> y_static d = true).
Proof.
  intros fuel order trigger p suc ast refs b l b' g e hg hcall.
  pose (Q := fun g => g_context g = SCall -> exists w, typed_at ast p w /\ fits b trigger w g).
  assert (H : reads b (get_suggestions_at fuel order trigger p suc ast refs) (Forall Q)).
  { clear e hg. unfold get_suggestions_at.
    assert (hv : reads b (suggest_variables suc) (Forall Q)).
    { unfold suggest_variables. eapply r_bind; [apply r_kids|]. intros cs _.
      eapply r_bind with (P := Forall Q).
      - apply r_fold; [constructor|]. intros acc y hacc _. eapply r_bind; [apply r_data|]. intros d _. apply r_ret.
        destruct (_ || _); [|exact hacc]. apply Forall_app. split; [exact hacc|]. constructor; [harmless|constructor].
      - intros l0 hl. eapply r_bind; [apply r_ancestors|]. intros anc _. eapply r_bind; [apply r_class|]. intros cl _.
        apply r_ret. apply Forall_app. split; [exact hl|]. destruct cl as [c|]; [|constructor]. constructor; [harmless|constructor]. }
    assert (hi : forall n, reads b (suggest_imports n) (Forall Q)) by (intros n; unfold suggest_imports; others).
    assert (ht : forall n n', reads b (suggest_traits n n') (Forall Q)) by (intros n n'; unfold suggest_traits; others).
    assert (hs : forall n, reads b (suggest_symbols n) (Forall Q)) by (intros n; unfold suggest_symbols; others).
    assert (hk : reads b (suggest_keywords suc) (Forall Q)).
    { unfold suggest_keywords. eapply r_bind; [apply r_data|]. intros d _. apply r_ret.
      destruct (y_kind d); repeat (constructor; [harmless|]); constructor. }
    eapply r_bind.
    { apply (r_find _ _ _ _ (fun x : Node * list Node => exists root, In root ast /\ seen (fst x) root /\
        exists r, node_range (fst x) = Some r /\ in_range p (get_range r) = true)).
      intros y hy. eapply r_weak; [apply node_at|]. cbv beta. intros o ho [m anc] ec. exists y. split; [exact hy|]. eauto. }
    cbv beta. intros [[node anc]|] hn.
    - cbv zeta. destruct (hn _ eq_refl) as (root & h1 & h2 & r & h3 & h4). cbn [fst] in h2, h3.
      assert (hm : reads b (elet parent <- eopt (last_opt (removelast anc)) in
        suggest_members fuel order trigger node parent suc refs) (Forall Q)).
      { eapply r_bind; [apply r_opt|]. intros parent _. destruct (node_name node) as [w|] eqn:ew.
        - eapply r_weak; [apply (r_fits _ _ _ _ _ _ _ _ _ ew)|]. cbv beta. intros l0 hl0. eapply Forall_impl; [|exact hl0].
          intros g0 hg0 _. exists w. split; [exists root, node, r; auto|exact hg0].
        - unfold suggest_members. rewrite ew. intros x b0 e0. discriminate e0. }
      assert (hb : reads b (if class_block (rev (removelast anc)) then eret (map sug_token [TPublic; TPrivate; TProtected])
            else suggest_symbols node) (Forall Q)).
      { destruct (class_block _); [|apply hs]. apply r_ret. repeat (constructor; [harmless|]). constructor. }
      destruct node; first [exact hb|exact hm|exact hv|apply hi|apply ht].
    - destruct (match trigger with Some c => c =? 36 | None => false end); assumption. }
  destruct (H _ _ e) as [_ h]. rewrite Forall_forall in h. destruct (h g hg hcall) as (w & hw & (i & d & alias & r & q1 & q2 & q3 & q4 & q5)).
  exists w, i, d, r. subst alias. auto 10.
Qed.

(** * C44: the import that comes with a class *)

(** The lines of a file are counted from 0.  The [use] line is put in front of
    the first import, or on the fourth line. *)
Definition use_edit (fd d : Symbol) (e : Range * str) : Prop :=
  snd e = lit "use " ++ fqdn d ++ lit ";" ++ [10] /\
  exists line, fst e = mkRng (mkPos line 0) (mkPos line 0) /\
    match the_list (y_imports fd) with
    | [] => line = 3
    | i :: _ => exists r, tref_range (i_path i) = Some r /\ line = start_line r
    end.
(** The class is global, of the same namespace as the file, or imported *)
Definition needs_no_import (fd d : Symbol) : Prop :=
  y_ns d = None \/ y_ns d = y_ns fd \/ exists i, In i (the_list (y_imports fd)) /\ import_full_name i = Some (fqdn d).

(** A class or trait that is offered outside of a [use] statement comes with
    the line that imports it, unless it is global, of the namespace of the
    file or imported.  Missing: that the label then stands for the class, see
    [C44_refuted]. *)
Theorem C44_partial : forall fd g i d it b b', g_this g = false -> g_token g = None -> g_node g = Some i ->
  data (b_arena b) i = Some d -> y_kind d = KClass \/ y_kind d = KTrait -> g_context g <> SImport ->
  completion_item fd g b = Done it b' ->
  b' = b /\ i_label it = sym_name d /\
  match i_edits it with
  | None => needs_no_import fd d
  | Some es => ~ needs_no_import fd d /\ exists e, es = [e] /\ use_edit fd d e
  end.
Proof.
  intros fd g i d it b b' h1 h2 h3 hd hk hc e. unfold completion_item in e. rewrite h1, h2, h3 in e.
  assert (ek : (kind_eqb (y_kind d) KClass || kind_eqb (y_kind d) KTrait) = true) by (destruct hk as [-> | ->]; reflexivity).
  assert (L : reads b (import_line fd d) (fun o => match o with
    | None => needs_no_import fd d
    | Some line => ~ needs_no_import fd d /\
        match the_list (y_imports fd) with
        | [] => line = 3
        | i :: _ => exists r, tref_range (i_path i) = Some r /\ line = start_line r
        end
    end)).
  { unfold import_line. destruct (y_ns d) as [ns|] eqn:en; [|apply r_ret; left; exact en].
    destruct (match y_ns fd with Some n => _ | None => _ end) eqn:ef.
    { apply r_ret. right. left. destruct (y_ns fd) as [n|]; [|discriminate ef]. destruct (str_eqb_spec n ns); congruence. }
    assert (nn : y_ns d <> y_ns fd).
    { intros q. rewrite <- q, en in ef. destruct (str_eqb_spec ns ns); [discriminate ef|congruence]. }
    destruct (y_imports fd) as [l|] eqn:ei.
    - assert (S : reads b (efind (fun i => elet n <- eopt (import_full_name i) in
         eret (if str_eqb n (fqdn d) then Some tt else None)) l)
         (fun o => match o with
          | Some _ => exists i, In i l /\ import_full_name i = Some (fqdn d)
          | None => forall i, In i l -> import_full_name i <> Some (fqdn d)
          end)).
      { clear. induction l as [|x l IH]; cbn [efind]; [apply r_ret; intros i []|].
        eapply r_bind with (P := fun o => match o with Some _ => import_full_name x = Some (fqdn d) | None => import_full_name x <> Some (fqdn d) end).
        - eapply r_bind; [apply r_opt|]. cbv beta. intros n hn. apply r_ret. destruct (str_eqb_spec n (fqdn d)); congruence.
        - intros [u|] hx; [apply r_ret; exists x; split; [left; reflexivity|exact hx]|].
          eapply r_weak; [apply IH|]. cbv beta. intros [u|].
          + intros (i & hi & q). exists i. split; [right; exact hi|exact q].
          + intros q i [<-|hi]; auto. }
      eapply r_bind; [exact S|]. cbv beta. intros [u|] hs.
      { apply r_ret. right. right. destruct hs as (i0 & q1 & q2). exists i0. unfold the_list. rewrite ei. auto. }
      assert (no : ~ needs_no_import fd d).
      { unfold needs_no_import, the_list. rewrite ei, en. intros [q|[q|(i0 & q1 & q2)]]; [discriminate q|congruence|].
        exact (hs _ q1 q2). }
      destruct l as [|i0 l].
      + apply r_ret. split; [exact no|]. reflexivity.
      + eapply r_bind; [apply r_opt|]. cbv beta. intros r hr. apply r_ret. split; [exact no|]. exists r. auto.
    - apply r_ret. split; [|reflexivity]. unfold needs_no_import, the_list. rewrite ei, en.
      intros [q|[q|(i0 & q1 & _)]]; [discriminate q|congruence|destruct q1]. }
  assert (R : reads b (elet line <- import_line fd d in
      eret (mkItem (sym_name d) None (opt_map (fun line => [(mkRng (mkPos line 0) (mkPos line 0), lit "use " ++ fqdn d ++ lit ";" ++ [10])]) line)))
     (fun it => i_label it = sym_name d /\ match i_edits it with
       | None => needs_no_import fd d
       | Some es => ~ needs_no_import fd d /\ exists e, es = [e] /\ use_edit fd d e end)).
  { eapply r_bind; [exact L|]. intros [line|] hl; apply r_ret; (split; [reflexivity|]); cbn [i_edits opt_map]; [|exact hl].
    destruct hl as [hl1 hl2]. split; [exact hl1|]. eexists. split; [reflexivity|]. split; [reflexivity|]. exists line. auto. }
  unfold ebind at 1 in e. cbn [eopt] in e. unfold eret at 1 in e. unfold ebind at 1 in e.
  unfold e_data in e. cbn [the_arena bst_arena] in e. rewrite hd, ek in e.
  destruct (g_context g); try congruence; exact (R _ _ e).
Qed.
End C35.

(** * Cases *)

(** The request at a position of the open file *)
Definition asked (b : bst) (p : Position) (trigger : option N) (suc : N) (l : list Suggestion) : Prop :=
  exists fuel file ast rg refs, findS pB (b_files b) = Some file /\ findS pB (b_open b) = Some (ast, rg) /\
    findS pB (b_refs b) = Some refs /\ symbol_at (b_arena b) p file = Some suc /\
    get_suggestions_at fuel (fun l => l) trigger p suc ast refs b = Done l b.

(** C35 does not hold: [B] has a private [$x], so that of [A] is offered in [B]. *)
Definition text35 : string := "<?php class A { private $x; } class B { private $x; function f(A $a) { $a->x; } }".
Definition case35 : bst := opened "<?php" text35.
Lemma nodes_data : forall (a : arena Symbol) j d, data a j = Some d -> In (j, d) (map (fun p => (fst p, n_data (snd p))) (a_nodes a)).
Proof.
  intros a j d h. unfold data, node_of in h. destruct (find N.eqb j _) as [nd|] eqn:ef; [|discriminate h]. injection h as <-.
  apply (find_in _ N.eqb_spec) in ef. apply in_map_iff. exists (j, nd). split; [reflexivity|exact ef].
Qed.
Lemma no_rules : forall a : arena Symbol, forallb (fun p => match the_list (y_alterations (n_data (snd p))) with [] => true | _ => false end) (a_nodes a) = true ->
  forall n dn v cl m al, data a n = Some dn -> ~ In (AltAs v cl m al) (the_list (y_alterations dn)).
Proof.
  intros a q n dn v cl m al h hi. apply nodes_data in h. apply in_map_iff in h. destruct h as ([n' nd] & e & h). cbn [fst snd] in e.
  injection e as -> <-. rewrite forallb_forall in q. specialize (q _ h). cbn [snd] in q.
  destruct (the_list (y_alterations (n_data nd))); [destruct hi|discriminate q].
Qed.
Lemma only_one : forall (a : arena Symbol) k i, forallb (fun p => negb (str_eqb (lower_name (n_data (snd p))) k) || (fst p =? i)) (a_nodes a) = true ->
  forall j dj, data a j = Some dj -> lower_name dj = k -> j = i.
Proof.
  intros a k i q j dj h hn. apply nodes_data in h. apply in_map_iff in h. destruct h as ([n' nd] & e & h). cbn [fst snd] in e.
  injection e as -> <-. rewrite forallb_forall in q. specialize (q _ h). cbn [fst snd] in q. rewrite hn in q.
  destruct (str_eqb_spec k k); [|congruence]. cbn in q. apply N.eqb_eq. exact q.
Qed.
Lemma no_names : forall s names c n, (forall d, data (r_arena s) c = Some d -> names d = []) -> ~ means_in s names c c n.
Proof.
  intros s names c n h (s1 & s2 & fuel & d & tr & hl & hd & hi & _). destruct (looked_kept _ _ hl) as [q _].
  rewrite q in hd. rewrite (h d hd) in hi. destruct hi.
Qed.
Theorem C35_refuted : exists b p suc l g i d c, reachable b /\ b = opened "<?php" text35 /\
  asked b p None suc l /\ In g l /\ g_context g = SCall /\ g_node g = Some i /\ data (b_arena b) i = Some d /\
  y_vis d = VPrivate /\ innermost_class (b_arena b) suc c /\ ~ declared_in (b_arena b) c i /\
  ~ in_trait_of (resolver_at b c) c i /\ ~ in_parent_of (resolver_at b c) c i /\ ~ opens_up (b_arena b) (lower_name d).
Proof.
  exists case35, (mkPos 0 74), 8. eexists. eexists. exists 4. eexists. exists 5.
  split; [apply state_after_reachable|]. split; [reflexivity|]. split.
  { exists 40%nat. do 4 eexists. do 4 (split; [vm_compute; reflexivity|]). vm_compute. reflexivity. }
  split; [left; reflexivity|]. split; [reflexivity|]. split; [reflexivity|]. split; [vm_compute; reflexivity|].
  split; [reflexivity|]. split.
  { exists [8], [1]. eexists. split; [vm_compute; reflexivity|]. split; [vm_compute; reflexivity|]. split; [reflexivity|].
    intros j dj [<-|[]] h. vm_compute in h. injection h as <-. discriminate. }
  split; [|split; [|split]].
  - intros (ks & h & hi). vm_compute in h. injection h as <-. destruct hi as [h|[h|[h|[]]]]; discriminate h.
  - intros (t & n & h & _). revert h. apply no_names. intros d h. vm_compute in h. injection h as <-. reflexivity.
  - intros (t & n & h & _). revert h. apply no_names. intros d h. vm_compute in h. injection h as <-. reflexivity.
  - intros (c & dc & v & cl & m & al & h & hi & _). revert hi. revert h. apply no_rules. vm_compute. reflexivity.
Qed.

(** A protected member of the parent is offered, and the theorem applies. *)
Definition case35b : bst :=
  opened "<?php" "<?php class A { protected $x; } class B extends A { function f(A $a) { $a->x; } }".
Example C35_case : exists l g i d, reachable case35b /\ asked case35b (mkPos 0 74) None 7 l /\ In g l /\ g_context g = SCall /\
  g_node g = Some i /\ data (b_arena case35b) i = Some d /\ y_vis d = VProtected /\
  (forall n dn v cl m al, data (b_arena case35b) n = Some dn -> ~ In (AltAs v cl m al) (the_list (y_alterations dn))) /\
  (forall c j dj, innermost_class (b_arena case35b) 7 c -> data (b_arena case35b) j = Some dj ->
     usable_in (resolver_at case35b c) c j dj -> lower_name dj = lower_name d -> j = i).
Proof.
  eexists. eexists. exists 4. eexists. split; [apply state_after_reachable|]. split.
  { exists 40%nat. do 4 eexists. do 4 (split; [vm_compute; reflexivity|]). vm_compute. reflexivity. }
  split; [left; reflexivity|]. split; [reflexivity|]. split; [reflexivity|]. split; [vm_compute; reflexivity|].
  split; [reflexivity|]. split.
  - apply no_rules. vm_compute. reflexivity.
  - intros c j dj _ h _ hn. revert j dj h hn. intros j dj. apply only_one. vm_compute. reflexivity.
Qed.

(** C42 does not hold the other way round: at [A::K], the constant is offered
    to a request without a trigger and not to one that [:] triggered. *)
Definition text42 : string := "<?php class A { const K = 1; static function h() { } } class B { function f() { A::K; } }".
Theorem C42_refuted : exists b p suc g i d, reachable b /\ b = opened "<?php" text42 /\
  asked b p None suc [g] /\ g_context g = SCall /\ g_node g = Some i /\ data (b_arena b) i = Some d /\
  sym_name d = lit "K" /\ asked b p (Some 58) suc [].
Proof.
  exists (opened "<?php" text42), (mkPos 0 83), 8. eexists. exists 4. eexists. split; [apply state_after_reachable|].
  split; [reflexivity|]. split.
  { exists 40%nat. do 4 eexists. do 4 (split; [vm_compute; reflexivity|]). vm_compute. reflexivity. }
  split; [reflexivity|]. split; [reflexivity|]. split; [vm_compute; reflexivity|]. split; [vm_compute; reflexivity|].
  exists 40%nat. do 4 eexists. do 4 (split; [vm_compute; reflexivity|]). vm_compute. reflexivity.
Qed.
(** A static method is offered to it. *)
Definition case42 : bst :=
  opened "<?php" "<?php class A { const K = 1; static function h() { } } class B { function f() { A::h; } }".
Example C42_case : reachable case42 /\ asked case42 (mkPos 0 83) (Some 58) 8 [sug_aliased 5 (lit "h") SCall] /\
  opt_map sym_name (data (b_arena case42) 5) = Some (lit "h").
Proof.
  split; [apply state_after_reachable|]. split; [|vm_compute; reflexivity].
  exists 40%nat. do 4 eexists. do 4 (split; [vm_compute; reflexivity|]). vm_compute. reflexivity.
Qed.

(** * C43: completion does not crash *)

(** It does, wherever the cursor is, if the first statement has no range. *)
Theorem C43_no_range_refuted : forall {RT : Runtime} {HH : Hashing} fuel order path p trigger b n r rg file refs,
  findS path (b_open b) = Some (n :: r, rg) -> findS path (b_files b) = Some file ->
  findS path (b_refs b) = Some refs -> children n = [] -> node_range n = None ->
  completion (S fuel) order path p trigger b = Panic.
Proof.
  intros RT HH fuel order path p trigger b n r rg file refs h1 h2 h3 h4 h5. unfold completion.
  unfold ebind at 1, eget at 1. rewrite h1. unfold ebind at 1, eget at 1. rewrite h2.
  unfold ebind at 1. destruct (e_data file b) as [fd b0| |] eqn:ed; [|reflexivity|].
  2:{ unfold e_data in ed. destruct (data _ _); discriminate ed. }
  assert (b0 = b) as -> by (destruct (r_data b file _ _ ed); auto).
  unfold ebind at 1, eget at 1. unfold ebind at 1.
  destruct (symbol_at (b_arena b) p file) as [suc|]; [|reflexivity]. cbn [eopt]. unfold eret at 1.
  unfold ebind at 1, eget at 1. rewrite h3. unfold ebind at 1.
  assert (q : get_suggestions_at (S fuel) order trigger p suc (n :: r) refs b = Panic); [|rewrite q; reflexivity].
  unfold get_suggestions_at. unfold ebind at 1. cbn [efind find_node]. rewrite h4, h5. reflexivity.
Qed.
Definition case43 : bst := opened "<?php" "<?php static $a; $".
Theorem C43_refuted : reachable case43 /\
  forall fuel order p trigger, completion (S fuel) order pB p trigger case43 = Panic.
Proof.
  split; [apply state_after_reachable|].
  assert (H : match findS pB (b_open case43), findS pB (b_files case43), findS pB (b_refs case43) with
    | Some (n :: _, _), Some _, Some _ => children n = [] /\ node_range n = None
    | _, _, _ => False end) by (vm_compute; split; reflexivity).
  generalize dependent case43. intros b H fuel order p trigger.
  destruct (findS pB (b_open b)) as [[[|n r] rg]|] eqn:h1; try contradiction.
  destruct (findS pB (b_files b)) as [file|] eqn:h2; [|contradiction].
  destruct (findS pB (b_refs b)) as [refs|] eqn:h3; [|contradiction].
  destruct H as [h4 h5].
  exact (C43_no_range_refuted fuel order pB p trigger b n r rg file refs h1 h2 h3 h4 h5).
Qed.

(** * C44 *)

(** What the answer at a position of the open file says about the class [name] *)
Definition answers (b : bst) (p : Position) (name : str) (edits : option (list (Range * str))) : Prop :=
  exists fuel l, completion fuel (fun l => l) pB p None b = Done (Some l) b /\ In (mkItem name None edits) l.

(** C44 does not hold.  In a namespace, the name of a global class comes
    without an import, so it stands for another class.  The same happens if
    the class is imported under another name.  And a class of the namespace of
    the file comes with an import, which is put on the fourth line of a file
    that has only one. *)
Definition text44a : string := "<?php namespace N; function f() { Fo::x; }".
Definition text44b : string := "<?php namespace N; use M\Foo as F; function f() { Fo::x; }".
Definition text44c : string := "<?php namespace N; class Foo { } function f() { Fo::x; }".
Theorem C44_refuted :
  (exists b, reachable b /\ b = opened "<?php class Foo { }" text44a /\ answers b (mkPos 0 35) (lit "Foo") None /\
     forall full, means [] [lit "N"] (Written false (lit "Foo") []) full -> full <> [lit "Foo"]) /\
  (exists b, reachable b /\ b = opened "<?php namespace M; class Foo { }" text44b /\ answers b (mkPos 0 51) (lit "Foo") None /\
     forall full, means [(lit "F", [lit "M"; lit "Foo"])] [lit "N"] (Written false (lit "Foo") []) full ->
       full <> [lit "M"; lit "Foo"]) /\
  (exists b, reachable b /\ b = opened "<?php" text44c /\
     answers b (mkPos 0 48) (lit "Foo") (Some [(mkRng (mkPos 3 0) (mkPos 3 0), lit "use N\Foo;" ++ [10])]) /\
     means [] [lit "N"] (Written false (lit "Foo") []) [lit "N"; lit "Foo"]).
Proof.
  split; [|split].
  - eexists. split; [|split; [reflexivity|]]; [apply state_after_reachable|]. split.
    + exists 40%nat. eexists. split; [vm_compute; reflexivity|]. left. reflexivity.
    + intros full h. inversion h; subst; [contradiction|]. vm_compute. discriminate.
  - eexists. split; [|split; [reflexivity|]]; [apply state_after_reachable|]. split.
    + exists 40%nat. eexists. split; [vm_compute; reflexivity|]. left. reflexivity.
    + intros full h. inversion h as [|? ? ? ? hi he|]; subst; [|vm_compute; discriminate].
      destruct hi as [hi|[]]. injection hi as <- <-. vm_compute in he. discriminate he.
  - eexists. split; [|split; [reflexivity|]]; [apply state_after_reachable|]. split.
    + exists 40%nat. eexists. split; [vm_compute; reflexivity|]. left. reflexivity.
    + apply means_local. intros ? ? [].
Qed.
(** A class of another namespace, with the import it needs *)
Definition case44 : bst := opened "<?php namespace M; class Foo { }" text44a.
Example C44_case : reachable case44 /\
  answers case44 (mkPos 0 35) (lit "Foo") (Some [(mkRng (mkPos 3 0) (mkPos 3 0), lit "use M\Foo;" ++ [10])]) /\
  means [(lit "Foo", [lit "M"; lit "Foo"])] [lit "N"] (Written false (lit "Foo") []) [lit "M"; lit "Foo"].
Proof.
  split; [apply state_after_reachable|]. split.
  - exists 40%nat. eexists. split; [vm_compute; reflexivity|]. left. reflexivity.
  - apply (means_imported _ _ (lit "Foo") [] (lit "Foo") [lit "M"; lit "Foo"]); [left; reflexivity|reflexivity].
Qed.

Print Assumptions C35_checked_partial.
Print Assumptions C35_partial.
Print Assumptions C35_refuted.
Print Assumptions C42_partial.
Print Assumptions C42_refuted.
Print Assumptions C43_refuted.
Print Assumptions C43_no_range_refuted.
Print Assumptions C44_partial.
Print Assumptions C44_refuted.
