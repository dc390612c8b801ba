(** Properties C33 and C49 for inherited members and members of traits: a member
    that one class of the ancestry declares is found wherever it is inherited. *)

From Coq Require Import Permutation Relations.
From Verif Require Import Base Token Scanner Node DocBlock Parser Assoc AssocFacts Arena ArenaFacts
  Symbol EnvMonad EnvFacts Workspace WorkspaceFacts Resolver SpecNames ResolverFacts
  Backend BackendFacts SpecServer ServerInv Prop_Server Prop_Names Prop_Members Prop_Overrides Prop_Access.

Local Notation findS := (find str_eqb).
Local Open Scope string_scope.
Local Open Scope N_scope.
Local Open Scope list_scope.

Section Inherit.
Context {RT : Runtime} {HH : Hashing}.

(** * Specification *)

(** [p] is named behind [extends] or [implements] of [c]: looking up that name
    from [c] answers [p] and nothing else.  No other parent of [c] has the short
    name of [p]. *)
Definition extends (s : rst) (c p : N) : Prop :=
  exists me r dp, data (r_arena s) c = Some me /\ In r (the_list (y_inherits me)) /\ data (r_arena s) p = Some dp /\
    found s c (sr_type r) (Some p) /\ (forall o, found s c (sr_type r) o -> o = Some p) /\
    (forall r' q dq, In r' (the_list (y_inherits me)) -> found s c (sr_type r') (Some q) -> data (r_arena s) q = Some dq ->
       to_lowercase (sym_name dq) = to_lowercase (sym_name dp) -> q = p).
(** [c] uses the trait [t]. *)
Definition takes (s : rst) (c t : N) : Prop :=
  exists me i dt, data (r_arena s) c = Some me /\ In i (the_list (y_imports me)) /\ data (r_arena s) t = Some dt /\
    y_kind dt = KTrait /\ found s c (i_path i) (Some t) /\ forall o, found s c (i_path i) o -> o = Some t.
(** [n] is [c], or a class or trait further up. *)
Definition above (s : rst) (c n : N) : Prop :=
  clos_refl_trans_1n N (fun a b => extends s a b \/ takes s a b) c n.

(** Among [c] and everything that it inherits from, only [n] declares a member
    with the name [k], and no rule is about that name. *)
Definition only (s : rst) (c : N) (k : str) (n : N) : Prop :=
  forall x, x = c \/ ancestor s c x ->
    (forall d, data (r_arena s) x = Some d -> ~ touched d k) /\ (x <> n -> forall j, ~ declares (r_arena s) x k j).
(** The member [k] of [c] is the declaration [i] of [c] or of a class or trait above. *)
Definition has (s : rst) (c : N) (k : str) (i : N) (d : Symbol) : Prop :=
  exists n, above s c n /\ declares_last (r_arena s) n k i d /\ only s c k n.

(** An entry for that declaration *)
Definition entry_for (i : N) (d : Symbol) (al : SymbolAlias) : Prop :=
  al_symbol al = i /\ al_alias al = sym_name d /\ al_vis al = y_vis d.

(** * Proofs *)
Section One.
Variable s : rst.
Variables (k : str) (n i : N) (d : Symbol).
Hypothesis hlast : declares_last (r_arena s) n k i d.
Local Notation same := (entry_for i d).
Local Notation most := (fun m : members => NoDup (keys m) /\ forall al, findS k m = Some al -> same al).
Local Notation some := (fun m : members => exists al, findS k m = Some al).

Lemma only_follows : forall c x, only s c k n -> follows s c x -> only s x k n.
Proof.
  intros c x h hf y hy. apply h. right. destruct hy as [->|hy]; [apply t_step; exact hf|].
  eapply t_trans; [apply t_step; exact hf|exact hy].
Qed.
Lemma y_both : forall A (m : R A) P Q, yields s m P -> yields s m Q -> yields s m (fun x => P x /\ Q x).
Proof. intros A m P Q h1 h2 s1 x s2 l e. destruct (h1 _ _ _ l e). destruct (h2 _ _ _ l e). auto. Qed.

Section Step.
Variables (fuel : nat) (ctx : N) (me : Symbol).
Hypothesis hme : data (r_arena s) ctx = Some me.
Hypothesis ho : only s ctx k n.
Hypothesis rec : forall x, only s x k n -> yields s (get_all_symbols fuel x) (fun m => forall al, findS k m = Some al -> same al).
Local Notation alts := (the_list (y_alterations me)).

Lemma not_touched : ~ touched me k.
Proof. apply (ho ctx); auto. Qed.

Lemma rec_most : forall x, follows s ctx x -> yields s (get_all_symbols fuel x) most.
Proof.
  intros x hx. eapply y_weak; [apply y_both; [apply (y_fine s fuel x)|apply rec; eapply only_follows; eauto]|].
  cbv beta. intros m ((h1 & _) & h2). auto.
Qed.

Lemma in_filter : forall (ms : members) al, NoDup (keys ms) ->
  In al (map snd (filter (fun p => str_eqb k (fst p)) ms)) -> findS k ms = Some al.
Proof.
  intros ms al nd hin. apply in_map_iff in hin. destruct hin as ([k0 v] & e & hin). cbn in e. subst v.
  apply filter_In in hin. destruct hin as [hin hk]. cbn in hk. destruct (str_eqb_spec k k0) as [<-|]; [|discriminate hk].
  clear hk. induction ms as [|[k1 v1] ms IH]; [destruct hin|]. cbn [find].
  cbn [keys map fst] in nd. inversion nd as [|? ? n1 n2]; subst.
  destruct (str_eqb_spec k k1) as [<-|ne].
  - destruct hin as [q|hin]; [injection q as <-; reflexivity|]. exfalso. apply n1. apply (in_map fst) in hin. exact hin.
  - destruct hin as [q|hin]; [injection q as <- <-; congruence|auto].
Qed.
Lemma filter_some : forall (ms : members) al, findS k ms = Some al ->
  map snd (filter (fun p => str_eqb k (fst p)) ms) <> [].
Proof.
  intros ms al. induction ms as [|[k1 v1] ms IH]; cbn [find filter fst]; [discriminate|].
  destruct (str_eqb k k1); [discriminate|exact IH].
Qed.

(** The members of the traits, in whatever order: all are that declaration, and
    there is one if a trait has one. *)
Lemma y_lists : yields s (trait_symbols (resolve_type_ref fuel) (get_all_symbols fuel) me ctx)
  (fun m => NoDup (keys m) /\ (forall l, findS k m = Some l -> Forall same l) /\
     (forall im t dt, In im (the_list (y_imports me)) -> (forall o, found s ctx (i_path im) o -> o = Some t) ->
        data (r_arena s) t = Some dt -> y_kind dt = KTrait -> (forall f, yields s (get_all_symbols f t) some) ->
        exists l, findS k m = Some l)).
Proof.
  unfold trait_symbols. fold (the_list (y_imports me)).
  apply (y_fold s _ _ _ (fun is_ m => NoDup (keys m) /\ (forall l, findS k m = Some l -> Forall same l) /\
     (forall im t dt, In im is_ -> (forall o, found s ctx (i_path im) o -> o = Some t) ->
        data (r_arena s) t = Some dt -> y_kind dt = KTrait -> (forall f, yields s (get_all_symbols f t) some) ->
        exists l, findS k m = Some l))).
  { split; [constructor|]. split; [discriminate|]. intros im t dt []. }
  intros done_ m im (nd & h1 & h2) (r & er).
  assert (hl : In (i_path im) (trait_names me)).
  { unfold trait_names. rewrite er. apply in_map. apply in_or_app. right. left. reflexivity. }
  eapply y_bind with (P := fun o => found s ctx (i_path im) o /\ forall x, o = Some x -> means_in s trait_names ctx ctx x).
  { apply y_both; [apply (y_found s fuel ctx me hme); apply links_trait, hl|].
    apply (y_resolve s fuel trait_names ctx ctx me (i_path im) hme hl (links_trait me)). }
  intros [t|] [hf hm].
  2:{ apply y_ret. split; [exact nd|]. split; [exact h1|]. intros im' t dt hin hfo. apply in_app_iff in hin.
      destruct hin as [hin|[<-|[]]]; [eauto|]. specialize (hfo _ hf). discriminate hfo. }
  eapply y_bind; [apply y_data|]. intros dt hdt.
  destruct (kind_eqb (y_kind dt) KTrait) eqn:ek; cbn [negb].
  2:{ apply y_ret. split; [exact nd|]. split; [exact h1|]. intros im' t' dt' hin hfo hd' hk'. apply in_app_iff in hin.
      destruct hin as [hin|[<-|[]]]; [eauto|]. specialize (hfo _ hf). injection hfo as ->.
      rewrite hdt in hd'. injection hd' as <-. rewrite hk' in ek. discriminate ek. }
  assert (hfl : follows s ctx t) by (right; left; apply hm; reflexivity).
  intros s1 m' s2 l e. unfold ebind in e. destruct (get_all_symbols fuel t s1) as [ms s3| |] eqn:ea; try discriminate e.
  injection e as <- <-. destruct (rec_most t hfl _ _ _ l ea) as [l3 [hn hs]]. split; [exact l3|].
  destruct (upsert_all ms m) as [u1 u2]. split; [apply u1; exact nd|]. rewrite u2.
  assert (hF : Forall same (map snd (filter (fun p => str_eqb k (fst p)) ms))).
  { apply Forall_forall. intros al hin. apply hs. apply in_filter; [exact hn|exact hin]. }
  split.
  - destruct (findS k m) as [l0|] eqn:e0.
    + intros l1 q. injection q as <-. apply Forall_app. auto.
    + destruct (map snd (filter (fun p => str_eqb k (fst p)) ms)) as [|a al]; [discriminate|].
      intros l1 q. injection q as <-. exact hF.
  - intros im' t' dt' hin hfo hd' hk' hsome. apply in_app_iff in hin. destruct hin as [hin|[<-|[]]].
    + destruct (h2 im' t' dt' hin hfo hd' hk' hsome) as (l0 & ->). eauto.
    + specialize (hfo _ hf). injection hfo as ->. destruct (hsome fuel _ _ _ l ea) as [_ (al & q)].
      pose proof (filter_some _ _ q) as q2. destruct (findS k m); [eauto|].
      destruct (map snd (filter (fun p => str_eqb k (fst p)) ms)); [congruence|eauto].
Qed.

Lemma y_got : yields s (get_imports (resolve_type_ref fuel) (get_all_symbols fuel) me ctx) (fun ch =>
  most ch /\
  (forall t, takes s ctx t -> (forall f, yields s (get_all_symbols f t) some) -> some ch)).
Proof.
  unfold get_imports. fold alts.
  eapply y_bind; [apply y_lists|]. intros all (t1 & t2 & t3). cbv zeta.
  eapply y_bind; [apply (y_insteadofs s fuel ctx me hme); exact t1|]. intros kept_ (rules & r1 & r2 & r3).
  eapply y_bind; [apply y_opt|]. intros ch0 hd. destruct (drain_find _ _ hd) as [d1 d2].
  eapply y_weak; [apply (y_ass s fuel ctx me hme all ch0) with (Src := fun _ _ => True); auto|].
  { rewrite d1. exact r2. }
  cbv beta. intros ch (c1 & c2 & _). rewrite (c2 k not_touched). destruct (d2 k) as [e1 e2]. rewrite e1, r3 in *.
  split; [split; [exact c1|]|].
  - destruct (findS k all) as [l|]; [|discriminate]. specialize (t2 l eq_refl). cbn [opt_map].
    intros al q. destruct (filter _ l) as [|a r] eqn:ef; [discriminate q|]. injection q as <-.
    rewrite Forall_forall in t2. apply t2. assert (hin : In a (a :: r)) by (left; reflexivity). rewrite <- ef in hin.
    apply filter_In in hin. apply hin.
  - intros t (me' & im & dt & h1 & h2 & h3 & h4 & _ & h5) hs. rewrite hme in h1. injection h1 as <-.
    destruct (t3 im t dt h2 h5 h3 h4 hs) as (l & el). rewrite el in *. cbn [opt_map] in *.
    destruct (filter _ l) as [|a r]; [congruence|]. exists a. reflexivity.
Qed.

(** The parents *)
Lemma y_named : forall p, extends s ctx p -> yields s (parent_nodes (resolve_type_ref fuel) me ctx)
  (fun m => exists key, In (key, p) m).
Proof.
  intros p (me' & r & dp & h1 & h2 & h3 & _ & h4 & h5). rewrite hme in h1. injection h1 as <-.
  eapply y_weak with (P := fun m => findS (to_lowercase (sym_name dp)) m = Some p).
  2:{ intros m q. exists (to_lowercase (sym_name dp)). clear - q. induction m as [|[k0 v] m IH]; [discriminate q|].
      cbn [find] in q. destruct (str_eqb_spec (to_lowercase (sym_name dp)) k0) as [<-|];
        [injection q as <-; left; reflexivity|right; auto]. }
  unfold parent_nodes. fold (the_list (y_inherits me)).
  eapply y_weak.
  - apply (y_fold s _ _ _ (fun l m => (In r l -> findS (to_lowercase (sym_name dp)) m = Some p))); [intros []|].
    intros done_ m r' hm (rest & er).
    assert (hin : In r' (the_list (y_inherits me))) by (rewrite er; apply in_or_app; right; left; reflexivity).
    eapply y_bind; [apply (y_found s fuel ctx me hme); apply links_parent; unfold parent_names; apply in_map; exact hin|].
    intros [q|] hq.
    + eapply y_bind; [apply y_data|]. intros dq hdq. apply y_ret. intros hr. unfold normalized_name.
      rewrite (find_put _ str_eqb_spec). destruct (str_eqb_spec (to_lowercase (sym_name dp)) (to_lowercase (sym_name dq))) as [e|ne].
      * f_equal. exact (h5 r' q dq hin hq hdq (eq_sym e)).
      * apply in_app_iff in hr. destruct hr as [hr|[->|[]]]; [auto|]. specialize (h4 _ hq). injection h4 as ->.
        rewrite h3 in hdq. injection hdq as <-. congruence.
    + apply y_ret. intros hr. apply in_app_iff in hr. destruct hr as [hr|[->|[]]]; [auto|]. specialize (h4 _ hq). discriminate h4.
  - cbv beta. auto.
Qed.

Lemma y_passed : yields s (inherited_symbols (resolve_type_ref fuel) (get_all_symbols fuel) me ctx)
  (fun m => most m /\ (forall p, extends s ctx p -> (forall f, yields s (get_all_symbols f p) some) -> some m)).
Proof.
  unfold inherited_symbols.
  eapply y_bind with (P := fun parents => (forall p, In p parents -> means_in s parent_names ctx ctx (snd p)) /\
     forall p, extends s ctx p -> exists key, In (key, p) parents).
  { apply y_both; [apply (y_parents s fuel ctx me hme)|]. intros s1 x s2 l e.
    split; [apply (y_parents s fuel ctx me hme _ _ _ l e)|]. intros p hp. eapply y_named; eauto. }
  intros parents (hp & hn).
  eapply y_bind.
  - apply (y_fold s _ _ _ (fun done_ m => most m /\ forall p key, In (key, p) done_ ->
      (forall f, yields s (get_all_symbols f p) some) -> some m)).
    { split; [split; [constructor|discriminate]|]. intros p key []. }
    intros done_ cur p ((nd & h1) & h2) (r & er).
    assert (hf : follows s ctx (snd p)).
    { left. apply hp. eapply Permutation_in; [apply h_perm|]. rewrite er. apply in_or_app. right. left. reflexivity. }
    intros s1 m' s2 l e. unfold ebind in e. destruct (get_all_symbols fuel (snd p) s1) as [tot s3| |] eqn:ea; try discriminate e.
    injection e as <- <-. destruct (rec_most _ hf _ _ _ l ea) as [l3 [n1 n2]]. split; [exact l3|].
    rewrite (find_put_all _ str_eqb_spec) by exact nd. split; [split|].
    + apply nodup_put_all; [exact str_eqb_spec|exact n1].
    + intros al. destruct (findS k cur); [intros q; injection q as <-; auto|auto].
    + intros q key hin hs. apply in_app_iff in hin. destruct hin as [hin|[hin|[]]].
      * destruct (h2 q key hin hs) as (al & ->). eauto.
      * destruct (findS k cur); [eauto|]. subst p. cbn [snd] in *. destruct (hs fuel _ _ _ l ea) as [_ q2]. exact q2.
  - cbv beta. intros m ((nd & h1) & h2). apply y_ret.
    rewrite (map_keys (fun a => pass_along a ctx)), (map_find (fun a => pass_along a ctx)). split; [split; [exact nd|]|].
    + intros al q. destruct (findS k m) as [a|]; [|discriminate q]. injection q as <-. exact (h1 a eq_refl).
    + intros p he hs. destruct (hn p he) as (key & hin).
      destruct (h2 p key) as (al & ->); [|exact hs|eexists; reflexivity].
      eapply Permutation_in; [apply Permutation_sym, h_perm|exact hin].
Qed.
End Step.

Lemma y_most : forall fuel ctx, only s ctx k n -> yields s (get_all_symbols fuel ctx) (fun m => forall al, findS k m = Some al -> same al).
Proof.
  induction fuel as [|fuel IH]; intros ctx ho; cbn [get_all_symbols]; [intros s1 x s2 l e; discriminate e|].
  eapply y_bind; [apply y_data|]. intros me hme. unfold own_symbols at 1.
  eapply y_bind with (P := most).
  - eapply y_bind; [apply y_kids|]. intros ks hks. eapply y_weak; [apply own_fold|]. cbv beta. intros own (no & h1 & h2).
    split; [exact no|]. destruct (N.eq_dec ctx n) as [->|ne].
    + destruct hlast as (l1 & l2 & q1 & q2 & q3 & q4). rewrite hks in q1. injection q1 as ->.
      rewrite (h2 k l1 i l2 d eq_refl q2 q3 q4). intros al q. injection q as <-. repeat split.
    + rewrite h1; [discriminate|]. intros j dj hj hdj e. destruct (ho ctx (or_introl eq_refl)) as [_ hno].
      apply (hno ne j). exists ks, dj. auto.
  - intros own (no & hown). eapply y_bind; [apply (y_got fuel ctx me hme ho IH)|]. intros imp ((ni & hi) & _). cbv zeta.
    eapply y_bind; [apply (y_type_names s fuel ctx me hme (type_names me)); apply incl_refl|]. intros types ht.
    eapply y_bind with (P := most).
    + apply (y_fold s _ _ _ (fun _ => most)).
      { split; [apply nodup_put_all; [exact str_eqb_spec|exact no]|]. intros al.
        rewrite (find_put_all _ str_eqb_spec) by exact ni. destruct (findS k imp); [intros q; injection q as <-; auto|auto]. }
      intros done_ m dt (nm & hm) (r & er). destruct (N.eqb_spec dt ctx) as [|ne]; [apply y_ret; auto|].
      eapply y_bind; [apply (rec_most fuel ctx ho IH)|].
      { right. right. split; [exact ne|]. apply ht. rewrite er. apply in_or_app. right. left. reflexivity. }
      intros l (nl & hl). apply y_ret. split; [apply nodup_put_all; [exact str_eqb_spec|exact nm]|]. intros al.
      rewrite (find_put_all _ str_eqb_spec) by exact nl. destruct (findS k l); [intros q; injection q as <-; auto|auto].
    + intros m (nm & hm). eapply y_bind; [apply (y_passed fuel ctx me hme ho IH)|]. intros inh ((nh & hh) & _). apply y_ret.
      intros al. rewrite (find_put_all _ str_eqb_spec) by exact nh. destruct (findS k inh); [intros q; injection q as <-; auto|auto].
Qed.

Lemma found_means : forall c tr me l x, data (r_arena s) c = Some me -> In tr (l me) -> found s c tr (Some x) -> means_in s l c c x.
Proof.
  intros c tr me l x hd hin (s1 & s2 & fuel & hl & e). exists s1, s2, fuel, me, tr. rewrite (proj1 (looked_kept _ _ hl)). auto.
Qed.

(** A class has what stands above it; this needs no lookup that answers, since
    then there is nothing to show. *)
Lemma y_some : forall ctx, above s ctx n -> only s ctx k n -> forall fuel, yields s (get_all_symbols fuel ctx) some.
Proof.
  intros ctx ha. unfold above in ha. remember n as n' eqn:en in ha. revert en.
  induction ha as [ctx|ctx p z hp _ IH]; intros -> ho [|fuel]; cbn [get_all_symbols];
    try (intros s1 x s2 l e; discriminate e).
  - eapply y_bind; [apply y_data|]. intros me hme. unfold own_symbols at 1.
    eapply y_bind with (P := some).
    { eapply y_bind; [apply y_kids|]. intros ks hks. eapply y_weak; [apply own_fold|]. cbv beta. intros own (_ & _ & h2).
      destruct hlast as (l1 & l2 & q1 & q2 & q3 & q4). rewrite hks in q1. injection q1 as ->.
      rewrite (h2 k l1 i l2 d eq_refl q2 q3 q4). eauto. }
    intros own hown. eapply y_bind; [apply (y_got fuel n me hme ho (y_most fuel))|]. intros imp ((ni & _) & _). cbv zeta.
    eapply y_bind; [apply (y_type_names s fuel n me hme (type_names me)); apply incl_refl|]. intros types ht.
    eapply y_bind with (P := some).
    + apply (y_fold s _ _ _ (fun _ => some)).
      { rewrite (find_put_all _ str_eqb_spec) by exact ni. destruct (findS k imp); [eauto|exact hown]. }
      intros done_ m dt hm (r & er). destruct (N.eqb_spec dt n) as [|ne]; [apply y_ret; auto|].
      eapply y_bind; [apply (y_fine s fuel dt)|]. intros l (nl & _). apply y_ret.
      rewrite (find_put_all _ str_eqb_spec) by exact nl. destruct (findS k l); [eauto|exact hm].
    + intros m hm. eapply y_bind; [apply (y_passed fuel n me hme ho (y_most fuel))|]. intros inh ((nh & _) & _). apply y_ret.
      rewrite (find_put_all _ str_eqb_spec) by exact nh. destruct (findS k inh); [eauto|exact hm].
  - eapply y_bind; [apply y_data|]. intros me hme. unfold own_symbols at 1.
    eapply y_bind with (P := fun _ => True).
    { eapply y_bind; [apply y_kids|]. intros ks hks. eapply y_weak; [apply own_fold|]. auto. }
    intros own _. eapply y_bind; [apply (y_got fuel ctx me hme ho (y_most fuel))|]. intros imp ((ni & _) & hi). cbv zeta.
    eapply y_bind; [apply (y_type_names s fuel ctx me hme (type_names me)); apply incl_refl|]. intros types ht.
    eapply y_bind with (P := fun m => some imp -> some m).
    + apply (y_fold s _ _ _ (fun _ m => some imp -> some m)).
      { rewrite (find_put_all _ str_eqb_spec) by exact ni. intros (al & ->). eauto. }
      intros done_ m dt hm (r & er). destruct (N.eqb_spec dt ctx) as [|ne]; [apply y_ret; auto|].
      eapply y_bind; [apply (y_fine s fuel dt)|]. intros l (nl & _). apply y_ret.
      rewrite (find_put_all _ str_eqb_spec) by exact nl. destruct (findS k l); [eauto|exact hm].
    + intros m hm.
      intros s1 x s2 l e. unfold ebind in e.
      destruct (inherited_symbols (resolve_type_ref fuel) (get_all_symbols fuel) me ctx s1) as [inh s3| |] eqn:ei; try discriminate e.
      injection e as <- <-. destruct (y_passed fuel ctx me hme ho (y_most fuel) _ _ _ l ei) as [l3 ((nh & _) & hh)].
      split; [exact l3|]. rewrite (find_put_all _ str_eqb_spec) by exact nh.
      assert (hf : follows s ctx p).
      { destruct hp as [(me' & r & dp & h1 & h2 & _ & h4 & _)|(me' & im & dt & h1 & h2 & _ & _ & h4 & _)];
          rewrite hme in h1; injection h1 as <-; [left|right; left]; (eapply found_means; [exact hme| |exact h4]).
        - unfold parent_names. apply in_map. exact h2.
        - unfold trait_names. apply (in_map i_path) in h2. exact h2. }
      specialize (IH eq_refl (only_follows _ _ ho hf)). destruct hp as [hp|hp].
      * destruct (hh p hp IH) as (al & ->). eauto.
      * destruct (findS k inh); [eauto|]. exact (hm (hi p hp IH)).
Qed.
End One.

Lemma extends_follows : forall s c p, extends s c p -> follows s c p.
Proof.
  intros s c p (me & r & dp & h1 & h2 & _ & h4 & _). left. eapply found_means; [exact h1| |exact h4].
  unfold parent_names. apply in_map. exact h2.
Qed.

(** * C33 *)

(** A member that exactly one of the class, its ancestors and its traits declares
    is found on the class, as it is declared there, whatever lies in between.

    Missing for the whole of C33: several declarations of the same name, where
    the claim does not hold ([C33_parent_wins_refuted]). *)
Theorem C33_inherited_partial : forall fuel ctx s m s' k i d,
  get_all_symbols fuel ctx s = Done m s' -> has s ctx k i d ->
  exists al, findS k m = Some al /\ entry_for i d al.
Proof.
  intros fuel ctx s m s' k i d e (n & ha & hd & ho).
  destruct (y_some s k n i d hd ctx ha ho fuel _ _ _ (looked_none s) e) as [_ (al & q)].
  exists al. split; [exact q|]. apply (y_most s k n i d hd fuel ctx ho _ _ _ (looked_none s) e). exact q.
Qed.

(** * C49 *)

Lemma near_has : forall s0 s fuel c k i d m s', has s0 c k i d -> near s0 s ->
  get_all_symbols fuel c s = Done m s' ->
  (exists al, findS k m = Some al /\ entry_for i d al) /\ near s0 s'.
Proof.
  intros s0 s fuel c k i d m s' (n & ha & hd & ho) hn e.
  apply (near_all s0 s (fun m => exists al, findS k m = Some al /\ entry_for i d al) fuel c m s'); auto.
  intros f. eapply y_weak; [apply y_both; [apply (y_some s0 k n i d hd c ha ho f)|apply (y_most s0 k n i d hd f c ho)]|].
  cbv beta. intros m1 ((al & q) & h). eauto.
Qed.

Ltac harmless :=
  let h := fresh in let l := fresh in let e := fresh in
  intros [h|(l & h)]; cbn in h; repeat (injection h as h; try discriminate h); try discriminate h.

(** [m] is written for the member [i] that [c] has. *)
Definition uses_any (s : rst) (c : N) (inside : bool) (m : Node) (p : N * Symbol) : Prop :=
  exists t name, written m t name /\ has s c (to_lowercase name) (fst p) (snd p) /\ usable inside (snd p).

Lemma step_any : forall s0 fuel file fname c inside m p rest s x s', uses_any s0 c inside m p -> near s0 s ->
  follow_chain fuel file fname (least inside) c (m :: rest) s = Done x s' ->
  exists s1, near s0 s1 /\ adds s s1 /\ (exists r, node_range m = Some r /\ referenced s1 file r (fst p)) /\
    (match y_kind (snd p) with
     | KProperty | KMethod =>
         elet st <- member_type fuel fname m c (y_types (snd p)) in
         match st with
         | NextLink n => follow_chain fuel file fname (least inside) n rest
         | GiveUp => eret None
         end
     | _ => follow_chain fuel file fname (least inside) (fst p) rest
     end) s1 = Done x s'.
Proof.
  intros s0 fuel file fname c inside m [i d] rest s x s' (t & name & hw & ho & hu) hn e. cbn [fst snd] in *.
  destruct (written_link _ _ _ hw) as (hl & hm & hr). cbn [follow_chain] in e. rewrite hl in e. cbn [eopt] in e.
  unfold ebind at 1, eret at 1 in e. unfold ebind at 1 in e.
  destruct (get_all_symbols fuel c s) as [ms s1| |] eqn:e1; try discriminate e.
  destruct (near_has _ _ _ _ _ _ _ _ _ ho hn e1) as [(al & hf & q1 & q2 & q3) hn1]. rewrite hf, q1, q2, q3 in e.
  unfold ebind at 1, e_data in e. cbn [the_arena rst_arena] in e.
  assert (hd : data (r_arena s1) i = Some d).
  { rewrite (near_arena _ _ hn1). destruct ho as (n & _ & (l1 & l2 & _ & h & _) & _). exact h. }
  rewrite hd, (usable_ge _ _ hu) in e. unfold ebind at 1 in e.
  match type of e with match ?m s1 with _ => _ end = _ => destruct (m s1) as [u s2| |] eqn:e2; try discriminate e end.
  assert (h2 : near s0 s2 /\ adds s1 s2).
  { destruct (str_eqb (sym_name d) name).
    - injection e2 as _ <-. split; [exact hn1|apply adds_refl].
    - unfold ebind in e2. destruct (node_range m); [|discriminate e2]. cbn [eopt] in e2. unfold eret in e2.
      split; [injection e2 as _ <-; eapply near_like; [exact hn1|repeat split]|].
      revert e2. apply m_note. harmless. }
  destruct h2 as [hn2 ha2]. unfold ebind at 1 in e.
  assert (e3 : exists u3 s3, reference_local file t i s2 = Done u3 s3 /\
    (match y_kind d with
     | KProperty | KMethod =>
         elet st <- member_type fuel fname m c (y_types d) in
         match st with
         | NextLink n => follow_chain fuel file fname (least inside) n rest
         | GiveUp => eret None
         end
     | _ => follow_chain fuel file fname (least inside) i rest
     end) s3 = Done x s').
  { destruct hm as [-> | ->]; destruct (reference_local file t i s2) as [u3 s3| |]; try discriminate e; eauto. }
  destruct e3 as (u3 & s3 & e3 & e4). exists s3. destruct (like_local _ _ _ _ _ _ e3) as [hl3 (r & hr3 & hr4)].
  split; [eapply near_like; eauto|]. split.
  - eapply adds_trans; [eapply m_all, e1|]. eapply adds_trans; [exact ha2|]. eapply m_local, e3.
  - split; [|exact e4]. exists r. rewrite hr. auto.
Qed.

Lemma steps_any : forall s0 fuel file fname c inside members ms, Forall2 (uses_any s0 c inside) members ms ->
  Forall (fun p => fluent (snd p)) ms -> forall rest s x s', near s0 s ->
  follow_chain fuel file fname (least inside) c (members ++ rest) s = Done x s' ->
  exists s1, near s0 s1 /\ adds s s1 /\
    Forall2 (fun m p => exists r, node_range m = Some r /\ referenced s1 file r (fst p)) members ms /\
    follow_chain fuel file fname (least inside) c rest s1 = Done x s'.
Proof.
  intros s0 fuel file fname c inside members ms H. induction H as [|m p members ms hu _ IH]; intros hf rest s x s' hn e.
  - exists s. split; [exact hn|]. split; [apply adds_refl|]. auto.
  - inversion hf as [|? ? h1 h2]; subst. cbn [app] in e.
    destruct (step_any _ _ _ _ _ _ _ _ _ _ _ _ hu hn e) as (s1 & hn1 & ha1 & (r & hr & hr1) & e1).
    assert (e2 : follow_chain fuel file fname (least inside) c (members ++ rest) s1 = Done x s').
    { pose proof (fluent_next fuel fname m c _ h1 s1) as hq. destruct h1 as [[q|q] _]; rewrite q in e1;
      unfold ebind in e1; rewrite hq in e1; exact e1. }
    destruct (IH h2 rest s1 x s' hn1 e2) as (s2 & hn2 & ha2 & hF & e3).
    exists s2. split; [exact hn2|]. split; [eapply adds_trans; eauto|]. split; [|exact e3]. constructor; [|exact hF].
    exists r. split; [exact hr|]. apply ha2. exact hr1.
Qed.

(** Members that the class of the object declares or inherits, from classes,
    interfaces or traits, are linked to their declarations and not reported if
    they may be used here.  Private members of ancestors are among them when the
    code stands in the class: see [C49_refuted]. *)
Theorem C49_inherited_partial : forall fuel file node s x s' e c inside members m ms p,
  Chain node e (members ++ [m]) -> Receiver s e c inside ->
  Forall2 (uses_any s c inside) members ms -> Forall (fun p => fluent (snd p)) ms -> uses_any s c inside m p ->
  resolve_member_type fuel file node s = Done x s' ->
  Forall2 (fun m p => exists r, node_range m = Some r /\ referenced s' file r (fst p)) (members ++ [m]) (ms ++ [p]) /\
  (forall n, In n (r_diags s') -> In n (r_diags s) \/ ~ accuses n) /\
  (fluent (snd p) -> x = Some c).
Proof.
  intros fuel file node s x s' e c inside members m ms p hc hr hF hf hu h.
  destruct (access_follow _ _ _ _ _ _ _ _ _ _ hc hr h) as (f1 & fname & s1 & hn1 & ha1 & e1).
  destruct (steps_any _ _ _ _ _ _ _ _ hF hf _ _ _ _ hn1 e1) as (s2 & hn2 & ha2 & hF2 & e2).
  destruct (step_any _ _ _ _ _ _ _ _ _ _ _ _ hu hn2 e2) as (s3 & hn3 & ha3 & (r & hr3 & hr4) & e3).
  assert (ha4 : adds s3 s').
  { destruct (y_kind (snd p)); try (injection e3 as _ <-; apply adds_refl); revert e3;
      (apply m_bind; [apply m_type|]; intros [n|]; apply m_ret). }
  split; [|split].
  - apply Forall2_app.
    + clear - hF2 ha3 ha4. induction hF2 as [|m0 p0 ? ? (r0 & h0 & h1)]; constructor; auto.
      exists r0. split; [exact h0|]. apply ha4, ha3, h1.
    + constructor; [|constructor]. exists r. split; [exact hr3|]. apply ha4, hr4.
  - intros n. apply adds_no. eapply adds_trans; [exact ha1|]. eapply adds_trans; [exact ha2|]. eapply adds_trans; eauto.
  - intros hp. pose proof (fluent_next f1 fname m c _ hp s3) as hq. destruct hp as [[q|q] _]; rewrite q in e3;
      unfold ebind in e3; rewrite hq in e3; injection e3 as <- _; reflexivity.
Qed.

(** ... and reported if they are private or protected and the code stands
    outside. *)
Theorem C49_inherited_hidden_partial : forall fuel file node s x s' e c members m ms t name i d,
  Chain node e (members ++ [m]) -> Receiver s e c false ->
  Forall2 (uses_any s c false) members ms -> Forall (fun p => fluent (snd p)) ms ->
  written m t name -> has s c (to_lowercase name) i d -> ~ usable false d ->
  resolve_member_type fuel file node s = Done x s' ->
  reported s' m hidden_message.
Proof.
  intros fuel file node s x s' e c members m ms t name i d hc hr hF hf hw ho hu h.
  destruct (access_follow _ _ _ _ _ _ _ _ _ _ hc hr h) as (f1 & fname & s1 & hn1 & ha1 & e1).
  destruct (steps_any _ _ _ _ _ _ _ _ hF hf _ _ _ _ hn1 e1) as (s2 & hn2 & ha2 & hF2 & e2).
  destruct (written_link _ _ _ hw) as (hl & _ & hr2). cbn [follow_chain] in e2. rewrite hl in e2. cbn [eopt] in e2.
  unfold ebind at 1, eret at 1 in e2. unfold ebind at 1 in e2.
  destruct (get_all_symbols f1 c s2) as [mm s3| |] eqn:e3; try discriminate e2.
  destruct (near_has _ _ _ _ _ _ _ _ _ ho hn2 e3) as [(al & hz & q1 & q2 & q3) hn3]. rewrite hz, q1, q2, q3 in e2.
  unfold ebind at 1, e_data in e2. cbn [the_arena rst_arena least] in e2.
  assert (hd : data (r_arena s3) i = Some d).
  { rewrite (near_arena _ _ hn3). destruct ho as (n & _ & (l1 & l2 & _ & h0 & _) & _). exact h0. }
  rewrite hd, (hidden_ge _ hu) in e2. unfold ebind, eopt in e2. unfold reported.
  destruct (node_range m) as [r|]; [|discriminate e2]. injection e2 as _ <-.
  eexists. exists r. split; [apply in_or_app; right; left; reflexivity|]. cbn. auto.
Qed.

(** A member that nobody declares is reported behind inherited ones, too. *)
Theorem C49_inherited_unknown_partial : forall fuel file node s x s' e c inside members m ms t name,
  Chain node e (members ++ [m]) -> Receiver s e c inside ->
  Forall2 (uses_any s c inside) members ms -> Forall (fun p => fluent (snd p)) ms ->
  written m t name -> lacks s c (to_lowercase name) ->
  resolve_member_type fuel file node s = Done x s' ->
  exists message, unknown_message m = Some message /\ reported s' m message.
Proof.
  intros fuel file node s x s' e c inside members m ms t name hc hr hF hf hw hk h.
  destruct (access_follow _ _ _ _ _ _ _ _ _ _ hc hr h) as (f1 & fname & s1 & hn1 & ha1 & e1).
  destruct (steps_any _ _ _ _ _ _ _ _ hF hf _ _ _ _ hn1 e1) as (s2 & hn2 & ha2 & hF2 & e2).
  destruct (written_link _ _ _ hw) as (hl & _ & hr2). cbn [follow_chain] in e2. rewrite hl in e2. cbn [eopt] in e2.
  unfold ebind at 1, eret at 1 in e2. unfold ebind at 1 in e2.
  destruct (get_all_symbols f1 c s2) as [mm s3| |] eqn:e3; try discriminate e2.
  destruct (near_lacks _ _ _ _ _ _ _ hk hn2 e3) as [hz _]. rewrite hz in e2. unfold ebind, eopt in e2.
  unfold unknown_message, reported. destruct (node_range m) as [r|]; [|discriminate e2].
  destruct (node_name m) as [nm|]; [|discriminate e2]. injection e2 as _ <-. eexists. split; [reflexivity|].
  eexists. exists r. split; [apply in_or_app; right; left; reflexivity|]. cbn. auto.
Qed.
End Inherit.

(** * Cases *)

Local Existing Instance ascii_runtime | 9.
Local Existing Instance plain_hashing | 9.

(** [C] extends [B], which extends [A] with the method [p] and uses the trait [T]
    with the private method [t].  The parameter of [g] is a [C]. *)
Definition textI : string :=
  "<?php class A { function p() { } } trait T { private function t() { } } class B extends A { use T; } class C extends B { function r() { } } function g(C $x) { }".
Definition backI : bst := opened "<?php" textI.
Definition symbolsI : list (N * Symbol) := Eval vm_compute in map (fun p => (fst p, n_data (snd p))) (a_nodes (b_arena backI)).
Definition arenaI : arena Symbol := Eval vm_compute in b_arena backI.
Definition indexI : list (str * N) := Eval vm_compute in b_global backI.
Definition stateI (class : option N) : rst := mkRst arenaI indexI [[(lit "x", 13)]] class 1 [] [] [].
Definition namesI : list TypeRef := Eval vm_compute in flat_map (fun p => links (snd p)) symbolsI.
Definition meaningsI : list (NodeRange * N) := Eval vm_compute in
  flat_map (fun tr => match tref_range tr, resolve_type_ref 20 tr 1 false (stateI None) with
                      | Some r, Done (Some n) _ => [(r, n)]
                      | _, _ => []
                      end) namesI.
Definition fileI (c : N) : N := if c =? 0 then 0 else 1.
Definition symbolI (i : N) : Symbol :=
  match find N.eqb i symbolsI with Some d => d | None => symbol49 0 end.

Lemma symbolsI_eq : forall cl, map (fun p => (fst p, n_data (snd p))) (a_nodes (r_arena (stateI cl))) = symbolsI.
Proof. intros cl. vm_compute. reflexivity. Qed.
Lemma linksI : forall c d tr, In (c, d) symbolsI -> In tr (links d) -> In tr namesI.
Proof.
  intros c d tr h hin.
  assert (q : namesI = flat_map (fun p => links (snd p)) symbolsI) by (vm_compute; reflexivity).
  rewrite q. apply in_flat_map. exists (c, d). auto.
Qed.
Lemma meaningsI_fun : forall r n n', In (r, n) meaningsI -> In (r, n') meaningsI -> n = n'.
Proof.
  intros r n n' h1 h2. unfold meaningsI in *. cbn [In] in *.
  intuition; repeat match goal with h : (_, _) = (_, _) |- _ => injection h as ? ?; subst end; congruence.
Qed.
Lemma someI : forall tr, In tr namesI -> tref_is_builtin tr || tref_is_empty tr = false.
Proof. intros tr h. unfold namesI in h. cbn [In] in h. repeat (destruct h as [<-|h]; [reflexivity|]). contradiction h. Qed.
Lemma lookupI : forall cl k tr ctx sc ct rf dg ca, In tr namesI -> In ctx (map fst symbolsI) ->
  exists r n, tref_range tr = Some r /\ In (r, n) meaningsI /\
  resolve_type_ref (S k) tr ctx false (with_rest (stateI cl) sc ct rf dg ca) =
  match find unique_eqb (fileI ctx, r) ca with
  | Some o => Done o (with_rest (stateI cl) sc ct rf dg ca)
  | None => Done (Some n) (with_rest (stateI cl) sc ct rf dg (put unique_eqb (fileI ctx, r) (Some n) ca))
  end.
Proof.
  intros cl k tr ctx sc ct rf dg ca h1 h2. unfold namesI in h1. cbn [In] in h1. cbn [symbolsI map fst In] in h2.
  repeat (destruct h1 as [<-|h1]); try contradiction h1;
  (repeat (destruct h2 as [<-|h2]); try contradiction h2);
    eexists; eexists; (split; [vm_compute; reflexivity|]);
    (split; [shelve|]);
    match goal with |- resolve_type_ref (S k) ?tr ?ctx false ?s = match ?x with _ => _ end =>
      edestruct (resolve_prefix k tr ctx s) as [g1 g2];
        [vm_compute; reflexivity| vm_compute; reflexivity|vm_compute; reflexivity|vm_compute; reflexivity|vm_compute; reflexivity|];
      destruct x as [o|] eqn:e; [apply g1; exact e|];
      erewrite g2; [reflexivity|exact e|vm_compute; reflexivity..]
    end.
  Unshelve.
  all: unfold meaningsI; cbn [In]; tauto.
Qed.
(** Every lookup of a name finds what it means. *)
Lemma foundI : forall cl c d tr o, In (c, d) symbolsI -> In tr (links d) -> found (stateI cl) c tr o ->
  exists r n, tref_range tr = Some r /\ o = Some n /\ In (r, n) meaningsI.
Proof.
  intros cl c d tr o hs hin (s1 & s2 & fuel & hl & e).
  assert (hr : right (stateI cl) meaningsI s1).
  { apply (right_looked (stateI cl) symbolsI namesI meaningsI fileI (symbolsI_eq cl) linksI meaningsI_fun someI eq_refl (lookupI cl)).
    exact hl. }
  eapply (right_next (stateI cl) symbolsI namesI meaningsI fileI (symbolsI_eq cl) linksI meaningsI_fun someI (lookupI cl)) with (c := c);
    [exact hr| |exact hin|exact e].
  rewrite (proj1 (looked_kept _ _ hl)). clear - hs.
  cbn [symbolsI In] in hs. repeat (destruct hs as [hs|hs]; [injection hs as <- <-; vm_compute; reflexivity|]). contradiction hs.
Qed.
Lemma meansI : forall cl l c ctx n, (forall d, incl (l d) (links d)) -> means_in (stateI cl) l c ctx n ->
  exists d tr r, In (c, d) symbolsI /\ In tr (l d) /\ tref_range tr = Some r /\ In (r, n) meaningsI.
Proof.
  intros cl. apply (means_right (stateI cl) symbolsI namesI meaningsI fileI (symbolsI_eq cl) linksI meaningsI_fun someI eq_refl (lookupI cl)).
Qed.

Lemma followsI : forall cl c n, follows (stateI cl) c n -> In (c, n) [(7, 2); (7, 5); (9, 7); (13, 9)].
Proof.
  intros cl c n h. destruct h as [h|[h|[ne h]]]; apply meansI in h;
    try (intros ? ? ?; unfold links; rewrite !in_app_iff; auto; fail);
    destruct h as (d & tr & r & hs & hi & hr & hm); cbn [symbolsI In] in hs;
    repeat (destruct hs as [hs|hs]); try contradiction hs; injection hs as <- <-;
    vm_compute in hi; repeat (destruct hi as [hi|hi]); try contradiction hi;
    rewrite <- hi in hr; vm_compute in hr; injection hr as <-;
    cbn [meaningsI In] in hm; repeat (destruct hm as [hm|hm]; try discriminate hm; try contradiction hm);
    injection hm as <-; try congruence; cbn; auto.
Qed.
Lemma ancestorsI : forall cl c n, ancestor (stateI cl) c n ->
  In (c, n) [(7, 2); (7, 5); (9, 7); (13, 9); (9, 2); (9, 5); (13, 7); (13, 2); (13, 5)].
Proof.
  intros cl c n h. unfold ancestor in h.
  induction h as [c n h|c x n h1 IH1 h2 IH2]; [apply followsI in h; cbn in h |- *; intuition|].
  cbn [In] in *. clear h1 h2.
  repeat (destruct IH1 as [IH1|IH1]); try contradiction IH1; injection IH1 as <- <-;
    repeat (destruct IH2 as [IH2|IH2]; try discriminate IH2; try contradiction IH2); injection IH2 as <-; auto 15.
Qed.

Ltac onceI := intros o ho; eapply foundI in ho; [|cbn [symbolsI In]; auto 20|vm_compute; auto 10];
  let r := fresh "r" in let n := fresh "n" in let hr := fresh "hr" in let hm := fresh "hm" in
  destruct ho as (r & n & hr & -> & hm); vm_compute in hr; injection hr as <-;
  cbn [meaningsI In] in hm; repeat (destruct hm as [hm|hm]; try discriminate hm; try contradiction hm);
  injection hm as <-; reflexivity.
Ltac hereI := eexists _, _, 20%nat; split; [apply looked_none|vm_compute; reflexivity].
Ltac extendsI := eexists _, _, _; split; [vm_compute; reflexivity|]; split; [left; reflexivity|]; split; [vm_compute; reflexivity|];
  split; [hereI|]; split; [onceI|].

Lemma extends97 : forall cl, extends (stateI cl) 9 7.
Proof.
  intros cl. extendsI. intros r' q dq [<-|[]] hf hq e. eapply foundI in hf; [|cbn [symbolsI In]; auto 20|vm_compute; auto 10].
  destruct hf as (r & n & hr & e2 & hm). injection e2 as ->. vm_compute in hr. injection hr as <-.
  cbn [meaningsI In] in hm; repeat (destruct hm as [hm|hm]; try discriminate hm; try contradiction hm);
  injection hm as <-; reflexivity.
Qed.
Lemma extends72 : forall cl, extends (stateI cl) 7 2.
Proof.
  intros cl. extendsI. intros r' q dq [<-|[]] hf hq e. eapply foundI in hf; [|cbn [symbolsI In]; auto 20|vm_compute; auto 10].
  destruct hf as (r & n & hr & e2 & hm). injection e2 as ->. vm_compute in hr. injection hr as <-.
  cbn [meaningsI In] in hm; repeat (destruct hm as [hm|hm]; try discriminate hm; try contradiction hm);
  injection hm as <-; reflexivity.
Qed.
Lemma takes75 : forall cl, takes (stateI cl) 7 5.
Proof.
  intros cl. eexists _, _, _. split; [vm_compute; reflexivity|]. split; [left; reflexivity|]. split; [vm_compute; reflexivity|].
  split; [reflexivity|]. split; [hereI|onceI].
Qed.

(** [C] has [p] of [A] and [t] of [T]. *)
Lemma hasI : forall cl k i, (k = lit "p" /\ i = 4) \/ (k = lit "t" /\ i = 6) -> has (stateI cl) 9 k i (symbolI i).
Proof.
  intros cl k i h.
  assert (hu : forall x d k, x = 9 \/ ancestor (stateI cl) 9 x -> data (r_arena (stateI cl)) x = Some d -> ~ touched d k).
  { intros x d k0 hx hd (v & c0 & m & al & hi & _).
    assert (hx2 : In x [9; 7; 2; 5]).
    { destruct hx as [->|hx]; [left; reflexivity|]. apply ancestorsI in hx. cbn [In] in *.
      repeat (destruct hx as [hx|hx]; try discriminate hx; try contradiction hx); injection hx as <-; auto. }
    cbn [In] in hx2. destruct hx2 as [<-|[<-|[<-|[<-|[]]]]]; vm_compute in hd; injection hd as <-; destruct hi. }
  assert (hv : forall x k j, x = 9 \/ ancestor (stateI cl) 9 x -> declares (r_arena (stateI cl)) x k j ->
    In (x, k) [(9, lit "class"); (9, lit "r"); (7, lit "class"); (2, lit "class"); (2, lit "p"); (5, lit "t")]).
  { intros x k0 j hx (ks & d & hk & hi & hd & e).
    assert (hx2 : In x [9; 7; 2; 5]).
    { destruct hx as [->|hx]; [left; reflexivity|]. apply ancestorsI in hx. cbn [In] in *.
      repeat (destruct hx as [hx|hx]; try discriminate hx; try contradiction hx); injection hx as <-; auto. }
    cbn [In] in hx2. destruct hx2 as [<-|[<-|[<-|[<-|[]]]]]; vm_compute in hk; injection hk as <-; cbn [In] in hi;
      repeat (destruct hi as [<-|hi]; [vm_compute in hd; injection hd as <-; vm_compute in e; subst k0; vm_compute; auto 20|]); contradiction hi. }
  destruct h as [[-> ->]|[-> ->]].
  - exists 2. split; [|split].
    + eapply Relation_Operators.rt1n_trans; [left; apply extends97|]. eapply Relation_Operators.rt1n_trans; [left; apply extends72|]. apply Relation_Operators.rt1n_refl.
    + exists [3], []. repeat split; try (vm_compute; reflexivity). intros j dj [].
    + intros x hx. split; [intros d; apply hu; exact hx|]. intros ne j hd. apply hv in hd; [|exact hx]. cbn [In] in hd.
      repeat (destruct hd as [hd|hd]); try contradiction hd; injection hd; intros; subst; try congruence; vm_compute in *; discriminate.
  - exists 5. split; [|split].
    + eapply Relation_Operators.rt1n_trans; [left; apply extends97|]. eapply Relation_Operators.rt1n_trans; [right; apply takes75|]. apply Relation_Operators.rt1n_refl.
    + exists [], []. repeat split; try (vm_compute; reflexivity). intros j dj [].
    + intros x hx. split; [intros d; apply hu; exact hx|]. intros ne j hd. apply hv in hd; [|exact hx]. cbn [In] in hd.
      repeat (destruct hd as [hd|hd]); try contradiction hd; injection hd; intros; subst; try congruence; vm_compute in *; discriminate.
Qed.

Example C33_inherited_case : exists m s', get_all_symbols 20 9 (stateI None) = Done m s' /\
  has (stateI None) 9 (lit "p") 4 (symbolI 4) /\ has (stateI None) 9 (lit "t") 6 (symbolI 6).
Proof. eexists _, _. split; [vm_compute; reflexivity|]. split; apply hasI; auto. Qed.

(** [$this->p()] and [$this->t()] in [C]; [$x->p()] outside, and [$x->T()], which
    is reported *)
Example C49_inherited_case : exists node1 node2 e m1 m2 x1 x2 s1 s2,
  syntax 60 (lit "<?php $this->p();") = Some [NExpressionStatement node1] /\
  syntax 60 (lit "<?php $this->t();") = Some [NExpressionStatement node2] /\
  Chain node1 e ([] ++ [m1]) /\ Chain node2 e ([] ++ [m2]) /\ Receiver (stateI (Some 9)) e 9 true /\
  uses_any (stateI (Some 9)) 9 true m1 (4, symbolI 4) /\ uses_any (stateI (Some 9)) 9 true m2 (6, symbolI 6) /\
  resolve_member_type 60 1 node1 (stateI (Some 9)) = Done x1 s1 /\
  resolve_member_type 60 1 node2 (stateI (Some 9)) = Done x2 s2.
Proof.
  eexists _, _, _, _, _, _, _, _, _. split; [vm_compute; reflexivity|]. split; [vm_compute; reflexivity|].
  split; [apply parts_ok; reflexivity|]. split; [apply parts_ok; reflexivity|]. split; [apply Receiver_this; reflexivity|].
  split; [eexists _, _; split; [apply written_name; reflexivity || discriminate|]; split; [apply hasI; auto|left; reflexivity]|].
  split; [eexists _, _; split; [apply written_name; reflexivity || discriminate|]; split; [apply hasI; auto|left; reflexivity]|].
  split; vm_compute; reflexivity.
Qed.
Example C49_inherited_hidden_case : exists node1 node2 e m1 m2 t name x1 x2 s1 s2,
  syntax 60 (lit "<?php $x->p();") = Some [NExpressionStatement node1] /\
  syntax 60 (lit "<?php $x->T();") = Some [NExpressionStatement node2] /\
  Chain node1 e ([] ++ [m1]) /\ Chain node2 e ([] ++ [m2]) /\ Receiver (stateI None) e 9 false /\
  uses_any (stateI None) 9 false m1 (4, symbolI 4) /\
  (written m2 t name /\ has (stateI None) 9 (to_lowercase name) 6 (symbolI 6) /\ ~ usable false (symbolI 6)) /\
  resolve_member_type 60 1 node1 (stateI None) = Done x1 s1 /\
  resolve_member_type 60 1 node2 (stateI None) = Done x2 s2.
Proof.
  eexists _, _, _, _, _, _, _, _, _, _, _. split; [vm_compute; reflexivity|]. split; [vm_compute; reflexivity|].
  split; [apply parts_ok; reflexivity|]. split; [apply parts_ok; reflexivity|].
  split.
  { apply Receiver_other; [|discriminate]. eexists _, _, _, _, _, _, _. split; [reflexivity|]. split; [discriminate|].
    split; [reflexivity|]. split; [reflexivity|]. split; [vm_compute; reflexivity|]. split; reflexivity. }
  split; [eexists _, _; split; [apply written_name; reflexivity || discriminate|]; split; [apply hasI; auto|right; right; reflexivity]|].
  split.
  { split; [apply written_name; reflexivity || discriminate|]. split; [apply hasI; auto|]. intros [h|[h|h]]; discriminate h. }
  split; vm_compute; reflexivity.
Qed.

Print Assumptions C33_inherited_partial.
Print Assumptions C49_inherited_partial.
(** [$x->z()] with members above that are named otherwise *)
Example C49_inherited_unknown_case : exists node e m t name x s',
  syntax 60 (lit "<?php $x->z();") = Some [NExpressionStatement node] /\
  Chain node e ([] ++ [m]) /\ Receiver (stateI None) e 9 false /\
  written m t name /\ ancestor (stateI None) 9 2 /\ lacks (stateI None) 9 (to_lowercase name) /\
  resolve_member_type 60 1 node (stateI None) = Done x s'.
Proof.
  eexists _, _, _, _, _, _, _. split; [vm_compute; reflexivity|]. split; [apply parts_ok; reflexivity|]. split.
  { apply Receiver_other; [|discriminate]. eexists _, _, _, _, _, _, _. split; [reflexivity|]. split; [discriminate|].
    split; [reflexivity|]. split; [reflexivity|]. split; [vm_compute; reflexivity|]. split; reflexivity. }
  split; [apply written_name; reflexivity || discriminate|]. split; [|split; [|vm_compute; reflexivity]].
  - apply t_trans with (y := 7); apply t_step; apply extends_follows; [apply extends97|apply extends72].
  - intros n hn.
    assert (hx : In n [9; 7; 2; 5]).
    { destruct hn as [->|hn]; [left; reflexivity|]. apply ancestorsI in hn. cbn [In] in *.
      repeat (destruct hn as [hn|hn]; try discriminate hn; try contradiction hn); injection hn as <-; auto. }
    cbn [In] in hx. split.
    + intros j (ks & d & hk & hi & hd & e). destruct hx as [<-|[<-|[<-|[<-|[]]]]]; vm_compute in hk; injection hk as <-; cbn [In] in hi;
        repeat (destruct hi as [<-|hi]; [vm_compute in hd; injection hd as <-; vm_compute in e; discriminate e|]); contradiction hi.
    + intros (d & v & cl & mm & tk & l & hd & hi & _).
      destruct hx as [<-|[<-|[<-|[<-|[]]]]]; vm_compute in hd; injection hd as <-; destruct hi.
Qed.

Print Assumptions C49_inherited_hidden_partial.
Print Assumptions C49_inherited_unknown_partial.
