(** Properties C33 and C34: which declaration a member name stands for. *)

From Coq Require Import Permutation Relations.
From Verif Require Import Base Token Scanner Node DocBlock Parser Assoc AssocFacts Arena ArenaFacts
  Symbol EnvMonad EnvFacts Workspace WorkspaceFacts Resolver SpecNames ResolverFacts
  Backend BackendFacts SpecServer ServerInv Prop_Server Prop_Names Prop_Members.

Local Notation findS := (find str_eqb).
Local Existing Instance ascii_runtime | 9.
Local Existing Instance plain_hashing | 9.
Local Open Scope string_scope.
Local Open Scope N_scope.
Local Open Scope list_scope.

Section Overrides.
Context {RT : Runtime} {HH : Hashing}.

(** * Specification *)

(** The symbol [c] declares a member [i] named [k] (in lower case) *)
Definition declares (a : arena Symbol) (c : N) (k : str) (i : N) : Prop :=
  exists ks d, kids a c = Some ks /\ In i ks /\ data a i = Some d /\ to_lowercase (sym_name d) = k.
(** ... and [i] is the last one of that name *)
Definition declares_last (a : arena Symbol) (c : N) (k : str) (i : N) (d : Symbol) : Prop :=
  exists l1 l2, kids a c = Some (l1 ++ i :: l2) /\ data a i = Some d /\ to_lowercase (sym_name d) = k /\
    forall j dj, In j l2 -> data a j = Some dj -> to_lowercase (sym_name dj) <> k.
(** A rule of [c] gives a trait member the new name [k] *)
Definition renames (a : arena Symbol) (c : N) (k : str) : Prop :=
  exists d v cl m t l, data a c = Some d /\ In (AltAs v cl m (Some t)) (the_list (y_alterations d)) /\
    t_label t = Some l /\ to_lowercase l = k.

(** The ancestors, traits and data types of [ctx] *)
Definition ancestor (s : rst) (ctx n : N) : Prop := clos_trans N (follows s) ctx n.

(** ** Trait rules *)

(** Looking up the name [tr] from [ctx] answers [o] *)
Definition found (s : rst) (ctx : N) (tr : TypeRef) (o : option N) : Prop :=
  exists s1 s2 fuel, looked s s1 /\ resolve_type_ref fuel tr ctx false s1 = Done o s2.

(** What one [use] of a class contributes: the members of the trait, if it is
    one *)
Definition contributes (s : rst) (ctx : N) (i : SymbolImport) (l : list members) : Prop :=
  (exists t d ms s1 s2 fuel, found s ctx (i_path i) (Some t) /\ data (r_arena s) t = Some d /\ y_kind d = KTrait /\
     looked s s1 /\ get_all_symbols fuel t s1 = Done ms s2 /\ l = [ms]) \/
  (l = [] /\ exists o, found s ctx (i_path i) o /\
     forall t d, o = Some t -> data (r_arena s) t = Some d -> y_kind d <> KTrait).
(** All members named [k] of the used traits, in the order of the uses *)
Definition candidates (l : list (list members)) (k : str) : list SymbolAlias :=
  flat_map (fun ms => map snd (filter (fun p => str_eqb k (fst p)) ms)) (List.concat l).

(** [winner::member insteadof losers] *)
Record rule := mkRule { ru_member : str; ru_winner : option N; ru_losers : list N }.
Definition is_insteadof (a : Alteration) : bool := match a with AltInsteadOf _ _ _ => true | _ => false end.
Definition rule_of (s : rst) (ctx : N) (a : Alteration) (r : rule) : Prop :=
  match a with
  | AltAs _ _ _ _ => False
  | AltInsteadOf class member l =>
      ru_member r = member /\ found s ctx class (ru_winner r) /\
      exists os, Forall2 (found s ctx) l os /\ ru_losers r = flat_map opt_list os
  end.
(** A rule takes the member [k] of trait [t] away *)
Definition excluded (rules : list rule) (k : str) (t : N) : Prop :=
  exists r w, In r rules /\ to_lowercase (ru_member r) = k /\ ru_winner r = Some w /\ t <> w /\ In t (ru_losers r).
(** [al] is the first candidate that is not taken away *)
Definition selected (rules : list rule) (k : str) (l : list SymbolAlias) (al : SymbolAlias) : Prop :=
  exists pre post, l = pre ++ al :: post /\ ~ excluded rules k (al_origin al) /\
    Forall (fun x => excluded rules k (al_origin x)) pre.
(** An [as] rule of [me] is about the name [k] *)
Definition touched (me : Symbol) (k : str) : Prop :=
  exists v cl m al, In (AltAs v cl m al) (the_list (y_alterations me)) /\
    match al with Some t => exists l, t_label t = Some l /\ to_lowercase l = k | None => to_lowercase m = k end.

(** * Proofs *)

Section Yields.
Variable s : rst.

Definition yields {A} (m : R A) (P : A -> Prop) : Prop :=
  forall s1 x s2, looked s s1 -> m s1 = Done x s2 -> looked s s2 /\ P x.

Lemma y_ret : forall A (x : A) (P : A -> Prop), P x -> yields (eret x) P.
Proof. intros A x P h s1 y s2 l e. injection e as <- <-. auto. Qed.
Lemma y_opt : forall A (o : option A), yields (eopt o) (fun x => o = Some x).
Proof. intros A [x|] s1 y s2 l e; [|discriminate e]. injection e as <- <-. auto. Qed.
Lemma y_bind : forall A B (m : R A) (f : A -> R B) P P', yields m P -> (forall x, P x -> yields (f x) P') ->
  yields (ebind m f) P'.
Proof.
  intros A B m f P P' hm hf s1 y s2 l e. unfold ebind in e. destruct (m s1) as [x s3| |] eqn:e1; try discriminate e.
  destruct (hm _ _ _ l e1) as [l3 p]. eapply hf; eauto.
Qed.
Lemma y_weak : forall A (m : R A) (P P' : A -> Prop), yields m P -> (forall x, P x -> P' x) -> yields m P'.
Proof. intros A m P P' h hp s1 x s2 l e. destruct (h _ _ _ l e). auto. Qed.
Lemma y_data : forall i, yields (e_data i) (fun d => data (r_arena s) i = Some d).
Proof.
  intros i s1 x s2 l e. unfold e_data in e. cbn [the_arena rst_arena] in e.
  destruct (looked_kept _ _ l) as [ha _]. rewrite ha in e. destruct (data (r_arena s) i); [|discriminate e].
  injection e as <- <-. auto.
Qed.
Lemma y_kids : forall i, yields (e_kids i) (fun l => kids (r_arena s) i = Some l).
Proof.
  intros i s1 x s2 l e. unfold e_kids in e. cbn [the_arena rst_arena] in e.
  destruct (looked_kept _ _ l) as [ha _]. rewrite ha in e. destruct (kids (r_arena s) i); [|discriminate e].
  injection e as <- <-. auto.
Qed.
(** Folding, with an invariant about the part that is done *)
Lemma y_fold : forall A B (f : B -> A -> R B) (I : list A -> B -> Prop) l b0,
  I [] b0 -> (forall done x y, I done x -> (exists r, l = done ++ y :: r) -> yields (f x y) (I (done ++ [y]))) ->
  yields (efold f b0 l) (I l).
Proof.
  intros A B f I l b0 h0 h.
  assert (H : forall rest done b, l = done ++ rest -> I done b -> yields (efold f b rest) (I l)).
  { induction rest as [|y rest IH]; intros done b e hb; cbn [efold].
    - rewrite app_nil_r in e. subst done. apply y_ret. exact hb.
    - eapply y_bind; [apply h; [exact hb|exists rest; exact e]|]. intros x hx. eapply IH; [|exact hx].
      rewrite <- app_assoc. exact e. }
  apply (H l []); auto.
Qed.
Lemma y_resolve : forall fuel l c ctx d tr, data (r_arena s) c = Some d -> In tr (l d) -> incl (l d) (links d) ->
  yields (resolve_type_ref fuel tr ctx false) (fun o => forall n, o = Some n -> means_in s l c ctx n).
Proof.
  intros fuel l c ctx d tr hd hin hi s1 o s2 hl e. destruct (looked_kept _ _ hl) as [ha _]. split.
  - eapply looked_one; [exact hl|rewrite ha; exact hd|apply hi, hin|exact e].
  - intros m ->. exists s1, s2, fuel, d, tr. rewrite ha. auto.
Qed.

Lemma own_fold : forall ks ctx,
  yields (efold (fun m c => elet d <- e_data c in
      eret (put str_eqb (normalized_name d) (mkAlias c (sym_name d) (y_vis d) ctx) m)) [] ks)
    (fun m => NoDup (keys m) /\
      (forall k, (forall i d, In i ks -> data (r_arena s) i = Some d -> to_lowercase (sym_name d) <> k) -> findS k m = None) /\
      (forall k l1 i l2 d, ks = l1 ++ i :: l2 -> data (r_arena s) i = Some d -> to_lowercase (sym_name d) = k ->
         (forall j dj, In j l2 -> data (r_arena s) j = Some dj -> to_lowercase (sym_name dj) <> k) ->
         findS k m = Some (mkAlias i (sym_name d) (y_vis d) ctx))).
Proof.
  intros ks ctx.
  apply (y_fold _ _ _ (fun ks m => NoDup (keys m) /\
      (forall k, (forall i d, In i ks -> data (r_arena s) i = Some d -> to_lowercase (sym_name d) <> k) -> findS k m = None) /\
      (forall k l1 i l2 d, ks = l1 ++ i :: l2 -> data (r_arena s) i = Some d -> to_lowercase (sym_name d) = k ->
         (forall j dj, In j l2 -> data (r_arena s) j = Some dj -> to_lowercase (sym_name dj) <> k) ->
         findS k m = Some (mkAlias i (sym_name d) (y_vis d) ctx)))).
  - split; [constructor|]. split; [reflexivity|]. intros k [|] i l2 d e; discriminate e.
  - intros done m y (nd & h1 & h2) _. eapply y_bind; [apply y_data|]. intros d hd. apply y_ret.
    split; [apply nodup_put; [exact str_eqb_spec|exact nd]|]. split.
    + intros k hk. rewrite (find_put _ str_eqb_spec). destruct (str_eqb_spec k (normalized_name d)) as [q|ne].
      * exfalso. apply (hk y d); [apply in_or_app; right; left; reflexivity|exact hd|symmetry; exact q].
      * apply h1. intros i d' hi. apply hk. apply in_or_app. auto.
    + intros k l1 i l2 di e hdi hn hl. rewrite (find_put _ str_eqb_spec).
      destruct (list_eq_dec N.eq_dec l2 []) as [->|ne2].
      * apply app_inj_tail in e. destruct e as [-> <-]. rewrite hd in hdi. injection hdi as <-.
        unfold normalized_name. rewrite hn. destruct (str_eqb_spec k k); [reflexivity|congruence].
      * destruct (exists_last ne2) as (l2' & z & ->). rewrite app_comm_cons, app_assoc in e.
        apply app_inj_tail in e. destruct e as [-> <-].
        destruct (str_eqb_spec k (normalized_name d)) as [q|ne].
        { exfalso. apply (hl y d); [apply in_or_app; right; left; reflexivity|exact hd|symmetry; exact q]. }
        apply (h2 k l1 i l2' di); auto. intros j dj hj. apply hl. apply in_or_app. auto.
Qed.

(** ** Traits *)
Definition silent (k : str) (ctx : N) : Prop :=
  forall n, clos_refl_trans N (follows s) ctx n -> (forall i, ~ declares (r_arena s) n k i) /\ ~ renames (r_arena s) n k.
Definition fine (n : N) (m : members) : Prop := NoDup (keys m) /\ forall k, silent k n -> findS k m = None.
Lemma silent_follows : forall k ctx n, silent k ctx -> follows s ctx n -> silent k n.
Proof.
  intros k ctx n h hf m hm. apply h. eapply rt_trans; [apply rt_step; exact hf|exact hm].
Qed.

(** Neither a rule of [ctx] nor an ancestor, trait or data type declares [k] *)
Definition nowhere (k : str) (ctx : N) : Prop :=
  ~ renames (r_arena s) ctx k /\ forall n, follows s ctx n -> silent k n.
Lemma silent_nowhere : forall k ctx, silent k ctx -> nowhere k ctx.
Proof.
  intros k ctx h. split; [apply (h ctx (rt_refl _ _ _))|]. intros n hn. eapply silent_follows; eauto.
Qed.

Lemma upsert_all : forall (ms : members) (m : list (str * list SymbolAlias)),
  let m' := fold_left (fun m p => upsert str_eqb (fst p) [] (fun l => l ++ [snd p]) m) ms m in
  (NoDup (keys m) -> NoDup (keys m')) /\
  (forall k, findS k m' = match findS k m, map snd (filter (fun p => str_eqb k (fst p)) ms) with
                          | None, [] => None
                          | None, l => Some l
                          | Some l0, l => Some (l0 ++ l)
                          end).
Proof.
  induction ms as [|[k0 v] ms IH]; intros m; cbn [fold_left].
  - split; [auto|]. intros k. cbn. destruct (findS k m); [rewrite app_nil_r|]; reflexivity.
  - destruct (IH (upsert str_eqb (fst (k0, v)) [] (fun l => l ++ [snd (k0, v)]) m)) as [h1 h2]. split.
    + intros nd. apply h1. unfold upsert. apply nodup_put; [exact str_eqb_spec|exact nd].
    + intros k. rewrite h2, (find_upsert _ str_eqb_spec). cbn [fst snd filter].
      destruct (str_eqb_spec k k0) as [->|ne]; cbn [map snd]; [|reflexivity].
      destruct (findS k0 m); [rewrite <- app_assoc|]; reflexivity.
Qed.

Section Imports.
Variables (fuel : nat) (ctx : N) (me : Symbol).
Hypothesis hme : data (r_arena s) ctx = Some me.
Hypothesis rec : forall n, yields (get_all_symbols fuel n) (fine n).
Local Notation alts := (the_list (y_alterations me)).

Lemma y_found : forall tr, In tr (links me) -> yields (resolve_type_ref fuel tr ctx false) (found s ctx tr).
Proof.
  intros tr h s1 o s2 l e. split.
  - destruct (looked_kept _ _ l) as [ha _]. eapply looked_one; [exact l|rewrite ha; exact hme|exact h|exact e].
  - exists s1, s2, fuel. auto.
Qed.

Lemma y_traits : yields (trait_symbols (resolve_type_ref fuel) (get_all_symbols fuel) me ctx)
  (fun m => exists tss, Forall2 (contributes s ctx) (the_list (y_imports me)) tss /\ NoDup (keys m) /\
     (forall k, match findS k m with Some l => l = candidates tss k /\ l <> [] | None => candidates tss k = [] end) /\
     (forall k, nowhere k ctx -> candidates tss k = [])).
Proof.
  unfold trait_symbols. fold (the_list (y_imports me)).
  apply (y_fold _ _ _ (fun is_ m => exists tss, Forall2 (contributes s ctx) is_ tss /\ NoDup (keys m) /\
     (forall k, match findS k m with Some l => l = candidates tss k /\ l <> [] | None => candidates tss k = [] end) /\
     (forall k, nowhere k ctx -> candidates tss k = []))).
  { exists []. split; [constructor|]. split; [constructor|]. split; [|reflexivity]. intros k. reflexivity. }
  intros done m i (tss & h1 & nd & h2 & h3) (r & er).
  assert (hl : In (i_path i) (trait_names me)).
  { unfold trait_names. rewrite er. apply in_map. apply in_or_app. right. left. reflexivity. }
  assert (skip : forall o, found s ctx (i_path i) o -> (forall t d, o = Some t -> data (r_arena s) t = Some d -> y_kind d <> KTrait) ->
    exists tss, Forall2 (contributes s ctx) (done ++ [i]) tss /\ NoDup (keys m) /\
     (forall k, match findS k m with Some l => l = candidates tss k /\ l <> [] | None => candidates tss k = [] end) /\
     (forall k, nowhere k ctx -> candidates tss k = [])).
  { intros o ho hk. exists (tss ++ [[]]). split; [apply Forall2_app; [exact h1|constructor; [right; eauto|constructor]]|].
    split; [exact nd|]. assert (q : forall k, candidates (tss ++ [[]]) k = candidates tss k).
    { intros k. unfold candidates. rewrite List.concat_app. cbn. rewrite app_nil_r. reflexivity. }
    split; [intros k; rewrite q; apply h2|intros k hs; rewrite q; auto]. }
  eapply y_bind with (P := fun o => found s ctx (i_path i) o /\ forall n, o = Some n -> means_in s trait_names ctx ctx n).
  { intros s1 o s2 l e. destruct (y_found _ (links_trait me _ hl) _ _ _ l e) as [l2 hf].
    destruct (y_resolve fuel trait_names ctx ctx me (i_path i) hme hl (links_trait me) _ _ _ l e) as [_ hm]. auto. }
  intros [t|] [hf hm]; [|apply y_ret; apply (skip None); auto; discriminate].
  eapply y_bind; [apply y_data|]. intros d hd.
  destruct (kind_eqb (y_kind d) KTrait) eqn:ek; cbn [negb].
  2:{ apply y_ret. apply (skip (Some t)); [exact hf|]. intros t' d' [= <-] hd' hk. rewrite hd in hd'. injection hd' as <-.
      rewrite hk in ek. discriminate ek. }
  assert (hk : y_kind d = KTrait) by (destruct (y_kind d); try discriminate ek; reflexivity).
  intros s1 m' s2 l e. unfold ebind in e. destruct (get_all_symbols fuel t s1) as [ms s3| |] eqn:ea; try discriminate e.
  injection e as <- <-. destruct (rec t _ _ _ l ea) as [l3 [hn hs]]. split; [exact l3|].
  exists (tss ++ [[ms]]).
  assert (q : forall k, candidates (tss ++ [[ms]]) k = candidates tss k ++ map snd (filter (fun p => str_eqb k (fst p)) ms)).
  { intros k. unfold candidates. rewrite List.concat_app, flat_map_app. cbn. rewrite !app_nil_r. reflexivity. }
  split.
  { apply Forall2_app; [exact h1|]. constructor; [|constructor]. left. exists t, d, ms, s1, s3, fuel. auto 10. }
  destruct (upsert_all ms m) as [u1 u2]. split; [apply u1; exact nd|]. split.
  - intros k. rewrite u2, q. specialize (h2 k). destruct (findS k m) as [l0|].
    + destruct h2 as [<- ne]. split; [reflexivity|]. destruct l0; [congruence|discriminate].
    + rewrite h2. destruct (map snd (filter (fun p => str_eqb k (fst p)) ms)) eqn:em; cbn; auto. split; [reflexivity|discriminate].
  - intros k hsi. rewrite q, (h3 k hsi). cbn.
    assert (hnone : findS k ms = None) by (apply hs; apply hsi; right; left; apply hm; reflexivity).
    clear - hnone. induction ms as [|[k0 v] ms IH]; [reflexivity|]. cbn [find] in hnone. cbn [filter fst].
    destruct (str_eqb k k0); [discriminate hnone|auto].
Qed.

Lemma y_all : forall l, incl l (links me) -> yields (resolve_all (resolve_type_ref fuel) ctx l)
  (fun r => exists os, Forall2 (found s ctx) l os /\ r = flat_map opt_list os).
Proof.
  induction l as [|tr l IH]; intros h; cbn [resolve_all].
  - apply y_ret. exists []. split; [constructor|reflexivity].
  - eapply y_bind; [apply y_found; apply h; left; reflexivity|]. intros o ho.
    eapply y_bind; [apply IH; intros x hx; apply h; right; exact hx|]. intros r (os & h1 & ->).
    apply y_ret. exists (o :: os). split; [constructor; auto|reflexivity].
Qed.

(** What a rule leaves of the candidates of [k] *)
Definition spares (k : str) (al : SymbolAlias) (r : rule) : bool :=
  if str_eqb (to_lowercase (ru_member r)) k then
    match ru_winner r with
    | None => true
    | Some w => (al_origin al =? w) || negb (existsb (N.eqb (al_origin al)) (ru_losers r))
    end
  else true.
Lemma spares_excluded : forall rules k al, forallb (spares k al) rules = false <-> excluded rules k (al_origin al).
Proof.
  intros rules k al. split.
  - induction rules as [|r rules IH]; cbn [forallb]; [discriminate|]. intros h. apply Bool.andb_false_iff in h.
    destruct h as [h|h].
    + unfold spares in h. destruct (str_eqb_spec (to_lowercase (ru_member r)) k) as [e|]; [|discriminate h].
      destruct (ru_winner r) as [w|] eqn:ew; [|discriminate h]. apply Bool.orb_false_iff in h. destruct h as [n1 n2].
      apply N.eqb_neq in n1. apply Bool.negb_false_iff in n2. apply existsb_exists in n2. destruct n2 as (x & hx & ex).
      apply N.eqb_eq in ex. subst x. exists r, w. split; [left; reflexivity|]. auto.
    + destruct (IH h) as (r' & w & hi & rest). exists r', w. split; [right; exact hi|exact rest].
  - intros (r & w & hi & hk & hw & hne & hl). apply Bool.not_true_iff_false. intros ht.
    rewrite forallb_forall in ht. specialize (ht r hi). unfold spares in ht.
    destruct (str_eqb_spec (to_lowercase (ru_member r)) k) as [e|ne]; [|congruence]. rewrite hw in ht.
    apply Bool.orb_true_iff in ht. destruct ht as [h|h]; [apply N.eqb_eq in h; congruence|].
    apply Bool.negb_true_iff in h. apply Bool.not_true_iff_false in h. apply h. apply existsb_exists.
    exists (al_origin al). split; [exact hl|apply N.eqb_refl].
Qed.

Lemma y_insteadofs : forall m0, NoDup (keys m0) -> yields (efold (apply_insteadof (resolve_type_ref fuel) ctx) m0 alts)
  (fun m => exists rules, Forall2 (rule_of s ctx) (filter is_insteadof alts) rules /\ NoDup (keys m) /\
     forall k, findS k m = opt_map (filter (fun al => forallb (spares k al) rules)) (findS k m0)).
Proof.
  intros m0 nd0.
  apply (y_fold _ _ _ (fun l m => exists rules, Forall2 (rule_of s ctx) (filter is_insteadof l) rules /\ NoDup (keys m) /\
     forall k, findS k m = opt_map (filter (fun al => forallb (spares k al) rules)) (findS k m0))).
  { exists []. split; [constructor|]. split; [exact nd0|]. intros k. destruct (findS k m0) as [l|]; [|reflexivity].
    cbn. f_equal. clear. induction l; cbn; [reflexivity|]. f_equal. exact IHl. }
  intros done m alt (rules & h1 & nd & h2) (r & er).
  assert (hin : In alt alts) by (rewrite er; apply in_or_app; right; left; reflexivity).
  pose proof (links_alt me alt hin) as hl.
  destruct alt as [v c mem al|class mem ios]; cbn [apply_insteadof].
  - apply y_ret. exists rules. rewrite filter_app. cbn. rewrite app_nil_r. auto.
  - cbn [alteration_names] in hl.
    eapply y_bind; [apply y_all; intros x hx; apply hl; right; exact hx|]. intros losers (os & ho & ->).
    eapply y_bind; [apply y_found; apply hl; left; reflexivity|]. intros w hw. apply y_ret.
    exists (rules ++ [mkRule mem w (flat_map opt_list os)]). split.
    { rewrite filter_app. apply Forall2_app; [exact h1|]. cbn. constructor; [|constructor]. cbn. eauto. }
    assert (q : forall k l, filter (fun al => forallb (spares k al) (rules ++ [mkRule mem w (flat_map opt_list os)])) l
        = filter (fun al => spares k al (mkRule mem w (flat_map opt_list os))) (filter (fun al => forallb (spares k al) rules) l)).
    { intros k l. induction l as [|x l IH]; cbn [filter]; [reflexivity|]. rewrite forallb_app. cbn [forallb].
      rewrite Bool.andb_true_r. destruct (forallb (spares k x) rules); cbn [andb filter]; [|exact IH].
      destruct (spares k x _); [f_equal; exact IH|exact IH]. }
    assert (keep : forall k l, (to_lowercase mem <> k \/ w = None) ->
        filter (fun al => spares k al (mkRule mem w (flat_map opt_list os))) l = l).
    { intros k l h. induction l as [|x l IH]; cbn [filter]; [reflexivity|].
      assert (e : spares k x (mkRule mem w (flat_map opt_list os)) = true).
      { unfold spares. cbn [ru_member ru_winner]. destruct (str_eqb_spec (to_lowercase mem) k); [|reflexivity].
        destruct h as [h|h]; [congruence|rewrite h; reflexivity]. }
      rewrite e. f_equal. exact IH. }
    assert (same : (forall k, findS k m0 <> None -> to_lowercase mem <> k \/ w = None) -> forall k, findS k m =
        opt_map (filter (fun al => forallb (spares k al) (rules ++ [mkRule mem w (flat_map opt_list os)]))) (findS k m0)).
    { intros h k. rewrite h2. destruct (findS k m0) as [l|] eqn:e; [|reflexivity]. cbn [opt_map]. f_equal.
      rewrite q, keep; [reflexivity|]. apply h. congruence. }
    destruct w as [w|]; [|split; [exact nd|apply same; auto]].
    destruct (findS (to_lowercase mem) m) as [l|] eqn:el.
    + split; [apply nodup_put; [exact str_eqb_spec|exact nd]|]. intros k. rewrite (find_put _ str_eqb_spec).
      destruct (str_eqb_spec k (to_lowercase mem)) as [ek|ne].
      * rewrite <- ek in el. rewrite h2 in el. destruct (findS k m0) as [l0|]; [|discriminate el]. cbn [opt_map] in *.
        injection el as <-. f_equal. rewrite q. apply filter_ext. intros x.
        unfold spares. cbn [ru_member ru_winner ru_losers].
        destruct (str_eqb_spec (to_lowercase mem) k); [reflexivity|congruence].
      * rewrite h2. destruct (findS k m0) as [l0|]; [|reflexivity]. cbn [opt_map]. f_equal. rewrite q, keep; auto.
    + split; [exact nd|]. apply same. intros k hk. left. intros e. apply hk. rewrite e in el. rewrite h2 in el.
      destruct (findS k m0); [discriminate el|reflexivity].
Qed.

Lemma drain_find : forall m children, drain m = Some children ->
  keys children = keys m /\
  forall k, findS k children = match findS k m with Some l => first_opt l | None => None end /\ findS k m <> Some [].
Proof.
  induction m as [|[k0 v] m IH]; intros children h; cbn [drain] in h.
  - injection h as <-. split; [reflexivity|]. intros k. split; [reflexivity|discriminate].
  - destruct v as [|al v]; [discriminate h|]. cbn [first_opt obind] in h.
    destruct (drain m) as [ch|]; [|discriminate h]. cbn [opt_map] in h. injection h as <-.
    destruct (IH ch eq_refl) as [h1 h2]. split; [cbn; f_equal; exact h1|]. intros k. cbn [find].
    destruct (str_eqb k k0); [split; [reflexivity|discriminate]|apply h2].
Qed.

Lemma first_selected : forall rules k l al r, filter (fun al => forallb (spares k al) rules) l = al :: r ->
  selected rules k l al.
Proof.
  induction l as [|x l IH]; intros al r h; [discriminate h|]. cbn [filter] in h.
  destruct (forallb (spares k x) rules) eqn:e.
  - injection h as -> _. exists [], l. split; [reflexivity|]. split; [|constructor].
    intros hx. apply spares_excluded in hx. congruence.
  - destruct (IH _ _ h) as (pre & post & -> & h1 & h2). exists (x :: pre), post. split; [reflexivity|].
    split; [exact h1|]. constructor; [apply spares_excluded; exact e|exact h2].
Qed.

(** ** [as] rules *)
Definition named_by_rule (k : str) : Prop :=
  exists v cl m tk l, In (AltAs v cl m (Some tk)) alts /\ t_label tk = Some l /\ to_lowercase l = k.

Lemma y_as : forall (orig : list (str * list SymbolAlias)) (ch0 : members) alt, In alt alts ->
  yields (apply_as (resolve_type_ref fuel) ctx orig ch0 alt) (fun ch =>
    match alt with
    | AltInsteadOf _ _ _ => ch = ch0
    | AltAs v cl m None =>
        ch = if vis_eqb (vis_of v) VNone then ch0
             else match findS (to_lowercase m) ch0 with
                  | Some al => put str_eqb (to_lowercase m) (set_vis (vis_of v) al) ch0
                  | None => ch0
                  end
    | AltAs v cl m (Some tk) =>
        match t_label tk with
        | None => ch = ch0
        | Some label =>
            exists new : option SymbolAlias,
              ch = match new with
                   | Some al => put str_eqb (to_lowercase label)
                                  (let al := aliased al label in if vis_eqb (vis_of v) VNone then al else set_vis (vis_of v) al) ch0
                   | None => ch0
                   end /\
              match cl with
              | None => new = findS (to_lowercase m) ch0
              | Some class => exists o, found s ctx class o /\
                  new = match o with
                        | None => None
                        | Some c => match findS (to_lowercase m) orig with
                                    | None => None
                                    | Some l => List.find (fun al => al_origin al =? c) l
                                    end
                        end
              end
        end
    end).
Proof.
  intros orig ch0 alt hin. pose proof (links_alt me alt hin) as hl.
  destruct alt as [v cl m al|cl m l]; cbn [apply_as alteration_names] in *; [|apply y_ret; reflexivity].
  destruct al as [tk|]; [|apply y_ret; reflexivity].
  destruct (t_label tk) as [label|]; [|apply y_ret; reflexivity].
  destruct cl as [class|].
  - eapply y_bind.
    + eapply y_bind; [apply y_found; apply hl; left; reflexivity|]. intros o ho.
      apply (y_ret _ _ (fun x => exists o, found s ctx class o /\ x = match o with
           | None => None
           | Some c => match findS (to_lowercase m) orig with
                       | None => None
                       | Some l => opt_map (fun al => aliased al label) (List.find (fun al => al_origin al =? c) l)
                       end end)). exists o. auto.
    + intros x (o & ho & ->). apply y_ret.
      exists (match o with
              | None => None
              | Some c => match findS (to_lowercase m) orig with
                          | None => None
                          | Some l => List.find (fun al => al_origin al =? c) l
                          end
              end).
      split; [|exists o; auto]. destruct o as [c|]; [|reflexivity]. destruct (findS (to_lowercase m) orig) as [l|]; [|reflexivity].
      destruct (List.find _ l); reflexivity.
  - intros s1 x s2 l e. unfold ebind, eret in e. injection e as <- <-. split; [exact l|].
    exists (findS (to_lowercase m) ch0). split; [|reflexivity]. destruct (findS (to_lowercase m) ch0); reflexivity.
Qed.

Lemma y_ass : forall (orig : list (str * list SymbolAlias)) (ch0 : members), NoDup (keys ch0) ->
  forall Src : str -> SymbolAlias -> Prop,
  (forall k l al, findS k orig = Some l -> In al l -> Src k al) ->
  (forall k al, findS k ch0 = Some al -> Src k al) ->
  yields (efold (apply_as (resolve_type_ref fuel) ctx orig) ch0 alts) (fun ch =>
    NoDup (keys ch) /\
    (forall k, ~ touched me k -> findS k ch = findS k ch0) /\
    (forall k al, findS k ch = Some al -> exists k0 al0, Src k0 al0 /\ al_symbol al = al_symbol al0 /\
       (k0 = k \/ named_by_rule k))).
Proof.
  intros orig ch0 nd0 Src h1 h2.
  apply (y_fold _ _ _ (fun _ ch => NoDup (keys ch) /\
    (forall k, ~ touched me k -> findS k ch = findS k ch0) /\
    (forall k al, findS k ch = Some al -> exists k0 al0, Src k0 al0 /\ al_symbol al = al_symbol al0 /\
       (k0 = k \/ named_by_rule k)))).
  { split; [exact nd0|]. split; [reflexivity|]. intros k al h. exists k, al. auto. }
  intros done ch alt (nd & g1 & g2) (r & er).
  assert (hin : In alt alts) by (rewrite er; apply in_or_app; right; left; reflexivity).
  eapply y_weak; [apply y_as; exact hin|]. cbv beta. intros ch' h.
  destruct alt as [v cl m al|cl m l]; [|subst ch'; auto].
  destruct al as [tk|].
  - destruct (t_label tk) as [label|] eqn:et; [|subst ch'; auto].
    assert (hn : named_by_rule (to_lowercase label)) by (exists v, cl, m, tk, label; auto).
    assert (ht : touched me (to_lowercase label)) by (exists v, cl, m, (Some tk); split; [exact hin|exists label; auto]).
    destruct h as (new & -> & hnew). destruct new as [al|]; [|auto].
    set (al' := let al0 := aliased al label in if vis_eqb (vis_of v) VNone then al0 else set_vis (vis_of v) al0).
    assert (hs : al_symbol al' = al_symbol al) by (unfold al'; cbv zeta; destruct (vis_eqb (vis_of v) VNone); reflexivity).
    split; [apply nodup_put; [exact str_eqb_spec|exact nd]|]. split.
    + intros k hk. rewrite (find_put _ str_eqb_spec). destruct (str_eqb_spec k (to_lowercase label)) as [->|]; [contradiction|auto].
    + intros k al0. rewrite (find_put _ str_eqb_spec). destruct (str_eqb_spec k (to_lowercase label)) as [->|]; [|auto].
      intros [= <-]. rewrite hs. destruct cl as [class|].
      * destruct hnew as (o & ho & e). destruct o as [c|]; [|discriminate e].
        destruct (findS (to_lowercase m) orig) as [l|] eqn:eo; [|discriminate e].
        symmetry in e. apply List.find_some in e. exists (to_lowercase m), al. split; [eapply h1; [exact eo|apply e]|]. auto.
      * symmetry in hnew. destruct (g2 _ _ hnew) as (k0 & al0 & q1 & q2 & _). exists k0, al0. auto.
  - assert (ht : touched me (to_lowercase m)) by (exists v, cl, m, None; auto).
    destruct (vis_eqb (vis_of v) VNone); [subst ch'; auto|].
    destruct (findS (to_lowercase m) ch) as [al|] eqn:em; [|subst ch'; auto]. subst ch'.
    split; [apply nodup_put; [exact str_eqb_spec|exact nd]|]. split.
    + intros k hk. rewrite (find_put _ str_eqb_spec). destruct (str_eqb_spec k (to_lowercase m)) as [->|]; [contradiction|auto].
    + intros k al0. rewrite (find_put _ str_eqb_spec). destruct (str_eqb_spec k (to_lowercase m)) as [->|]; [|auto].
      intros [= <-]. destruct (g2 _ _ em) as (k0 & al0 & q1 & q2 & q3). exists k0, al0. auto.
Qed.

Lemma ys_imports : yields (get_imports (resolve_type_ref fuel) (get_all_symbols fuel) me ctx) (fun ch =>
  NoDup (keys ch) /\
  exists tss rules, Forall2 (contributes s ctx) (the_list (y_imports me)) tss /\
    Forall2 (rule_of s ctx) (filter is_insteadof alts) rules /\
    (forall k, candidates tss k <> [] -> exists al, selected rules k (candidates tss k) al) /\
    (forall k al, ~ touched me k -> (findS k ch = Some al <-> selected rules k (candidates tss k) al)) /\
    (forall k al, findS k ch = Some al -> exists k0 al0, In al0 (candidates tss k0) /\ al_symbol al = al_symbol al0 /\
       (k0 = k \/ named_by_rule k)) /\
    (forall k, nowhere k ctx -> findS k ch = None)).
Proof.
  unfold get_imports. fold alts.
  eapply y_bind; [apply y_traits|]. intros all (tss & t1 & t2 & t3 & t4). cbv zeta.
  eapply y_bind; [apply y_insteadofs; exact t2|]. intros kept_ (rules & r1 & r2 & r3).
  eapply y_bind; [apply y_opt|]. intros ch0 hd. destruct (drain_find _ _ hd) as [d1 d2].
  assert (hsel : forall k, candidates tss k <> [] -> exists al, findS k ch0 = Some al /\ selected rules k (candidates tss k) al).
  { intros k hk. destruct (d2 k) as [e1 e2]. rewrite e1. rewrite r3 in *. specialize (t3 k).
    destruct (findS k all) as [l|]; [|contradiction]. destruct t3 as [<- _]. cbn [opt_map] in *.
    destruct (filter (fun al => forallb (spares k al) rules) l) as [|al r] eqn:ef; [congruence|].
    exists al. split; [reflexivity|]. eapply first_selected. exact ef. }
  assert (hnone : forall k, candidates tss k = [] -> findS k ch0 = None).
  { intros k hk. destruct (d2 k) as [e1 _]. rewrite e1, r3. specialize (t3 k). destruct (findS k all) as [l|]; [|reflexivity].
    destruct t3 as [-> ne]. congruence. }
  assert (hsrc : forall k al, findS k ch0 = Some al -> In al (candidates tss k)).
  { intros k al h. destruct (candidates tss k) as [|x l] eqn:ec; [rewrite hnone in h by exact ec; discriminate h|].
    destruct (hsel k) as (al' & e & (pre & post & q & _)); [congruence|]. rewrite h in e. injection e as <-.
    rewrite ec in q. rewrite q. apply in_or_app. right. left. reflexivity. }
  eapply y_weak; [apply (y_ass all ch0) with (Src := fun k al => In al (candidates tss k))|].
  { rewrite d1. exact r2. }
  { intros k l al h hi. specialize (t3 k). rewrite h in t3. destruct t3 as [<- _]. exact hi. }
  { exact hsrc. }
  cbv beta. intros ch (c1 & c2 & c3). split; [exact c1|]. exists tss, rules. split; [exact t1|]. split; [exact r1|].
  split; [|split; [|split; [exact c3|]]].
  - intros k hk. destruct (hsel k hk) as (al & _ & q). eauto.
  - intros k al hk. rewrite c2 by exact hk. split.
    + intros h. pose proof (hsrc _ _ h) as hi. destruct (hsel k) as (al' & e & q); [intros e; rewrite e in hi; destruct hi|].
      congruence.
    + intros hs. destruct (hsel k) as (al' & e & q).
      { intros e. destruct hs as (pre & post & q & _). rewrite e in q. destruct pre; discriminate q. }
      rewrite e. f_equal. destruct hs as (p1 & q1 & e1 & n1 & f1). destruct q as (p2 & q2 & e2 & n2 & f2).
      rewrite e1 in e2. clear - e2 n1 n2 f1 f2. revert p2 e2 f2. induction p1 as [|x p1 IH]; intros [|y p2] e2 f2; cbn in e2.
      * injection e2 as -> _. reflexivity.
      * injection e2 as -> _. inversion f2; subst. contradiction.
      * injection e2 as -> _. inversion f1; subst. contradiction.
      * injection e2 as -> e2. inversion f1; subst. inversion f2; subst. eauto.
  - intros k hs. destruct (findS k ch) as [al|] eqn:e; [|reflexivity]. exfalso.
    destruct (c3 _ _ e) as (k0 & al0 & hi & _ & [->|hn]).
    + rewrite (t4 k hs) in hi. destruct hi.
    + apply (proj1 hs).
      destruct hn as (v & cl & m & tk & l & q1 & q2 & q3). exists me, v, cl, m, tk, l. auto.
Qed.
End Imports.


(** ** All members *)
Lemma map_find : forall (f : SymbolAlias -> SymbolAlias) (m : members) k,
  findS k (map (fun p => (fst p, f (snd p))) m) = opt_map f (findS k m).
Proof.
  intros f m k. induction m as [|[k0 v] m IH]; [reflexivity|]. cbn [map find fst snd]. destruct (str_eqb k k0); auto.
Qed.
Lemma map_keys : forall (f : SymbolAlias -> SymbolAlias) (m : members),
  keys (map (fun p => (fst p, f (snd p))) m) = keys m.
Proof. intros f m. unfold keys. rewrite map_map. reflexivity. Qed.

Section All.
Variables (fuel : nat) (ctx : N) (me : Symbol).
Hypothesis hme : data (r_arena s) ctx = Some me.
Hypothesis rec : forall n, yields (get_all_symbols fuel n) (fine n).

Lemma y_parents : yields (parent_nodes (resolve_type_ref fuel) me ctx)
  (fun m => forall p, In p m -> means_in s parent_names ctx ctx (snd p)).
Proof.
  unfold parent_nodes. fold (the_list (y_inherits me)).
  apply (y_fold _ _ _ (fun _ m => forall p, In p m -> means_in s parent_names ctx ctx (snd p))); [intros p []|].
  intros done m r hm (rest & er).
  assert (hr : In (sr_type r) (parent_names me)).
  { unfold parent_names. rewrite er. apply in_map. apply in_or_app. right. left. reflexivity. }
  eapply y_bind; [apply (y_resolve fuel parent_names ctx ctx me (sr_type r) hme hr (links_parent me))|].
  intros [n|] hn; [|apply y_ret; exact hm]. eapply y_bind; [apply y_data|]. intros d _.
  apply y_ret. intros p hp. apply in_put in hp. destruct hp as [->|hp]; [apply hn; reflexivity|auto].
Qed.

Lemma y_inherited : yields (inherited_symbols (resolve_type_ref fuel) (get_all_symbols fuel) me ctx)
  (fun m => NoDup (keys m) /\ forall k, nowhere k ctx -> findS k m = None).
Proof.
  unfold inherited_symbols. eapply y_bind; [apply y_parents|]. intros parents hp.
  eapply y_bind.
  - apply (y_fold _ _ _ (fun _ m => NoDup (keys m) /\ forall k, nowhere k ctx -> findS k m = None)).
    { split; [constructor|reflexivity]. }
    intros done cur p (nd & hs) (r & er).
    assert (hf : follows s ctx (snd p)).
    { left. apply hp. eapply Permutation_in; [apply h_perm|]. rewrite er. apply in_or_app. right. left. reflexivity. }
    eapply y_bind; [apply rec|]. intros tot (n1 & s1). apply y_ret. split; [apply nodup_put_all; [exact str_eqb_spec|exact n1]|].
    intros k hk. rewrite (find_put_all _ str_eqb_spec) by exact nd. rewrite hs by exact hk.
    apply s1. apply hk; exact hf.
  - cbv beta. intros m (nd & hs). apply y_ret. split; [rewrite (map_keys (fun a => pass_along a ctx)); exact nd|].
    intros k hk. rewrite (map_find (fun a => pass_along a ctx)), hs by exact hk. reflexivity.
Qed.

Lemma y_type_names : forall l, incl l (type_names me) ->
  yields (resolve_all (resolve_type_ref fuel) ctx l) (fun r => forall n, In n r -> means_in s type_names ctx ctx n).
Proof.
  induction l as [|tr l IH]; intros h; cbn [resolve_all]; [apply y_ret; intros n []|].
  eapply y_bind.
  { apply (y_resolve fuel type_names ctx ctx me tr hme); [apply h; left; reflexivity|apply links_type]. }
  intros o ho. eapply y_bind; [apply IH; intros x hx; apply h; right; exact hx|]. intros r hr.
  apply y_ret. intros n hn. apply in_app_iff in hn. destruct hn as [hn|hn]; [|auto].
  destruct o as [m|]; [|destruct hn]. destruct hn as [<-|[]]. auto.
Qed.

(** What the whole consists of *)
Lemma y_members : forall own, NoDup (keys own) ->
  yields (elet imported <- get_imports (resolve_type_ref fuel) (get_all_symbols fuel) me ctx in
          let m := put_all str_eqb imported own in
          elet types <- resolve_all (resolve_type_ref fuel) ctx (map sr_type (y_types me)) in
          elet m <- efold (fun m dt =>
            if dt =? ctx then eret m
            else elet l <- get_all_symbols fuel dt in eret (put_all str_eqb l m)) m types in
          elet inh <- inherited_symbols (resolve_type_ref fuel) (get_all_symbols fuel) me ctx in
          eret (put_all str_eqb inh m))
    (fun m => NoDup (keys m) /\ forall k, nowhere k ctx -> findS k m = findS k own).
Proof.
  intros own no. eapply y_bind; [apply (ys_imports fuel ctx me hme rec)|].
  intros imp (ni & tss & rules & _ & _ & _ & _ & _ & hi). cbv zeta.
  eapply y_bind; [apply (y_type_names (type_names me)); apply incl_refl|]. intros types ht.
  eapply y_bind.
  - apply (y_fold _ _ _ (fun _ m => NoDup (keys m) /\ forall k, nowhere k ctx -> findS k m = findS k own)).
    { split; [apply nodup_put_all; [exact str_eqb_spec|exact no]|]. intros k hk.
      rewrite (find_put_all _ str_eqb_spec) by exact ni. rewrite hi by exact hk. reflexivity. }
    intros done m dt (nm & hm) (r & er). destruct (N.eqb_spec dt ctx) as [|ne]; [apply y_ret; auto|].
    eapply y_bind; [apply rec|]. intros l (nl & hl). apply y_ret.
    split; [apply nodup_put_all; [exact str_eqb_spec|exact nm]|]. intros k hk.
    rewrite (find_put_all _ str_eqb_spec) by exact nl. rewrite hl; [apply hm; exact hk|].
    apply hk. right. right. split; [exact ne|]. apply ht. rewrite er.
    apply in_or_app. right. left. reflexivity.
  - cbv beta. intros m (nm & hm). eapply y_bind; [apply y_inherited|]. intros inh (nh & hh). apply y_ret.
    split; [apply nodup_put_all; [exact str_eqb_spec|exact nm]|]. intros k hk.
    rewrite (find_put_all _ str_eqb_spec) by exact nh. rewrite hh by exact hk. apply hm. exact hk.
Qed.
End All.

Lemma y_fine : forall fuel ctx, yields (get_all_symbols fuel ctx) (fine ctx).
Proof.
  induction fuel as [|fuel IH]; intros ctx; cbn [get_all_symbols]; [intros s1 x s2 l e; discriminate e|].
  eapply y_bind; [apply y_data|]. intros me hme. unfold own_symbols at 1.
  eapply y_bind.
  - eapply y_bind; [apply y_kids|]. intros ks hks. eapply y_weak; [apply own_fold|]. cbv beta. intros own (no & h1 & _).
    exact (conj no (fun k (hk : forall i, ~ declares (r_arena s) ctx k i) =>
      h1 k (fun i d hi hd e => hk i (ex_intro _ ks (ex_intro _ d (conj hks (conj hi (conj hd e)))))))).
  - cbv beta. intros own (no & ho). eapply y_weak; [apply (y_members fuel ctx me hme IH own no)|].
    cbv beta. intros m (nm & hm). split; [exact nm|]. intros k hk. rewrite hm by (apply silent_nowhere; exact hk).
    apply ho. apply (hk ctx (rt_refl _ _ _)).
Qed.

Lemma y_own : forall fuel ctx k i d, declares_last (r_arena s) ctx k i d -> nowhere k ctx ->
  yields (get_all_symbols fuel ctx) (fun m => findS k m = Some (mkAlias i (sym_name d) (y_vis d) ctx)).
Proof.
  intros [|fuel] ctx k i d (l1 & l2 & hk & hd & hn & hl) hw; cbn [get_all_symbols]; [intros s1 x s2 l e; discriminate e|].
  eapply y_bind; [apply y_data|]. intros me hme. unfold own_symbols at 1.
  eapply y_bind with (P := fun own => NoDup (keys own) /\ findS k own = Some (mkAlias i (sym_name d) (y_vis d) ctx)).
  - eapply y_bind; [apply y_kids|]. intros ks hks. rewrite hk in hks. injection hks as <-.
    eapply y_weak; [apply own_fold|]. cbv beta. intros own (no & _ & h2). split; [exact no|]. eapply h2; eauto.
  - intros own (no & ho). eapply y_weak; [apply (y_members fuel ctx me hme (y_fine fuel) own no)|].
    cbv beta. intros m (nm & hm). rewrite hm by exact hw. exact ho.
Qed.

(** ** The parent *)
Lemma inherited_one : forall fuel me ctx r s1 m s2, y_inherits me = Some [r] -> data (r_arena s) ctx = Some me -> looked s s1 ->
  inherited_symbols (resolve_type_ref fuel) (get_all_symbols fuel) me ctx s1 = Done m s2 ->
  NoDup (keys m) /\ exists o s3, looked s s1 /\ resolve_type_ref fuel (sr_type r) ctx false s1 = Done o s3 /\
   (o = None \/ exists p mp s4, o = Some p /\ get_all_symbols fuel p s3 = Done mp s4 /\
     forall k al, findS k mp = Some al -> findS k m = Some (pass_along al ctx)).
Proof.
  intros fuel me ctx r s1 m s2 hi hme l e.
  destruct (y_inherited fuel ctx me hme (y_fine fuel) _ _ _ l e) as [_ [nd _]]. split; [exact nd|].
  unfold inherited_symbols, parent_nodes in e. rewrite hi in e. cbn [efold] in e.
  unfold ebind at 1 in e. unfold ebind at 1 in e. unfold ebind at 1 in e.
  destruct (resolve_type_ref fuel (sr_type r) ctx false s1) as [o s3| |] eqn:er; try discriminate e.
  exists o, s3. split; [exact l|]. split; [reflexivity|]. destruct o as [p|]; [|left; reflexivity]. right.
  unfold ebind at 1 in e. unfold e_data in e. destruct (data (the_arena s3) p) as [d|]; [|discriminate e].
  unfold eret at 1 in e. cbn [put] in e.
  assert (ho1 : h_order [(normalized_name d, p)] = [(normalized_name d, p)])
    by (apply Permutation_length_1_inv, Permutation_sym, h_perm).
  unfold eret at 1 in e. rewrite ho1 in e. cbn [efold snd] in e.
  unfold ebind at 1 in e. unfold ebind at 1 in e. unfold ebind at 1 in e.
  destruct (get_all_symbols fuel p s3) as [mp s4| |] eqn:ea; try discriminate e.
  exists p, mp, s4. split; [reflexivity|]. split; [exact ea|]. intros k al h.
  cbn in e. injection e as <- _. rewrite (map_find (fun a => pass_along a ctx)), h. reflexivity.
Qed.
End Yields.

(** * C33 *)

(** A member that the class declares and no ancestor, trait or data type does is
    found as the class declares it. *)
Theorem C33_own_partial : forall fuel ctx s m s' k i d,
  get_all_symbols fuel ctx s = Done m s' ->
  declares_last (r_arena s) ctx k i d -> ~ renames (r_arena s) ctx k ->
  (forall n, ancestor s ctx n -> (forall j, ~ declares (r_arena s) n k j) /\ ~ renames (r_arena s) n k) ->
  findS k m = Some (mkAlias i (sym_name d) (y_vis d) ctx).
Proof.
  intros fuel ctx s m s' k i d e hd hr ha.
  apply (y_own s fuel ctx k i d hd) with (s1 := s) (s2 := s'); [|apply looked_none|exact e].
  split; [exact hr|]. intros n hn p hp. apply ha. unfold ancestor.
  assert (H : clos_refl_trans N (follows s) n p -> n = p \/ clos_trans N (follows s) n p).
  { clear. induction 1 as [x y h|x|x y z h1 [q1|t1] h2 [q2|t2]]; subst; auto.
    - right. apply t_step. exact h.
    - right. eapply t_trans; eauto. }
  destruct (H hp) as [->|ht]; [apply t_step; exact hn|eapply t_trans; [apply t_step; exact hn|exact ht]].
Qed.

(** C33 does not hold: whatever a class declares, the members of its parent take
    precedence. *)
Theorem C33_parent_wins_refuted : forall fuel ctx s m s' me r,
  data (r_arena s) ctx = Some me -> y_inherits me = Some [r] ->
  get_all_symbols (S fuel) ctx s = Done m s' ->
  exists s1 o s2, looked s s1 /\ resolve_type_ref fuel (sr_type r) ctx false s1 = Done o s2 /\
    (o = None \/ exists p mp s3, o = Some p /\ get_all_symbols fuel p s2 = Done mp s3 /\
       forall k al, findS k mp = Some al -> findS k m = Some (pass_along al ctx)).
Proof.
  intros fuel ctx s m s' me r hme hi e. cbn [get_all_symbols] in e.
  assert (step : forall A B (c : R A) (f : A -> R B) P s1 x s2, yields s c P -> looked s s1 -> ebind c f s1 = Done x s2 ->
     exists y s3, looked s s3 /\ P y /\ f y s3 = Done x s2).
  { intros A B c f P s1 x s2 hy l h. unfold ebind in h. destruct (c s1) as [y s3| |] eqn:ec; try discriminate h.
    destruct (hy _ _ _ l ec). exists y, s3. auto. }
  apply (step _ _ _ _ _ _ _ _ (y_data s ctx) (looked_none s)) in e. destruct e as (me' & s1 & l1 & hme' & e).
  rewrite hme in hme'. injection hme' as <-.
  apply (step _ _ _ _ (fun _ => True)) in e; [|clear e|exact l1].
  2:{ eapply y_bind; [apply y_kids|]. intros ks hks. eapply y_weak; [apply own_fold|]. auto. }
  destruct e as (own & s2 & l2 & _ & e).
  eapply step in e; [|apply (ys_imports s fuel ctx me hme (y_fine s fuel))|exact l2].
  destruct e as (imp & s3 & l3 & (ni & _) & e). cbv zeta in e.
  eapply step in e; [|apply (y_type_names s fuel ctx me hme (type_names me)); apply incl_refl|exact l3].
  destruct e as (types & s4 & l4 & _ & e).
  apply (step _ _ _ _ (fun m => True)) in e; [|clear e|exact l4].
  2:{ apply (y_fold _ _ _ _ (fun _ _ => True)); [exact I|]. intros done m0 dt _ _.
      destruct (dt =? ctx); [apply y_ret; exact I|]. eapply y_bind; [apply y_fine|]. intros. apply y_ret. exact I. }
  destruct e as (m0 & s5 & l5 & _ & e). unfold ebind in e.
  destruct (inherited_symbols (resolve_type_ref fuel) (get_all_symbols fuel) me ctx s5) as [inh s6| |] eqn:eh; try discriminate e.
  destruct (inherited_one s fuel me ctx r s5 inh s6 hi hme l5 eh) as (nd & o & s7 & _ & er & h).
  unfold eret in e. injection e as <- <-. exists s5, o, s7. split; [exact l5|]. split; [exact er|].
  destruct h as [h|(p & mp & s8 & ho & ea & hk)]; [left; exact h|]. right. exists p, mp, s8. split; [exact ho|]. split; [exact ea|].
  intros k al hf. rewrite (find_put_all _ str_eqb_spec) by exact nd. rewrite (hk _ _ hf). reflexivity.
Qed.

(** * C34 *)

(** The trait members of a class, if they are computed without a crash: for each
    name without [as] rule the first candidate that no [insteadof] rule takes
    away, and every entry is a candidate, under its name or under one that an
    [as] rule gives.  If the rules take all candidates of a name away, there
    is no result. *)
Theorem C34_rules_partial : forall fuel ctx me s ch s',
  data (r_arena s) ctx = Some me ->
  get_imports (resolve_type_ref fuel) (get_all_symbols fuel) me ctx s = Done ch s' ->
  exists tss rules,
    Forall2 (contributes s ctx) (the_list (y_imports me)) tss /\
    Forall2 (rule_of s ctx) (filter is_insteadof (the_list (y_alterations me))) rules /\
    (forall k, candidates tss k <> [] -> exists al, selected rules k (candidates tss k) al) /\
    (forall k al, ~ touched me k -> (findS k ch = Some al <-> selected rules k (candidates tss k) al)) /\
    (forall k al, findS k ch = Some al -> exists k0 al0, In al0 (candidates tss k0) /\ al_symbol al = al_symbol al0 /\
       (k0 = k \/ renames (r_arena s) ctx k)).
Proof.
  intros fuel ctx me s ch s' hme e.
  destruct (ys_imports s fuel ctx me hme (y_fine s fuel) _ _ _ (looked_none s) e) as [_ (_ & tss & rules & h1 & h2 & h3 & h4 & h5 & _)].
  exists tss, rules. repeat (split; [assumption|]). intros k al h. destruct (h5 k al h) as (k0 & al0 & q1 & q2 & [q3|q3]).
  - exists k0, al0. auto.
  - exists k0, al0. split; [exact q1|]. split; [exact q2|]. right. destruct q3 as (v & cl & m & tk & l & a1 & a2 & a3).
    exists me, v, cl, m, tk, l. auto.
Qed.

(** The last rule [class::member as visibility label] adds the first candidate of
    that class under the new name. *)
Theorem C34_as_partial : forall fuel ctx me s ch s' l v class member tk label,
  data (r_arena s) ctx = Some me ->
  y_alterations me = Some (l ++ [AltAs v (Some class) member (Some tk)]) -> t_label tk = Some label ->
  get_imports (resolve_type_ref fuel) (get_all_symbols fuel) me ctx s = Done ch s' ->
  exists tss o, Forall2 (contributes s ctx) (the_list (y_imports me)) tss /\ found s ctx class o /\
    forall c al, o = Some c ->
      List.find (fun al => al_origin al =? c) (candidates tss (to_lowercase member)) = Some al ->
      findS (to_lowercase label) ch =
        Some (mkAlias (al_symbol al) label (if vis_eqb (vis_of v) VNone then al_vis al else vis_of v) (al_origin al)).
Proof.
  intros fuel ctx me s ch s' l v class member tk label hme ha hl e.
  assert (Y : yields s (get_imports (resolve_type_ref fuel) (get_all_symbols fuel) me ctx) (fun ch =>
    exists tss o, Forall2 (contributes s ctx) (the_list (y_imports me)) tss /\ found s ctx class o /\
    forall c al, o = Some c ->
      List.find (fun al => al_origin al =? c) (candidates tss (to_lowercase member)) = Some al ->
      findS (to_lowercase label) ch =
        Some (mkAlias (al_symbol al) label (if vis_eqb (vis_of v) VNone then al_vis al else vis_of v) (al_origin al)))).
  { unfold get_imports. fold (the_list (y_alterations me)).
    eapply y_bind; [apply (y_traits s fuel ctx me hme (y_fine s fuel))|]. intros all (tss & t1 & t2 & t3 & t4). cbv zeta.
    eapply y_bind; [apply (y_insteadofs s fuel ctx me hme); exact t2|]. intros kept_ _.
    eapply y_bind; [apply y_opt|]. intros ch0 _.
    assert (sp : forall l1 x (b : members) s0, efold (apply_as (resolve_type_ref fuel) ctx all) b (l1 ++ [x]) s0 =
       ebind (efold (apply_as (resolve_type_ref fuel) ctx all) b l1) (fun b' => apply_as (resolve_type_ref fuel) ctx all b' x) s0).
    { induction l1 as [|y l1 IH]; intros x b s0; cbn [app efold].
      - unfold ebind, eret. destruct (apply_as _ _ _ b x s0); reflexivity.
      - unfold ebind at 1 2 3. destruct (apply_as _ _ _ b y s0) as [b' s1'| |]; [|reflexivity..]. rewrite IH. reflexivity. }
    assert (es : the_list (y_alterations me) = l ++ [AltAs v (Some class) member (Some tk)]) by (rewrite ha; reflexivity).
    intros s1 x s2 lk ef. rewrite es, sp in ef.
    assert (Y : yields s (ebind (efold (apply_as (resolve_type_ref fuel) ctx all) ch0 l)
        (fun b' => apply_as (resolve_type_ref fuel) ctx all b' (AltAs v (Some class) member (Some tk)))) (fun ch =>
      exists tss o, Forall2 (contributes s ctx) (the_list (y_imports me)) tss /\ found s ctx class o /\
      forall c al, o = Some c ->
      List.find (fun al => al_origin al =? c) (candidates tss (to_lowercase member)) = Some al ->
      findS (to_lowercase label) ch =
        Some (mkAlias (al_symbol al) label (if vis_eqb (vis_of v) VNone then al_vis al else vis_of v) (al_origin al)))).
    { eapply y_bind.
      - apply (y_fold _ _ _ _ (fun _ _ => True)); [exact I|]. intros done b alt _ (r & er).
        eapply y_weak; [apply (y_as s fuel ctx me hme)|auto]. rewrite es, er, <- app_assoc. apply in_or_app. right. left. reflexivity.
      - intros b _. eapply y_weak; [apply (y_as s fuel ctx me hme)|].
        { rewrite es. apply in_or_app. right. left. reflexivity. }
        intros ch1. cbv beta iota. rewrite hl. intros (new & -> & o & ho & hn). exists tss, o. split; [exact t1|]. split; [exact ho|].
        intros c al ec hf. subst o. specialize (t3 (to_lowercase member)).
        destruct (findS (to_lowercase member) all) as [cl|].
        + destruct t3 as [-> _]. rewrite hf in hn. subst new. rewrite (find_put_same _ str_eqb_spec). f_equal. cbv zeta.
          destruct (vis_eqb (vis_of v) VNone); reflexivity.
        + rewrite t3 in hf. discriminate hf. }
    exact (Y _ _ _ lk ef). }
  apply (Y _ _ _ (looked_none s) e).
Qed.
End Overrides.

(** * Cases *)

Lemma follows32 : forall c n, follows state32 c n -> c = 4 /\ n = 2.
Proof.
  intros c n h. destruct h as [h|[h|[ne h]]]; apply means32 in h;
    try (intros ? ? ?; unfold links; rewrite !in_app_iff; auto; fail);
    destruct h as (d & tr & r & hs & hi & hr & hm);
    (destruct hs as [q|[q|[q|[q|[q|[q|[q|[]]]]]]]]; injection q as <- <-;
     vm_compute in hi; repeat (destruct hi as [hi|hi]); try contradiction hi;
     rewrite <- hi in hr; vm_compute in hr; injection hr as <-;
     destruct hm as [q|[q|[q|[]]]]; try discriminate q; injection q as <-; try congruence; auto).
Qed.

(** Class [B] declares [f], its parent [A] does not. *)
Example C33_case : exists m s' d, get_all_symbols 20 4 state32 = Done m s' /\
  declares_last (r_arena state32) 4 (lit "f") 6 d /\ ~ renames (r_arena state32) 4 (lit "f") /\
  ancestor state32 4 2 /\
  (forall n, ancestor state32 4 n ->
     (forall j, ~ declares (r_arena state32) n (lit "f") j) /\ ~ renames (r_arena state32) n (lit "f")).
Proof.
  eexists. eexists. eexists. split; [vm_compute; reflexivity|]. split; [|split; [|split]].
  - exists [5], []. split; [vm_compute; reflexivity|]. split; [vm_compute; reflexivity|]. split; [vm_compute; reflexivity|].
    intros j dj [].
  - intros (d & v & cl & m & tk & l & hd & hi & _). vm_compute in hd. injection hd as <-. destruct hi.
  - apply t_step. left. eexists. eexists. exists 20%nat. eexists. eexists. split; [apply looked_none|].
    split; [vm_compute; reflexivity|]. split; [left; reflexivity|]. vm_compute. reflexivity.
  - assert (H : forall c n, ancestor state32 c n -> c = 4 /\ n = 2).
    { intros c n h. unfold ancestor in h. induction h as [c n h|c x n h1 [-> ->] h2 [e _]]; [apply follows32; exact h|discriminate e]. }
    intros n h. destruct (H _ _ h) as [_ ->]. split.
    + intros j (ks & d & hk & hi & hd & hn). vm_compute in hk. injection hk as <-. destruct hi as [<-|[]].
      vm_compute in hd. injection hd as <-. vm_compute in hn. discriminate hn.
    + intros (d & v & cl & m & tk & l & hd & hi & _). vm_compute in hd. injection hd as <-. destruct hi.
Qed.

(** C33 does not hold: [B] declares [f] (node 6) and so does its parent [A] (node
    4); the lookup on [B] answers with the one of [A]. *)
Definition text33 : string := "<?php class A { function f() { } } class B extends A { function f() { } }".
Theorem C33_refuted : exists b i j k m s', reachable b /\ b = indexed "<?php" text33 /\
  declares (b_arena b) i (lit "f") j /\ i <> k /\ findS (lit "b") (b_global b) = Some i /\
  get_all_symbols 20 i (resolver_new (b_arena b) (b_global b) 1) = Done m s' /\
  opt_map al_symbol (findS (lit "f") m) = Some k /\ k <> j /\ ~ (exists ks, kids (b_arena b) i = Some ks /\ In k ks).
Proof.
  exists (indexed "<?php" text33), 5, 7, 4. eexists. eexists. split; [apply state_after_reachable|]. split; [reflexivity|].
  split; [|split; [discriminate|split; [vm_compute; reflexivity|split; [vm_compute; reflexivity|split; [vm_compute; reflexivity|split; [discriminate|]]]]]].
  - eexists. eexists. split; [vm_compute; reflexivity|]. split; [right; left; reflexivity|]. split; vm_compute; reflexivity.
  - intros (ks & h & hi). vm_compute in h. injection h as <-. destruct hi as [h|[h|[]]]; discriminate h.
Qed.

(** A class with an [insteadof] and an [as] rule: [f] is the method of [B], [g]
    the one of [A]. *)
Definition state34 : rst := resolver_of
  "<?php trait A { function f() { } } trait B { function f() { } } class C { use A, B { B::f insteadof A; A::f as protected g; } }".
Example C34_case : exists me l v class member tk ch s', data (r_arena state34) 6 = Some me /\
  y_alterations me = Some (l ++ [AltAs v (Some class) member (Some tk)]) /\ t_label tk = Some (lit "g") /\
  filter is_insteadof l <> [] /\ ~ touched me (lit "f") /\
  get_imports (resolve_type_ref 20) (get_all_symbols 20) me 6 state34 = Done ch s' /\
  findS (lit "f") ch = Some (mkAlias 5 (lit "f") VNone 4) /\
  findS (lit "g") ch = Some (mkAlias 3 (lit "g") VProtected 2).
Proof.
  eexists. eexists [_]. do 6 eexists. split; [vm_compute; reflexivity|]. split; [vm_compute; reflexivity|].
  split; [vm_compute; reflexivity|]. split; [vm_compute; discriminate|].
  split; [|split; [vm_compute; reflexivity|split; vm_compute; reflexivity]].
  intros (v & cl & m & al & hi & h). destruct hi as [e|[e|[]]]; [discriminate e|]. injection e as _ _ _ <-.
  destruct h as (l & hl & e). injection hl as <-. vm_compute in e. discriminate e.
Qed.

(** C34 does not hold.  A rule that names a member its winner does not have leaves
    no candidate: a crash.  And a rule does not apply to members that a trait
    gets from another trait: [f] of [C] is that of [A], although the rule
    says [B::f insteadof A]. *)
Definition text34a : string := "<?php trait A { function f() { } } trait B { } class C { use A, B { B::f insteadof A; } }".
Definition text34b : string := "<?php trait X { function f() { } } trait Y { function f() { } } trait A { use X; } trait B { use Y; } class C { use A, B { B::f insteadof A; } }".
Theorem C34_refuted :
  (exists b i, reachable b /\ b = indexed "<?php" text34a /\
     findS (lit "c") (b_global b) = Some i /\
     get_all_symbols 20 i (resolver_new (b_arena b) (b_global b) 1) = Panic) /\
  (exists b i x f m s', reachable b /\ b = indexed "<?php" text34b /\
     findS (lit "c") (b_global b) = Some i /\ findS (lit "x") (b_global b) = Some x /\
     declares (b_arena b) x (lit "f") f /\
     get_all_symbols 20 i (resolver_new (b_arena b) (b_global b) 1) = Done m s' /\
     opt_map al_symbol (findS (lit "f") m) = Some f).
Proof.
  split.
  - exists (indexed "<?php" text34a), 5. split; [apply state_after_reachable|]. split; [reflexivity|]. split; vm_compute; reflexivity.
  - exists (indexed "<?php" text34b), 8, 2, 3. eexists. eexists. split; [apply state_after_reachable|]. split; [reflexivity|].
    split; [vm_compute; reflexivity|]. split; [vm_compute; reflexivity|]. split; [|split; [vm_compute; reflexivity|vm_compute; reflexivity]].
    eexists. eexists. split; [vm_compute; reflexivity|]. split; [left; reflexivity|]. split; vm_compute; reflexivity.
Qed.

Print Assumptions C33_own_partial.
Print Assumptions C33_parent_wins_refuted.
Print Assumptions C33_refuted.
Print Assumptions C34_rules_partial.
Print Assumptions C34_as_partial.
Print Assumptions C34_refuted.
