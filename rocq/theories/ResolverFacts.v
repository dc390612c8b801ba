(** What the resolver does to the arena: it only adds local variables and
    sets data types, and everything it remembers is alive. *)

From Coq Require Import Permutation.
From Verif Require Import Base Token Node Assoc AssocFacts Arena ArenaFacts Symbol EnvMonad
  EnvFacts Workspace Resolver SpecNames.

Lemma var_docs_child : forall P n k, var_docs_in P n -> In k (children n) -> var_docs_in P k.
Proof. intros P n k h i m s. apply h. econstructor; eauto. Qed.

(** What the resolver knows about nodes: a node is alive; a node is a local
    variable; a node may be bound to a name. *)
Inductive fact := Al (n : N) | Lo (n : N) | Na (k : str) (n : N).

Definition may_be (k : str) (d : Symbol) : Prop :=
  local_kind d \/ sym_name d = k \/ k = lit "this".

Definition holds (a : arena Symbol) (f : fact) : Prop :=
  match f with
  | Al n => live a n
  | Lo n => exists d, data a n = Some d /\ local_kind d
  | Na k n => exists d, data a n = Some d /\ may_be k d
  end.

Definition alo (o : option N) : list fact := map Al (opt_list o).
Definition scope_facts (sc : list (list (str * N))) : list fact :=
  flat_map (flat_map (fun p => [Al (snd p); Na (fst p) (snd p)])) sc.
Definition cache_facts (c : list (unique_range * option N)) : list fact :=
  flat_map (fun p => alo (snd p)) c.

(** What a resolver remembers *)
Definition held (s : rst) : list fact :=
  scope_facts (r_scopes s) ++ alo (r_class s) ++ [Al (r_container s)] ++
  flat_map (fun p => map Al (map snd (snd p))) (r_refs s) ++ cache_facts (r_cache s).

Definition rinv (s : rst) : Prop := wf (r_arena s) /\ Forall (holds (r_arena s)) (held s).

Section Spec.
Variable G : arena Symbol -> arena Symbol -> Prop.
Hypothesis GG : growth G.
Hypothesis G_drifts : forall a a', G a a' -> drifts a a'.
Hypothesis G_update : forall i f a a', wf a -> (forall d, same_sym d (f d)) ->
  update i f a = Some a' -> G a a'.
Hypothesis G_child : forall d p a i a1 a', wf a -> local_kind d ->
  new_node d a = (i, a1) -> append p i a1 = Some a' -> G a a' /\ live a' i.
Hypothesis G_new : forall d a i a', wf a -> local_kind d -> new_node d a = (i, a') -> G a a'.
(** The names whose nodes may be moved *)
Variable P : str -> Prop.
Hypothesis G_move : forall p c a a' d, wf a -> data a c = Some d ->
  (local_kind d \/ exists k, P k /\ may_be k d) -> append p c a = Some a' -> G a a'.

Definition all_live (s : rst) (l : list fact) : Prop := Forall (holds (r_arena s)) l.

(** If the facts [l] hold before, then those about the answer hold after. *)
Definition spec {A} (l : list fact) (m : R A) (ids : A -> list fact) : Prop :=
  forall s x s', rinv s -> all_live s l -> m s = Done x s' ->
    rinv s' /\ G (r_arena s) (r_arena s') /\ all_live s' (ids x) /\ r_global s' = r_global s.

Definition none {A} : A -> list fact := fun _ => [].

Lemma same_kind : forall d d', same_sym d d' -> y_kind d' = y_kind d /\ sym_name d' = sym_name d.
Proof.
  intros d d' h. unfold same_sym in h. split; [exact (f_equal y_kind h)|exact (f_equal sym_name h)].
Qed.

Lemma holds_G : forall a a' f, wf a -> G a a' -> holds a f -> holds a' f.
Proof.
  intros a a' f w g h. destruct f as [n|n|k n]; simpl in *.
  - eapply (gr_live _ GG); eauto.
  - destruct h as (d & e & q). destruct (df_data _ _ (G_drifts _ _ g) _ _ e) as (d' & e' & sd).
    exists d'. split; auto. destruct (same_kind _ _ sd) as [qk _]. unfold local_kind in *. rewrite qk. auto.
  - destruct h as (d & e & q). destruct (df_data _ _ (G_drifts _ _ g) _ _ e) as (d' & e' & sd).
    exists d'. split; auto. destruct (same_kind _ _ sd) as [qk qn]. unfold may_be, local_kind in *.
    rewrite qk, qn. auto.
Qed.

Lemma all_live_G : forall s s' l, rinv s -> G (r_arena s) (r_arena s') -> all_live s l -> all_live s' l.
Proof.
  intros s s' l [w _] g h. eapply Forall_impl; [|apply h]. intros i. apply holds_G; auto.
Qed.

Lemma all_live_incl : forall s l l', incl l' l -> all_live s l -> all_live s l'.
Proof. intros s l l' i h. apply Forall_forall. intros x k. eapply Forall_forall in h; eauto. Qed.

Lemma spec_bind : forall A B (l : list fact) (m : R A) (f : A -> R B) ids ids',
  spec l m ids -> (forall x, spec (ids x ++ l) (f x) ids') -> spec l (ebind m f) ids'.
Proof.
  intros A B l m f ids ids' hm hf s y s' i al h. apply ebind_done in h as (x & t & h1 & h2).
  destruct (hm _ _ _ i al h1) as (i1 & g1 & a1 & e1).
  destruct (hf x t y s') as (i2 & g2 & a2 & e2); auto.
  - apply Forall_app. split; auto. apply (all_live_G s t); auto.
  - repeat split; try apply i2; auto; [|congruence].
    destruct i as [w _]. eapply (gr_trans _ GG); eauto.
Qed.

Lemma spec_ret : forall A l (x : A) ids, incl (ids x) l -> spec l (eret x) ids.
Proof.
  intros A l x ids hi s y s' i al h. injection h as <- <-.
  repeat split; try apply i; auto.
  - apply (gr_refl _ GG). apply i.
  - eapply all_live_incl; eauto.
Qed.

Lemma spec_panic : forall A l ids, spec l (@epanic rst A) ids.
Proof. intros A l ids s x s' _ _ h. discriminate. Qed.
Lemma spec_fuel : forall A l ids, spec l (@efuel rst A) ids.
Proof. intros A l ids s x s' _ _ h. discriminate. Qed.

Lemma spec_opt : forall A l (o : option A), spec l (eopt o) none.
Proof. intros A l [a|]; [apply spec_ret; apply incl_nil_l|apply spec_panic]. Qed.

Lemma spec_weak : forall A l l' (m : R A) ids ids', spec l m ids -> incl l l' ->
  (forall x, incl (ids' x) (ids x)) -> spec l' m ids'.
Proof.
  intros A l l' m ids ids' h hl hi s x s' i al e.
  destruct (h s x s') as (i1 & g1 & a1 & e1); auto; [eapply all_live_incl; eauto|].
  repeat split; try apply i1; auto. eapply all_live_incl; eauto.
Qed.

Lemma spec_imp : forall A l (m : R A) ids ids', spec l m ids ->
  (forall x s, all_live s (ids x) -> all_live s (ids' x)) -> spec l m ids'.
Proof.
  intros A l m ids ids' h hi s x s' i al e.
  destruct (h s x s') as (i1 & g1 & a1 & e1); auto.
Qed.

(** An impossible answer may be left out. *)
Lemma spec_none : forall A l (m : R A) ids, spec l m ids -> spec l m none.
Proof. intros. eapply spec_weak; eauto using incl_refl. intros x; apply incl_nil_l. Qed.

Lemma spec_none_l : forall A l (m : R A) ids, spec [] m ids -> spec l m ids.
Proof. intros. eapply spec_weak; eauto using incl_refl. apply incl_nil_l. Qed.

Lemma spec_iter : forall A l (f : A -> R unit) xs,
  (forall x, In x xs -> spec l (f x) none) -> spec l (eiter f xs) none.
Proof.
  induction xs as [|x xs IH]; intros h; simpl.
  - apply spec_ret. apply incl_nil_l.
  - eapply spec_bind; [apply h; simpl; auto|]. intros ?. apply IH. intros y i. apply h. simpl. auto.
Qed.

Lemma spec_map : forall A B l (f : A -> R B) xs,
  (forall x, In x xs -> spec l (f x) none) -> spec l (emap f xs) none.
Proof.
  induction xs as [|x xs IH]; intros h; simpl.
  - apply spec_ret. apply incl_nil_l.
  - eapply spec_bind; [apply h; simpl; auto|]. intros b.
    eapply spec_bind; [apply IH; intros y i; apply h; simpl; auto|]. intros bs. apply spec_ret. apply incl_nil_l.
Qed.

Lemma spec_fold : forall A B l (f : B -> A -> R B) xs b,
  (forall b x, spec l (f b x) none) -> spec l (efold f b xs) none.
Proof.
  induction xs as [|x xs IH]; intros b h; simpl.
  - apply spec_ret. apply incl_nil_l.
  - eapply spec_bind; [apply h|]. intros b'. apply IH; auto.
Qed.

Lemma spec_find : forall A l (f : A -> R (option N)) xs,
  (forall x, spec l (f x) alo) -> spec l (efind f xs) alo.
Proof.
  induction xs as [|x xs IH]; intros h; simpl.
  - apply spec_ret. apply incl_nil_l.
  - eapply spec_bind; [apply h|]. intros [b|].
    + apply spec_ret. intros y i. apply in_or_app. auto.
    + apply IH; auto.
Qed.

Lemma spec_find_none : forall A B l (f : A -> R (option B)) xs,
  (forall x, spec l (f x) none) -> spec l (efind f xs) none.
Proof.
  induction xs as [|x xs IH]; intros h; simpl.
  - apply spec_ret. apply incl_nil_l.
  - eapply spec_bind; [apply h|]. intros [b|]; [apply spec_ret; apply incl_nil_l|]. apply IH; auto.
Qed.

(** ** Reading *)

Lemma spec_read : forall A l (f : rst -> out rst A) ids,
  (forall s x s', rinv s -> f s = Done x s' -> s' = s /\ all_live s (ids x)) -> spec l f ids.
Proof.
  intros A l f ids h s x s' i al e. destruct (h _ _ _ i e) as [-> a].
  repeat split; try apply i; auto. apply (gr_refl _ GG). apply i.
Qed.

Lemma spec_get : forall A l (f : rst -> A), spec l (eget f) none.
Proof. intros. apply spec_read. intros s x s' i h. injection h as <- <-. split; auto. constructor. Qed.

Lemma held_in : forall s l, rinv s -> incl l (held s) -> all_live s l.
Proof. intros s l [_ h] i. eapply all_live_incl; eauto. Qed.

Ltac hm := unfold held; intros y k; rewrite ?in_app_iff; tauto.

Lemma spec_class : forall l, spec l (eget r_class) alo.
Proof.
  intros. apply spec_read. intros s x s' i h. injection h as <- <-. split; auto.
  apply held_in; auto. hm.
Qed.
Lemma spec_container : forall l, spec l (eget r_container) (fun c => [Al c]).
Proof.
  intros. apply spec_read. intros s x s' i h. injection h as <- <-. split; auto.
  apply held_in; auto. hm.
Qed.
Lemma spec_scopes : forall l, spec l (eget r_scopes) scope_facts.
Proof.
  intros. apply spec_read. intros s x s' i h. injection h as <- <-. split; auto.
  apply held_in; auto. hm.
Qed.
Lemma spec_cache : forall l, spec l (eget r_cache) cache_facts.
Proof.
  intros. apply spec_read. intros s x s' i h. injection h as <- <-. split; auto.
  apply held_in; auto. hm.
Qed.

Lemma spec_data : forall l i, spec l (e_data i) (fun _ => [Al i]).
Proof.
  intros. apply spec_read. intros s x s' h e. unfold e_data in e. simpl in e.
  destruct (data (r_arena s) i) as [d|] eqn:ed; [|discriminate]. injection e as <- <-. split; auto.
  constructor; auto. apply data_live. eauto.
Qed.

Lemma spec_kids : forall l i, spec l (e_kids i) (fun ks => map Al (i :: ks)).
Proof.
  intros. apply spec_read. intros s x s' h e. unfold e_kids in e. simpl in e.
  unfold kids in e. destruct (node_of (r_arena s) i) as [n|] eqn:ed; [|discriminate].
  injection e as <- <-. split; auto. constructor; [exists n; auto|].
  apply Forall_forall. intros c ic. apply in_map_iff in ic as (k & <- & ic). destruct h as [w _].
  destruct (wf_down _ w _ _ _ ed ic) as (m & em & _). exists m. auto.
Qed.

Lemma spec_top : forall l i, spec l (e_top i) (fun t => [Al t]).
Proof.
  intros. apply spec_read. intros s x s' h e. unfold e_top in e. simpl in e.
  destruct (top (r_arena s) i) as [t|] eqn:ed; [|discriminate]. injection e as <- <-. split; auto.
  constructor; auto. apply top_spec in ed as [_ (n & en & _)]. exists n. auto.
Qed.

Lemma spec_find_kid : forall l i p, spec l (e_find_kid i p) alo.
Proof.
  intros. unfold e_find_kid. eapply spec_bind; [apply spec_kids|]. intros ks.
  eapply spec_weak; [apply (spec_find _ [])|apply incl_nil_l|intros; apply incl_refl].
  intros c. eapply spec_bind; [apply spec_data|]. intros d. apply spec_ret.
  destruct (p d); [simpl; auto using incl_refl|apply incl_nil_l].
Qed.

(** A child that is looked up by a test *)
Lemma find_kid_data : forall i p s c s', e_find_kid i p s = Done (Some c) s' ->
  s' = s /\ exists d, data (r_arena s) c = Some d /\ p d = true.
Proof.
  intros i p s c s' h. unfold e_find_kid in h. apply ebind_done in h as (ks & t & h1 & h).
  assert (t = s).
  { unfold e_kids in h1. destruct (kids (the_arena s) i); [|discriminate]. injection h1 as _ <-. auto. }
  subst t. clear h1. induction ks as [|k ks IH]; [discriminate|].
  cbn [efind] in h. apply ebind_done in h as (o & t & h1 & h).
  apply ebind_done in h1 as (d & t1 & h1 & h2). unfold e_data in h1. simpl in h1.
  destruct (data (r_arena s) k) as [d'|] eqn:ed; [|discriminate]. injection h1 as -> <-.
  injection h2 as <- <-. destruct (p d) eqn:ep; [|auto].
  injection h as <- <-. split; auto. exists d. auto.
Qed.

Lemma spec_find_named : forall l i t k, t_label t = Some k ->
  spec l (e_find_kid i (fun d => match t_label t with
                                 | Some l => str_eqb (sym_name d) l
                                 | None => false
                                 end))
    (fun o => alo o ++ map (Na k) (opt_list o)).
Proof.
  intros l i t k hk s x s' iv al e. destruct (spec_find_kid l i _ s x s' iv al e) as (a & b & c & d).
  split; [|split; [|split]]; auto. apply Forall_app. split; auto.
  destruct x as [n|]; [|constructor].
  apply find_kid_data in e as (-> & y & e1 & e2). rewrite hk in e2.
  destruct (str_eqb_spec (sym_name y) k); [|discriminate].
  constructor; [|constructor]. exists y. split; auto. right. auto.
Qed.

Lemma scope_find_in : forall k (tp : list (str * N)) rest n,
  find str_eqb k tp = Some n ->
  In (Al n) (scope_facts (tp :: rest)) /\ In (Na k n) (scope_facts (tp :: rest)).
Proof.
  intros k tp rest n h. unfold scope_facts. simpl. rewrite !in_app_iff, !in_flat_map.
  apply find_in in h; [|apply str_eqb_spec].
  split; left; exists (k, n); simpl; auto.
Qed.

Lemma spec_local : forall l t, spec l (get_local t) (fun o => alo o).
Proof.
  intros. apply spec_read. intros s x s' i h. unfold get_local in h. injection h as <- <-.
  split; auto. apply held_in; auto.
  destruct (t_label t) as [label|]; [|apply incl_nil_l].
  assert (k : incl (alo match r_scopes s with
                             | [] => None
                             | top :: _ => find str_eqb label top
                             end) (held s)).
  { destruct (r_scopes s) as [|tp rest] eqn:es; [apply incl_nil_l|].
    destruct (find str_eqb label tp) as [n|] eqn:ef; [|apply incl_nil_l].
    intros y [<-|[]]. unfold held. rewrite es, in_app_iff. left.
    apply (scope_find_in _ _ rest _ ef). }
  destruct (is_this t); auto.
  destruct (r_class s) as [c|] eqn:ec; auto.
  intros y [<-|[]]. unfold held. rewrite ec, !in_app_iff. simpl. auto.
Qed.

Lemma spec_local_na : forall l t k, t_label t = Some k ->
  spec l (get_local t) (fun o => alo o ++ map (Na k) (opt_list o)).
Proof.
  intros l t k hk s x s' i al h. destruct (spec_local l t s x s' i al h) as (a & b & c & d).
  split; [|split; [|split]]; auto. apply Forall_app. split; auto.
  unfold get_local in h. injection h as <- <-. rewrite hk.
  assert (q : Forall (holds (r_arena s)) (map (Na k) (opt_list match r_scopes s with
                             | [] => None
                             | top :: _ => find str_eqb k top
                             end))).
  { destruct (r_scopes s) as [|tp rest] eqn:es; [constructor|].
    destruct (find str_eqb k tp) as [n|] eqn:ef; [|constructor].
    constructor; [|constructor]. destruct i as [_ i].
    eapply Forall_forall in i; [exact i|]. unfold held. rewrite es, in_app_iff. left.
    apply (scope_find_in _ _ rest _ ef). }
  destruct (is_this t) eqn:et; auto.
  destruct (r_class s) as [n|] eqn:ec; auto.
  constructor; [|constructor]. unfold is_this in et. rewrite hk in et.
  apply andb_true_iff in et as [_ et]. destruct (str_eqb_spec k (lit "this")); [|discriminate].
  assert (li : live (r_arena s) n).
  { destruct i as [_ i]. eapply Forall_forall in i; [exact (i : holds _ (Al n))|].
    unfold held. rewrite ec, !in_app_iff. simpl. auto. }
  apply data_live in li as [y ey]. exists y. split; auto. right. auto.
Qed.

(** ** Writing *)

Ltac quad := split; [split|split; [|split]].

Lemma spec_write : forall l (f : rst -> rst) (new : rst -> list N),
  (forall s, r_arena (f s) = r_arena s) -> (forall s, r_global (f s) = r_global s) ->
  (forall s, all_live s l -> forall x, In x (held (f s)) -> In x (held s) \/ holds (r_arena s) x) ->
  spec l (emod f) none.
Proof.
  intros l f new ha hg hh s x s' [w h] al e. injection e as <- <-.
  quad; auto.
  - rewrite ha. auto.
  - rewrite ha. apply Forall_forall. intros y k. destruct (hh _ al _ k) as [k1|k1]; auto.
    eapply Forall_forall in h; eauto.
  - rewrite ha. apply (gr_refl _ GG). auto.
  - constructor.
Qed.

Lemma all_in : forall s l x, all_live s l -> In x l -> holds (r_arena s) x.
Proof. intros s l x h i. eapply Forall_forall in h; eauto. Qed.

Ltac wr := eapply spec_write; [exact (fun _ => [])|reflexivity|reflexivity|];
  intros s al x; unfold held; cbn [r_scopes r_class r_container r_refs r_cache]; rewrite !in_app_iff.

Lemma spec_note : forall l n, spec l (note n) none.
Proof. intros. wr. tauto. Qed.

Lemma spec_set_scopes : forall l sc, incl (scope_facts sc) l -> spec l (set_scopes sc) none.
Proof. intros l sc h. wr. specialize (h x). intros [k|k]; [|tauto]. right. eapply all_in; eauto. Qed.
Lemma spec_set_class : forall l c, incl (alo c) l -> spec l (set_class_ c) none.
Proof. intros l sc h. wr. specialize (h x). intros [k|[k|k]]; try tauto. right. eapply all_in; eauto. Qed.
Lemma spec_set_container : forall l c, In (Al c) l -> spec l (set_container c) none.
Proof.
  intros l c h. wr. simpl. intros [k|[k|[[<-|[]]|[k|k]]]]; try tauto.
  right. apply (all_in _ _ _ al h).
Qed.

Lemma in_put : forall K V (eqb : K -> K -> bool) (k : K) (v : V) m p, In p (put eqb k v m) -> p = (k, v) \/ In p m.
Proof.
  induction m as [|[k' v'] m IH]; intros p; simpl.
  - intros [<-|[]]; auto.
  - destruct (eqb k k'); simpl; [intros [<-|h]; auto|]. intros [<-|h]; auto.
    destruct (IH _ h); auto.
Qed.

Lemma spec_cache_put : forall l k v, incl (alo v) l -> spec l (cache_put k v) none.
Proof.
  intros l k v h. wr. intros [j|[j|[j|[j|j]]]]; auto 8.
  apply in_flat_map in j as (p & ip & jp). apply in_put in ip as [->|ip].
  - right. eapply all_in; eauto.
  - left. do 4 right. apply in_flat_map. eauto.
Qed.

Lemma spec_reference : forall l f r n, In (Al n) l -> spec l (reference f r n) none.
Proof.
  intros l f r n h. wr. intros [j|[j|[j|[j|j]]]]; auto 8.
  apply in_flat_map in j as (p & ip & jp). unfold upsert in ip.
  apply in_put in ip as [->|ip].
  - simpl in jp. rewrite !map_app, in_app_iff in jp.
    destruct jp as [jp|[<-|[]]]; [|right; apply (all_in _ _ _ al h)].
    left. do 3 right. left. destruct (find N.eqb f (r_refs s)) as [v|] eqn:ef; [|destruct jp].
    apply in_flat_map. exists (f, v). split; auto. apply find_in in ef; auto. apply N.eqb_spec.
  - left. do 3 right. left. apply in_flat_map. eauto.
Qed.

Lemma spec_update : forall l i f, (forall d, same_sym d (f d)) -> spec l (e_update i f) (fun _ => [Al i]).
Proof.
  intros l i f hf s x s' [w h] al e. unfold e_update in e. simpl in e.
  destruct (update i f (r_arena s)) as [a|] eqn:eu; [|discriminate]. injection e as <- <-.
  pose proof (G_update _ _ _ _ w hf eu) as g.
  quad; simpl; auto.
  - exact (gr_wf _ GG _ _ w g).
  - unfold held. simpl. eapply Forall_impl; [|apply h]. intros j. apply holds_G; auto.
  - constructor; auto. simpl. destruct (node_of_update _ _ _ _ eu) as (_ & li & _).
    eapply (gr_live _ GG); eauto.
Qed.

Lemma local_new : forall a d i a1 a', wf a1 -> new_node d a = (i, a1) -> local_kind d -> drifts a1 a' ->
  exists d', data a' i = Some d' /\ local_kind d'.
Proof.
  intros a d i a1 a' w e hd g. destruct (node_of_new _ _ _ _ e) as (-> & _ & sp).
  assert (e1 : data a1 (a_next a) = Some d) by (unfold data; rewrite sp, N.eqb_refl; reflexivity).
  destruct (df_data _ _ g _ _ e1) as (d' & e2 & sd). exists d'. split; auto.
  destruct (same_kind _ _ sd) as [qk _]. unfold local_kind in *. rewrite qk. auto.
Qed.

Lemma spec_new_local : forall l d, local_kind d -> spec l (new_local d) (fun i => [Al i; Lo i]).
Proof.
  intros l d hd s x s' [w h] al e. unfold new_local in e.
  apply ebind_done in e as (i & t & e1 & e). apply ebind_done in e as (sc & t2 & e2 & e).
  apply ebind_done in e as (u & t3 & e3 & e). injection e as -> ->.
  unfold e_new in e1. cbn [the_arena rst_arena with_arena] in e1. destruct (new_node d (r_arena s)) as [j a1] eqn:en.
  injection e1 as -> <-. injection e2 as <- <-. unfold e_append in e3. cbn [the_arena rst_arena with_arena r_arena r_container] in e3.
  destruct (append (r_container s) x a1) as [a|] eqn:ea; [|discriminate]. injection e3 as <- <-.
  destruct (G_child _ _ _ _ _ _ w hd en ea) as [g li].
  assert (w1 : wf a1) by (eapply wf_new; eauto).
  quad; simpl; auto.
  - exact (gr_wf _ GG _ _ w g).
  - unfold held. simpl. eapply Forall_impl; [|apply h]. intros k. apply holds_G; auto.
  - constructor; auto. constructor; auto. simpl.
    apply (local_new _ _ _ _ _ w1 en hd). eapply drifts_append; eauto.
Qed.

Lemma spec_new : forall l d, local_kind d -> spec l (e_new d) (fun i => [Al i; Lo i]).
Proof.
  intros l d hd s x s' [w h] al e. unfold e_new in e. cbn [the_arena rst_arena with_arena] in e.
  destruct (new_node d (r_arena s)) as [j a1] eqn:en. injection e as -> <-.
  pose proof (G_new _ _ _ _ w hd en) as g.
  assert (w1 : wf a1) by (eapply wf_new; eauto).
  destruct (local_new _ _ _ _ _ w1 en hd (gr_refl _ growth_drifts _ w1)) as (d' & e' & k').
  quad; simpl; auto.
  - unfold held. simpl. eapply Forall_impl; [|apply h]. intros k. apply holds_G; auto.
  - constructor; [apply data_live; eauto|]. constructor; [|constructor]. exists d'. auto.
Qed.

Lemma spec_append : forall l p c, (In (Lo c) l \/ exists k, P k /\ In (Na k c) l) -> spec l (e_append p c) none.
Proof.
  intros l p c hc s x s' [w h] al e. unfold e_append in e. simpl in e.
  destruct (append p c (r_arena s)) as [a|] eqn:ea; [|discriminate]. injection e as <- <-.
  assert (g : G (r_arena s) a).
  { destruct hc as [hc|(k & hk & hc)]; pose proof (all_in _ _ _ al hc) as (d & e & q); eapply G_move; eauto. }
  quad; simpl; auto.
  - exact (gr_wf _ GG _ _ w g).
  - unfold held. simpl. eapply Forall_impl; [|apply h]. intros k. apply holds_G; auto.
  - constructor.
Qed.

(** ** The functions of the resolver *)

Ltac memb := cbv beta; lazymatch goal with
  | |- In _ (none _ ++ _) => apply in_or_app; right; memb
  | |- In _ (_ ++ _) => apply in_or_app; first [left; solve [memb] | right; memb]
  | |- In _ (alo (Some _)) => left; reflexivity
  | |- In _ (alo None) => fail
  | |- In _ (_ :: _) => first [left; reflexivity | right; memb]
  | |- In _ _ => assumption
  end.
Ltac inc :=
  idtac; lazymatch goal with
  | |- incl (none _) _ => apply incl_nil_l
  | |- incl (alo None) _ => apply incl_nil_l
  | |- incl _ _ =>
      cbv beta;
      let y := fresh in let k := fresh in intros y k;
      first [memb | (destruct k as [<-|[]]; memb)]
  | |- _ => memb
  end.

(** Use a lemma about the computation of the goal, dropping the nodes it
    promises if the goal does not ask for them. *)
Ltac uses lem tac :=
  first [apply lem; tac | (eapply spec_none; apply lem; tac)].
Ltac leaf0 := idtac; lazymatch goal with
  | |- spec _ (e_data _) _ => uses (spec_data) ltac:(idtac)
  | |- spec _ (e_kids _) _ => uses (spec_kids) ltac:(idtac)
  | |- spec _ (e_top _) _ => uses (spec_top) ltac:(idtac)
  | |- spec _ (e_find_kid _ _) _ => uses (spec_find_kid) ltac:(idtac)
  | |- spec _ (get_local _) _ => uses (spec_local) ltac:(idtac)
  | |- spec _ (eget r_class) _ => uses (spec_class) ltac:(idtac)
  | |- spec _ (eget r_container) _ => uses (spec_container) ltac:(idtac)
  | |- spec _ (eget r_scopes) _ => uses (spec_scopes) ltac:(idtac)
  | |- spec _ (eget r_cache) _ => uses (spec_cache) ltac:(idtac)
  | |- spec _ (eget _) _ => uses (spec_get) ltac:(idtac)
  | |- spec _ (eopt _) _ => uses (spec_opt) ltac:(idtac)
  | |- spec _ (epanic) _ => uses (spec_panic) ltac:(idtac)
  | |- spec _ (efuel) _ => uses (spec_fuel) ltac:(idtac)
  | |- spec _ (note _) _ => uses (spec_note) ltac:(idtac)
  | |- spec _ (reference _ _ _) _ => uses (spec_reference) ltac:(inc)
  | |- spec _ (cache_put _ _) _ => uses (spec_cache_put) ltac:(inc)
  | |- spec _ (set_class_ _) _ => uses (spec_set_class) ltac:(inc)
  | |- spec _ (set_container _) _ => uses (spec_set_container) ltac:(inc)
  | |- spec _ (e_update _ _) _ => uses (spec_update) ltac:(intros; apply same_with_types)
  | |- spec _ (eret _) _ => uses (spec_ret) ltac:(inc)
  | |- _ => fail
  end.

(** [eopt] with a fact about the value *)
Lemma spec_opt_bind : forall A B l (o : option A) (f : A -> R B) ids,
  (forall a, o = Some a -> spec l (f a) ids) -> spec l (ebind (eopt o) f) ids.
Proof.
  intros A B l [a|] f ids h.
  - intros s x s' i al e. unfold ebind, eopt, eret in e. eapply (h a eq_refl); eauto.
  - intros s x s' i al e. discriminate.
Qed.

Lemma spec_idn : forall A l (m : R A), spec l m none -> spec l m none.
Proof. auto. Qed.

Ltac sp leaf := lazymatch goal with
  | |- spec _ (ebind (eopt ?o) _) _ =>
      apply spec_opt_bind; let x := fresh "x" in let e := fresh "eo" in intros x e; sp leaf
  | |- spec _ (ebind _ _) _ =>
      eapply spec_bind; [first [leaf | (apply spec_idn; solve [sp leaf])]|];
      let x := fresh "x" in intros x; sp leaf
  | |- spec _ (let x := _ in _) _ => cbv zeta; sp leaf
  | |- spec _ (match ?o with _ => _ end) _ => destruct o eqn:?; sp leaf
  | |- spec _ _ _ => try leaf
  | |- _ => idtac
  end.
Ltac sp0 := sp leaf0.

Lemma spec_reference_local : forall l f t n, In (Al n) l -> spec l (reference_local f t n) none.
Proof. intros. unfold reference_local. sp0. Qed.

Lemma scope_facts_put : forall k v (tp : list (str * N)) rest x,
  In x (scope_facts (put str_eqb k v tp :: rest)) ->
  x = Al v \/ x = Na k v \/ In x (scope_facts (tp :: rest)).
Proof.
  intros k v tp rest x h. unfold scope_facts in *. simpl in *. rewrite in_app_iff in *.
  destruct h as [h|h]; auto.
  apply in_flat_map in h as ([k' v'] & h & hx). apply in_put in h as [e|h].
  - injection e as -> ->. simpl in hx. destruct hx as [<-|[<-|[]]]; auto.
  - right. right. left. apply in_flat_map. exists (k', v'). auto.
Qed.

(** A node may be declared under the name of a token. *)
Definition declarable (l : list fact) (t : Token) (v : N) : Prop :=
  In (Al v) l /\ (In (Lo v) l \/ forall k, t_label t = Some k -> In (Na k v) l).

Lemma spec_strong : forall A l l' (m : R A) ids, (forall s, all_live s l -> all_live s l') ->
  spec l' m ids -> spec l m ids.
Proof. intros A l l' m ids h hm s x s' i al e. eapply hm; eauto. Qed.

Lemma declarable_na : forall l t v k, declarable l t v -> t_label t = Some k ->
  forall s, all_live s l -> all_live s (Na k v :: l).
Proof.
  intros l t v k [_ [h|h]] hk s al; constructor; auto.
  - pose proof (all_in _ _ _ al h) as (d & e & q). exists d. split; auto. left. auto.
  - apply (all_in _ _ _ al (h _ hk)).
Qed.

Lemma spec_declare : forall l f t v, declarable l t v -> spec l (declare_local_if_new f t v) none.
Proof.
  intros l f t v hd. pose proof hd as [hv _]. unfold declare_local_if_new.
  eapply spec_bind; [apply spec_scopes|].
  intros [|tp rest]; [apply spec_ret; inc|]. destruct (t_label t) as [name|] eqn:el; [|apply spec_ret; inc].
  destruct (find str_eqb name tp) as [node|] eqn:ef.
  - eapply spec_bind; [apply spec_reference_local|intros; apply spec_ret; inc].
    rewrite in_app_iff. left. apply (scope_find_in _ _ rest _ ef).
  - eapply (spec_strong _ _ (Na name v :: scope_facts (tp :: rest) ++ l)).
    { intros s al. apply Forall_app in al as [a1 a2]. pose proof (declarable_na _ _ _ _ hd el s a2) as q.
      inversion q; subst. constructor; auto. apply Forall_app. auto. }
    eapply spec_bind.
    + apply spec_set_scopes. intros x h. simpl. rewrite in_app_iff.
      apply scope_facts_put in h as [->|[->|h]]; auto.
    + intros. eapply spec_bind; [apply spec_reference_local|intros; apply spec_ret; inc].
      inc.
Qed.

Lemma spec_overwrite : forall l f t v b, declarable l t v -> spec l (declare_or_overwrite_local f t v b) none.
Proof.
  intros l f t v b hd. pose proof hd as [hv _]. unfold declare_or_overwrite_local.
  eapply spec_bind; [apply spec_scopes|].
  intros scopes. eapply (spec_bind _ _ _ _ _ none).
  - destruct scopes as [|tp rest]; [apply spec_ret; inc|].
    destruct (t_label t) as [name|] eqn:el; [|apply spec_ret; inc].
    eapply (spec_strong _ _ (Na name v :: scope_facts (tp :: rest) ++ l)).
    { intros s al. apply Forall_app in al as [a1 a2]. pose proof (declarable_na _ _ _ _ hd el s a2) as q.
      inversion q; subst. constructor; auto. apply Forall_app. auto. }
    apply spec_set_scopes. intros x h. simpl. rewrite in_app_iff.
    apply scope_facts_put in h as [->|[->|h]]; auto.
  - intros. destruct b; [apply spec_reference_local|apply spec_ret; inc].
    rewrite !in_app_iff. auto.
Qed.

Lemma spec_push : forall l, spec l push_scope none.
Proof.
  intros. unfold push_scope. eapply spec_bind; [apply spec_scopes|]. intros x.
  apply spec_set_scopes. simpl. intros y h. rewrite in_app_iff. auto.
Qed.
Lemma spec_clone : forall l, spec l clone_scope none.
Proof.
  intros. unfold clone_scope. eapply spec_bind; [apply spec_scopes|]. intros x.
  apply spec_set_scopes. intros y h. rewrite in_app_iff. left.
  destruct x as [|t r]; auto. unfold scope_facts in *. simpl in *. rewrite ?in_app_iff in *. tauto.
Qed.
Lemma spec_pop : forall l, spec l pop_scope none.
Proof.
  intros. unfold pop_scope. eapply spec_bind; [apply spec_scopes|]. intros x.
  apply spec_set_scopes. intros y h. rewrite in_app_iff. left.
  destruct x as [|t r]; auto. unfold scope_facts in *. simpl in *. rewrite ?in_app_iff in *. tauto.
Qed.

Ltac decl := idtac; solve [split; [inc|left; inc]].
Ltac leaf1 := idtac; lazymatch goal with
  | |- spec _ (push_scope) _ => uses (spec_push) ltac:(idtac)
  | |- spec _ (clone_scope) _ => uses (spec_clone) ltac:(idtac)
  | |- spec _ (pop_scope) _ => uses (spec_pop) ltac:(idtac)
  | |- spec _ (reference_local _ _ _) _ => uses (spec_reference_local) ltac:(inc)
  | |- spec _ (declare_local_if_new _ _ _) _ => uses (spec_declare) ltac:(decl)
  | |- spec _ (declare_or_overwrite_local _ _ _ _) _ => uses (spec_overwrite) ltac:(decl)
  | |- spec _ (new_local _) _ => uses (spec_new_local) ltac:(solve [auto])
  | |- _ => leaf0
  end.

Section WithRuntime.
Context `{RT : Runtime} `{HH : Hashing}.

Lemma spec_fq : forall l name, spec l (resolve_fully_qualified name) none.
Proof. intros. unfold resolve_fully_qualified. sp0. Qed.

Section Resolve.
Variable resolve : TypeRef -> N -> bool -> R (option N).
Hypothesis hres : forall l tr n b, spec l (resolve tr n b) alo.

Ltac leafr := idtac; lazymatch goal with |- spec _ (resolve _ _ _) _ => uses hres ltac:(idtac) | |- _ => leaf0 end.

Lemma spec_parent_nodes : forall l me ctx, spec l (parent_nodes resolve me ctx) none.
Proof. intros. unfold parent_nodes. apply spec_fold. intros m r. sp leafr. Qed.

Definition pairs_live (m : list (str * N)) : list fact := map (fun p => Al (snd p)) m.

Lemma parent_nodes_live : forall s me ctx x s', rinv s -> parent_nodes resolve me ctx s = Done x s' ->
  all_live s' (pairs_live x).
Proof.
  intros s me ctx x s' i e. unfold parent_nodes in e.
  assert (k : forall rs m s x s', rinv s -> all_live s (pairs_live m) ->
    efold (fun m r =>
      elet o <- resolve (sr_type r) ctx false in
      match o with
      | None => eret m
      | Some node =>
          elet d <- e_data node in
          eret (put str_eqb (normalized_name d) node m)
      end) m rs s = Done x s' -> all_live s' (pairs_live x)).
  { clear - GG G_drifts hres G_update G_child G_new G_move.
    induction rs as [|r rs IH]; intros m s x s' i h e; simpl in e.
    - injection e as <- <-. auto.
    - apply ebind_done in e as (b & t & e1 & e).
      apply ebind_done in e1 as (o & t1 & e1 & e2).
      destruct (hres (pairs_live m) _ _ _ _ _ _ i h e1) as (i1 & g1 & a1 & _).
      assert (h1 : all_live t1 (pairs_live m)) by (apply (all_live_G s t1); auto).
      destruct o as [node|].
      + apply ebind_done in e2 as (d & t2 & e2 & e3). injection e3 as <- <-.
        unfold e_data in e2. destruct (data (the_arena t1) node); [|discriminate]. injection e2 as <- <-.
        apply (IH _ _ _ _ i1) in e; auto.
        apply Forall_forall. intros y k. apply in_map_iff in k as ([a b] & <- & k).
        apply in_put in k as [k|k].
        * injection k as _ ->. inversion a1; auto.
        * eapply Forall_forall in h1; [eauto|]. apply in_map_iff. exists (a, b). auto.
      + injection e2 as <- <-. apply (IH _ _ _ _ i1) in e; auto. }
  eapply k; eauto. constructor.
Qed.

Lemma spec_unique_parent : forall l me ctx, spec l (unique_parent resolve me ctx) alo.
Proof.
  intros l me ctx s x s' i al e. unfold unique_parent in e.
  apply ebind_done in e as (ps & t & e1 & e). injection e as <- <-.
  destruct (spec_parent_nodes l me ctx _ _ _ i al e1) as (i1 & g1 & _ & e2).
  pose proof (parent_nodes_live _ _ _ _ _ i e1) as h.
  quad; auto; try apply i1.
  destruct ps as [|[a b] [|]]; try constructor; auto. inversion h; auto.
Qed.

Lemma spec_resolve_all : forall ctx trs l, spec l (resolve_all resolve ctx trs) none.
Proof. induction trs as [|tr r IH]; intros l; simpl;
  sp ltac:(idtac; lazymatch goal with |- spec _ (resolve_all _ _ _) _ => apply IH | |- _ => leafr end). Qed.

Variable all : N -> R members.
Hypothesis hall : forall l n, spec l (all n) none.
Ltac leafm := idtac; lazymatch goal with
  | |- spec _ (all _) _ => uses (hall) ltac:(idtac)
  | |- spec _ (resolve_all _ _ _) _ => uses (spec_resolve_all) ltac:(idtac)
  | |- spec _ (parent_nodes _ _ _) _ => uses (spec_parent_nodes) ltac:(idtac)
  | |- _ => leafr
  end.

Lemma spec_own : forall l ctx, spec l (own_symbols ctx) none.
Proof. intros. unfold own_symbols. sp leafm. apply spec_fold. intros. sp leafm. Qed.

Lemma spec_trait_symbols : forall l me ctx, spec l (trait_symbols resolve all me ctx) none.
Proof. intros. unfold trait_symbols. apply spec_fold. intros. sp leafm. Qed.

Lemma spec_insteadof : forall l ctx m alt, spec l (apply_insteadof resolve ctx m alt) none.
Proof. intros. unfold apply_insteadof. sp leafm. Qed.

Lemma spec_as : forall l ctx orig m alt, spec l (apply_as resolve ctx orig m alt) none.
Proof. intros. unfold apply_as. sp leafm. Qed.

Lemma spec_get_imports : forall l me ctx, spec l (get_imports resolve all me ctx) none.
Proof.
  intros. unfold get_imports. eapply spec_bind; [apply spec_trait_symbols|]. intros.
  cbv zeta. eapply spec_bind; [apply spec_fold; intros; apply spec_insteadof|]. intros.
  eapply spec_bind; [apply spec_opt|]. intros. apply spec_fold. intros. apply spec_as.
Qed.

Lemma spec_inherited : forall l me ctx, spec l (inherited_symbols resolve all me ctx) none.
Proof.
  intros. unfold inherited_symbols. eapply spec_bind; [apply spec_parent_nodes|]. intros.
  eapply spec_bind; [apply spec_fold; intros; sp leafm|]. intros. sp leafm.
Qed.
End Resolve.

Lemma spec_current_namespace : forall l s f, spec l (current_namespace s f) none.
Proof.
  intros. unfold current_namespace. destruct (y_ns s); [apply spec_ret; inc|].
  eapply spec_bind; [apply spec_kids|]. intros.
  eapply spec_bind; [apply spec_find_none; intros; sp0|]. intros. sp0.
Qed.

Lemma spec_resolve : forall fuel l tr n b, spec l (resolve_type_ref fuel tr n b) alo.
Proof.
  induction fuel as [|fuel IH]; intros l tr n b; [apply spec_fuel|]. cbn [resolve_type_ref].
  destruct (tref_is_builtin tr || tref_is_empty tr); [apply spec_ret; inc|].
  eapply spec_bind; [apply spec_top|]. intros file.
  eapply spec_bind; [apply spec_data|]. intros fs.
  eapply spec_bind; [apply spec_opt|]. intros root.
  eapply spec_bind; [apply spec_opt|]. intros name.
  eapply spec_bind; [apply spec_opt|]. intros range. cbv zeta.
  eapply spec_bind; [apply spec_cache|]. intros cache.
  destruct (find unique_eqb (file, range) cache) as [c|] eqn:ec.
  { apply spec_ret. intros y k. rewrite in_app_iff. left. apply in_flat_map.
    exists ((file, range), c). split; [|auto].
    clear - ec. induction cache as [|[k v] cache IH]; simpl in *; [discriminate|].
    destruct (unique_eqb (file, range) k) eqn:e.
    - injection ec as ->. left. f_equal.
      unfold unique_eqb, range_eqb in e. simpl in e. rewrite !andb_true_iff, !N.eqb_eq in e.
      destruct k as [f [a b c1 d]], range. simpl in *. destruct e as (-> & ((-> & ->) & ->) & ->). auto.
    - right. auto. }
  eapply spec_bind; [apply spec_class|]. intros class.
  destruct (str_eqb name (lit "self") || str_eqb name (lit "static")).
  { destruct class as [c|]; sp0. }
  destruct (str_eqb name (lit "parent")).
  { destruct class as [c|]; [|sp0].
    eapply spec_bind; [apply spec_data|]. intros me.
    eapply spec_bind; [apply spec_unique_parent; intros; apply IH|]. intros p. sp0. }
  eapply spec_bind; [apply spec_opt|]. intros imports.
  eapply spec_bind; [apply spec_data|]. intros asym.
  eapply spec_bind; [apply spec_current_namespace|]. intros ns.
  eapply spec_bind; [apply spec_opt|]. intros joined.
  eapply spec_bind; [apply spec_get|]. intros global.
  eapply (spec_bind _ _ _ _ _ none).
  { destruct (find str_eqb (to_lowercase joined) global); [apply spec_ret; inc|].
    destruct (find str_eqb (to_lowercase name) global); [apply spec_ret; inc|]. sp0. }
  intros [[node comp]|]; [|sp0].
  (* the data of the node is read after the reference has been recorded *)
  intros s x s' i al e.
  apply ebind_done in e as (u & t & e1 & e). apply ebind_done in e as (d & t2 & e2 & e).
  assert (live (r_arena s) node).
  { assert (at_ : r_arena t = r_arena s).
    { destruct b; [|injection e1 as _ <-; auto]. injection e1 as _ <-. auto. }
    unfold e_data in e2. simpl in e2. rewrite at_ in e2. apply data_live.
    destruct (data (r_arena s) node); [eauto|discriminate]. }
  assert (k : spec [Al node]
    (edo (if fqdn_matches d comp then eret tt
          else note (mkNote (sym_name fs)
             (lit "Case mismatch between call and definition " ++ comp ++ lit " vs " ++ fqdn d)
             range SevWarning)) in
     edo cache_put (file, range) (Some node) in eret (Some node)) alo) by sp0.
  assert (k2 : spec [Al node] (if b then reference file range node else eret tt) none) by sp0.
  assert (aln : all_live s [Al node]) by (constructor; auto).
  destruct (k2 _ _ _ i aln e1) as (i1 & g1 & _ & q1).
  assert (t2 = t).
  { unfold e_data in e2. destruct (data (the_arena t) node); [|discriminate]. injection e2 as _ <-. auto. }
  subst t2.
  destruct (k t x s' i1) as (i2 & g2 & a2 & q2); [apply (all_live_G s t); auto|exact e|].
  quad; auto; try apply i2; [|congruence].
  destruct i as [w _]. eapply (gr_trans _ GG); eauto.
Qed.

Lemma spec_all_symbols : forall fuel l ctx, spec l (get_all_symbols fuel ctx) none.
Proof.
  induction fuel as [|fuel IH]; intros l ctx; [apply spec_fuel|]. simpl.
  eapply spec_bind; [apply spec_data|]. intros me.
  eapply spec_bind; [apply spec_own|]. intros own.
  eapply spec_bind; [apply spec_get_imports; [intros; apply spec_resolve|intros; apply IH]|]. intros imp.
  eapply spec_bind; [apply spec_resolve_all; intros; apply spec_resolve|]. intros types.
  eapply spec_bind.
  { apply spec_fold. intros m dt. destruct (dt =? ctx); [apply spec_ret; inc|].
    eapply spec_bind; [apply IH|]. intros. apply spec_ret; inc. }
  intros m.
  eapply spec_bind; [apply spec_inherited; [intros; apply spec_resolve|intros; apply IH]|]. intros.
  apply spec_ret; inc.
Qed.

Lemma spec_is_child_of : forall fuel l me ctx q, spec l (is_child_of fuel me ctx q) none.
Proof.
  induction fuel as [|fuel IH]; intros l me ctx q; [apply spec_fuel|]. simpl.
  eapply spec_bind; [apply spec_parent_nodes; intros; apply spec_resolve|]. intros ps.
  eapply spec_bind.
  { apply spec_find_none. intros [k n]. simpl. destruct (n =? q); [apply spec_ret; inc|].
    eapply spec_bind; [apply spec_data|]. intros.
    eapply spec_bind; [apply IH|]. intros. apply spec_ret; inc. }
  intros. apply spec_ret; inc.
Qed.

Ltac leaf2 := idtac; lazymatch goal with
  | |- spec _ (resolve_type_ref _ _ _ _) _ => uses (spec_resolve) ltac:(idtac)
  | |- spec _ (get_all_symbols _ _) _ => uses (spec_all_symbols) ltac:(idtac)
  | |- spec _ (resolve_fully_qualified _) _ => uses (spec_fq) ltac:(idtac)
  | |- spec _ (unique_parent _ _ _) _ => uses (spec_unique_parent) ltac:(intros; apply spec_resolve)
  | |- _ => leaf1
  end.
Ltac sp2 := sp leaf2.

Lemma spec_variable_type : forall fuel node ls l, spec l (variable_type fuel node ls) none.
Proof.
  induction ls as [|r ls IH]; intros l; simpl; [apply spec_ret; inc|].
  destruct (sr_node r); [sp2|].
  eapply spec_bind; [apply spec_resolve|]. intros [n|]; [apply spec_ret; inc|]. apply IH.
Qed.

Lemma local_of_token : forall t d, symbol_of_token t = Some d -> local_kind d.
Proof.
  intros t d h. unfold symbol_of_token, obind in h.
  destruct (token_range t); [|discriminate]. destruct (display_token t); [|discriminate].
  injection h as <-. unfold local_kind. simpl. destruct (t_type t); auto.
Qed.

Lemma local_with_types : forall l d, local_kind d -> local_kind (with_types l d).
Proof. auto. Qed.

Lemma local_assigned : forall t dt d, assigned_symbol t dt = Some d -> local_kind d.
Proof.
  intros t dt d h. unfold assigned_symbol in h. destruct (symbol_of_token t) as [s|] eqn:e; [|discriminate].
  apply local_of_token in e. simpl in h. destruct dt; [|injection h as <-; auto].
  destruct (sref_node (tref_one [t]) n); [|discriminate]. injection h as <-. auto.
Qed.

Lemma spec_chain_root : forall fuel again file node cur chain l,
  (forall l n, spec l (again n) none) ->
  spec l (chain_root fuel again file node cur chain) none.
Proof.
  induction fuel as [|fuel IH]; intros again file node cur chain l ha; [apply spec_fuel|].
  cbn [chain_root].
  assert (hm : forall l ns, spec l (emap again ns) none) by (intros; apply spec_map; auto).
  Ltac leaf3 IH ha hm again := idtac; lazymatch goal with
    | |- spec _ (chain_root _ _ _ _ _ _) _ => apply IH; exact ha
    | |- spec _ (again _) _ => apply ha
    | |- spec _ (emap again _) _ => apply hm
    | |- spec _ (variable_type _ _ _) _ => apply spec_variable_type
    | |- _ => leaf2
    end.
  destruct cur;
    lazymatch goal with
    | |- spec _ (match t_type ?t with _ => _ end) _ => idtac
    | |- spec _ (if _ then _ else _) _ => idtac
    | |- _ => sp ltac:(leaf3 IH ha hm again)
    end.
  - (* an assignment *)
    destruct (tt_eqb (t_type token) TAssignment); [|sp ltac:(leaf3 IH ha hm again)].
    destruct cur1; try solve [apply spec_ret; inc].
    eapply spec_bind; [apply ha|]. intros dt. apply spec_opt_bind. intros d hd.
    eapply spec_bind; [apply spec_new_local; eapply local_assigned; eauto|]. intros child.
    eapply spec_bind; [apply spec_declare; decl|]. intros. apply IH; auto.
  - (* a literal *)
    assert (hd : spec l (elet sc <- eget r_container in
                         elet o <- resolve_type_ref fuel (tref_one [token]) sc true in
                         eret (Root o VPublic chain)) none) by sp2.
    destruct (t_type token); try exact hd; clear hd; sp2.
Qed.

Lemma spec_member_type : forall fuel file_name link ls root l,
  spec l (member_type fuel file_name link root ls) none.
Proof.
  induction ls as [|dt ls IH]; intros root l; cbn [member_type]; [apply spec_ret; inc|].
  sp ltac:(idtac; lazymatch goal with
           | |- spec _ (member_type _ _ _ _ _) _ => apply IH
           | |- _ => leaf2
           end).
Qed.

Lemma spec_follow_chain : forall fuel file file_name minimal chain root l,
  spec l (follow_chain fuel file file_name minimal root chain) none.
Proof.
  induction chain as [|link chain IH]; intros root l; cbn [follow_chain]; [apply spec_ret; inc|].
  eapply spec_bind; [apply spec_opt|]. intros [ln|]; [|apply spec_ret; inc].
  eapply spec_bind; [apply spec_all_symbols|]. intros ms.
  destruct (find str_eqb (to_lowercase ln) ms) as [child|]; [|sp2].
  eapply spec_bind; [apply spec_data|]. intros cd.
  destruct (vis_ge (al_vis child) minimal); [|sp2].
  eapply (spec_bind _ _ _ _ _ none); [sp2|]. intros _u.
  eapply (spec_bind _ _ _ _ _ none); [destruct link; try solve [apply spec_ret; inc]; sp2|]. intros _v.
  assert (hd : spec (none _v ++ none _u ++ (fun _ => [Al (al_symbol child)]) cd ++ none ms ++ none (Some ln) ++ l)
      (follow_chain fuel file file_name minimal (al_symbol child) chain) none) by apply IH.
  destruct (y_kind cd); try exact hd;
    (eapply spec_bind; [apply spec_member_type|]; intros [r|]; [apply IH|apply spec_ret; inc]).
Qed.

Lemma spec_member : forall fuel file node l, spec l (resolve_member_type fuel file node) none.
Proof.
  induction fuel as [|fuel IH]; intros file node l; [apply spec_fuel|]. cbn [resolve_member_type].
  eapply spec_bind; [apply spec_chain_root; intros; apply IH|]. intros [o|root minimal chain].
  - apply spec_ret; inc.
  - sp ltac:(idtac; lazymatch goal with
             | |- spec _ (follow_chain _ _ _ _ _ _) _ => apply spec_follow_chain
             | |- _ => leaf2
             end).
Qed.

Lemma spec_resolve_each : forall fuel ls parent l, spec l (resolve_each fuel ls parent) none.
Proof. intros. unfold resolve_each. apply spec_iter. intros. sp2. Qed.

Lemma spec_resolved_ref : forall fuel tr parent l, spec l (resolved_ref fuel tr parent) none.
Proof. intros. unfold resolved_ref. sp2. Qed.

Ltac leaf4 := idtac; lazymatch goal with
  | |- spec _ (new_local _) _ =>
      apply spec_new_local; solve [eauto using local_of_token, local_assigned, local_with_types]
  | |- spec _ (resolve_each _ _ _) _ => uses spec_resolve_each ltac:(idtac)
  | |- spec _ (resolved_ref _ _ _) _ => uses spec_resolved_ref ltac:(idtac)
  | |- spec _ (emap _ _) _ => apply spec_map; intros; leaf4
  | |- spec _ (resolve_member_type _ _ _) _ => uses spec_member ltac:(idtac)
  | |- _ => leaf2
  end.
Ltac sp4 := sp leaf4.

Lemma spec_enter : forall l c, In (Al c) l -> spec l (enter_class c) none.
Proof. intros. unfold enter_class. sp2. Qed.

Definition doc_ok (n : Node) : Prop :=
  match n with
  | NDocCommentVar name _ _ => forall k, t_label name = Some k -> P k
  | _ => True
  end.

Lemma spec_local_none : forall A l t (f : option N -> R A) ids, t_label t = None ->
  spec l (f None) ids -> spec l (ebind (get_local t) f) ids.
Proof.
  intros A l t f ids h hf s x s' i al e. unfold ebind, get_local in e. rewrite h in e.
  eapply hf; eauto.
Qed.

Lemma spec_visit : forall fuel file node parent l, doc_ok node -> In (Al parent) l ->
  spec l (n_visit fuel file node parent) alo.
Proof.
  intros fuel file node parent l hd hp. destruct node; cbn [n_visit];
    try solve [apply spec_ret; inc];
    lazymatch goal with
    | |- spec _ (if _ then _ else _) _ => idtac
    | |- spec _ (ebind (emap _ _) _) _ => idtac
    | |- spec _ (ebind (eget _) (fun sc => ebind (e_find_kid _ _) _)) _ => idtac
    | |- spec _ (ebind (resolve_type_ref _ (tref_one _) _ _) _) _ =>
        eapply spec_bind; [apply spec_resolve|]; intros [c|]; [|apply spec_ret; inc];
        eapply spec_bind; [apply spec_enter; inc|]; intros; apply spec_ret; inc
    | |- _ => sp4
    end.
  - (* [@var] *)
    eapply spec_bind; [apply spec_map; intros; apply spec_resolved_ref|]. intros dts.
    simpl in hd. destruct (t_label name) as [k|] eqn:el.
    + specialize (hd _ eq_refl).
      eapply spec_bind; [apply (spec_local_na _ _ _ el)|]. intros o.
      eapply (spec_bind _ _ _ _ _ (fun i => [Al i; Na k i])).
      { destruct o as [existing|].
        - eapply spec_bind; [apply spec_update; intros; apply same_with_types|]. intros. apply spec_ret.
          intros y [<-|[<-|[]]]; rewrite !in_app_iff; simpl; auto 9.
        - apply spec_opt_bind. intros d hd'. eapply (spec_imp _ _ _ (fun i => [Al i; Lo i])).
          + apply spec_new. apply local_with_types. eapply local_of_token; eauto.
          + intros x s h. inversion h; subst. inversion H2; subst. constructor; auto. constructor; auto.
            destruct H3 as (d' & e' & q'). exists d'. split; auto. left. auto. }
      intros child. eapply spec_bind; [apply spec_container|]. intros sc.
      eapply spec_bind; [apply spec_append; right; exists k; split; [auto|rewrite !in_app_iff; simpl; auto 9]|].
      intros.
      eapply spec_bind; [apply spec_declare|].
      { split; [rewrite !in_app_iff; simpl; auto 9|].
        right. intros k' e. assert (k' = k) by congruence. subst. rewrite !in_app_iff; simpl; auto 9. }
      intros. apply spec_ret. inc.
    + (* without a name *)
      apply spec_local_none; auto. eapply spec_bind.
      { apply spec_opt_bind. intros d hd'. apply spec_new. apply local_with_types. eapply local_of_token; eauto. }
      intros child. eapply spec_bind; [apply spec_container|]. intros sc.
      eapply spec_bind; [apply spec_append; left; rewrite !in_app_iff; simpl; auto 9|]. intros.
      eapply spec_bind; [apply spec_declare|].
      { split; [|left]; rewrite !in_app_iff; simpl; auto 9. }
      intros. apply spec_ret. inc.
  - (* an assignment *)
    destruct (tt_eqb (t_type token) TAssignment); [|apply spec_ret; inc].
    eapply spec_bind; [apply spec_member|]. intros dt.
    destruct node1; try solve [sp4].
  - (* an argument *)
    eapply spec_bind; [apply spec_container|]. intros sc.
    eapply (spec_bind _ _ _ _ _ (fun o => alo o ++
      match t_label name with Some k => map (Na k) (opt_list o) | None => [] end)).
    { assert (ex : (exists k, t_label name = Some k) \/ t_label name = None)
        by (destruct (t_label name); eauto).
      destruct ex as [[k ek]|ek].
      - eapply spec_weak; [apply (spec_find_named l _ _ _ ek)|apply incl_tl; apply incl_refl|].
        intros x. rewrite ek. apply incl_refl.
      - eapply spec_weak; [apply (spec_find_kid l)|apply incl_tl; apply incl_refl|].
        intros x. rewrite ek, app_nil_r. apply incl_refl. }
    intros [arg|]; [|apply spec_ret; inc].
    assert (dc : forall l', declarable (l' ++ (alo (Some arg) ++
      match t_label name with Some k => map (Na k) (opt_list (Some arg)) | None => [] end) ++ l) name arg).
    { intros l'. split; [rewrite !in_app_iff; simpl; auto|]. right. intros k ek. rewrite ek.
      rewrite !in_app_iff. simpl. auto. }
    eapply spec_bind; [apply spec_data|]. intros d.
    eapply spec_bind; [apply spec_map; intros; apply spec_resolved_ref|]. intros ts.
    eapply spec_bind; [apply spec_update; intros; apply same_with_types|]. intros u1.
    eapply spec_bind; [apply spec_overwrite|].
    { destruct (dc []) as [q1 q2]. split.
      - rewrite !in_app_iff in *. simpl in *. tauto.
      - destruct q2 as [q2|q2]; [left|right; intros k ek; specialize (q2 k ek)];
          rewrite !in_app_iff in *; simpl in *; tauto. }
    intros u2. eapply (spec_bind _ _ _ _ _ none).
    { destruct doc_comment as [dn|]; [|apply spec_ret; inc].
      destruct dn; try solve [apply spec_ret; inc].
      apply spec_reference_local. rewrite !in_app_iff. simpl. auto 9. }
    intros. apply spec_ret. inc.
Qed.

Lemma spec_before : forall file node l, spec l (n_before file node) none.
Proof. intros. destruct node; cbn [n_before]; sp4. Qed.

Lemma spec_after : forall node parent l, In (Al parent) l -> spec l (n_after node parent) none.
Proof. intros. unfold leave_class. destruct node; cbn [n_after]; unfold leave_class; sp4. Qed.

Lemma spec_traverse : forall fuel file node parent l, var_docs_in P node -> In (Al parent) l ->
  spec l (n_traverse fuel file node parent) none.
Proof.
  induction fuel as [|fuel IH]; intros file node parent l hM hp; [apply spec_fuel|]. cbn [n_traverse].
  eapply spec_bind; [apply spec_before|]. intros.
  eapply spec_bind; [apply spec_visit; [|inc]|].
  { apply (hM node). constructor. }
  intros next. eapply (spec_bind _ _ _ _ _ none).
  - destruct next as [p|]; [|apply spec_ret; inc]. apply spec_iter. intros c hc. apply IH; [|inc].
    eapply var_docs_child; eauto.
  - intros. apply spec_after. inc.
Qed.

End WithRuntime.
End Spec.

(** ** Instances *)

Lemma drifts_update : forall i f a a', wf a -> (forall d, same_sym d (f d)) ->
  update i f a = Some a' -> drifts a a'.
Proof. intros i f a a' w h e. apply ex_drifts. eapply extends_update; eauto. Qed.
Lemma drifts_child : forall d p a i a1 a', wf a -> local_kind d ->
  new_node d a = (i, a1) -> append p i a1 = Some a' -> drifts a a' /\ live a' i.
Proof.
  intros d p a i a1 a' w hd e1 e2. destruct (extends_child _ _ _ _ _ _ w hd e1 e2) as [g k].
  split; auto. apply g.
Qed.

(** Symbols with a name in [D] that are no local variables keep their parent. *)
Record pins (D : str -> Prop) (a a' : arena Symbol) : Prop := {
  pi_drifts : drifts a a';
  pi_parent : forall i n, node_of a i = Some n -> ~ local_kind (n_data n) -> D (sym_name (n_data n)) ->
    exists n', node_of a' i = Some n' /\ n_parent n' = n_parent n
}.

Lemma growth_pins : forall D, growth (pins D).
Proof.
  intros D. pose proof growth_drifts as GD. constructor.
  - intros a w. constructor; [apply (gr_refl _ GD); auto|]. eauto.
  - intros a b c w g h. constructor.
    + eapply (gr_trans _ GD); [auto|apply g|apply h].
    + intros i n e k d. destruct (pi_parent _ _ _ g _ _ e k d) as (n1 & e1 & q1).
      destruct (df_data _ _ (pi_drifts _ _ _ g) _ _ (data_node _ _ _ e)) as (d1 & ed & sd).
      assert (d1 = n_data n1) by (unfold data in ed; rewrite e1 in ed; injection ed; auto). subst.
      destruct (same_kind _ _ sd) as [qk qn].
      destruct (pi_parent _ _ _ h _ _ e1) as (n2 & e2 & q2).
      * unfold local_kind in *. rewrite qk. auto.
      * rewrite qn. auto.
      * exists n2. split; congruence.
  - intros a b w g. eapply (gr_wf _ GD); [apply w|apply g].
  - intros a b i w g. eapply (gr_live _ GD); [apply w|apply g].
Qed.

Lemma extends_pins : forall D a a', extends a a' -> pins D a a'.
Proof.
  intros D a a' g. constructor; [apply g|]. intros i n e _ _.
  destruct (ex_parent _ _ g _ _ e) as (n' & new & h1 & h2 & _). eauto.
Qed.

Lemma pins_new : forall D d a i a', wf a -> local_kind d -> new_node d a = (i, a') -> pins D a a'.
Proof.
  intros D d a i a' w hd e. constructor; [eapply drifts_new; eauto|].
  intros j n en _ _. destruct (node_of_new _ _ _ _ e) as (-> & _ & sp). exists n. split; auto.
  rewrite sp. destruct (N.eqb_spec j (a_next a)) as [->|]; auto.
  exfalso. apply (wf_fresh _ w) in en. lia.
Qed.

Lemma pins_move : forall D (P : str -> Prop), (forall k, P k -> k <> lit "this" /\ ~ D k) ->
  forall p c a a' d, wf a -> data a c = Some d -> (local_kind d \/ exists k, P k /\ may_be k d) ->
    append p c a = Some a' -> pins D a a'.
Proof.
  intros D P hP p c a a' d w ed hd e. constructor; [eapply drifts_append; eauto|].
  intros i n en nl dn. destruct (node_of_append _ _ _ _ w e) as (_ & _ & _ & _ & _ & sp).
  destruct (N.eqb_spec i c) as [->|ne].
  - exfalso. assert (n_data n = d) by (unfold data in ed; rewrite en in ed; injection ed; auto). subst d.
    destruct hd as [hd|(k & pk & [hd|[hd|hd]])]; auto.
    + destruct (hP _ pk) as [_ q]. apply q. rewrite <- hd. auto.
    + destruct (hP _ pk) as [q _]. auto.
  - rewrite sp. unfold appended. rewrite en. apply N.eqb_neq in ne. rewrite ne. simpl. eauto.
Qed.

Section Instances.
Context `{RT : Runtime} `{HH : Hashing}.

(** Whatever the tree is, the resolver only adds local variables, sets types
    and moves nodes. *)
Theorem traverse_drifts : forall fuel file node parent s x s',
  rinv s -> live (r_arena s) parent -> n_traverse fuel file node parent s = Done x s' ->
  rinv s' /\ drifts (r_arena s) (r_arena s') /\ r_global s' = r_global s.
Proof.
  intros fuel file node parent s x s' i hp e.
  destruct (spec_traverse drifts growth_drifts (fun _ _ g => g) drifts_update drifts_child drifts_new
    (fun _ => True) (fun p c a a' d w _ _ h => drifts_append p c a a' w h)
    fuel file node parent [Al parent]) with (s := s) (x := x) (s' := s') as (a & b & _ & c); auto.
  - intros m _. destruct m; auto.
  - simpl. auto.
  - constructor; auto.
Qed.

(** If no [@var] comment is about [$this] or a name in [D], then the symbols
    with a name in [D] stay where they are. *)
Theorem traverse_pins : forall D fuel file node parent s x s',
  var_docs_in (fun k => k <> lit "this" /\ ~ D k) node ->
  rinv s -> live (r_arena s) parent -> n_traverse fuel file node parent s = Done x s' ->
  rinv s' /\ pins D (r_arena s) (r_arena s') /\ r_global s' = r_global s.
Proof.
  intros D fuel file node parent s x s' nv i hp e.
  destruct (spec_traverse (pins D) (growth_pins D) (pi_drifts D)) with
    (P := fun k => k <> lit "this" /\ ~ D k) (RT := RT) (HH := HH)
    (fuel := fuel) (file := file) (node := node) (parent := parent) (l := [Al parent])
    (s := s) (x := x) (s' := s') as (a & b & _ & c); auto.
  - intros. apply extends_pins. eapply extends_update; eauto.
  - intros. destruct (extends_child _ _ _ _ _ _ H H0 H1 H2). split; auto. apply extends_pins. auto.
  - intros. eapply pins_new; eauto.
  - apply pins_move. auto.
  - simpl. auto.
  - constructor; auto.
Qed.
End Instances.
