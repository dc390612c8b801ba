(** Property C32: collecting the members of a class ends. *)

From Coq Require Import Permutation.
From Verif Require Import Base Token Scanner Node DocBlock Parser Assoc AssocFacts Arena ArenaFacts
  Symbol EnvMonad EnvFacts Workspace WorkspaceFacts Resolver SpecNames ResolverFacts
  Backend BackendFacts SpecServer ServerInv Prop_Server Prop_Names.

Local Notation findS := (find str_eqb).
Local Existing Instance ascii_runtime | 9.
Local Existing Instance plain_hashing | 9.
Local Open Scope string_scope.
Local Open Scope N_scope.
Local Open Scope list_scope.

(** * C32: specification *)

(** The names of types that a symbol mentions: what it inherits from, the
    traits it uses, its data types, the traits in [insteadof] and [as] rules *)
Definition alteration_names (a : Alteration) : list TypeRef :=
  match a with
  | AltAs _ class _ _ => opt_list class
  | AltInsteadOf class _ l => class :: l
  end.
Definition the_list {A} (o : option (list A)) : list A := match o with Some l => l | None => [] end.
Definition parent_names (d : Symbol) : list TypeRef := map sr_type (the_list (y_inherits d)).
Definition trait_names (d : Symbol) : list TypeRef := map i_path (the_list (y_imports d)).
Definition type_names (d : Symbol) : list TypeRef := map sr_type (y_types d).
Definition links (d : Symbol) : list TypeRef :=
  parent_names d ++ trait_names d ++ type_names d ++
  flat_map alteration_names (the_list (y_alterations d)).

Section C32.
Context {RT : Runtime} {HH : Hashing}.

(** The states that looking up such names leads to.  [ctx] is the place the name
    is looked up from. *)
Inductive looked (s : rst) : rst -> Prop :=
| looked_none : looked s s
| looked_one : forall s1 s2 fuel c ctx d tr o, looked s s1 ->
    data (r_arena s1) c = Some d -> In tr (links d) ->
    resolve_type_ref fuel tr ctx false s1 = Done o s2 -> looked s s2.

(** [means_in s c ctx l n]: one of the names [l] of the symbol [c], looked up
    from [ctx], can be found to mean [n] *)
Definition means_in (s : rst) (l : Symbol -> list TypeRef) (c ctx n : N) : Prop :=
  exists s1 s2 fuel d tr, looked s s1 /\ data (r_arena s1) c = Some d /\
    In tr (l d) /\ resolve_type_ref fuel tr ctx false s1 = Done (Some n) s2.

(** [follows s ctx n]: [n] can be found to be a parent or trait of [ctx], or
    another symbol that is a data type of [ctx] *)
Definition follows (s : rst) (ctx n : N) : Prop :=
  means_in s parent_names ctx ctx n \/ means_in s trait_names ctx ctx n \/
  (n <> ctx /\ means_in s type_names ctx ctx n).
(** [extends_to s ctx c n]: a parent of [c], looked up from [ctx], is [n] *)
Definition extends_to (s : rst) (ctx c n : N) : Prop :=
  means_in s parent_names c ctx n.

(** The current class does not inherit from [parent] *)
Definition sane_class (s : rst) : Prop :=
  forall c d r, r_class s = Some c -> data (r_arena s) c = Some d ->
    In r (the_list (y_inherits d)) -> tref_root (sr_type r) <> Some (Some (lit "parent")).

(** * Proofs *)

(** Lookups leave the arena and the current class alone *)
Definition kept {A} (m : R A) : Prop :=
  forall s x s', m s = Done x s' -> r_arena s' = r_arena s /\ r_class s' = r_class s.
Lemma kept_ret : forall A (x : A), kept (eret x).
Proof. intros A x s y s' e. injection e as <- <-. auto. Qed.
Lemma kept_panic : forall A, kept (@epanic rst A).
Proof. intros A s y s' e. discriminate e. Qed.
Lemma kept_opt : forall A (o : option A), kept (eopt o).
Proof. intros A [x|]; [apply kept_ret|apply kept_panic]. Qed.
Lemma kept_get : forall A (f : rst -> A), kept (eget f).
Proof. intros A f s y s' e. injection e as <- <-. auto. Qed.
Lemma kept_bind : forall A B (m : R A) (f : A -> R B), kept m -> (forall x, kept (f x)) -> kept (ebind m f).
Proof.
  intros A B m f hm hf s x s' e. unfold ebind in e. destruct (m s) as [y s1| |] eqn:e1; try discriminate e.
  destruct (hm _ _ _ e1) as [h1 h2]. destruct (hf _ _ _ _ e) as [h3 h4]. split; congruence.
Qed.
Lemma kept_fold : forall A B (f : B -> A -> R B) l b, (forall x y, kept (f x y)) -> kept (efold f b l).
Proof. intros A B f l. induction l; intros b h; cbn [efold]; [apply kept_ret|apply kept_bind; auto]. Qed.
Lemma kept_find : forall A B (f : A -> R (option B)) l, (forall x, kept (f x)) -> kept (efind f l).
Proof.
  intros A B f l h. induction l; cbn [efind]; [apply kept_ret|]. apply kept_bind; auto.
  intros [x|]; auto. apply kept_ret.
Qed.
Lemma kept_note : forall n, kept (note n).
Proof. intros n s x s' e. injection e as <- <-. auto. Qed.
Lemma kept_put : forall k v, kept (cache_put k v).
Proof. intros k v s x s' e. injection e as <- <-. auto. Qed.
Lemma kept_reference : forall f r n, kept (reference f r n).
Proof. intros f r n s x s' e. injection e as <- <-. auto. Qed.
Lemma kept_data : forall i, kept (e_data i).
Proof. intros i s x s' e. unfold e_data in e. destruct (data _ _); [injection e as <- <-; auto|discriminate e]. Qed.
Lemma kept_kids : forall i, kept (e_kids i).
Proof. intros i s x s' e. unfold e_kids in e. destruct (kids _ _); [injection e as <- <-; auto|discriminate e]. Qed.
Lemma kept_top : forall i, kept (e_top i).
Proof. intros i s x s' e. unfold e_top in e. destruct (top _ _); [injection e as <- <-; auto|discriminate e]. Qed.
Ltac kp := repeat first
  [ assumption | apply kept_ret | apply kept_panic | apply kept_opt | apply kept_get | apply kept_note | apply kept_put
  | apply kept_reference | apply kept_data | apply kept_kids | apply kept_top
  | apply kept_bind; [|intros ?]
  | apply kept_fold; intros ? ? | apply kept_find; intros ?
  | match goal with |- kept (match ?x with _ => _ end) => destruct x end ].

Lemma kept_resolve : forall fuel tr ctx b, kept (resolve_type_ref fuel tr ctx b).
Proof.
  induction fuel as [|fuel IH]; intros tr ctx b; cbn [resolve_type_ref]; [intros s x s' e; discriminate e|].
  unfold unique_parent, parent_nodes, current_namespace. kp; apply IH.
Qed.

Lemma looked_kept : forall s s1, looked s s1 -> r_arena s1 = r_arena s /\ r_class s1 = r_class s.
Proof.
  induction 1 as [|s1 s2 fuel c ctx d tr o h [h1 h2] hd hin e]; auto.
  destruct (kept_resolve _ _ _ _ _ _ _ e). split; congruence.
Qed.

(** The same computation, that does not run out of fuel, whenever the arena is
    [a] and the current class [c] *)
Section Flat.
Variables (a : arena Symbol) (c : option N).
Definition flat {A} (m1 m2 : R A) : Prop :=
  forall s, r_arena s = a -> r_class s = c -> m1 s = m2 s /\
    match m1 s with Done _ s' => r_arena s' = a /\ r_class s' = c | Panic => True | Fuel => False end.
Lemma flat_same : forall A (m : R A), kept m -> (forall s, m s <> Fuel) -> flat m m.
Proof.
  intros A m h1 h2 s ha hc. split; [reflexivity|]. specialize (h2 s). destruct (m s) as [x s'| |] eqn:e; auto.
  destruct (h1 _ _ _ e). split; congruence.
Qed.
Lemma flat_ret : forall A (x : A), flat (eret x) (eret x).
Proof. intros A x. apply flat_same; [apply kept_ret|discriminate]. Qed.
Lemma flat_panic : forall A, flat (@epanic rst A) epanic.
Proof. intros A. apply flat_same; [apply kept_panic|discriminate]. Qed.
Lemma flat_opt : forall A (o : option A), flat (eopt o) (eopt o).
Proof. intros A [x|]; [apply flat_ret|apply flat_panic]. Qed.
Lemma flat_get : forall A (f : rst -> A), flat (eget f) (eget f).
Proof. intros A f. apply flat_same; [apply kept_get|discriminate]. Qed.
Lemma flat_bind : forall A B (m1 m2 : R A) (f1 f2 : A -> R B), flat m1 m2 -> (forall x, flat (f1 x) (f2 x)) ->
  flat (ebind m1 f1) (ebind m2 f2).
Proof.
  intros A B m1 m2 f1 f2 hm hf s ha hc. unfold ebind. destruct (hm s ha hc) as [e h]. rewrite <- e.
  destruct (m1 s) as [x s1| |]; [apply hf; apply h|auto..].
Qed.
Lemma flat_fold : forall A B (f1 f2 : B -> A -> R B) l b,
  (forall x y, In y l -> flat (f1 x y) (f2 x y)) -> flat (efold f1 b l) (efold f2 b l).
Proof.
  intros A B f1 f2 l. induction l as [|y l IH]; intros b h; cbn [efold]; [apply flat_ret|].
  apply flat_bind; [apply h; left; reflexivity|]. intros x. apply IH. intros. apply h. right. assumption.
Qed.
Lemma flat_find : forall A B (f1 f2 : A -> R (option B)) l, (forall x, flat (f1 x) (f2 x)) ->
  flat (efind f1 l) (efind f2 l).
Proof.
  intros A B f1 f2 l h. induction l; cbn [efind]; [apply flat_ret|]. apply flat_bind; auto.
  intros [x|]; auto. apply flat_ret.
Qed.
Lemma flat_note : forall n, flat (note n) (note n).
Proof. intros n. apply flat_same; [apply kept_note|discriminate]. Qed.
Lemma flat_put : forall k v, flat (cache_put k v) (cache_put k v).
Proof. intros k v. apply flat_same; [apply kept_put|discriminate]. Qed.
Lemma flat_reference : forall f r n, flat (reference f r n) (reference f r n).
Proof. intros f r n. apply flat_same; [apply kept_reference|discriminate]. Qed.
Lemma flat_data : forall i, flat (e_data (S := rst) i) (e_data i).
Proof. intros i. apply flat_same; [apply kept_data|]. intros s. unfold e_data. destruct (data _ _); discriminate. Qed.
Lemma flat_kids : forall i, flat (e_kids (S := rst) i) (e_kids i).
Proof. intros i. apply flat_same; [apply kept_kids|]. intros s. unfold e_kids. destruct (kids _ _); discriminate. Qed.
Lemma flat_top : forall i, flat (e_top (S := rst) i) (e_top i).
Proof. intros i. apply flat_same; [apply kept_top|]. intros s. unfold e_top. destruct (top _ _); discriminate. Qed.
Lemma flat_some : forall A B (x : A) (f1 f2 : A -> R B), flat (f1 x) (f2 x) ->
  flat (ebind (eopt (Some x)) f1) (ebind (eopt (Some x)) f2).
Proof. intros A B x f1 f2 h s. exact (h s). Qed.
Lemma flat_class : forall B (f1 f2 : option N -> R B), flat (f1 c) (f2 c) ->
  flat (ebind (eget r_class) f1) (ebind (eget r_class) f2).
Proof. intros B f1 f2 h s ha hc. unfold ebind, eget. rewrite hc. apply h; auto. Qed.
Lemma flat_data_bind : forall B i (f1 f2 : Symbol -> R B), (forall d, data a i = Some d -> flat (f1 d) (f2 d)) ->
  flat (ebind (e_data i) f1) (ebind (e_data i) f2).
Proof.
  intros B i f1 f2 h s ha hc. unfold ebind, e_data. cbn [the_arena rst_arena]. rewrite ha.
  destruct (data a i) as [d|] eqn:e; [apply h; auto|auto].
Qed.
Ltac fl := repeat first
  [ apply flat_ret | apply flat_panic | apply flat_opt | apply flat_get
  | apply flat_note | apply flat_put | apply flat_reference | apply flat_data | apply flat_kids | apply flat_top
  | apply flat_bind; [|intros ?]
  | apply flat_find; intros ?
  | match goal with |- flat (match ?x with _ => _ end) _ => destruct x end ].

(** The fuel is only used for [parent] *)
Lemma resolve_flat_gen : forall tr ctx b k n,
  (tref_root tr = Some (Some (lit "parent")) ->
   forall d i, c = Some i -> data a i = Some d ->
     flat (unique_parent (resolve_type_ref k) d i) (unique_parent (resolve_type_ref n) d i)) ->
  flat (resolve_type_ref (S k) tr ctx b) (resolve_type_ref (S n) tr ctx b).
Proof.
  intros tr ctx b k n hp. cbn [resolve_type_ref].
  destruct (tref_is_builtin tr || tref_is_empty tr); [apply flat_ret|].
  apply flat_bind; [fl|intros file]. apply flat_bind; [fl|intros fs].
  destruct (tref_root tr) as [root|]; [|exact (flat_panic _)].
  destruct root as [name|]; [|exact (flat_panic _)].
  apply flat_some. apply flat_some. apply flat_bind; [fl|intros range]. apply flat_bind; [fl|intros cache].
  destruct (find unique_eqb (file, range) cache); [apply flat_ret|].
  apply flat_class. destruct (str_eqb name (lit "self") || str_eqb name (lit "static")); [fl|].
  destruct (str_eqb_spec name (lit "parent")) as [q|ne].
  - rewrite q in hp. destruct c as [i|]; [|fl]. apply flat_data_bind. intros d hd.
    apply flat_bind; [apply hp; auto|]. intros p. fl.
  - unfold current_namespace. fl.
Qed.
Lemma resolve_flat : forall tr ctx b k n, tref_root tr <> Some (Some (lit "parent")) ->
  flat (resolve_type_ref (S k) tr ctx b) (resolve_type_ref (S n) tr ctx b).
Proof. intros tr ctx b k n h. apply resolve_flat_gen. intros e. contradiction. Qed.
Lemma resolve_flat2 : forall tr ctx b k n,
  (forall i d r, c = Some i -> data a i = Some d -> In r (the_list (y_inherits d)) ->
     tref_root (sr_type r) <> Some (Some (lit "parent"))) ->
  flat (resolve_type_ref (S (S k)) tr ctx b) (resolve_type_ref (S (S n)) tr ctx b).
Proof.
  intros tr ctx b k n h. apply resolve_flat_gen. intros _ d i hi hd. unfold unique_parent, parent_nodes.
  apply flat_bind; [|intros; apply flat_ret]. apply flat_fold. intros m r hin.
  apply flat_bind; [apply resolve_flat; eapply h; eauto|]. intros [x|]; fl.
Qed.
End Flat.

Section Ends.
Variable s : rst.
Hypothesis sane : sane_class s.

(** From a state that lookups lead to, the computation ends, in such a state
    and with a result in [P], and does so with every larger fuel *)
Definition good {A} (P : A -> Prop) (o : out rst A) : Prop :=
  match o with Done x s2 => looked s s2 /\ P x | Panic => True | Fuel => False end.
Definition ends {A} (m : nat -> R A) (P : A -> Prop) : Prop :=
  forall s1, looked s s1 -> exists o, good P o /\ exists n, forall k, (n <= k)%nat -> m k s1 = o.

Lemma ends_S : forall A (m : nat -> R A) P, ends (fun n => m (S n)) P -> ends m P.
Proof.
  intros A m P h s1 l. destruct (h s1 l) as (o & g & n & e). exists o. split; [exact g|].
  exists (S n). intros [|k] hk; [lia|]. apply e. lia.
Qed.
Lemma ends_const : forall A (m : R A) (P : A -> Prop),
  (forall s1, looked s s1 -> match m s1 with Done x s2 => s2 = s1 /\ P x | Panic => True | Fuel => False end) ->
  ends (fun _ => m) P.
Proof.
  intros A m P h s1 l. specialize (h s1 l). exists (m s1). split; [|exists O; reflexivity].
  unfold good. destruct (m s1); auto. destruct h as [-> h]. auto.
Qed.
Lemma ends_ret : forall A (x : A) (P : A -> Prop), P x -> ends (fun _ => eret x) P.
Proof. intros A x P h. apply ends_const. intros. cbn. auto. Qed.
Lemma ends_opt : forall A (o : option A), ends (fun _ => eopt o) (fun x => o = Some x).
Proof. intros A [x|]; apply ends_const; intros; cbn; auto. Qed.
Lemma ends_data : forall i, ends (fun _ => e_data i) (fun d => data (r_arena s) i = Some d).
Proof.
  intros i. apply ends_const. intros s1 l. unfold e_data. cbn [the_arena rst_arena].
  destruct (looked_kept _ _ l) as [e _]. rewrite e. destruct (data (r_arena s) i); auto.
Qed.
Lemma ends_kids : forall i, ends (fun _ => e_kids i) (fun _ => True).
Proof.
  intros i. apply ends_const. intros s1 l. unfold e_kids. destruct (kids _ _); auto.
Qed.
Lemma ends_bind : forall A B (m : nat -> R A) (f : nat -> A -> R B) P P', ends m P ->
  (forall x, P x -> ends (fun n => f n x) P') -> ends (fun n => ebind (m n) (f n)) P'.
Proof.
  intros A B m f P P' hm hf s1 l. destruct (hm s1 l) as (o & g & n & e).
  destruct o as [x s2| |]; cbn in g; [|exists Panic; split; [exact I|]; exists n; intros k hk; unfold ebind; rewrite (e k hk); reflexivity|contradiction].
  destruct g as [l2 p]. destruct (hf x p s2 l2) as (o2 & g2 & n2 & e2).
  exists o2. split; [exact g2|]. exists (Nat.max n n2). intros k hk. unfold ebind.
  rewrite (e k) by lia. apply e2. lia.
Qed.
Lemma ends_weak : forall A (m : nat -> R A) (P P' : A -> Prop), ends m P -> (forall x, P x -> P' x) -> ends m P'.
Proof.
  intros A m P P' h hp s1 l. destruct (h s1 l) as (o & g & n & e). exists o. split; [|exists n; exact e].
  destruct o; cbn in *; intuition.
Qed.
Lemma ends_fold : forall A B (f : nat -> B -> A -> R B) l b,
  (forall x y, In y l -> ends (fun n => f n x y) (fun _ => True)) -> ends (fun n => efold (f n) b l) (fun _ => True).
Proof.
  intros A B f l. induction l as [|y l IH]; intros b h; cbn [efold]; [apply ends_ret; exact I|].
  eapply ends_bind; [apply h; left; reflexivity|]. intros x _. apply IH. intros. apply h. right. assumption.
Qed.
(** ... with an invariant *)
Lemma ends_fold_inv : forall A B (f : nat -> B -> A -> R B) (I : B -> Prop) l b,
  I b -> (forall x y, I x -> In y l -> ends (fun n => f n x y) I) -> ends (fun n => efold (f n) b l) I.
Proof.
  intros A B f I l. induction l as [|y l IH]; intros b hb h; cbn [efold]; [apply ends_ret; exact hb|].
  eapply ends_bind; [apply h; [exact hb|left; reflexivity]|]. intros x hx. apply IH; [exact hx|].
  intros. apply h; [assumption|]. right. assumption.
Qed.
Lemma ends_find : forall A B (f : nat -> A -> R (option B)) l,
  (forall x, In x l -> ends (fun n => f n x) (fun _ => True)) -> ends (fun n => efind (f n) l) (fun _ => True).
Proof.
  intros A B f l. induction l as [|y l IH]; intros h; cbn [efind]; [apply ends_ret; exact I|].
  eapply ends_bind; [apply h; left; reflexivity|]. intros [x|] _; [apply ends_ret; exact I|].
  apply IH. intros. apply h. right. assumption.
Qed.

(** Looking up a name ends *)
Lemma resolve_settles : forall tr ctx b s1, looked s s1 -> exists o, o <> Fuel /\
  exists n, forall k, (n <= k)%nat -> resolve_type_ref k tr ctx b s1 = o.
Proof.
  intros tr ctx b s1 l. destruct (looked_kept _ _ l) as [ha hc].
  assert (H : forall k n, resolve_type_ref (S (S k)) tr ctx b s1 = resolve_type_ref (S (S n)) tr ctx b s1
                          /\ resolve_type_ref (S (S k)) tr ctx b s1 <> Fuel).
  { intros k n. destruct (resolve_flat2 (r_arena s) (r_class s) tr ctx b k n) with (s := s1) as [h1 h2]; auto.
    split; [exact h1|]. intros e. rewrite e in h2. exact h2. }
  exists (resolve_type_ref 2 tr ctx b s1). split; [apply (H O O)|]. exists 2%nat.
  intros k hk. destruct k as [|[|k]]; [lia..|]. apply H.
Qed.
Lemma ends_resolve : forall l c ctx d tr, data (r_arena s) c = Some d -> In tr (l d) -> incl (l d) (links d) ->
  ends (fun n => resolve_type_ref n tr ctx false) (fun o => forall n, o = Some n -> means_in s l c ctx n).
Proof.
  intros l c ctx d tr hd hin hi s1 hl. destruct (looked_kept _ _ hl) as [ha _].
  destruct (resolve_settles tr ctx false s1 hl) as (o & h & n & e). exists o. split; [|exists n; exact e].
  destruct o as [x s2| |]; [|exact I|congruence]. specialize (e n (le_n n)). cbn. split.
  - eapply looked_one; [exact hl|rewrite ha; exact hd|apply hi, hin|exact e].
  - intros m ->. exists s1, s2, n, d, tr. rewrite ha. auto.
Qed.

(** ** The members of a class *)
Lemma links_parent : forall d, incl (parent_names d) (links d).
Proof. intros d x h. unfold links. rewrite !in_app_iff. auto. Qed.
Lemma links_trait : forall d, incl (trait_names d) (links d).
Proof. intros d x h. unfold links. rewrite !in_app_iff. auto. Qed.
Lemma links_type : forall d, incl (type_names d) (links d).
Proof. intros d x h. unfold links. rewrite !in_app_iff. auto. Qed.

Section All.
Variables (ctx : N) (me : Symbol).
Hypothesis hme : data (r_arena s) ctx = Some me.
Hypothesis rec : forall n, follows s ctx n -> ends (fun k => get_all_symbols k n) (fun _ => True).

Lemma ends_links : forall tr, In tr (links me) -> ends (fun n => resolve_type_ref n tr ctx false) (fun _ => True).
Proof.
  intros tr h. eapply ends_weak; [apply (ends_resolve links ctx ctx me tr hme h); apply incl_refl|]. auto.
Qed.
Lemma ends_own : ends (fun _ => own_symbols ctx) (fun _ => True).
Proof.
  unfold own_symbols. eapply ends_bind; [apply ends_kids|]. intros l _. apply ends_fold. intros x y _.
  eapply ends_bind; [apply ends_data|]. intros d _. apply ends_ret. exact I.
Qed.
Lemma ends_traits : ends (fun n => trait_symbols (resolve_type_ref n) (get_all_symbols n) me ctx) (fun _ => True).
Proof.
  unfold trait_symbols. apply ends_fold. intros m i hi.
  eapply ends_bind.
  { apply (ends_resolve trait_names ctx ctx me (i_path i) hme); [apply in_map; exact hi|apply links_trait]. }
  intros [t|] ht; [|apply ends_ret; exact I]. eapply ends_bind; [apply ends_data|]. intros d _.
  destruct (negb (kind_eqb (y_kind d) KTrait)); [apply ends_ret; exact I|].
  eapply ends_bind; [apply rec; right; left; apply ht; reflexivity|]. intros ms _. apply ends_ret. exact I.
Qed.
Lemma ends_resolve_all : forall l, incl l (links me) ->
  ends (fun n => resolve_all (resolve_type_ref n) ctx l) (fun _ => True).
Proof.
  induction l as [|tr l IH]; intros h; cbn [resolve_all]; [apply ends_ret; exact I|].
  eapply ends_bind; [apply ends_links; apply h; left; reflexivity|]. intros o _.
  eapply ends_bind; [apply IH; intros x hx; apply h; right; exact hx|]. intros r _. apply ends_ret. exact I.
Qed.
Lemma ends_types : forall l, incl l (type_names me) ->
  ends (fun n => resolve_all (resolve_type_ref n) ctx l)
    (fun r => forall n, In n r -> means_in s type_names ctx ctx n).
Proof.
  induction l as [|tr l IH]; intros h; cbn [resolve_all]; [apply ends_ret; intros n []|].
  eapply ends_bind.
  { apply (ends_resolve type_names ctx ctx me tr hme); [apply h; left; reflexivity|apply links_type]. }
  intros o ho. eapply ends_bind; [apply IH; intros x hx; apply h; right; exact hx|]. intros r hr.
  apply ends_ret. intros n hn. apply in_app_iff in hn. destruct hn as [hn|hn]; [|auto].
  destruct o as [m|]; [|destruct hn]. destruct hn as [<-|[]]. auto.
Qed.
Lemma links_alt : forall alt, In alt (the_list (y_alterations me)) -> incl (alteration_names alt) (links me).
Proof.
  intros alt h x hx. unfold links. rewrite !in_app_iff. right. right. right. apply in_flat_map. eauto.
Qed.
Lemma ends_insteadof : forall m alt, In alt (the_list (y_alterations me)) ->
  ends (fun n => apply_insteadof (resolve_type_ref n) ctx m alt) (fun _ => True).
Proof.
  intros m alt h. pose proof (links_alt alt h) as hl. destruct alt as [v c mem al|c mem l]; cbn [apply_insteadof alteration_names] in *.
  - apply ends_ret. exact I.
  - eapply ends_bind; [apply ends_resolve_all; intros x hx; apply hl; right; exact hx|]. intros losers _.
    eapply ends_bind; [apply ends_links; apply hl; left; reflexivity|]. intros w _. apply ends_ret. exact I.
Qed.
Lemma ends_as : forall orig m alt, In alt (the_list (y_alterations me)) ->
  ends (fun n => apply_as (resolve_type_ref n) ctx orig m alt) (fun _ => True).
Proof.
  intros orig m alt h. pose proof (links_alt alt h) as hl. destruct alt as [v c mem al|c mem l]; cbn [apply_as alteration_names] in *.
  - destruct al as [al|]; [|apply ends_ret; exact I]. destruct (t_label al) as [label|]; [|apply ends_ret; exact I].
    eapply ends_bind with (P := fun _ => True); [|intros; apply ends_ret; exact I].
    destruct c as [c|]; [|apply ends_ret; exact I].
    eapply ends_bind; [apply ends_links; apply hl; left; reflexivity|]. intros o _. apply ends_ret. exact I.
  - apply ends_ret. exact I.
Qed.
Lemma ends_imports : ends (fun n => get_imports (resolve_type_ref n) (get_all_symbols n) me ctx) (fun _ => True).
Proof.
  unfold get_imports. eapply ends_bind; [apply ends_traits|]. intros all _. cbv zeta.
  eapply ends_bind; [apply ends_fold; intros; apply ends_insteadof; assumption|]. intros kept_ _.
  eapply ends_bind; [apply ends_opt|]. intros children _. apply ends_fold. intros. apply ends_as. assumption.
Qed.
Lemma parents_values : forall (c anchor : N) d, data (r_arena s) c = Some d ->
  ends (fun n => parent_nodes (resolve_type_ref n) d anchor)
    (fun m => forall p, In p m -> means_in s parent_names c anchor (snd p)).
Proof.
  intros c anchor d hd. unfold parent_nodes. apply ends_fold_inv; [intros p []|].
  intros m r hm hr. eapply ends_bind.
  { apply (ends_resolve parent_names c anchor d (sr_type r) hd); [apply in_map; exact hr|apply links_parent]. }
  intros [n|] hn; [|apply ends_ret; exact hm]. eapply ends_bind; [apply ends_data|]. intros dn _.
  apply ends_ret. intros p hp. apply in_put in hp. destruct hp as [->|hp]; [apply hn; reflexivity|auto].
Qed.
Lemma ends_inherited : ends (fun n => inherited_symbols (resolve_type_ref n) (get_all_symbols n) me ctx) (fun _ => True).
Proof.
  unfold inherited_symbols. eapply ends_bind; [apply (parents_values ctx ctx me hme)|]. intros parents hp.
  eapply ends_bind; [|intros; apply ends_ret; exact I]. apply ends_fold. intros cur p hin.
  eapply ends_bind; [|intros; apply ends_ret; exact I]. apply rec. left. apply hp.
  eapply Permutation_in; [apply h_perm|exact hin].
Qed.
Lemma ends_all : ends (fun n => get_all_symbols n ctx) (fun _ => True).
Proof.
  apply ends_S. cbn [get_all_symbols]. eapply ends_bind; [apply ends_data|]. intros me' h'.
  rewrite hme in h'. injection h' as <-. eapply ends_bind; [apply ends_own|]. intros own _.
  eapply ends_bind; [apply ends_imports|]. intros imp _. cbv zeta.
  eapply ends_bind; [apply (ends_types (type_names me)); apply incl_refl|]. intros types ht.
  eapply ends_bind with (P := fun _ => True).
  { apply ends_fold. intros m dt hin. destruct (N.eqb_spec dt ctx) as [|ne]; [apply ends_ret; exact I|].
    eapply ends_bind; [|intros; apply ends_ret; exact I]. apply rec. right. right. auto. }
  intros m _. eapply ends_bind; [apply ends_inherited|]. intros. apply ends_ret. exact I.
Qed.
End All.

Lemma ends_members : forall ctx, Acc (fun n c => follows s c n) ctx -> ends (fun n => get_all_symbols n ctx) (fun _ => True).
Proof.
  induction 1 as [ctx _ IH]. destruct (data (r_arena s) ctx) as [me|] eqn:e.
  - apply (ends_all ctx me e IH).
  - apply ends_S. intros s1 l. exists Panic. split; [exact I|]. exists O. intros k _. cbn [get_all_symbols].
    unfold ebind, e_data. cbn [the_arena rst_arena]. destruct (looked_kept _ _ l) as [-> _]. rewrite e. reflexivity.
Qed.

Lemma ends_child : forall ctx q c d, Acc (fun n c => extends_to s ctx c n) c -> data (r_arena s) c = Some d ->
  ends (fun n => is_child_of n d ctx q) (fun _ => True).
Proof.
  intros ctx q c d h. revert d. induction h as [c _ IH]. intros d hd. apply ends_S. cbn [is_child_of].
  eapply ends_bind; [apply (parents_values c ctx d hd)|]. intros parents hp.
  eapply ends_bind; [|intros; apply ends_ret; exact I]. apply ends_find. intros p hin.
  destruct (snd p =? q); [apply ends_ret; exact I|].
  eapply ends_bind; [apply ends_data|]. intros d' hd'. eapply ends_bind; [|intros; apply ends_ret; exact I].
  apply (IH (snd p)); [|exact hd']. apply hp. eapply Permutation_in; [apply h_perm|exact hin].
Qed.
End Ends.

(** * C32 *)

(** If no class is its own ancestor - following parents, traits and data types -
    and the current class does not inherit from [parent], then collecting the
    members of a class ends, and so does the test for a parent class. *)
Theorem C32_members_partial : forall s ctx, sane_class s ->
  Acc (fun n c => follows s c n) ctx ->
  exists n o, o <> Fuel /\ forall k, (n <= k)%nat -> get_all_symbols k ctx s = o.
Proof.
  intros s ctx h hacc. destruct (ends_members s h ctx hacc s (looked_none s)) as (o & g & n & e).
  exists n, o. split; [|exact e]. intros ->. exact g.
Qed.
Theorem C32_child_partial : forall s ctx q c d, sane_class s -> data (r_arena s) c = Some d ->
  Acc (fun n c => extends_to s ctx c n) c ->
  exists n o, o <> Fuel /\ forall k, (n <= k)%nat -> is_child_of k d ctx q s = o.
Proof.
  intros s ctx q c d h hd hacc. destruct (ends_child s h ctx q c d hacc hd s (looked_none s)) as (o & g & n & e).
  exists n, o. split; [|exact e]. intros ->. exact g.
Qed.

End C32.

(** ** C32: a case *)

Definition indexed (x y : string) : bst := state_after [(disk2 x y, EvIndex [pA; pB])].
Definition resolver_of (x : string) : rst :=
  let s := indexed "<?php" x in resolver_new (b_arena s) (b_global s) 1.

Definition state32 : rst := resolver_of "<?php class A { } class B extends A { function f() { } }".

(** The three names of types in it, where they are written and what they mean *)
Definition names32 : list TypeRef :=
  Eval vm_compute in flat_map (fun p => links (n_data (snd p))) (a_nodes (r_arena state32)).
Definition meanings32 : list (NodeRange * N) :=
  [(mkRange 12 0 13 0, 2); (mkRange 34 0 35 0, 2); (mkRange 24 0 25 0, 4)].
Definition with_rest (s : rst) (sc : list (list (str * N))) (ct : N) (rf : list (N * list (NodeRange * N)))
    (dg : list Notification) (ca : list (unique_range * option N)) : rst :=
  mkRst (r_arena s) (r_global s) sc (r_class s) ct rf dg ca.

Lemma data_in : forall (a : arena Symbol) c d, data a c = Some d ->
  In (c, d) (map (fun p => (fst p, n_data (snd p))) (a_nodes a)).
Proof.
  intros a c d h. unfold data, node_of in h. destruct (find N.eqb c (a_nodes a)) as [x|] eqn:e; [|discriminate h].
  apply (find_in _ N.eqb_spec) in e. cbn in h. injection h as <-.
  apply (in_map (fun p => (fst p, n_data (snd p)))) in e. exact e.
Qed.
Lemma top_live : forall (a : arena Symbol) c t, top a c = Some t -> exists d, data a c = Some d.
Proof.
  intros a c t h. unfold top, ancestors in h. cbn [climb] in h. unfold data.
  destruct (node_of a c) as [n|]; [eexists; reflexivity|discriminate h].
Qed.
Definition symbols32 : list (N * Symbol) :=
  Eval vm_compute in map (fun p => (fst p, n_data (snd p))) (a_nodes (r_arena state32)).
Lemma symbols32_eq : map (fun p => (fst p, n_data (snd p))) (a_nodes (r_arena state32)) = symbols32.
Proof. vm_compute. reflexivity. Qed.
Lemma links32 : forall c d tr, In (c, d) symbols32 -> In tr (links d) -> In tr names32.
Proof.
  intros c d tr h hin.
  assert (q : names32 = flat_map (fun p => links (snd p)) symbols32) by (vm_compute; reflexivity).
  rewrite q. apply in_flat_map. exists (c, d). auto.
Qed.
Definition meaning32 (tr : TypeRef) : option N :=
  match tref_range tr with
  | Some r => opt_map snd (List.find (fun p => range_eqb r (fst p)) meanings32)
  | None => None
  end.
Definition file32 (c : N) : N := if c =? 0 then 0 else 1.
Lemma resolve_prefix : forall fuel tr ctx s file fd name r,
  tref_is_builtin tr || tref_is_empty tr = false -> top (r_arena s) ctx = Some file ->
  data (r_arena s) file = Some fd -> tref_root tr = Some (Some name) -> tref_range tr = Some r ->
  (forall o, find unique_eqb (file, r) (r_cache s) = Some o -> resolve_type_ref (S fuel) tr ctx false s = Done o s) /\
  (find unique_eqb (file, r) (r_cache s) = None ->
   str_eqb name (lit "self") || str_eqb name (lit "static") = false -> str_eqb name (lit "parent") = false ->
   forall m d ns j node dn, available_imports (the_list (y_imports fd)) = Some m -> data (r_arena s) ctx = Some d ->
   current_namespace d file s = Done ns s -> joined_name tr name m ns = Some j ->
   findS (to_lowercase j) (r_global s) = Some node -> data (r_arena s) node = Some dn -> fqdn_matches dn j = true ->
   resolve_type_ref (S fuel) tr ctx false s = (edo cache_put (file, r) (Some node) in eret (Some node)) s).
Proof.
  intros fuel tr ctx s file fd name r r2 h1 h2 r1 h4. split.
  - intros o h5. cbn [resolve_type_ref]. rewrite r2.
    unfold ebind at 1. unfold e_top. cbn [the_arena rst_arena]. rewrite h1.
    unfold ebind at 1. unfold e_data at 1. cbn [the_arena rst_arena]. rewrite h2.
    unfold ebind at 1. rewrite r1. unfold eopt at 1, eret at 1.
    unfold ebind at 1. unfold eopt at 1, eret at 1.
    unfold ebind at 1. rewrite h4. unfold eopt at 1, eret at 1.
    unfold ebind at 1. unfold eget at 1. rewrite h5. reflexivity.
  - intros h5 p1 p3 m d ns j node dn i1 h3 hns hj hg hdn hfm. cbn [resolve_type_ref]. rewrite r2.
    unfold ebind at 1. unfold e_top. cbn [the_arena rst_arena]. rewrite h1.
    unfold ebind at 1. unfold e_data at 1. cbn [the_arena rst_arena]. rewrite h2.
    unfold ebind at 1. rewrite r1. unfold eopt at 1, eret at 1.
    unfold ebind at 1. unfold eopt at 1, eret at 1.
    unfold ebind at 1. rewrite h4. unfold eopt at 1, eret at 1.
    unfold ebind at 1. unfold eget at 1. rewrite h5.
    unfold ebind at 1. unfold eget at 1. rewrite p1, p3.
    unfold ebind at 1. fold (the_list (y_imports fd)). rewrite i1. unfold eopt at 1, eret at 1.
    unfold ebind at 1. unfold e_data at 1. cbn [the_arena rst_arena]. rewrite h3.
    unfold ebind at 1. rewrite hns.
    unfold ebind at 1. rewrite hj. unfold eopt at 1, eret at 1.
    unfold ebind at 1. unfold eget at 1. rewrite hg.
    unfold ebind at 1. unfold eret at 1. unfold ebind at 1. unfold eret at 1.
    unfold ebind at 1. unfold e_data at 1. cbn [the_arena rst_arena]. rewrite hdn, hfm.
    unfold ebind at 1. unfold eret at 1. reflexivity.
Qed.

Lemma resolve_dead : forall fuel tr ctx s, tref_is_builtin tr || tref_is_empty tr = false ->
  top (r_arena s) ctx = None -> resolve_type_ref (S fuel) tr ctx false s = Panic.
Proof.
  intros fuel tr ctx s h1 h2. cbn [resolve_type_ref]. rewrite h1. unfold ebind at 1, e_top.
  cbn [the_arena rst_arena]. rewrite h2. reflexivity.
Qed.
Lemma lookup32 : forall k tr ctx sc ct rf dg ca, In tr names32 -> In ctx (map fst symbols32) ->
  exists r n, tref_range tr = Some r /\ meaning32 tr = Some n /\
  resolve_type_ref (S k) tr ctx false (with_rest state32 sc ct rf dg ca) =
  match find unique_eqb (file32 ctx, r) ca with
  | Some o => Done o (with_rest state32 sc ct rf dg ca)
  | None => Done (Some n) (with_rest state32 sc ct rf dg (put unique_eqb (file32 ctx, r) (Some n) ca))
  end.
Proof.
  intros k tr ctx sc ct rf dg ca h1 h2.
  destruct h1 as [<-|[<-|[<-|[]]]]; destruct h2 as [<-|[<-|[<-|[<-|[<-|[<-|[<-|[]]]]]]]];
    eexists; eexists; (split; [vm_compute; reflexivity|]); (split; [vm_compute; reflexivity|]);
    match goal with |- resolve_type_ref (S k) ?tr ?ctx false ?s = match ?x with _ => _ end =>
      edestruct (resolve_prefix k tr ctx s) as [g1 g2];
        [vm_compute; reflexivity| vm_compute; reflexivity|vm_compute; reflexivity|vm_compute; reflexivity|vm_compute; reflexivity|];
      destruct x as [o|] eqn:e; [apply g1; exact e|];
      erewrite g2; [reflexivity|exact e|vm_compute; reflexivity..]
    end.
Qed.

Lemma range_eqb_eq : forall a b, range_eqb a b = true -> a = b.
Proof.
  intros [a1 a2 a3 a4] [b1 b2 b3 b4] h. unfold range_eqb in h. cbn in h.
  rewrite !Bool.andb_true_iff, !N.eqb_eq in h. destruct h as [[[-> ->] ->] ->]. reflexivity.
Qed.
Lemma meaning32_in : forall tr r n, tref_range tr = Some r -> meaning32 tr = Some n -> In (r, n) meanings32.
Proof.
  intros tr r n h1 h2. unfold meaning32 in h2. rewrite h1 in h2.
  destruct (List.find (fun p => range_eqb r (fst p)) meanings32) as [[r' n']|] eqn:e; [|discriminate h2].
  cbn in h2. injection h2 as <-. apply List.find_some in e. destruct e as [e1 e2].
  apply range_eqb_eq in e2. cbn in e2. rewrite e2. exact e1.
Qed.
Lemma meanings32_fun : forall r n n', In (r, n) meanings32 -> In (r, n') meanings32 -> n = n'.
Proof.
  intros r n n' h1 h2. unfold meanings32 in *. cbn [In] in *.
  intuition; repeat match goal with h : (_, _) = (_, _) |- _ => injection h as ? ?; subst end; congruence.
Qed.

Lemma meaning32_some : forall tr, In tr names32 -> exists r n, tref_range tr = Some r /\ In (r, n) meanings32 /\
  tref_is_builtin tr || tref_is_empty tr = false.
Proof.
  intros tr [<-|[<-|[<-|[]]]]; eexists; eexists; (split; [vm_compute; reflexivity|split; [|reflexivity]]); cbn; auto.
Qed.

(** What the resolver remembers is right *)
Section Right.
Variables (st : rst) (symbols : list (N * Symbol)) (names : list TypeRef)
  (meanings : list (NodeRange * N)) (file : N -> N).
Hypothesis st_symbols : map (fun p => (fst p, n_data (snd p))) (a_nodes (r_arena st)) = symbols.
Hypothesis st_links : forall c d tr, In (c, d) symbols -> In tr (links d) -> In tr names.
Hypothesis st_fun : forall r n n', In (r, n) meanings -> In (r, n') meanings -> n = n'.
Hypothesis st_some : forall tr, In tr names -> tref_is_builtin tr || tref_is_empty tr = false.
Hypothesis st_empty : r_cache st = [].
Hypothesis st_lookup : forall k tr ctx sc ct rf dg ca, In tr names -> In ctx (map fst symbols) ->
  exists r n, tref_range tr = Some r /\ In (r, n) meanings /\
  resolve_type_ref (S k) tr ctx false (with_rest st sc ct rf dg ca) =
  match find unique_eqb (file ctx, r) ca with
  | Some o => Done o (with_rest st sc ct rf dg ca)
  | None => Done (Some n) (with_rest st sc ct rf dg (put unique_eqb (file ctx, r) (Some n) ca))
  end.

Definition right (s : rst) : Prop :=
  exists sc ct rf dg ca, s = with_rest st sc ct rf dg ca /\
    forall f r o, In ((f, r), o) ca -> exists n, o = Some n /\ In (r, n) meanings.

Lemma right_next : forall s1 s2 k c ctx d tr o, right s1 -> data (r_arena s1) c = Some d -> In tr (links d) ->
  resolve_type_ref k tr ctx false s1 = Done o s2 ->
  right s2 /\ exists r n, tref_range tr = Some r /\ o = Some n /\ In (r, n) meanings.
Proof.
  intros s1 s2 k c ctx d tr o (sc & ct & rf & dg & ca & -> & hca) hd hin e.
  destruct k as [|k]; [discriminate e|].
  assert (ht : In tr names).
  { apply (st_links c d); [|exact hin]. apply data_in in hd. unfold with_rest in hd. cbn [r_arena] in hd.
    rewrite st_symbols in hd. exact hd. }
  assert (hc : In ctx (map fst symbols)).
  { destruct (top (r_arena st) ctx) as [f|] eqn:et.
    - destruct (top_live _ _ _ et) as (d' & hd'). apply data_in in hd'. rewrite st_symbols in hd'.
      apply (in_map fst) in hd'. exact hd'.
    - exfalso. rewrite resolve_dead in e; [discriminate e|apply st_some; exact ht|exact et]. }
  destruct (st_lookup k tr ctx sc ct rf dg ca ht hc) as (r & n & hr & hi & q). rewrite q in e.
  destruct (find unique_eqb (file ctx, r) ca) as [o'|] eqn:ef.
  - injection e as <- <-. split; [exists sc, ct, rf, dg, ca; auto|].
    exists r, n. split; [exact hr|]. split; [|exact hi].
    assert (hu : forall x y, unique_eqb x y = true -> x = y).
    { intros [f1 r1] [f2 r2] hh. unfold unique_eqb in hh. cbn in hh. apply Bool.andb_true_iff in hh.
      destruct hh as [h1 h2]. apply N.eqb_eq in h1. apply range_eqb_eq in h2. congruence. }
    assert (hx : In ((file ctx, r), o') ca).
    { clear - ef hu. induction ca as [|[k v] ca IH]; [discriminate ef|]. cbn [find] in ef.
      destruct (unique_eqb (file ctx, r) k) eqn:e1.
      - injection ef as <-. apply hu in e1. left. rewrite <- e1. reflexivity.
      - right. auto. }
    destruct (hca _ _ _ hx) as (n' & -> & hi'). f_equal. eapply st_fun; eauto.
  - injection e as <- <-. split; [|exists r, n; auto].
    exists sc, ct, rf, dg. eexists. split; [reflexivity|]. intros f r' o' h. apply in_put in h.
    destruct h as [h|h]; [injection h as -> -> ->; eauto|eauto].
Qed.
Lemma right_looked : forall s1, looked st s1 -> right s1.
Proof.
  induction 1 as [|s1 s2 k c ctx d tr o h IH hd hin e].
  - exists (r_scopes st), (r_container st), (r_refs st), (r_diags st), (r_cache st).
    split; [destruct st; reflexivity|]. rewrite st_empty. intros f r o [].
  - eapply right_next; eauto.
Qed.
Lemma means_right : forall l c ctx n, (forall d, incl (l d) (links d)) -> means_in st l c ctx n ->
  exists d tr r, In (c, d) symbols /\ In tr (l d) /\ tref_range tr = Some r /\ In (r, n) meanings.
Proof.
  intros l c ctx n hl (s1 & s2 & k & d & tr & h & hd & hin & e).
  destruct (right_next _ _ _ _ _ _ _ _ (right_looked _ h) hd (hl d _ hin) e) as (_ & r & n' & hr & hn & hi).
  injection hn as <-. exists d, tr, r. split; [|auto].
  destruct (looked_kept _ _ h) as [ha _]. rewrite ha in hd. apply data_in in hd. rewrite st_symbols in hd. exact hd.
Qed.
End Right.

Lemma means32 : forall l c ctx n, (forall d, incl (l d) (links d)) -> means_in state32 l c ctx n ->
  exists d tr r, In (c, d) symbols32 /\ In tr (l d) /\ tref_range tr = Some r /\ In (r, n) meanings32.
Proof.
  apply (means_right state32 symbols32 names32 meanings32 file32).
  - exact symbols32_eq.
  - exact links32.
  - exact meanings32_fun.
  - intros tr h. destruct (meaning32_some tr h) as (r & n & _ & _ & q). exact q.
  - vm_compute. reflexivity.
  - intros k tr ctx sc ct rf dg ca h1 h2. destruct (lookup32 k tr ctx sc ct rf dg ca h1 h2) as (r & n & q1 & q2 & q3).
    exists r, n. split; [exact q1|]. split; [exact (meaning32_in _ _ _ q1 q2)|exact q3].
Qed.

Ltac read32 h := apply means32 in h;
  [|intros ? ? ?; unfold links; rewrite !in_app_iff; auto];
  destruct h as (d & tr & r & hs & hi & hr & hm);
  destruct hs as [q|[q|[q|[q|[q|[q|[q|[]]]]]]]]; try discriminate q; injection q as <-;
  vm_compute in hi; repeat (destruct hi as [hi|hi]); try contradiction hi;
  rewrite <- hi in hr; vm_compute in hr; injection hr as <-;
  destruct hm as [q|[q|[q|[]]]]; try discriminate q; injection q as <-.

(** Class [B] extends class [A]: the theorems apply, and find the method [f]. *)
Example C32_case : sane_class state32 /\ Acc (fun n c => follows state32 c n) 4 /\
  (forall ctx, Acc (fun n c => extends_to state32 ctx c n) 4) /\
  (exists m s', get_all_symbols 20 4 state32 = Done m s' /\ opt_map al_symbol (findS (lit "f") m) = Some 6).
Proof.
  split; [|split; [|split]].
  - intros c d r h. vm_compute in h. discriminate h.
  - constructor. intros n h. constructor. intros n' h'. exfalso.
    assert (n = 2) by (destruct h as [h|[h|[ne h]]]; read32 h; congruence). subst n.
    destruct h' as [h'|[h'|[ne h']]]; read32 h'; congruence.
  - intros ctx. constructor. intros n h. constructor. intros n' h'. exfalso.
    assert (n = 2) by (read32 h; congruence). subst n. read32 h'.
  - eexists. eexists. split; vm_compute; reflexivity.
Qed.
(** ** C32 is false of the code *)

Definition cyclic32 : rst := resolver_of "<?php class A extends B { } class B extends A { }".

(** One step along a chain of classes without traits *)
Lemma members_parent : forall {RT : Runtime} {HH : Hashing} k ctx s me own s0 imp s1 types s2 p s3,
  data (r_arena s) ctx = Some me ->
  own_symbols ctx s = Done own s0 ->
  get_imports (resolve_type_ref k) (get_all_symbols k) me ctx s0 = Done imp s1 ->
  resolve_all (resolve_type_ref k) ctx (map sr_type (y_types me)) s1 = Done types s2 ->
  types = [] \/ types = [ctx] ->
  parent_nodes (resolve_type_ref k) me ctx s2 = Done [p] s3 ->
  get_all_symbols k (snd p) s3 = Fuel -> get_all_symbols (S k) ctx s = Fuel.
Proof.
  intros RT HH k ctx s me own s0 imp s1 types s2 p s3 hd ho hi ht hts hp hf. cbn [get_all_symbols].
  unfold ebind at 1. unfold e_data. cbn [the_arena rst_arena]. rewrite hd.
  unfold ebind at 1. rewrite ho. unfold ebind at 1. rewrite hi. cbv zeta. unfold ebind at 1. rewrite ht.
  assert (e : forall m : members, efold (fun m dt => if dt =? ctx then eret m
     else ebind (get_all_symbols k dt) (fun l => eret (put_all str_eqb l m))) m types s2 = Done m s2).
  { intros m. destruct hts as [-> | ->]; cbn [efold]; [reflexivity|]. rewrite N.eqb_refl. reflexivity. }
  unfold ebind at 1. rewrite e. unfold ebind at 1. unfold inherited_symbols. unfold ebind at 1. rewrite hp.
  assert (ho1 : h_order [p] = [p]) by (apply Permutation_length_1_inv, Permutation_sym, h_perm).
  rewrite ho1. cbn [efold]. unfold ebind. rewrite hf. reflexivity.
Qed.

(** The state in which the parent of [ctx] is asked for its members *)
Definition state_at_parent (ctx : N) (s : rst) : option (N * rst) :=
  match data (r_arena s) ctx with
  | None => None
  | Some me =>
      match own_symbols ctx s with
      | Done _ s0 =>
          match get_imports (resolve_type_ref 2) (fun _ => epanic) me ctx s0 with
          | Done _ s1 =>
              match resolve_all (resolve_type_ref 2) ctx (map sr_type (y_types me)) s1 with
              | Done types s2 =>
                  match parent_nodes (resolve_type_ref 2) me ctx s2 with
                  | Done [p] s3 => Some (snd p, s3)
                  | _ => None
                  end
              | _ => None
              end
          | _ => None
          end
      | _ => None
      end
  end.
Definition or_else {A B} (o : option (A * B)) (b : B) : B := match o with Some (_, x) => x | None => b end.
Definition cyclic32a : rst := Eval vm_compute in or_else (state_at_parent 2 cyclic32) cyclic32.
Definition cyclic32b : rst := Eval vm_compute in or_else (state_at_parent 4 cyclic32a) cyclic32.

Ltac climb p s3 :=
  eapply (members_parent _ _ _ _ _ _ _ _ _ _ p s3);
  [ vm_compute; reflexivity | vm_compute; reflexivity | vm_compute; reflexivity
  | vm_compute; reflexivity | vm_compute; auto | vm_compute; reflexivity | ].

Lemma cyclic32_turn : forall k, get_all_symbols k 2 cyclic32b = Fuel /\ get_all_symbols k 4 cyclic32b = Fuel.
Proof.
  induction k as [|k [IH1 IH2]]; [split; reflexivity|].
  destruct k as [|k]; [split; vm_compute; reflexivity|].
  split.
  - climb (lit "b", 4) cyclic32b. exact IH2.
  - climb (lit "a", 2) cyclic32b. exact IH1.
Qed.
Lemma cyclic32_never : forall k, get_all_symbols k 2 cyclic32 = Fuel.
Proof.
  intros [|[|[|k]]]; [vm_compute; reflexivity..|].
  climb (lit "b", 4) cyclic32a. climb (lit "a", 2) cyclic32b. apply cyclic32_turn.
Qed.

(** A class that inherits from [parent] *)
Definition parent32 : rst :=
  match enter_class 2 (resolver_of "<?php class A extends parent { }") with Done _ s => s | _ => cyclic32 end.
Definition name32p : TypeRef :=
  Eval vm_compute in match data (r_arena parent32) 2 with
                     | Some d => match y_inherits d with Some (r :: _) => sr_type r | _ => no_prefix end
                     | None => no_prefix
                     end.
Lemma resolve_parent : forall {RT : Runtime} k tr ctx s file fd r c me r0,
  tref_is_builtin tr || tref_is_empty tr = false -> top (r_arena s) ctx = Some file ->
  data (r_arena s) file = Some fd -> tref_root tr = Some (Some (lit "parent")) -> tref_range tr = Some r ->
  find unique_eqb (file, r) (r_cache s) = None -> r_class s = Some c -> data (r_arena s) c = Some me ->
  y_inherits me = Some [r0] -> resolve_type_ref k (sr_type r0) c false s = Fuel ->
  resolve_type_ref (S k) tr ctx false s = Fuel.
Proof.
  intros RT k tr ctx s file fd r c me r0 r2 h1 h2 r1 h4 h5 hc hd hi hf. cbn [resolve_type_ref]. rewrite r2.
  unfold ebind at 1. unfold e_top. cbn [the_arena rst_arena]. rewrite h1.
  unfold ebind at 1. unfold e_data at 1. cbn [the_arena rst_arena]. rewrite h2.
  unfold ebind at 1. rewrite r1. unfold eopt at 1, eret at 1.
  unfold ebind at 1. unfold eopt at 1, eret at 1.
  unfold ebind at 1. rewrite h4. unfold eopt at 1, eret at 1.
  unfold ebind at 1. unfold eget at 1. rewrite h5.
  unfold ebind at 1. unfold eget at 1. rewrite hc.
  change (str_eqb (lit "parent") (lit "self") || str_eqb (lit "parent") (lit "static")) with false.
  change (str_eqb (lit "parent") (lit "parent")) with true. cbv iota.
  unfold ebind at 1. unfold e_data at 1. cbn [the_arena rst_arena]. rewrite hd.
  unfold ebind at 1. unfold unique_parent. unfold ebind at 1. unfold parent_nodes. rewrite hi. cbn [efold].
  unfold ebind at 1. unfold ebind at 1. rewrite hf. reflexivity.
Qed.
Lemma parent32_never : forall k, resolve_type_ref k name32p 2 false parent32 = Fuel.
Proof.
  induction k as [|k IH]; [reflexivity|].
  eapply resolve_parent; [vm_compute; reflexivity..|]. exact IH.
Qed.

(** C32 does not hold: the members of a class whose parent inherits from it, and
    the parent of a class that inherits from [parent], are looked for without
    end.  Both states arise after indexing a file. *)
Theorem C32_refuted :
  (exists b i, reachable b /\ b_global b = [(lit "a", i); (lit "b", i + 2)] /\
     forall k, get_all_symbols k i (resolver_new (b_arena b) (b_global b) 1) = Fuel) /\
  (exists b i s d r, reachable b /\ b_global b = [(lit "a", i)] /\
     enter_class i (resolver_new (b_arena b) (b_global b) 1) = Done tt s /\
     data (b_arena b) i = Some d /\ y_inherits d = Some [r] /\
     forall k, resolve_type_ref k (sr_type r) i false s = Fuel).
Proof.
  split.
  - exists (indexed "<?php" "<?php class A extends B { } class B extends A { }"), 2.
    split; [apply state_after_reachable|]. split; [vm_compute; reflexivity|]. exact cyclic32_never.
  - exists (indexed "<?php" "<?php class A extends parent { }"), 2, parent32. eexists. eexists.
    split; [apply state_after_reachable|]. split; [vm_compute; reflexivity|].
    split; [vm_compute; reflexivity|]. split; [vm_compute; reflexivity|]. split; [vm_compute; reflexivity|].
    exact parent32_never.
Qed.

Print Assumptions C32_members_partial.
Print Assumptions C32_child_partial.
Print Assumptions C32_refuted.
