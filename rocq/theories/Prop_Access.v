(** Property C49: the members that a program uses are linked to their
    declarations, and only uses that are wrong are reported. *)

From Coq Require Import Permutation Relations.
From Verif Require Import Base Token Scanner Node DocBlock Parser Assoc AssocFacts Arena ArenaFacts
  Symbol EnvMonad EnvFacts Workspace WorkspaceFacts Resolver SpecNames ResolverFacts
  Backend BackendFacts SpecServer ServerInv Prop_Server Prop_Names Prop_Members Prop_Overrides.

Local Notation findS := (find str_eqb).
Local Open Scope string_scope.
Local Open Scope N_scope.
Local Open Scope list_scope.

(** * Specification *)

Section Access.
Context {RT : Runtime} {HH : Hashing}.

(** The variable [t] is known to hold an object of the class [c]. *)
Definition holds_object (s : rst) (t : Token) (c : N) : Prop :=
  exists l scope scopes v d r rs, t_label t = Some l /\ l <> lit "this" /\
    r_scopes s = scope :: scopes /\ findS l scope = Some v /\ data (r_arena s) v = Some d /\
    y_types d = r :: rs /\ sr_node r = Some c.

(** [Receiver s e c inside]: the expression [e] is an object of the class [c],
    or that class; [inside]: code here may use its private members.
    [$this], [self], [static], and variables of which the class is known *)
Inductive Receiver (s : rst) : Node -> N -> bool -> Prop :=
| Receiver_this : forall t c, t_type t = TVariable -> t_label t = Some (lit "this") -> r_class s = Some c ->
    Receiver s (NVariable t) c true
| Receiver_self : forall t c, t_type t = TTypeSelf \/ t_type t = TStatic -> r_class s = Some c ->
    Receiver s (NLiteral t) c true
| Receiver_own : forall t c, holds_object s t c -> r_class s = Some c -> Receiver s (NVariable t) c true
| Receiver_other : forall t c, holds_object s t c -> r_class s <> Some c -> Receiver s (NVariable t) c false
| Receiver_group : forall e c inside, Receiver s e c inside -> Receiver s (NGrouping e) c inside.

(** [e->m1->m2()->...] and [e::m1...], calls without arguments *)
Inductive Chain : Node -> Node -> list Node -> Prop :=
| Chain_none : forall e, Chain e e []
| Chain_member : forall o e l a oc m cc, Chain o e l -> Chain (NMember o a oc m cc) e (l ++ [m])
| Chain_static : forall o e l a oc m cc, Chain o e l -> Chain (NStaticMember o a oc m cc) e (l ++ [m])
| Chain_call : forall o e l op cp, Chain o e l -> Chain (NCall o op [] cp) e l.

(** A member is written as a name or as a variable. *)
Inductive written : Node -> Token -> str -> Prop :=
| written_name : forall t name, t_type t = TIdentifier -> t_label t = Some name -> name <> lit "class" ->
    written (NLiteral t) t name
| written_variable : forall t name, t_type t = TVariable -> t_label t = Some name -> written (NVariable t) t name.

(** The class [c] itself declares the member [i] with the name [k] (in lower
    case), and no ancestor or trait has one of that name; or nobody has. *)
Definition owns (s : rst) (c : N) (k : str) (i : N) (d : Symbol) : Prop :=
  declares_last (r_arena s) c k i d /\ ~ renames (r_arena s) c k /\
  forall n, ancestor s c n -> (forall j, ~ declares (r_arena s) n k j) /\ ~ renames (r_arena s) n k.
Definition lacks (s : rst) (c : N) (k : str) : Prop :=
  forall n, n = c \/ ancestor s c n -> (forall j, ~ declares (r_arena s) n k j) /\ ~ renames (r_arena s) n k.

Definition usable (inside : bool) (d : Symbol) : Prop :=
  inside = true \/ y_vis d = VPublic \/ y_vis d = VNone.

(** The type of the member is [self], [static] or [$this]: it is again an object
    of the class. *)
Definition fluent (d : Symbol) : Prop :=
  (y_kind d = KMethod \/ y_kind d = KProperty) /\
  exists r rs t, y_types d = r :: rs /\ kind (sr_type r) = [t] /\
    (t_type t = TTypeSelf \/ t_type t = TStatic \/ (t_type t = TVariable /\ t_label t = Some (lit "this"))).

(** [m] is written for the member [i] of [c]. *)
Definition uses (s : rst) (c : N) (inside : bool) (m : Node) (p : N * Symbol) : Prop :=
  exists t name, written m t name /\ owns s c (to_lowercase name) (fst p) (snd p) /\ usable inside (snd p).

(** A reference to [i] at [r] is recorded for the file. *)
Definition referenced (s : rst) (file : N) (r : NodeRange) (i : N) : Prop :=
  exists l, find N.eqb file (r_refs s) = Some l /\ In (r, i) l.

(** The messages about members *)
Definition hidden_message : str := lit "Method is not accessible from this scope".
Definition unknown_message (m : Node) : option str := opt_map (app (lit "Unresolvable symbol ")) (node_name m).
Definition accuses (n : Notification) : Prop :=
  nt_message n = hidden_message \/ exists l, nt_message n = lit "Unresolvable symbol " ++ l.
Definition reported (s : rst) (m : Node) (message : str) : Prop :=
  exists n r, In n (r_diags s) /\ node_range m = Some r /\ nt_range n = r /\ nt_message n = message /\ nt_severity n = SevError.

(** * Proofs *)

(** ** Lookups do not depend on references and messages *)
Definition like (s t : rst) : Prop :=
  r_arena s = r_arena t /\ r_global s = r_global t /\ r_scopes s = r_scopes t /\ r_class s = r_class t /\
  r_container s = r_container t /\ r_cache s = r_cache t.
Definition blind {A} (m : R A) : Prop := forall s t, like s t ->
  match m s, m t with
  | Done x s', Done y t' => x = y /\ like s' t'
  | Panic, Panic | Fuel, Fuel => True
  | _, _ => False
  end.

Lemma like_refl : forall s, like s s.
Proof. intros s. repeat split. Qed.
Lemma like_sym : forall s t, like s t -> like t s.
Proof. intros s t (h1 & h2 & h3 & h4 & h5 & h6). repeat split; auto. Qed.
Lemma like_trans : forall s t u, like s t -> like t u -> like s u.
Proof. intros s t u (h1 & h2 & h3 & h4 & h5 & h6) (k1 & k2 & k3 & k4 & k5 & k6). repeat split; congruence. Qed.

Lemma b_ret : forall A (x : A), blind (eret x).
Proof. intros A x s t h. cbn. auto. Qed.
Lemma b_panic : forall A, blind (@epanic rst A).
Proof. intros A s t h. exact I. Qed.
Lemma b_fuel : forall A, blind (@efuel rst A).
Proof. intros A s t h. exact I. Qed.
Lemma b_opt : forall A (o : option A), blind (eopt o).
Proof. intros A [x|]; [apply b_ret|apply b_panic]. Qed.
Lemma b_bind : forall A B (m : R A) (f : A -> R B), blind m -> (forall x, blind (f x)) -> blind (ebind m f).
Proof.
  intros A B m f hm hf s t h. specialize (hm s t h). unfold ebind.
  destruct (m s), (m t); try tauto. destruct hm as [-> h']. apply hf, h'.
Qed.
Lemma b_get : forall A (f : rst -> A), (forall s t, like s t -> f s = f t) -> blind (eget f).
Proof. intros A f hf s t h. cbn. auto. Qed.
Lemma b_fold : forall A B (f : B -> A -> R B) l b, (forall x y, blind (f x y)) -> blind (efold f b l).
Proof. intros A B f l. induction l; intros b h; cbn [efold]; [apply b_ret|apply b_bind; auto]. Qed.
Lemma b_find : forall A B (f : A -> R (option B)) l, (forall x, blind (f x)) -> blind (efind f l).
Proof.
  intros A B f l h. induction l; cbn [efind]; [apply b_ret|]. apply b_bind; auto.
  intros [x|]; auto. apply b_ret.
Qed.
Lemma b_note : forall n, blind (note n).
Proof. intros n s t h. cbn. split; [reflexivity|exact h]. Qed.
Lemma b_reference : forall f r n, blind (reference f r n).
Proof. intros f r n s t h. cbn. split; [reflexivity|exact h]. Qed.
Lemma b_put : forall k v, blind (cache_put k v).
Proof.
  intros k v s t (h1 & h2 & h3 & h4 & h5 & h6). cbn. split; [reflexivity|]. repeat split; cbn; auto. now rewrite h6.
Qed.
Lemma b_data : forall i, blind (e_data i).
Proof. intros i s t h. unfold e_data. cbn. rewrite (proj1 h). destruct (data _ _); auto. Qed.
Lemma b_kids : forall i, blind (e_kids i).
Proof. intros i s t h. unfold e_kids. cbn. rewrite (proj1 h). destruct (kids _ _); auto. Qed.
Lemma b_top : forall i, blind (e_top i).
Proof. intros i s t h. unfold e_top. cbn. rewrite (proj1 h). destruct (top _ _); auto. Qed.
Ltac bl := repeat first
  [ assumption | apply b_ret | apply b_panic | apply b_fuel | apply b_opt | apply b_note | apply b_put
  | apply b_get; intros ? ? (? & ? & ? & ? & ? & ?); assumption
  | apply b_reference | apply b_data | apply b_kids | apply b_top
  | apply b_bind; [|intros ?]
  | apply b_fold; intros ? ? | apply b_find; intros ?
  | match goal with |- blind (match ?x with _ => _ end) => destruct x end
  | match goal with h : forall _, _ |- _ => apply h end ].

Lemma b_resolve : forall fuel tr ctx b, blind (resolve_type_ref fuel tr ctx b).
Proof.
  induction fuel as [|fuel IH]; intros tr ctx b; cbn [resolve_type_ref]; [apply b_fuel|].
  unfold unique_parent, parent_nodes, current_namespace. bl.
Qed.
Lemma b_resolve_all : forall fuel ctx l, blind (resolve_all (resolve_type_ref fuel) ctx l).
Proof. intros fuel ctx l. pose proof (b_resolve fuel). induction l; cbn [resolve_all]; bl. Qed.
Lemma b_all : forall fuel ctx, blind (get_all_symbols fuel ctx).
Proof.
  induction fuel as [|fuel IH]; intros ctx; cbn [get_all_symbols]; [apply b_fuel|].
  pose proof (b_resolve fuel) as HR. pose proof (b_resolve_all fuel) as HA.
  unfold get_imports, trait_symbols, inherited_symbols, parent_nodes, own_symbols. cbv zeta. bl.
  - match goal with |- blind (apply_insteadof _ _ _ ?a) => destruct a end; cbn [apply_insteadof]; bl.
  - match goal with |- blind (apply_as _ _ _ _ ?a) => destruct a end; cbn [apply_as]; bl.
Qed.

(** [s]: what looking up names leads to from [s0], with other references and
    messages *)
Definition near (s0 s : rst) : Prop := exists s1, looked s0 s1 /\ like s1 s.

Lemma near_refl : forall s, near s s.
Proof. intros s. exists s. split; [constructor|apply like_refl]. Qed.
Lemma near_like : forall s0 s t, near s0 s -> like s t -> near s0 t.
Proof. intros s0 s t (s1 & h1 & h2) h. exists s1. split; [exact h1|eapply like_trans; eauto]. Qed.
Lemma near_all : forall s0 s P fuel c m s', (forall fuel, yields s0 (get_all_symbols fuel c) P) ->
  near s0 s -> get_all_symbols fuel c s = Done m s' -> P m /\ near s0 s'.
Proof.
  intros s0 s P fuel c m s' hp (s1 & h1 & h2) e. pose proof (b_all fuel c s1 s h2) as hb. rewrite e in hb.
  destruct (get_all_symbols fuel c s1) as [m1 s2| |] eqn:e1; try tauto. destruct hb as [-> hb].
  destruct (hp fuel _ _ _ h1 e1) as [hl hP]. split; [exact hP|]. exists s2. auto.
Qed.
Lemma near_arena : forall s0 s, near s0 s -> r_arena s = r_arena s0.
Proof. intros s0 s (s1 & h1 & h2). rewrite <- (proj1 h2). apply (looked_kept _ _ h1). Qed.

(** ** References and messages are added only *)
Definition adds (s s' : rst) : Prop :=
  (forall f r i, referenced s f r i -> referenced s' f r i) /\
  (exists l, r_diags s' = r_diags s ++ l /\ Forall (fun n => ~ accuses n) l).
Definition mild {A} (m : R A) : Prop := forall s x s', m s = Done x s' -> adds s s'.

Lemma adds_refl : forall s, adds s s.
Proof. intros s. split; [auto|]. exists []. rewrite app_nil_r. auto. Qed.
Lemma adds_trans : forall s t u, adds s t -> adds t u -> adds s u.
Proof.
  intros s t u (h1 & l1 & e1 & f1) (h2 & l2 & e2 & f2). split; [auto|]. exists (l1 ++ l2).
  rewrite e2, e1, app_assoc. split; [reflexivity|]. apply Forall_app. auto.
Qed.
Lemma m_ret : forall A (x : A), mild (eret x).
Proof. intros A x s y s' e. injection e as <- <-. apply adds_refl. Qed.
Lemma m_panic : forall A, mild (@epanic rst A).
Proof. intros A s y s' e. discriminate e. Qed.
Lemma m_fuel : forall A, mild (@efuel rst A).
Proof. intros A s y s' e. discriminate e. Qed.
Lemma m_opt : forall A (o : option A), mild (eopt o).
Proof. intros A [x|]; [apply m_ret|apply m_panic]. Qed.
Lemma m_bind : forall A B (m : R A) (f : A -> R B), mild m -> (forall x, mild (f x)) -> mild (ebind m f).
Proof.
  intros A B m f hm hf s x s' e. unfold ebind in e. destruct (m s) as [y s1| |] eqn:e1; try discriminate e.
  eapply adds_trans; [eapply hm, e1|eapply hf, e].
Qed.
Lemma m_get : forall A (f : rst -> A), mild (eget f).
Proof. intros A f s x s' e. injection e as <- <-. apply adds_refl. Qed.
Lemma m_fold : forall A B (f : B -> A -> R B) l b, (forall x y, mild (f x y)) -> mild (efold f b l).
Proof. intros A B f l. induction l; intros b h; cbn [efold]; [apply m_ret|apply m_bind; auto]. Qed.
Lemma m_find : forall A B (f : A -> R (option B)) l, (forall x, mild (f x)) -> mild (efind f l).
Proof.
  intros A B f l h. induction l; cbn [efind]; [apply m_ret|]. apply m_bind; auto.
  intros [x|]; auto. apply m_ret.
Qed.
Lemma m_note : forall n, ~ accuses n -> mild (note n).
Proof. intros n h s x s' e. injection e as _ <-. split; [auto|]. exists [n]. auto. Qed.
Lemma referenced_new : forall f r i s x s', reference f r i s = Done x s' -> referenced s' f r i.
Proof.
  intros f r i s x s' e. injection e as _ <-. unfold referenced. cbn. rewrite (find_upsert _ N.eqb_spec), N.eqb_refl.
  eexists. split; [reflexivity|]. apply in_or_app. right. left. reflexivity.
Qed.
Lemma m_reference : forall f r n, mild (reference f r n).
Proof.
  intros f r n s x s' e. injection e as _ <-. split; [|exists []; cbn; rewrite app_nil_r; auto].
  intros f' r' i (l & h1 & h2). unfold referenced. cbn. rewrite (find_upsert _ N.eqb_spec).
  destruct (N.eqb_spec f' f) as [->|ne]; [|eauto]. rewrite h1. eexists. split; [reflexivity|]. apply in_or_app. auto.
Qed.
Lemma m_put : forall k v, mild (cache_put k v).
Proof. intros k v s x s' e. injection e as _ <-. split; [auto|]. exists []. cbn. rewrite app_nil_r. auto. Qed.
Lemma m_data : forall i, mild (e_data i).
Proof. intros i s x s' e. unfold e_data in e. destruct (data _ _); [injection e as _ <-; apply adds_refl|discriminate e]. Qed.
Lemma m_kids : forall i, mild (e_kids i).
Proof. intros i s x s' e. unfold e_kids in e. destruct (kids _ _); [injection e as _ <-; apply adds_refl|discriminate e]. Qed.
Lemma m_top : forall i, mild (e_top i).
Proof. intros i s x s' e. unfold e_top in e. destruct (top _ _); [injection e as _ <-; apply adds_refl|discriminate e]. Qed.
Ltac harmless :=
  let h := fresh in let l := fresh in let e := fresh in
  intros [h|(l & h)]; cbn in h; repeat (injection h as h; try discriminate h); try discriminate h.
Ltac ml := repeat first
  [ assumption | apply m_ret | apply m_panic | apply m_fuel | apply m_opt | apply m_get | apply m_put
  | apply m_note; harmless
  | apply m_reference | apply m_data | apply m_kids | apply m_top
  | apply m_bind; [|intros ?]
  | apply m_fold; intros ? ? | apply m_find; intros ?
  | match goal with |- mild (match ?x with _ => _ end) => destruct x end
  | match goal with h : forall _, _ |- _ => apply h end ].

Lemma m_resolve : forall fuel tr ctx b, mild (resolve_type_ref fuel tr ctx b).
Proof.
  induction fuel as [|fuel IH]; intros tr ctx b; cbn [resolve_type_ref]; [apply m_fuel|].
  unfold unique_parent, parent_nodes, current_namespace. ml.
Qed.
Lemma m_resolve_all : forall fuel ctx l, mild (resolve_all (resolve_type_ref fuel) ctx l).
Proof. intros fuel ctx l. pose proof (m_resolve fuel). induction l; cbn [resolve_all]; ml. Qed.
Lemma m_all : forall fuel ctx, mild (get_all_symbols fuel ctx).
Proof.
  induction fuel as [|fuel IH]; intros ctx; cbn [get_all_symbols]; [apply m_fuel|].
  pose proof (m_resolve fuel) as HR. pose proof (m_resolve_all fuel) as HA.
  unfold get_imports, trait_symbols, inherited_symbols, parent_nodes, own_symbols. cbv zeta. ml.
  - match goal with |- mild (apply_insteadof _ _ _ ?a) => destruct a end; cbn [apply_insteadof]; ml.
  - match goal with |- mild (apply_as _ _ _ _ ?a) => destruct a end; cbn [apply_as]; ml.
Qed.
Lemma m_type : forall fuel f m c l, mild (member_type fuel f m c l).
Proof.
  intros fuel f m c l. pose proof (m_resolve fuel) as HR. induction l; cbn [member_type]; [apply m_ret|].
  unfold unique_parent, parent_nodes. ml.
Qed.

(** ** Chains *)
Lemma chain_flat : forall node e l, Chain node e l -> forall fuel again file n0 rest s x s',
  chain_root fuel again file n0 node rest s = Done x s' ->
  exists fuel', chain_root fuel' again file n0 e (l ++ rest) s = Done x s'.
Proof.
  induction 1 as [e|o e l a oc m cc _ IH|o e l a oc m cc _ IH|o e l op cp _ IH]; intros fuel again file n0 rest s x s' h.
  - exists fuel. exact h.
  - destruct fuel as [|fuel]; [discriminate h|]. cbn [chain_root] in h. rewrite <- app_assoc. eapply IH. exact h.
  - destruct fuel as [|fuel]; [discriminate h|]. cbn [chain_root] in h. rewrite <- app_assoc. eapply IH. exact h.
  - destruct fuel as [|fuel]; [discriminate h|]. cbn [chain_root emap] in h. eapply IH. exact h.
Qed.

Definition least (inside : bool) : Visibility := if inside then VPrivate else VPublic.

Lemma receiver_root : forall s e c inside, Receiver s e c inside -> forall fuel again file n0 chain x s',
  chain_root fuel again file n0 e chain s = Done x s' ->
  x = Root (Some c) (least inside) chain /\ like s s' /\ adds s s'.
Proof.
  induction 1 as [t c ht hl hc|t c ht hc|t c ho hc|t c ho hc|e c inside _ IH]; intros fuel again file n0 chain x s' h;
    (destruct fuel as [|fuel]; [discriminate h|]); cbn [chain_root] in h.
  - unfold ebind at 1, get_local, is_this in h. rewrite hl, ht, hc in h. cbn [tt_eqb andb] in h.
    replace (str_eqb (lit "this") (lit "this")) with true in h by reflexivity.
    replace (tt_eqb TVariable TVariable) with true in h by reflexivity. cbn [andb] in h.
    unfold ebind in h. destruct (reference_local file t c s) as [u s1| |] eqn:e1; try discriminate h.
    injection h as <- <-. split; [reflexivity|]. unfold reference_local, ebind in e1.
    destruct (token_range t); [|discriminate e1]. cbn [eopt] in e1. unfold eret in e1. split.
    + injection e1 as _ <-. repeat split.
    + eapply m_reference, e1.
  - assert (q2 : Done (Root (r_class s) VPrivate chain) s = Done x s').
    { destruct ht as [ht|ht]; rewrite ht in h; exact h. }
    injection q2 as <- <-. rewrite hc. split; [reflexivity|]. split; [apply like_refl|apply adds_refl].
  - destruct ho as (l & scope & scopes & v & d & r & rs & hl & hn & hs & hf & hd & ht & hr).
    unfold ebind at 1, get_local, is_this in h. rewrite hl in h.
    assert (q : str_eqb l (lit "this") = false) by (destruct (str_eqb_spec l (lit "this")); congruence).
    rewrite q, Bool.andb_false_r, hs, hf in h. unfold ebind at 1 in h.
    destruct (reference_local file t v s) as [u s1| |] eqn:e1; try discriminate h.
    unfold reference_local, ebind in e1. destruct (token_range t); [|discriminate e1]. cbn [eopt] in e1. unfold eret in e1.
    pose proof (m_reference _ _ _ _ _ _ e1) as ha. injection e1 as _ <-.
    unfold ebind, e_data in h. cbn [the_arena rst_arena r_arena] in h. rewrite hd, ht in h. cbn [variable_type] in h.
    rewrite hr in h. unfold ebind, eget, eret in h. cbn [r_class] in h.
    assert (q2 : match r_class s with Some c0 => if c0 =? c then VPrivate else VPublic | None => VPublic end = VPrivate).
    { rewrite hc, N.eqb_refl. reflexivity. }
    rewrite q2 in h. injection h as <- <-. split; [reflexivity|]. split; [repeat split|exact ha].
  - destruct ho as (l & scope & scopes & v & d & r & rs & hl & hn & hs & hf & hd & ht & hr).
    unfold ebind at 1, get_local, is_this in h. rewrite hl in h.
    assert (q : str_eqb l (lit "this") = false) by (destruct (str_eqb_spec l (lit "this")); congruence).
    rewrite q, Bool.andb_false_r, hs, hf in h. unfold ebind at 1 in h.
    destruct (reference_local file t v s) as [u s1| |] eqn:e1; try discriminate h.
    unfold reference_local, ebind in e1. destruct (token_range t); [|discriminate e1]. cbn [eopt] in e1. unfold eret in e1.
    pose proof (m_reference _ _ _ _ _ _ e1) as ha. injection e1 as _ <-.
    unfold ebind, e_data in h. cbn [the_arena rst_arena r_arena] in h. rewrite hd, ht in h. cbn [variable_type] in h.
    rewrite hr in h. unfold ebind, eget, eret in h. cbn [r_class] in h.
    assert (q2 : match r_class s with Some c0 => if c0 =? c then VPrivate else VPublic | None => VPublic end = VPublic).
    { destruct (r_class s) as [c0|]; [|reflexivity]. destruct (N.eqb_spec c0 c); congruence. }
    rewrite q2 in h. injection h as <- <-. split; [reflexivity|]. split; [repeat split|exact ha].
  - eapply IH. exact h.
Qed.

Lemma near_owns : forall s0 s fuel c k i d m s', owns s0 c k i d -> near s0 s ->
  get_all_symbols fuel c s = Done m s' ->
  findS k m = Some (mkAlias i (sym_name d) (y_vis d) c) /\ near s0 s'.
Proof.
  intros s0 s fuel c k i d m s' (hd & hr & ha) hn e.
  apply (near_all s0 s (fun m => findS k m = Some (mkAlias i (sym_name d) (y_vis d) c)) fuel c m s'); auto.
  intros f s1 m1 s2 hl e1. split; [apply (y_fine s0 f c _ _ _ hl e1)|].
  apply (y_own s0 f c k i d hd) with (s1 := s1) (s2 := s2); [|exact hl|exact e1].
  split; [exact hr|]. intros n hf p hp. apply ha. unfold ancestor. apply (t_step N (follows s0)) in hf. clear - hf hp.
  induction hp as [x y h|x|x y z h1 IH1 h2 IH2]; auto.
  eapply t_trans; [exact hf|apply t_step; exact h].
Qed.
Lemma near_lacks : forall s0 s fuel c k m s', lacks s0 c k -> near s0 s ->
  get_all_symbols fuel c s = Done m s' -> findS k m = None /\ near s0 s'.
Proof.
  intros s0 s fuel c k m s' hk hn e.
  apply (near_all s0 s (fun m => findS k m = None) fuel c m s'); auto.
  intros f s1 m1 s2 hl e1. destruct (y_fine s0 f c _ _ _ hl e1) as [h1 [_ h2]]. split; [exact h1|]. apply h2.
  intros n hr. apply hk. clear - hr. induction hr as [x y h|x|x y z h1 [q1|q1] h2 [q2|q2]]; subst; auto.
  - right. apply t_step. exact h.
  - right. eapply t_trans; eauto.
Qed.

Lemma written_link : forall m t name, written m t name -> link_name m = Some (Some name) /\ (m = NLiteral t \/ m = NVariable t) /\
  node_range m = token_range t.
Proof.
  intros m t name [t0 n0 h1 h2 h3|t0 n0 h1 h2]; unfold link_name, node_name.
  - assert (q : display_token t0 = Some n0) by (unfold display_token; now rewrite h1, h2).
    rewrite q. cbn [obind opt_map]. destruct (str_eqb_spec n0 (lit "class")); [contradiction|]. auto.
  - rewrite h2. auto.
Qed.

Lemma usable_ge : forall inside d, usable inside d -> vis_ge (y_vis d) (least inside) = true.
Proof. intros inside d [->|[->| ->]]; [|destruct inside; reflexivity|destruct inside; reflexivity]. destruct (y_vis d); reflexivity. Qed.
Lemma hidden_ge : forall d, ~ usable false d -> vis_ge (y_vis d) VPublic = false.
Proof.
  intros d h. destruct (y_vis d) eqn:e; try reflexivity; exfalso; apply h; unfold usable; auto.
Qed.

Lemma fluent_next : forall fuel f m c d, fluent d -> forall s, member_type fuel f m c (y_types d) s = Done (NextLink c) s.
Proof.
  intros fuel f m c d (_ & r & rs & t & e & ek & h) s. rewrite e. cbn [member_type].
  unfold tref_root_token_type. rewrite ek. cbn [eopt]. unfold ebind at 1, eret at 1.
  destruct h as [h|[h|[h1 h2]]].
  - rewrite h. reflexivity.
  - rewrite h. reflexivity.
  - assert (q : tref_root (sr_type r) = Some (Some (lit "$this"))).
    { destruct (sr_type r) as [k m0]. cbn in ek. subst k. unfold tref_root, tref_is_empty, tref_is_fully_qualified. cbn.
      rewrite h1. cbn. unfold display_token. rewrite h2, h1. reflexivity. }
    rewrite q, h1. reflexivity.
Qed.

Lemma m_local : forall f t n, mild (reference_local f t n).
Proof. intros f t n. unfold reference_local. ml. Qed.
Lemma like_local : forall f t n s x s', reference_local f t n s = Done x s' ->
  like s s' /\ exists r, token_range t = Some r /\ referenced s' f r n.
Proof.
  intros f t n s x s' e. unfold reference_local, ebind in e. destruct (token_range t) as [r|]; [|discriminate e].
  cbn [eopt] in e. unfold eret in e. split; [|exists r; split; [reflexivity|eapply referenced_new, e]].
  injection e as _ <-. repeat split.
Qed.

(** One step over a member that the class owns *)
Lemma step_own : forall s0 fuel file fname c inside m p rest s x s', uses s0 c inside m p -> near s0 s ->
  follow_chain fuel file fname (least inside) c (m :: rest) s = Done x s' ->
  exists s1, near s0 s1 /\ adds s s1 /\ (exists r, node_range m = Some r /\ referenced s1 file r (fst p)) /\
    (match y_kind (snd p) with
     | KProperty | KMethod =>
         elet st <- member_type fuel fname m c (y_types (snd p)) in
         match st with
         | NextLink n => follow_chain fuel file fname (least inside) n rest
         | GiveUp => eret None
         end
     | _ => follow_chain fuel file fname (least inside) (fst p) rest
     end) s1 = Done x s'.
Proof.
  intros s0 fuel file fname c inside m [i d] rest s x s' (t & name & hw & ho & hu) hn e. cbn [fst snd] in *.
  destruct (written_link _ _ _ hw) as (hl & hm & hr). cbn [follow_chain] in e. rewrite hl in e. cbn [eopt] in e.
  unfold ebind at 1, eret at 1 in e. unfold ebind at 1 in e.
  destruct (get_all_symbols fuel c s) as [ms s1| |] eqn:e1; try discriminate e.
  destruct (near_owns _ _ _ _ _ _ _ _ _ ho hn e1) as [hf hn1]. rewrite hf in e. cbn [al_symbol al_vis al_alias] in e.
  unfold ebind at 1, e_data in e. cbn [the_arena rst_arena] in e.
  assert (hd : data (r_arena s1) i = Some d).
  { rewrite (near_arena _ _ hn1). destruct ho as [(l1 & l2 & _ & h & _) _]. exact h. }
  rewrite hd, (usable_ge _ _ hu) in e. unfold ebind at 1 in e.
  match type of e with match ?m s1 with _ => _ end = _ => destruct (m s1) as [u s2| |] eqn:e2; try discriminate e end.
  assert (h2 : near s0 s2 /\ adds s1 s2).
  { destruct (str_eqb (sym_name d) name).
    - injection e2 as _ <-. split; [exact hn1|apply adds_refl].
    - unfold ebind in e2. destruct (node_range m); [|discriminate e2]. cbn [eopt] in e2. unfold eret in e2.
      split; [injection e2 as _ <-; eapply near_like; [exact hn1|repeat split]|].
      revert e2. apply m_note. harmless. }
  destruct h2 as [hn2 ha2]. unfold ebind at 1 in e.
  assert (e3 : exists u3 s3, reference_local file t i s2 = Done u3 s3 /\
    (match y_kind d with
     | KProperty | KMethod =>
         elet st <- member_type fuel fname m c (y_types d) in
         match st with
         | NextLink n => follow_chain fuel file fname (least inside) n rest
         | GiveUp => eret None
         end
     | _ => follow_chain fuel file fname (least inside) i rest
     end) s3 = Done x s').
  { destruct hm as [-> | ->]; destruct (reference_local file t i s2) as [u3 s3| |]; try discriminate e; eauto. }
  destruct e3 as (u3 & s3 & e3 & e4). exists s3. destruct (like_local _ _ _ _ _ _ e3) as [hl3 (r & hr3 & hr4)].
  split; [eapply near_like; eauto|]. split.
  - eapply adds_trans; [eapply m_all, e1|]. eapply adds_trans; [exact ha2|]. eapply m_local, e3.
  - split; [|exact e4]. exists r. rewrite hr. auto.
Qed.

(** ... and over all but the last *)
Lemma steps_own : forall s0 fuel file fname c inside members ms, Forall2 (uses s0 c inside) members ms ->
  Forall (fun p => fluent (snd p)) ms -> forall rest s x s', near s0 s ->
  follow_chain fuel file fname (least inside) c (members ++ rest) s = Done x s' ->
  exists s1, near s0 s1 /\ adds s s1 /\
    Forall2 (fun m p => exists r, node_range m = Some r /\ referenced s1 file r (fst p)) members ms /\
    follow_chain fuel file fname (least inside) c rest s1 = Done x s'.
Proof.
  intros s0 fuel file fname c inside members ms H. induction H as [|m p members ms hu _ IH]; intros hf rest s x s' hn e.
  - exists s. split; [exact hn|]. split; [apply adds_refl|]. auto.
  - inversion hf as [|? ? h1 h2]; subst. cbn [app] in e.
    destruct (step_own _ _ _ _ _ _ _ _ _ _ _ _ hu hn e) as (s1 & hn1 & ha1 & (r & hr & hr1) & e1).
    assert (e2 : follow_chain fuel file fname (least inside) c (members ++ rest) s1 = Done x s').
    { pose proof (fluent_next fuel fname m c _ h1 s1) as hq. destruct h1 as [[q|q] _]; rewrite q in e1;
      unfold ebind in e1; rewrite hq in e1; exact e1. }
    destruct (IH h2 rest s1 x s' hn1 e2) as (s2 & hn2 & ha2 & hF & e3).
    exists s2. split; [exact hn2|]. split; [eapply adds_trans; eauto|]. split; [|exact e3]. constructor; [|exact hF].
    exists r. split; [exact hr|]. apply ha2. exact hr1.
Qed.

(** From the expression to the chain *)
Lemma access_follow : forall fuel file node s x s' e l c inside, Chain node e l -> Receiver s e c inside ->
  resolve_member_type fuel file node s = Done x s' ->
  exists fuel' fname s1, near s s1 /\ adds s s1 /\ follow_chain fuel' file fname (least inside) c l s1 = Done x s'.
Proof.
  intros [|fuel] file node s x s' e l c inside hc hr h; [discriminate h|]. cbn [resolve_member_type] in h. unfold ebind at 1 in h.
  destruct (chain_root fuel (resolve_member_type fuel file) file node node [] s) as [y s1| |] eqn:e1; try discriminate h.
  destruct (chain_flat _ _ _ hc _ _ _ _ _ _ _ _ e1) as (f1 & e2).
  destruct (receiver_root _ _ _ _ hr _ _ _ _ _ _ _ e2) as (-> & hl & ha). rewrite app_nil_r in h.
  unfold ebind, eget, e_top, e_data in h. destruct (top (the_arena s1) (r_container s1)) as [f|]; [|discriminate h].
  destruct (data (the_arena s1) f) as [fd|]; [|discriminate h].
  exists fuel, (sym_name fd), s1. split; [eapply near_like; [apply near_refl|exact hl]|]. auto.
Qed.

(** * C49 *)

Lemma adds_no : forall s s' n, adds s s' -> In n (r_diags s') -> In n (r_diags s) \/ ~ accuses n.
Proof.
  intros s s' n (_ & l & e & h) hin. rewrite e in hin. apply in_app_iff in hin. destruct hin as [hin|hin]; [auto|].
  right. rewrite Forall_forall in h. auto.
Qed.

(** Members that the class of the object declares and that may be used here are
    linked to their declarations and not reported.  The chain may have any
    length as long as each member but the last has the type [self], [static]
    or [$this].

    Missing for the whole of C49: other types in between, inherited members and
    members of traits, objects that are no variables, and arguments of calls;
    see also [C49_refuted]. *)
Theorem C49_known_partial : forall fuel file node s x s' e c inside members m ms p,
  Chain node e (members ++ [m]) -> Receiver s e c inside ->
  Forall2 (uses s c inside) members ms -> Forall (fun p => fluent (snd p)) ms -> uses s c inside m p ->
  resolve_member_type fuel file node s = Done x s' ->
  Forall2 (fun m p => exists r, node_range m = Some r /\ referenced s' file r (fst p)) (members ++ [m]) (ms ++ [p]) /\
  (forall n, In n (r_diags s') -> In n (r_diags s) \/ ~ accuses n) /\
  (fluent (snd p) -> x = Some c).
Proof.
  intros fuel file node s x s' e c inside members m ms p hc hr hF hf hu h.
  destruct (access_follow _ _ _ _ _ _ _ _ _ _ hc hr h) as (f1 & fname & s1 & hn1 & ha1 & e1).
  destruct (steps_own _ _ _ _ _ _ _ _ hF hf _ _ _ _ hn1 e1) as (s2 & hn2 & ha2 & hF2 & e2).
  destruct (step_own _ _ _ _ _ _ _ _ _ _ _ _ hu hn2 e2) as (s3 & hn3 & ha3 & (r & hr3 & hr4) & e3).
  assert (ha4 : adds s3 s').
  { destruct (y_kind (snd p)); try (injection e3 as _ <-; apply adds_refl); revert e3;
      (apply m_bind; [apply m_type|]; intros [n|]; apply m_ret). }
  split; [|split].
  - apply Forall2_app.
    + clear - hF2 ha3 ha4. induction hF2 as [|m0 p0 ? ? (r0 & h0 & h1)]; constructor; auto.
      exists r0. split; [exact h0|]. apply ha4, ha3, h1.
    + constructor; [|constructor]. exists r. split; [exact hr3|]. apply ha4, hr4.
  - intros n. apply adds_no. eapply adds_trans; [exact ha1|]. eapply adds_trans; [exact ha2|]. eapply adds_trans; eauto.
  - intros hp. pose proof (fluent_next f1 fname m c _ hp s3) as hq. destruct hp as [[q|q] _]; rewrite q in e3;
      unfold ebind in e3; rewrite hq in e3; injection e3 as <- _; reflexivity.
Qed.

(** A member that the class does not have at all is reported ... *)
Theorem C49_unknown_partial : forall fuel file node s x s' e c inside members m ms t name,
  Chain node e (members ++ [m]) -> Receiver s e c inside ->
  Forall2 (uses s c inside) members ms -> Forall (fun p => fluent (snd p)) ms ->
  written m t name -> lacks s c (to_lowercase name) ->
  resolve_member_type fuel file node s = Done x s' ->
  exists message, unknown_message m = Some message /\ reported s' m message.
Proof.
  intros fuel file node s x s' e c inside members m ms t name hc hr hF hf hw hk h.
  destruct (access_follow _ _ _ _ _ _ _ _ _ _ hc hr h) as (f1 & fname & s1 & hn1 & ha1 & e1).
  destruct (steps_own _ _ _ _ _ _ _ _ hF hf _ _ _ _ hn1 e1) as (s2 & hn2 & ha2 & hF2 & e2).
  destruct (written_link _ _ _ hw) as (hl & _ & hr2). cbn [follow_chain] in e2. rewrite hl in e2. cbn [eopt] in e2.
  unfold ebind at 1, eret at 1 in e2. unfold ebind at 1 in e2.
  destruct (get_all_symbols f1 c s2) as [mm s3| |] eqn:e3; try discriminate e2.
  destruct (near_lacks _ _ _ _ _ _ _ hk hn2 e3) as [hz _]. rewrite hz in e2. unfold ebind, eopt in e2.
  unfold unknown_message, reported. destruct (node_range m) as [r|]; [|discriminate e2].
  destruct (node_name m) as [nm|]; [|discriminate e2]. injection e2 as _ <-. eexists. split; [reflexivity|].
  eexists. exists r. split; [apply in_or_app; right; left; reflexivity|]. cbn. auto.
Qed.

(** ... and so is a private or protected one if the code stands outside. *)
Theorem C49_hidden_partial : forall fuel file node s x s' e c members m ms t name i d,
  Chain node e (members ++ [m]) -> Receiver s e c false ->
  Forall2 (uses s c false) members ms -> Forall (fun p => fluent (snd p)) ms ->
  written m t name -> owns s c (to_lowercase name) i d -> ~ usable false d ->
  resolve_member_type fuel file node s = Done x s' ->
  reported s' m hidden_message.
Proof.
  intros fuel file node s x s' e c members m ms t name i d hc hr hF hf hw ho hu h.
  destruct (access_follow _ _ _ _ _ _ _ _ _ _ hc hr h) as (f1 & fname & s1 & hn1 & ha1 & e1).
  destruct (steps_own _ _ _ _ _ _ _ _ hF hf _ _ _ _ hn1 e1) as (s2 & hn2 & ha2 & hF2 & e2).
  destruct (written_link _ _ _ hw) as (hl & _ & hr2). cbn [follow_chain] in e2. rewrite hl in e2. cbn [eopt] in e2.
  unfold ebind at 1, eret at 1 in e2. unfold ebind at 1 in e2.
  destruct (get_all_symbols f1 c s2) as [mm s3| |] eqn:e3; try discriminate e2.
  destruct (near_owns _ _ _ _ _ _ _ _ _ ho hn2 e3) as [hz hn3]. rewrite hz in e2. cbn [al_symbol al_vis al_alias] in e2.
  unfold ebind at 1, e_data in e2. cbn [the_arena rst_arena least] in e2.
  assert (hd : data (r_arena s3) i = Some d).
  { rewrite (near_arena _ _ hn3). destruct ho as [(l1 & l2 & _ & h0 & _) _]. exact h0. }
  rewrite hd, (hidden_ge _ hu) in e2. unfold ebind, eopt in e2. unfold reported.
  destruct (node_range m) as [r|]; [|discriminate e2]. injection e2 as _ <-.
  eexists. exists r. split; [apply in_or_app; right; left; reflexivity|]. cbn. auto.
Qed.
End Access.

(** * Cases *)

(** What names can stand for: what the index, the current class or the names that
    are known already stand for *)
Section Values.
Context {RT : Runtime} {HH : Hashing}.
Variable V : N -> Prop.
Definition within (s : rst) : Prop :=
  (forall k n, In (k, n) (r_global s) -> V n) /\ (forall c, r_class s = Some c -> V c) /\
  (forall k n, In (k, Some n) (r_cache s) -> V n).
Definition lands {A} (m : R A) (P : A -> Prop) : Prop :=
  forall s x s', within s -> m s = Done x s' -> within s' /\ P x.
Definition fine_ (o : option N) : Prop := forall n, o = Some n -> V n.

Lemma l_ret : forall A (x : A) (P : A -> Prop), P x -> lands (eret x) P.
Proof. intros A x P h s y s' hw e. injection e as <- <-. auto. Qed.
Lemma l_opt : forall A (o : option A), lands (eopt o) (fun _ => True).
Proof. intros A [x|] s y s' hw e; [injection e as <- <-; auto|discriminate e]. Qed.
Lemma l_bind : forall A B (m : R A) (f : A -> R B) P P', lands m P -> (forall x, P x -> lands (f x) P') -> lands (ebind m f) P'.
Proof.
  intros A B m f P P' hm hf s y s' hw e. unfold ebind in e. destruct (m s) as [x s1| |] eqn:e1; try discriminate e.
  destruct (hm _ _ _ hw e1) as [hw1 hx]. eapply hf; eauto.
Qed.
Lemma l_same : forall A (m : R A), (forall s x s', m s = Done x s' -> within s -> within s') -> lands m (fun _ => True).
Proof. intros A m h s x s' hw e. eauto. Qed.
Lemma l_note : forall n, lands (note n) (fun _ => True).
Proof. intros n. apply l_same. intros s x s' e h. injection e as _ <-. exact h. Qed.
Lemma l_reference : forall f r n, lands (reference f r n) (fun _ => True).
Proof. intros f r n. apply l_same. intros s x s' e h. injection e as _ <-. exact h. Qed.
Lemma l_data : forall i, lands (e_data i) (fun _ => True).
Proof. intros i. apply l_same. intros s x s' e h. unfold e_data in e. destruct (data _ _); [injection e as _ <-; exact h|discriminate e]. Qed.
Lemma l_top : forall i, lands (e_top i) (fun _ => True).
Proof. intros i. apply l_same. intros s x s' e h. unfold e_top in e. destruct (top _ _); [injection e as _ <-; exact h|discriminate e]. Qed.
Lemma l_kids : forall i, lands (e_kids i) (fun _ => True).
Proof. intros i. apply l_same. intros s x s' e h. unfold e_kids in e. destruct (kids _ _); [injection e as _ <-; exact h|discriminate e]. Qed.
Lemma l_put : forall k v, fine_ v -> lands (cache_put k v) (fun _ => True).
Proof.
  intros k v hv. apply l_same. intros s x s' e (h1 & h2 & h3). injection e as _ <-. split; [exact h1|]. split; [exact h2|].
  intros k' n hin. cbn in hin. apply in_put in hin. destruct hin as [hin|hin]; [injection hin as _ q; apply hv; symmetry; exact q|eauto].
Qed.
Lemma l_global : lands (eget r_global) (fun g => forall k n, In (k, n) g -> V n).
Proof. intros s x s' hw e. injection e as <- <-. split; [exact hw|apply hw]. Qed.
Lemma l_class : lands (eget r_class) fine_.
Proof. intros s x s' hw e. injection e as <- <-. split; [exact hw|]. intros n. apply hw. Qed.
Lemma l_cache : lands (eget r_cache) (fun g => forall k n, In (k, Some n) g -> V n).
Proof. intros s x s' hw e. injection e as <- <-. split; [exact hw|apply hw]. Qed.
Lemma l_parents : forall (resolve : TypeRef -> N -> bool -> R (option N)) me ctx,
  (forall tr a b, lands (resolve tr a b) fine_) ->
  lands (parent_nodes resolve me ctx) (fun m => forall p, In p m -> V (snd p)).
Proof.
  intros resolve me ctx hr. unfold parent_nodes.
  assert (H : forall l b, (forall p : str * N, In p b -> V (snd p)) -> lands (efold (fun m r =>
      elet o <- resolve (sr_type r) ctx false in
      match o with
      | Some n => elet d <- e_data n in eret (put str_eqb (normalized_name d) n m)
      | None => eret m
      end) b l) (fun m => forall p, In p m -> V (snd p))).
  { induction l as [|r l IH]; intros b hb; cbn [efold]; [apply l_ret; exact hb|].
    eapply l_bind; [|intros x hx; apply IH; exact hx].
    eapply l_bind; [apply hr|]. intros [n|] hn; [|apply l_ret; exact hb].
    eapply l_bind; [apply l_data|]. intros d _. apply l_ret. intros p hp. apply in_put in hp.
    destruct hp as [->|hp]; [apply hn; reflexivity|auto]. }
  apply H. intros p [].
Qed.
Lemma l_resolve : forall fuel tr ctx b, lands (resolve_type_ref fuel tr ctx b) fine_.
Proof.
  induction fuel as [|fuel IH]; intros tr ctx b; cbn [resolve_type_ref]; [intros s x s' _ e; discriminate e|].
  assert (F0 : fine_ None) by (intros n e; discriminate e).
  destruct (tref_is_builtin tr || tref_is_empty tr); [apply l_ret, F0|].
  eapply l_bind; [apply l_top|]. intros file _. eapply l_bind; [apply l_data|]. intros fs _.
  eapply l_bind; [apply l_opt|]. intros root _. eapply l_bind; [apply l_opt|]. intros name _.
  eapply l_bind; [apply l_opt|]. intros range _. cbv zeta. eapply l_bind; [apply l_cache|]. intros cache hc.
  destruct (find unique_eqb (file, range) cache) as [o|] eqn:ef.
  { apply l_ret. intros n ->. clear - ef hc. induction cache as [|[k v] cache IH]; [discriminate ef|]. cbn [find] in ef.
    destruct (unique_eqb (file, range) k); [injection ef as ->; eapply hc; left; reflexivity|].
    apply IH; [intros k' n' hin; eapply hc; right; exact hin|exact ef]. }
  eapply l_bind; [apply l_class|]. intros class hcl.
  destruct (str_eqb name (lit "self") || str_eqb name (lit "static")).
  { destruct class as [c|].
    - eapply l_bind; [apply l_put, hcl|]. intros _ _. apply l_ret, hcl.
    - eapply l_bind; [apply l_note|]. intros _ _. eapply l_bind; [apply l_put, F0|]. intros _ _. apply l_ret, F0. }
  destruct (str_eqb name (lit "parent")).
  { destruct class as [c|].
    - eapply l_bind; [apply l_data|]. intros me _. eapply l_bind with (P := fine_).
      + unfold unique_parent. eapply l_bind; [apply l_parents, IH|]. intros m hm. apply l_ret.
        intros n e. destruct m as [|[k v] [|]]; try discriminate e. injection e as <-. apply (hm (k, v)). left. reflexivity.
      + intros p hp. eapply l_bind; [apply l_put, hp|]. intros _ _. apply l_ret, hp.
    - eapply l_bind; [apply l_note|]. intros _ _. eapply l_bind; [apply l_put, F0|]. intros _ _. apply l_ret, F0. }
  eapply l_bind; [apply l_opt|]. intros imports _. eapply l_bind; [apply l_data|]. intros an _.
  eapply l_bind with (P := fun _ => True).
  { unfold current_namespace. destruct (y_ns an); [apply l_ret; exact I|]. eapply l_bind; [apply l_kids|]. intros ks _.
    eapply l_bind with (P := fun _ => True); [|intros; apply l_ret; exact I].
    induction ks as [|k ks IHk]; cbn [efind]; [apply l_ret; exact I|]. eapply l_bind with (P := fun _ => True).
    - eapply l_bind; [apply l_data|]. intros. apply l_ret. exact I.
    - intros [o|] _; [apply l_ret; exact I|exact IHk]. }
  intros ns _. eapply l_bind; [apply l_opt|]. intros joined _. eapply l_bind; [apply l_global|]. intros global hg.
  assert (G : forall k n, findS k global = Some n -> V n).
  { intros k n e. clear - e hg. induction global as [|[k' v] global IH]; [discriminate e|]. cbn [find] in e.
    destruct (str_eqb k k'); [injection e as ->; eapply hg; left; reflexivity|].
    apply IH; [intros k2 n' hin; eapply hg; right; exact hin|exact e]. }
  eapply l_bind with (P := fun o => forall n c, o = Some (n, c) -> V n).
  { destruct (findS (to_lowercase joined) global) eqn:e1; [apply l_ret; intros n0 c q; injection q as <- _; eauto|].
    destruct (findS (to_lowercase name) global) eqn:e2; [apply l_ret; intros n0 c q; injection q as <- _; eauto|].
    eapply l_bind; [apply l_note|]. intros _ _. apply l_ret. intros n c q. discriminate q. }
  intros [[node comp]|] hn.
  - assert (F : fine_ (Some node)) by (intros n q; injection q as <-; eapply hn; reflexivity).
    eapply l_bind with (P := fun _ => True); [destruct b; [apply l_reference|apply l_ret; exact I]|]. intros _ _.
    eapply l_bind; [apply l_data|]. intros d _.
    eapply l_bind with (P := fun _ => True); [destruct (fqdn_matches d comp); [apply l_ret; exact I|apply l_note]|]. intros _ _.
    eapply l_bind; [apply l_put, F|]. intros _ _. apply l_ret, F.
  - eapply l_bind; [apply l_put, F0|]. intros _ _. apply l_ret, F0.
Qed.
Lemma within_looked : forall s s1, within s -> looked s s1 -> within s1.
Proof. intros s s1 h. induction 1; [exact h|]. eapply l_resolve; eauto. Qed.
Lemma within_means : forall s l c ctx n, within s -> means_in s l c ctx n -> V n.
Proof.
  intros s l c ctx n h (s1 & s2 & fuel & d & tr & hl & _ & _ & e).
  destruct (l_resolve _ _ _ _ _ _ _ (within_looked _ _ h hl) e) as [_ hf]. apply hf. reflexivity.
Qed.
(** A class without parents and traits has no ancestors if nothing else is in the
    index. *)
Lemma no_ancestors : forall s c d, within s -> data (r_arena s) c = Some d -> parent_names d = [] -> trait_names d = [] ->
  (forall n, V n -> n = c) -> forall n, ~ ancestor s c n.
Proof.
  intros s c d h hd hp ht hV.
  assert (F : forall n, ~ follows s c n).
  { intros n [hf|[hf|[ne hf]]].
    - destruct hf as (s1 & s2 & fuel & d' & tr & hl & hd' & hin & _). rewrite (proj1 (looked_kept _ _ hl)), hd in hd'.
      injection hd' as <-. rewrite hp in hin. destruct hin.
    - destruct hf as (s1 & s2 & fuel & d' & tr & hl & hd' & hin & _). rewrite (proj1 (looked_kept _ _ hl)), hd in hd'.
      injection hd' as <-. rewrite ht in hin. destruct hin.
    - apply ne, hV. eapply within_means; eauto. }
  intros n ha. unfold ancestor in ha. apply Operators_Properties.clos_trans_t1n in ha. destruct ha; eapply F; eassumption.
Qed.
End Values.

Local Existing Instance ascii_runtime | 9.
Local Existing Instance plain_hashing | 9.

(** A class with the method [p], which returns [static], and the private
    property [q] *)
Definition text49 : string :=
  "<?php class B { public function p(): static { return $this; } private $q; function r() { } } $x = new B; ".
Definition symbols49 : arena Symbol := Eval vm_compute in b_arena (opened "<?php" text49).
Definition index49 : list (str * N) := Eval vm_compute in b_global (opened "<?php" text49).
(** ... in its method [r], and behind it *)
Definition inside49 : rst := mkRst symbols49 index49 [[]] (Some 2) 6 [] [] [].
Definition outside49 : rst := mkRst symbols49 index49 [[(lit "x", 7)]] None 1 [] [] [].

Lemma no_ancestors49 : forall s, r_arena s = symbols49 -> r_global s = index49 -> r_class s = None \/ r_class s = Some 2 ->
  r_cache s = [] -> forall n, ~ ancestor s 2 n.
Proof.
  intros s ha hg hc hk. eapply no_ancestors with (V := fun n => n = 2).
  - split; [|split].
    + rewrite hg. intros k n [q|[]]. injection q as _ <-. reflexivity.
    + intros c q. destruct hc as [q'|q']; rewrite q in q'; [discriminate q'|injection q' as <-; reflexivity].
    + rewrite hk. intros k n [].
  - rewrite ha. vm_compute. reflexivity.
  - reflexivity.
  - reflexivity.
  - auto.
Qed.
Definition symbol49 (i : N) : Symbol :=
  Eval vm_compute in match data symbols49 i with Some d => d | None => plain_symbol KFile [] (mkRng (mkPos 0 0) (mkPos 0 0)) (mkRng (mkPos 0 0) (mkPos 0 0)) end.

Lemma owns49 : forall s k i, r_arena s = symbols49 -> r_global s = index49 -> r_class s = None \/ r_class s = Some 2 ->
  r_cache s = [] -> (k = lit "p" /\ i = 4) \/ (k = lit "q" /\ i = 5) -> owns s 2 k i (symbol49 i).
Proof.
  intros s k i h1 h2 h3 h4 h. split; [|split].
  - rewrite h1. destruct h as [[-> ->]|[-> ->]].
    + exists [3], [5; 6]. split; [vm_compute; reflexivity|]. split; [vm_compute; reflexivity|]. split; [vm_compute; reflexivity|].
      intros j dj [<-|[<-|[]]] hd; vm_compute in hd; injection hd as <-; vm_compute; discriminate.
    + exists [3; 4], [6]. split; [vm_compute; reflexivity|]. split; [vm_compute; reflexivity|]. split; [vm_compute; reflexivity|].
      intros j dj [<-|[]] hd; vm_compute in hd; injection hd as <-; vm_compute; discriminate.
  - intros (d & v & cl & m & tk & l & hd & hi & _). rewrite h1 in hd. vm_compute in hd. injection hd as <-. destruct hi.
  - intros n hn. destruct (no_ancestors49 s h1 h2 h3 h4 n hn).
Qed.
Lemma fluent49 : fluent (symbol49 4).
Proof. split; [left; reflexivity|]. eexists _, _, _. split; [reflexivity|]. split; [reflexivity|]. right. left. reflexivity. Qed.

(** The parts of a chain *)
Fixpoint parts (n : Node) : Node * list Node :=
  match n with
  | NMember o _ _ m _ | NStaticMember o _ _ m _ => let (e, l) := parts o in (e, l ++ [m])
  | NCall o _ [] _ => parts o
  | _ => (n, [])
  end.
Lemma parts_ok : forall n e l, parts n = (e, l) -> Chain n e l.
Proof.
  fix IH 1. intros n e l h. destruct n; cbn [parts] in h; try (injection h as <- <-; apply Chain_none).
  - destruct parameters; [|injection h as <- <-; apply Chain_none]. apply Chain_call, IH, h.
  - destruct (parts n1) as [e1 l1] eqn:q. injection h as <- <-. apply Chain_member, IH, q.
  - destruct (parts n1) as [e1 l1] eqn:q. injection h as <- <-. apply Chain_static, IH, q.
Qed.

Ltac use49 := eexists _, _; split; [constructor; reflexivity || discriminate|split; [apply owns49; auto|]].

(** [$this->p()->P()->q], with all its members, in the class; and [$x->p()->p],
    [$x->p()->q] and [$x->p()->z] outside, where the last two are reported *)
Example C49_case_inside : exists node e members m x s',
  syntax 60 (lit "<?php $this->p()->P()->q;") = Some [NExpressionStatement node] /\
  Chain node e (members ++ [m]) /\ List.length members = 2%nat /\ Receiver inside49 e 2 true /\
  Forall2 (uses inside49 2 true) members [(4, symbol49 4); (4, symbol49 4)] /\
  Forall (fun p => fluent (snd p)) [(4, symbol49 4); (4, symbol49 4)] /\
  uses inside49 2 true m (5, symbol49 5) /\
  resolve_member_type 60 1 node inside49 = Done x s' /\ y_vis (symbol49 5) = VPrivate.
Proof.
  eexists _, _, [_; _], _, _, _. split; [vm_compute; reflexivity|]. split; [apply parts_ok; reflexivity|].
  split; [reflexivity|]. split; [apply Receiver_this; reflexivity|].
  split; [|split; [|split; [|split]]].
  - repeat constructor; use49; left; reflexivity.
  - repeat constructor; apply fluent49.
  - use49. left. reflexivity.
  - vm_compute. reflexivity.
  - reflexivity.
Qed.

Example C49_case_outside : exists node1 node2 node3 e members m1 m2 m3 t name t' name' x1 x2 x3 s1 s2 s3,
  syntax 60 (lit "<?php $x->p()->p;") = Some [NExpressionStatement node1] /\
  syntax 60 (lit "<?php $x->p()->q;") = Some [NExpressionStatement node2] /\
  syntax 60 (lit "<?php $x->p()->z;") = Some [NExpressionStatement node3] /\
  Chain node1 e (members ++ [m1]) /\ Chain node2 e (members ++ [m2]) /\ Chain node3 e (members ++ [m3]) /\
  Receiver outside49 e 2 false /\
  Forall2 (uses outside49 2 false) members [(4, symbol49 4)] /\ Forall (fun p => fluent (snd p)) [(4, symbol49 4)] /\
  uses outside49 2 false m1 (4, symbol49 4) /\
  (written m2 t name /\ owns outside49 2 (to_lowercase name) 5 (symbol49 5) /\ ~ usable false (symbol49 5)) /\
  (written m3 t' name' /\ lacks outside49 2 (to_lowercase name')) /\
  resolve_member_type 60 1 node1 outside49 = Done x1 s1 /\
  resolve_member_type 60 1 node2 outside49 = Done x2 s2 /\
  resolve_member_type 60 1 node3 outside49 = Done x3 s3.
Proof.
  eexists _, _, _, _, [_], _, _, _, _, _, _, _, _, _, _. eexists _, _, _.
  split; [vm_compute; reflexivity|]. split; [vm_compute; reflexivity|]. split; [vm_compute; reflexivity|].
  split; [apply parts_ok; reflexivity|]. split; [apply parts_ok; reflexivity|]. split; [apply parts_ok; reflexivity|].
  split.
  { apply Receiver_other; [|discriminate]. eexists _, _, _, _, _, _, _. split; [reflexivity|]. split; [discriminate|].
    split; [reflexivity|]. split; [reflexivity|]. split; [vm_compute; reflexivity|]. split; reflexivity. }
  split; [repeat constructor; use49; right; left; reflexivity|].
  split; [repeat constructor; apply fluent49|]. split; [use49; right; left; reflexivity|].
  split.
  { split; [apply written_name; reflexivity || discriminate|]. split; [apply owns49; auto|]. intros [h|[h|h]]; discriminate h. }
  split.
  { split; [apply written_name; reflexivity || discriminate|]. intros n [->|hn]; [|destruct (no_ancestors49 outside49 eq_refl eq_refl (or_introl eq_refl) eq_refl n hn)]. split.
    - intros j (ks & d & hk & hin & hd & hn). vm_compute in hk. injection hk as <-.
      destruct hin as [<-|[<-|[<-|[<-|[]]]]]; vm_compute in hd; injection hd as <-; vm_compute in hn; discriminate hn.
    - intros (d & v & cl & mm & tk & l & hd & hi & _). vm_compute in hd. injection hd as <-. destruct hi. }
  split; [vm_compute; reflexivity|]. split; vm_compute; reflexivity.
Qed.

(** ** C49 does not hold in general *)

(** What is reported in a file, and what the text at a place is linked to *)
Definition complains (s : bst) (path message : str) (from to : Position) : Prop :=
  exists l, findS path (b_diags s) = Some l /\ In (DNote message SevError (mkRng from to)) l.
Definition quiet_file (s : bst) (path : str) : Prop := findS path (b_diags s) = Some [].

(** Reported although it is right: [A::f()] in the class [A] with the private
    method [f]; [$b->p()] in a subclass of [B] with the protected method [p];
    [$this->$x].  Not reported although it is wrong: [$this->b->p()] with the
    private method [p] of another class; [$this->p()] with a private method
    of the parent class. *)
Theorem C49_refuted :
  (exists s, reachable s /\ s = opened "<?php" "<?php class A { private static function f() { } static function g() { A::f(); } }" /\
     complains s pB hidden_message (mkPos 0 73) (mkPos 0 74)) /\
  (exists s, reachable s /\ s = opened "<?php" "<?php class B { protected function p() { } } class A extends B { function g(B $b) { $b->p(); } }" /\
     complains s pB hidden_message (mkPos 0 88) (mkPos 0 89)) /\
  (exists s, reachable s /\ s = opened "<?php" "<?php class B { public $y; function p($x) { $this->$x; } }" /\
     complains s pB (lit "Unresolvable symbol $x") (mkPos 0 51) (mkPos 0 53)) /\
  (exists s, reachable s /\ s = opened "<?php" "<?php class B { private function p() { } } class A { /** @var B */ private $b; function g() { $this->b->p(); } }" /\
     quiet_file s pB) /\
  (exists s, reachable s /\ s = opened "<?php" "<?php class B { private function p() { } } class A extends B { function g() { $this->p(); } }" /\
     quiet_file s pB).
Proof.
  split; [|split; [|split; [|split]]]; eexists; (split; [|split; [reflexivity|]]; [apply state_after_reachable|]).
  1-3: eexists; split; [vm_compute; reflexivity|]; left; reflexivity.
  - vm_compute. reflexivity.
  - vm_compute. reflexivity.
Qed.

Print Assumptions C49_known_partial.
Print Assumptions C49_unknown_partial.
Print Assumptions C49_hidden_partial.
Print Assumptions C49_refuted.
