(** Property C49 for chains through several classes, and for objects that are
    named, created or the parent. *)

From Coq Require Import Permutation Relations.
From Verif Require Import Base Token Scanner Node DocBlock Parser Assoc AssocFacts Arena ArenaFacts
  Symbol EnvMonad EnvFacts Workspace WorkspaceFacts Resolver SpecNames ResolverFacts TokenFacts
  Backend BackendFacts SpecServer ServerInv Prop_Server Prop_Names Prop_Members Prop_Overrides Prop_Access Prop_Inherit.

Local Notation findS := (find str_eqb).
Local Open Scope string_scope.
Local Open Scope N_scope.
Local Open Scope list_scope.

Section Chains.
Context {RT : Runtime} {HH : Hashing}.

(** * Specification *)

(** The class [c] has the only parent [p]. *)
Definition child_of (s : rst) (c p : N) : Prop :=
  exists me r, data (r_arena s) c = Some me /\ y_inherits me = Some [r] /\
    forall o, found s c (sr_type r) o -> o = Some p.

(** [Start s e c v s0]: the expression [e] is an object of the class [c], or that
    class, and members are usable here from the visibility [v] on; looking
    that up leads from the state [s] to [s0].  The receivers of [Receiver];
    [parent]; names of classes; [new] and [clone]. *)
Inductive Start (s : rst) : Node -> N -> Visibility -> rst -> Prop :=
| Start_receiver : forall e c inside, Receiver s e c inside -> Start s e c (least inside) s
| Start_parent : forall t c p, t_type t = TParent -> r_class s = Some c -> child_of s c p ->
    Start s (NLiteral t) p VProtected s
| Start_name : forall t fuel c s0, t_type t = TIdentifier -> t_label t <> Some (lit "parent") ->
    resolve_type_ref fuel (tref_one [t]) (r_container s) true s = Done (Some c) s0 ->
    Start s (NLiteral t) c VPublic s0
| Start_type : forall tr fuel c s0, tref_root tr <> Some (Some (lit "parent")) ->
    resolve_type_ref fuel tr (r_container s) true s = Done (Some c) s0 ->
    Start s (NTypeRef tr) c VPublic s0
| Start_new : forall t e c v s0, t_type t = TNew \/ t_type t = TClone -> Start s e c v s0 -> Start s (NUnary e t) c v s0
| Start_call : forall e op cp c v s0, Start s e c v s0 -> Start s (NCall e op [] cp) c v s0
| Start_group : forall e c v s0, Start s e c v s0 -> Start s (NGrouping e) c v s0.

(** A use of the member [i] of [c] with the visibility [v] at least *)
Definition visible (v : Visibility) (d : Symbol) : Prop :=
  match v with
  | VPublic => y_vis d = VPublic \/ y_vis d = VNone
  | VProtected => y_vis d <> VPrivate
  | _ => True
  end.
Definition reads (s : rst) (c : N) (v : Visibility) (m : Node) (p : N * Symbol) : Prop :=
  exists t name, written m t name /\ has s c (to_lowercase name) (fst p) (snd p) /\ visible v (snd p).

(** A type that is [self], [static] or [$this], and one that is a name *)
Definition own_type (r : SRef) : Prop :=
  exists t, kind (sr_type r) = [t] /\
    (t_type t = TTypeSelf \/ t_type t = TStatic \/ (t_type t = TVariable /\ t_label t = Some (lit "this"))).
Definition named_type (r : SRef) : Prop :=
  exists t ts name, kind (sr_type r) = t :: ts /\ t_type t <> TTypeSelf /\ t_type t <> TStatic /\ t_type t <> TParent /\
    tref_root (sr_type r) = Some (Some name) /\ name <> lit "$this".
(** The first of the types that stands for a class, for a member of an object
    of class [c], stands for [n]: [self], [static] and [$this] for [c], [parent]
    for its parent, a name for the class that is found for it from [c]. *)
Inductive comes (s : rst) (c : N) : list SRef -> N -> Prop :=
| comes_own : forall r rs, own_type r -> comes s c (r :: rs) c
| comes_parent : forall r rs t ts p, kind (sr_type r) = t :: ts -> t_type t = TParent -> child_of s c p ->
    comes s c (r :: rs) p
| comes_named : forall r rs n, named_type r -> (forall o, found s c (sr_type r) o -> o = Some n) -> comes s c (r :: rs) n
| comes_later : forall r rs n, named_type r -> (forall o, found s c (sr_type r) o -> o = None) -> comes s c rs n ->
    comes s c (r :: rs) n.
(** The value of the member [d] of an object of class [c] is an object of class [n]. *)
Definition leads (s : rst) (c : N) (d : Symbol) (n : N) : Prop :=
  (y_kind d = KMethod \/ y_kind d = KProperty) /\ comes s c (y_types d) n.

(** [Path s v c members ms z]: the members, from an object of [c] on, lead to one
    of [z]; [ms] are their declarations. *)
Inductive Path (s : rst) (v : Visibility) : N -> list Node -> list (N * Symbol) -> N -> Prop :=
| Path_none : forall c, Path s v c [] [] c
| Path_member : forall c m p n members ms z, reads s c v m p -> leads s c (snd p) n ->
    Path s v n members ms z -> Path s v c (m :: members) (p :: ms) z.

(** * Proofs *)

(** ** References are recorded or not *)
Definition twin {A} (m m' : R A) : Prop := forall s t, like s t ->
  match m s, m' t with
  | Done x s', Done y t' => x = y /\ like s' t'
  | Panic, Panic | Fuel, Fuel => True
  | _, _ => False
  end.
Lemma w_blind : forall A (m : R A), blind m -> twin m m.
Proof. intros A m h. exact h. Qed.
Lemma w_bind : forall A B (m m' : R A) (f f' : A -> R B), twin m m' -> (forall x, twin (f x) (f' x)) ->
  twin (ebind m f) (ebind m' f').
Proof.
  intros A B m m' f f' hm hf s t h. specialize (hm s t h). unfold ebind.
  destruct (m s), (m' t); try tauto. destruct hm as [-> h']. apply hf, h'.
Qed.
Lemma w_reference : forall f r n, twin (reference f r n) (eret tt).
Proof. intros f r n s t h. cbn. split; [reflexivity|]. destruct h as (h1 & h2 & h3 & h4 & h5 & h6). repeat split; assumption. Qed.
Ltac bw := apply w_blind; unfold unique_parent, parent_nodes, current_namespace; repeat first
  [ assumption | apply b_ret | apply b_panic | apply b_fuel | apply b_opt | apply b_note | apply b_put
  | apply b_get; intros ? ? (? & ? & ? & ? & ? & ?); assumption
  | apply b_reference | apply b_data | apply b_kids | apply b_top
  | apply b_bind; [|intros ?]
  | apply b_fold; intros ? ? | apply b_find; intros ?
  | apply b_resolve
  | match goal with |- blind (match ?x with _ => _ end) => destruct x end ].
Lemma w_resolve : forall fuel tr ctx, twin (resolve_type_ref fuel tr ctx true) (resolve_type_ref fuel tr ctx false).
Proof.
  intros [|fuel] tr ctx; cbn [resolve_type_ref]; [apply w_blind, b_fuel|].
  destruct (tref_is_builtin tr || tref_is_empty tr); [bw|].
  apply w_bind; [bw|intros file]. apply w_bind; [bw|intros fs]. apply w_bind; [bw|intros root].
  apply w_bind; [bw|intros name]. apply w_bind; [bw|intros range]. cbv zeta. apply w_bind; [bw|intros cache].
  destruct (find unique_eqb (file, range) cache); [bw|]. apply w_bind; [bw|intros class].
  destruct (str_eqb name (lit "self") || str_eqb name (lit "static")); [bw|].
  destruct (str_eqb name (lit "parent")); [bw|].
  apply w_bind; [bw|intros imports]. apply w_bind; [bw|intros an]. apply w_bind; [bw|intros ns].
  apply w_bind; [bw|intros joined]. apply w_bind; [bw|intros global]. apply w_bind; [bw|intros [[node comp]|]]; [|bw].
  apply w_bind; [apply w_reference|intros _]. bw.
Qed.

(** Looking up a name of a symbol, with or without a reference *)
Lemma near_resolve : forall s0 s fuel c d tr ctx b o s', near s0 s -> data (r_arena s0) c = Some d -> In tr (links d) ->
  resolve_type_ref fuel tr ctx b s = Done o s' -> near s0 s' /\ found s0 ctx tr o.
Proof.
  intros s0 s fuel c d tr ctx b o s' (s1 & h1 & h2) hd hin e.
  assert (H : exists s2, resolve_type_ref fuel tr ctx false s1 = Done o s2 /\ like s2 s').
  { destruct b.
    - pose proof (w_resolve fuel tr ctx s s1 (like_sym _ _ h2)) as hw. rewrite e in hw.
      destruct (resolve_type_ref fuel tr ctx false s1) as [y s2| |]; try tauto. destruct hw as [-> hw].
      exists s2. split; [reflexivity|apply like_sym, hw].
    - pose proof (b_resolve fuel tr ctx false s s1 (like_sym _ _ h2)) as hw. rewrite e in hw.
      destruct (resolve_type_ref fuel tr ctx false s1) as [y s2| |]; try tauto. destruct hw as [-> hw].
      exists s2. split; [reflexivity|apply like_sym, hw]. }
  destruct H as (s2 & e2 & hl). split.
  - exists s2. split; [|exact hl]. eapply looked_one; [exact h1| |exact hin|exact e2].
    rewrite (proj1 (looked_kept _ _ h1)). exact hd.
  - exists s1, s2, fuel. auto.
Qed.

(** The fuel does not matter unless the name is [parent]. *)
Lemma resolve_any_fuel : forall f f' tr ctx b s x s' y s'', tref_root tr <> Some (Some (lit "parent")) ->
  resolve_type_ref f tr ctx b s = Done x s' -> resolve_type_ref f' tr ctx b s = Done y s'' -> x = y /\ s' = s''.
Proof.
  intros [|f] [|f'] tr ctx b s x s' y s'' hp e1 e2; [discriminate e1|discriminate e1|discriminate e2|].
  assert (H : resolve_type_ref (S f) tr ctx b s = resolve_type_ref (S f') tr ctx b s).
  { cbn [resolve_type_ref]. destruct (tref_is_builtin tr || tref_is_empty tr); [reflexivity|].
    unfold ebind at 1. symmetry. unfold ebind at 1. symmetry. destruct (e_top ctx s) as [file s1| |]; [|reflexivity..].
    unfold ebind at 1. symmetry. unfold ebind at 1. symmetry. destruct (e_data file s1) as [fs s2| |]; [|reflexivity..].
    unfold ebind at 1. symmetry. unfold ebind at 1. symmetry. destruct (tref_root tr) as [[name|]|] eqn:er; cbn [eopt]; [| |reflexivity].
    2:{ reflexivity. }
    unfold eret at 1. symmetry. unfold eret at 1. symmetry.
    unfold ebind at 1. symmetry. unfold ebind at 1. symmetry. cbn [eopt]. unfold eret at 1. symmetry. unfold eret at 1. symmetry.
    unfold ebind at 1. symmetry. unfold ebind at 1. symmetry. destruct (tref_range tr) as [range|]; cbn [eopt]; [|reflexivity].
    unfold eret at 1. symmetry. unfold eret at 1. symmetry. cbv zeta.
    unfold ebind at 1. symmetry. unfold ebind at 1. symmetry. unfold eget at 1. symmetry. unfold eget at 1. symmetry.
    destruct (find unique_eqb (file, range) (r_cache s2)); [reflexivity|].
    unfold ebind at 1. symmetry. unfold ebind at 1. symmetry. unfold eget at 1. symmetry. unfold eget at 1. symmetry.
    destruct (str_eqb name (lit "self") || str_eqb name (lit "static")); [reflexivity|].
    destruct (str_eqb_spec name (lit "parent")) as [->|_]; [congruence|reflexivity]. }
  rewrite H, e2 in e1. injection e1 as <- <-. auto.
Qed.

Lemma m_root_local : forall f t n, mild (reference_local f t n).
Proof. apply m_local. Qed.

(** ** The start *)
Lemma parent_one : forall s fuel c p s1 o s2, child_of s c p -> near s s1 ->
  (elet d <- e_data c in unique_parent (resolve_type_ref fuel) d c) s1 = Done o s2 -> o = Some p /\ near s s2 /\ adds s1 s2.
Proof.
  intros s fuel c p s1 o s2 (me & r & hd & hi & hf) hn e. unfold ebind at 1, e_data in e. cbn [the_arena rst_arena] in e.
  rewrite (near_arena _ _ hn), hd in e.
  assert (ha : adds s1 s2).
  { revert e. unfold unique_parent, parent_nodes.
    apply m_bind; [|intros; apply m_ret]. apply m_fold. intros x y. apply m_bind; [apply m_resolve|].
    intros [n|]; [|apply m_ret]. apply m_bind; [apply m_data|]. intros; apply m_ret. }
  unfold unique_parent, parent_nodes in e. rewrite hi in e. cbn [efold] in e.
  unfold ebind at 1 in e. unfold ebind at 1 in e. unfold ebind at 1 in e.
  destruct (resolve_type_ref fuel (sr_type r) c false s1) as [q s3| |] eqn:er; try discriminate e.
  destruct (near_resolve s s1 fuel c me (sr_type r) c false q s3 hn hd) as [hn3 hfo]; [|exact er|].
  { apply links_parent. unfold parent_names. rewrite hi. left. reflexivity. }
  specialize (hf _ hfo). subst q. unfold ebind at 1 in e. unfold e_data in e.
  destruct (data (the_arena s3) p) as [dp|]; [|discriminate e]. cbn in e. injection e as <- <-. auto.
Qed.

Lemma start_root : forall s e c v s0, Start s e c v s0 -> forall fuel again file n0 chain x s',
  chain_root fuel again file n0 e chain s = Done x s' ->
  x = Root (Some c) v chain /\ near s0 s' /\ adds s s'.
Proof.
  induction 1 as [e c inside hr|t c p ht hc hp|t fuel0 c s0 ht hl hr|tr fuel0 c s0 hl hr|t e c v s0 _ _ IH|e op cp c v s0 _ IH|e c v s0 _ IH];
    intros fuel again file n0 chain x s' h.
  - destruct (receiver_root _ _ _ _ hr _ _ _ _ _ _ _ h) as (-> & hl & ha). split; [reflexivity|]. split; [|exact ha].
    eapply near_like; [apply near_refl|exact hl].
  - destruct fuel as [|fuel]; [discriminate h|]. cbn [chain_root] in h. rewrite ht in h.
    unfold ebind at 1, eget in h. rewrite hc in h.
    assert (e : exists o s2, (elet d <- e_data c in unique_parent (resolve_type_ref fuel) d c) s = Done o s2 /\
      Done x s' = Done (Root o VProtected chain) s2).
    { revert h. unfold ebind. destruct (e_data c s) as [d s1| |]; try discriminate.
      destruct (unique_parent (resolve_type_ref fuel) d c s1) as [o s2| |]; try discriminate.
      intros q. injection q as <- <-. eauto. }
    destruct e as (o & s2 & e & q). injection q as -> ->.
    destruct (parent_one _ _ _ _ _ _ _ hp (near_refl s) e) as (-> & hn & ha). auto.
  - destruct fuel as [|fuel]; [discriminate h|]. cbn [chain_root] in h. rewrite ht in h.
    unfold ebind, eget in h.
    destruct (resolve_type_ref fuel (tref_one [t]) (r_container s) true s) as [o s1| |] eqn:er; try discriminate h.
    assert (hroot : tref_root (tref_one [t]) <> Some (Some (lit "parent"))).
    { unfold tref_root, tref_is_empty, tref_is_fully_qualified. cbn. rewrite ht. cbn. unfold display_token. rewrite ht.
      destruct (t_label t) as [l|]; cbn; [|discriminate]. intros q. injection q as ->. apply hl. reflexivity. }
    injection h as <- <-. destruct (resolve_any_fuel fuel0 fuel _ _ _ _ _ _ _ _ hroot hr er) as [<- <-].
    split; [reflexivity|]. split; [apply near_refl|]. eapply m_resolve, er.
  - destruct fuel as [|fuel]; [discriminate h|]. cbn [chain_root] in h. unfold ebind, eget in h.
    destruct (resolve_type_ref fuel tr (r_container s) true s) as [o s1| |] eqn:er; try discriminate h.
    destruct (resolve_any_fuel fuel0 fuel _ _ _ _ _ _ _ _ hl hr er) as [<- <-]. injection h as <- <-.
    split; [reflexivity|]. split; [apply near_refl|]. eapply m_resolve, er.
  - destruct fuel as [|fuel]; [discriminate h|]. cbn [chain_root] in h. eapply IH. exact h.
  - destruct fuel as [|fuel]; [discriminate h|]. cbn [chain_root emap] in h. eapply IH. exact h.
  - destruct fuel as [|fuel]; [discriminate h|]. cbn [chain_root] in h. eapply IH. exact h.
Qed.

(** ** The members *)
Ltac harmless :=
  let h := fresh in let l := fresh in let e := fresh in
  intros [h|(l & h)]; cbn in h; repeat (injection h as h; try discriminate h); try discriminate h.
Lemma visible_ge : forall v d, visible v d -> v <> VNone -> vis_ge (y_vis d) v = true.
Proof.
  intros v d h ne. destruct v; cbn in h; try congruence; destruct (y_vis d); try reflexivity; try congruence; destruct h; discriminate.
Qed.
Lemma invisible_ge : forall v d, ~ visible v d -> vis_ge (y_vis d) v = false.
Proof. intros v d h. destruct v; cbn in h; try tauto; destruct (y_vis d); try reflexivity; exfalso; apply h; auto; discriminate. Qed.

Lemma step_read : forall s0 fuel file fname c v m p rest s x s', reads s0 c v m p -> v <> VNone -> near s0 s ->
  follow_chain fuel file fname v c (m :: rest) s = Done x s' ->
  exists s1, near s0 s1 /\ adds s s1 /\ (exists r, node_range m = Some r /\ referenced s1 file r (fst p)) /\
    (match y_kind (snd p) with
     | KProperty | KMethod =>
         elet st <- member_type fuel fname m c (y_types (snd p)) in
         match st with
         | NextLink n => follow_chain fuel file fname v n rest
         | GiveUp => eret None
         end
     | _ => follow_chain fuel file fname v (fst p) rest
     end) s1 = Done x s'.
Proof.
  intros s0 fuel file fname c v m [i d] rest s x s' (t & name & hw & ho & hu) hv hn e. cbn [fst snd] in *.
  destruct (written_link _ _ _ hw) as (hl & hm & hr). cbn [follow_chain] in e. rewrite hl in e. cbn [eopt] in e.
  unfold ebind at 1, eret at 1 in e. unfold ebind at 1 in e.
  destruct (get_all_symbols fuel c s) as [ms s1| |] eqn:e1; try discriminate e.
  destruct (near_has _ _ _ _ _ _ _ _ _ ho hn e1) as [(al & hf & q1 & q2 & q3) hn1]. rewrite hf, q1, q2, q3 in e.
  unfold ebind at 1, e_data in e. cbn [the_arena rst_arena] in e.
  assert (hd : data (r_arena s1) i = Some d).
  { rewrite (near_arena _ _ hn1). destruct ho as (n & _ & (l1 & l2 & _ & h & _) & _). exact h. }
  rewrite hd, (visible_ge _ _ hu hv) in e. unfold ebind at 1 in e.
  match type of e with match ?m s1 with _ => _ end = _ => destruct (m s1) as [u s2| |] eqn:e2; try discriminate e end.
  assert (h2 : near s0 s2 /\ adds s1 s2).
  { destruct (str_eqb (sym_name d) name).
    - injection e2 as _ <-. split; [exact hn1|apply adds_refl].
    - unfold ebind in e2. destruct (node_range m); [|discriminate e2]. cbn [eopt] in e2. unfold eret in e2.
      split; [injection e2 as _ <-; eapply near_like; [exact hn1|repeat split]|].
      revert e2. apply m_note. harmless. }
  destruct h2 as [hn2 ha2]. unfold ebind at 1 in e.
  assert (e3 : exists u3 s3, reference_local file t i s2 = Done u3 s3 /\
    (match y_kind d with
     | KProperty | KMethod =>
         elet st <- member_type fuel fname m c (y_types d) in
         match st with
         | NextLink n => follow_chain fuel file fname v n rest
         | GiveUp => eret None
         end
     | _ => follow_chain fuel file fname v i rest
     end) s3 = Done x s').
  { destruct hm as [-> | ->]; destruct (reference_local file t i s2) as [u3 s3| |]; try discriminate e; eauto. }
  destruct e3 as (u3 & s3 & e3 & e4). exists s3. destruct (like_local _ _ _ _ _ _ e3) as [hl3 (r & hr3 & hr4)].
  split; [eapply near_like; eauto|]. split.
  - eapply adds_trans; [eapply m_all, e1|]. eapply adds_trans; [exact ha2|]. eapply m_local, e3.
  - split; [|exact e4]. exists r. rewrite hr. auto.
Qed.

(** Where the type of a member leads *)
(** Names of built-in types stand for no class. *)
Lemma builtin_none : forall s c tr o, tref_is_builtin tr = true -> found s c tr o -> o = None.
Proof. intros s c tr o h (s1 & s2 & [|fuel] & _ & e); [discriminate e|]. cbn [resolve_type_ref] in e. rewrite h in e. injection e as <- _. reflexivity. Qed.
Lemma parent_name : forall tr t ts w, kind tr = t :: ts -> t_type t = TParent -> tref_root tr = Some (Some w) -> w <> lit "$this".
Proof.
  intros [k m] t ts w hk ht h. cbn in hk. subst k. unfold tref_root, tref_is_empty, tref_is_fully_qualified in h. cbn in h.
  rewrite ht in h. cbn in h. unfold display_token in h. rewrite ht in h. cbn in h.
  destruct ts; destruct (t_label t); cbn in h; injection h as <-; discriminate.
Qed.
Lemma comes_next : forall s0 fuel f m c i d n l, comes s0 c l n -> data (r_arena s0) i = Some d -> incl l (y_types d) ->
  forall s st s', near s0 s -> member_type fuel f m c l s = Done st s' -> st = NextLink n /\ near s0 s'.
Proof.
  intros s0 fuel f m c i d n l hc hd. induction hc as [r rs hf|r rs t ts p ek ht hp|r rs n hr hl|r rs n hr hl _ IH]; intros hi s st s' hn h.
  - assert (q : member_type fuel f m c (r :: rs) s = Done (NextLink c) s).
    { destruct hf as (t & ek & hf). cbn [member_type]. unfold tref_root_token_type. rewrite ek. cbn [eopt]. unfold ebind at 1, eret at 1.
      destruct hf as [q|[q|[q1 q2]]].
      - rewrite q. reflexivity.
      - rewrite q. reflexivity.
      - assert (q : tref_root (sr_type r) = Some (Some (lit "$this"))).
        { destruct (sr_type r) as [k m0]. cbn in ek. subst k. unfold tref_root, tref_is_empty, tref_is_fully_qualified. cbn.
          rewrite q1. cbn. unfold display_token. rewrite q2, q1. reflexivity. }
        rewrite q, q1. reflexivity. }
    rewrite q in h. injection h as <- <-. auto.
  - cbn [member_type] in h. unfold tref_root_token_type in h. rewrite ek in h. cbn [eopt] in h.
    unfold ebind at 1, eret at 1 in h. rewrite ht in h. change (tt_eqb TParent TTypeSelf || tt_eqb TParent TStatic) with false in h.
    cbv iota in h. destruct (tref_root (sr_type r)) as [[w|]|] eqn:er; cbn [eopt] in h; unfold ebind at 1 in h; [| |discriminate h].
    2:{ discriminate h. }
    change (eret (Some w) s) with (Done (Some w) s) in h. cbv beta iota in h. unfold ebind at 1 in h. cbn [eopt] in h.
    change (eret w s) with (Done w s) in h. cbv beta iota in h.
    destruct (str_eqb_spec w (lit "$this")) as [q|_]; [exfalso; eapply parent_name; eassumption|].
    change (tt_eqb TParent TParent) with true in h. cbv iota in h.
    assert (e : exists o s2, (elet d <- e_data c in unique_parent (resolve_type_ref fuel) d c) s = Done o s2 /\
      (match o with
       | Some p => eret (NextLink p)
       | None =>
          elet range <- eopt (node_range m) in
          edo note (mkNote f (lit "Method returns an instance of its parent, but its class has no parent or the parent could not be resolved.")
            range SevWarning) in
          eret GiveUp
       end) s2 = Done st s').
    { revert h. unfold ebind at 1. unfold ebind at 1. unfold ebind at 3. destruct (e_data c s) as [dd s1| |]; try discriminate.
      destruct (unique_parent (resolve_type_ref fuel) dd c s1) as [o s2| |]; try discriminate.
      intros q. exists o, s2. auto. }
    destruct e as (o & s2 & e & q). destruct (parent_one _ _ _ _ _ _ _ hp hn e) as (-> & hn2 & _).
    injection q as <- <-. auto.
  - destruct hr as (t & ts & name & ek & n1 & n2 & n3 & er & n4).
    assert (hin : In (sr_type r) (links d)).
    { apply links_type. unfold type_names. apply in_map. apply hi. left. reflexivity. }
    cbn [member_type] in h; unfold tref_root_token_type in h; rewrite ek in h; cbn [eopt] in h;
      unfold ebind at 1, eret at 1 in h;
      (assert (q1 : tt_eqb (t_type t) TTypeSelf = false) by (destruct (tt_eqb (t_type t) TTypeSelf) eqn:q; [apply tt_eqb_eq in q; contradiction|reflexivity]));
      (assert (q2 : tt_eqb (t_type t) TStatic = false) by (destruct (tt_eqb (t_type t) TStatic) eqn:q; [apply tt_eqb_eq in q; contradiction|reflexivity]));
      (assert (q3 : tt_eqb (t_type t) TParent = false) by (destruct (tt_eqb (t_type t) TParent) eqn:q; [apply tt_eqb_eq in q; contradiction|reflexivity]));
      (assert (q4 : str_eqb name (lit "$this") = false) by (destruct (str_eqb_spec name (lit "$this")); congruence));
      rewrite q1, q2 in h; cbn [orb] in h; rewrite er in h; cbn [eopt] in h;
      unfold ebind at 1, eret at 1 in h; unfold ebind at 1, eopt at 1, eret at 1 in h; rewrite q4, q3 in h; unfold ebind at 1 in h;
      destruct (resolve_type_ref fuel (sr_type r) c true s) as [o s1| |] eqn:eo; try discriminate h.
    destruct (near_resolve s0 s fuel i d (sr_type r) c true o s1 hn hd hin eo) as [hn1 hfo].
    specialize (hl _ hfo); subst o; injection h as <- <-; auto.
  - destruct hr as (t & ts & name & ek & n1 & n2 & n3 & er & n4).
    assert (hin : In (sr_type r) (links d)).
    { apply links_type. unfold type_names. apply in_map. apply hi. left. reflexivity. }
    cbn [member_type] in h; unfold tref_root_token_type in h; rewrite ek in h; cbn [eopt] in h;
      unfold ebind at 1, eret at 1 in h;
      (assert (q1 : tt_eqb (t_type t) TTypeSelf = false) by (destruct (tt_eqb (t_type t) TTypeSelf) eqn:q; [apply tt_eqb_eq in q; contradiction|reflexivity]));
      (assert (q2 : tt_eqb (t_type t) TStatic = false) by (destruct (tt_eqb (t_type t) TStatic) eqn:q; [apply tt_eqb_eq in q; contradiction|reflexivity]));
      (assert (q3 : tt_eqb (t_type t) TParent = false) by (destruct (tt_eqb (t_type t) TParent) eqn:q; [apply tt_eqb_eq in q; contradiction|reflexivity]));
      (assert (q4 : str_eqb name (lit "$this") = false) by (destruct (str_eqb_spec name (lit "$this")); congruence));
      rewrite q1, q2 in h; cbn [orb] in h; rewrite er in h; cbn [eopt] in h;
      unfold ebind at 1, eret at 1 in h; unfold ebind at 1, eopt at 1, eret at 1 in h; rewrite q4, q3 in h; unfold ebind at 1 in h;
      destruct (resolve_type_ref fuel (sr_type r) c true s) as [o s1| |] eqn:eo; try discriminate h.
    destruct (near_resolve s0 s fuel i d (sr_type r) c true o s1 hn hd hin eo) as [hn1 hfo].
    specialize (hl _ hfo). subst o. cbv beta iota in h. eapply IH; [|exact hn1|exact h].
    intros q hq. apply hi. right. exact hq.
Qed.
Lemma leads_next : forall s0 fuel f m c i k d n s st s', leads s0 c d n -> has s0 c k i d -> near s0 s ->
  member_type fuel f m c (y_types d) s = Done st s' -> st = NextLink n /\ near s0 s' /\ adds s s'.
Proof.
  intros s0 fuel f m c i k d n s st s' [_ hc] hh hn h.
  assert (hd : data (r_arena s0) i = Some d) by (destruct hh as (z & _ & (l1 & l2 & _ & q & _) & _); exact q).
  destruct (comes_next _ _ _ _ _ _ _ _ _ hc hd (incl_refl _) _ _ _ hn h) as [h1 h2].
  split; [exact h1|]. split; [exact h2|]. eapply m_type; exact h.
Qed.

Lemma leads_kind : forall s c d n, leads s c d n -> y_kind d = KMethod \/ y_kind d = KProperty.
Proof. intros s c d n [h _]. exact h. Qed.

Lemma steps_read : forall s0 fuel file fname v c members ms z, Path s0 v c members ms z -> v <> VNone ->
  forall rest s x s', near s0 s ->
  follow_chain fuel file fname v c (members ++ rest) s = Done x s' ->
  exists s1, near s0 s1 /\ adds s s1 /\
    Forall2 (fun m p => exists r, node_range m = Some r /\ referenced s1 file r (fst p)) members ms /\
    follow_chain fuel file fname v z rest s1 = Done x s'.
Proof.
  intros s0 fuel file fname v c members ms z H hv. induction H as [c|c m p n members ms z hu hl _ IH]; intros rest s x s' hn e.
  - exists s. split; [exact hn|]. split; [apply adds_refl|]. auto.
  - cbn [app] in e.
    destruct (step_read _ _ _ _ _ _ _ _ _ _ _ _ hu hv hn e) as (s1 & hn1 & ha1 & (r & hr & hr1) & e1).
    assert (e2 : exists s2, near s0 s2 /\ adds s1 s2 /\ follow_chain fuel file fname v n (members ++ rest) s2 = Done x s').
    { assert (e3 : (elet st <- member_type fuel fname m c (y_types (snd p)) in
         match st with NextLink n => follow_chain fuel file fname v n (members ++ rest) | GiveUp => eret None end) s1 = Done x s')
        by (destruct (leads_kind _ _ _ _ hl) as [q|q]; rewrite q in e1; exact e1).
      unfold ebind in e3. destruct (member_type fuel fname m c (y_types (snd p)) s1) as [st s2| |] eqn:em; try discriminate e3.
      destruct hu as (t & name & _ & hh & _). destruct (leads_next _ _ _ _ _ _ _ _ _ _ _ _ hl hh hn1 em) as (-> & hn2 & ha2). eauto. }
    destruct e2 as (s2 & hn2 & ha2 & e2).
    destruct (IH rest s2 x s' hn2 e2) as (s3 & hn3 & ha3 & hF & e3).
    exists s3. split; [exact hn3|]. split; [eapply adds_trans; [exact ha1|eapply adds_trans; eauto]|]. split; [|exact e3].
    constructor; [|exact hF]. exists r. split; [exact hr|]. apply ha3, ha2. exact hr1.
Qed.

Lemma start_visible : forall s e c v s0, Start s e c v s0 -> v <> VNone.
Proof. induction 1; try assumption; try discriminate. destruct inside; discriminate. Qed.

Lemma start_follow : forall fuel file node s x s' e l c v s0, Chain node e l -> Start s e c v s0 ->
  resolve_member_type fuel file node s = Done x s' ->
  exists fuel' fname s1, near s0 s1 /\ adds s s1 /\ follow_chain fuel' file fname v c l s1 = Done x s'.
Proof.
  intros [|fuel] file node s x s' e l c v s0 hc hr h; [discriminate h|]. cbn [resolve_member_type] in h. unfold ebind at 1 in h.
  destruct (chain_root fuel (resolve_member_type fuel file) file node node [] s) as [y s1| |] eqn:e1; try discriminate h.
  destruct (chain_flat _ _ _ hc _ _ _ _ _ _ _ _ e1) as (f1 & e2).
  destruct (start_root _ _ _ _ _ hr _ _ _ _ _ _ _ e2) as (-> & hl & ha). rewrite app_nil_r in h.
  unfold ebind, eget, e_top, e_data in h. destruct (top (the_arena s1) (r_container s1)) as [f|]; [|discriminate h].
  destruct (data (the_arena s1) f) as [fd|]; [|discriminate h].
  exists fuel, (sym_name fd), s1. auto.
Qed.

(** * C49 *)

(** The members of a chain through any number of classes are linked to their
    declarations, own or inherited, and not reported if they are visible from
    the start of the chain; and the chain has the class that its last member
    leads to.

    Missing for the whole of C49: names declared several times in the ancestry,
    elements of arrays, results of functions, and arguments of calls. *)
Theorem C49_chain_partial : forall fuel file node s x s' e c v s0 members ms z m p,
  Chain node e (members ++ [m]) -> Start s e c v s0 ->
  Path s0 v c members ms z -> reads s0 z v m p ->
  resolve_member_type fuel file node s = Done x s' ->
  Forall2 (fun m p => exists r, node_range m = Some r /\ referenced s' file r (fst p)) (members ++ [m]) (ms ++ [p]) /\
  (forall n, In n (r_diags s') -> In n (r_diags s) \/ ~ accuses n) /\
  (forall n, leads s0 z (snd p) n -> x = Some n).
Proof.
  intros fuel file node s x s' e c v s0 members ms z m p hc hr hF hu h. pose proof (start_visible _ _ _ _ _ hr) as hv.
  destruct (start_follow _ _ _ _ _ _ _ _ _ _ _ hc hr h) as (f1 & fname & s1 & hn1 & ha1 & e1).
  destruct (steps_read _ _ _ _ _ _ _ _ _ hF hv _ _ _ _ hn1 e1) as (s2 & hn2 & ha2 & hF2 & e2).
  destruct (step_read _ _ _ _ _ _ _ _ _ _ _ _ hu hv hn2 e2) as (s3 & hn3 & ha3 & (r & hr3 & hr4) & e3).
  assert (ha4 : adds s3 s').
  { destruct (y_kind (snd p)); try (injection e3 as _ <-; apply adds_refl); revert e3;
      (apply m_bind; [apply m_type|]; intros [n|]; apply m_ret). }
  split; [|split].
  - apply Forall2_app.
    + clear - hF2 ha3 ha4. induction hF2 as [|m0 p0 ? ? (r0 & h0 & h1)]; constructor; auto.
      exists r0. split; [exact h0|]. apply ha4, ha3, h1.
    + constructor; [|constructor]. exists r. split; [exact hr3|]. apply ha4, hr4.
  - intros n. apply adds_no. eapply adds_trans; [exact ha1|]. eapply adds_trans; [exact ha2|]. eapply adds_trans; eauto.
  - intros n hl.
    assert (e4 : (elet st <- member_type f1 fname m z (y_types (snd p)) in
         match st with NextLink n => follow_chain f1 file fname v n [] | GiveUp => eret None end) s3 = Done x s')
      by (destruct (leads_kind _ _ _ _ hl) as [q|q]; rewrite q in e3; exact e3).
    unfold ebind in e4. destruct (member_type f1 fname m z (y_types (snd p)) s3) as [st s4| |] eqn:em; try discriminate e4.
    destruct hu as (t & name & _ & hh & _). destruct (leads_next _ _ _ _ _ _ _ _ _ _ _ _ hl hh hn3 em) as (-> & _ & _).
    injection e4 as <- _. reflexivity.
Qed.

(** At the end of such a chain, a member that nobody declares and one that is not
    visible from the start are reported. *)
Theorem C49_chain_unknown_partial : forall fuel file node s x s' e c v s0 members ms z m t name,
  Chain node e (members ++ [m]) -> Start s e c v s0 ->
  Path s0 v c members ms z -> written m t name -> lacks s0 z (to_lowercase name) ->
  resolve_member_type fuel file node s = Done x s' ->
  exists message, unknown_message m = Some message /\ reported s' m message.
Proof.
  intros fuel file node s x s' e c v s0 members ms z m t name hc hr hF hw hk h. pose proof (start_visible _ _ _ _ _ hr) as hv.
  destruct (start_follow _ _ _ _ _ _ _ _ _ _ _ hc hr h) as (f1 & fname & s1 & hn1 & ha1 & e1).
  destruct (steps_read _ _ _ _ _ _ _ _ _ hF hv _ _ _ _ hn1 e1) as (s2 & hn2 & ha2 & hF2 & e2).
  destruct (written_link _ _ _ hw) as (hl & _ & hr2). cbn [follow_chain] in e2. rewrite hl in e2. cbn [eopt] in e2.
  unfold ebind at 1, eret at 1 in e2. unfold ebind at 1 in e2.
  destruct (get_all_symbols f1 z s2) as [mm s3| |] eqn:e3; try discriminate e2.
  destruct (near_lacks _ _ _ _ _ _ _ hk hn2 e3) as [hz _]. rewrite hz in e2. unfold ebind, eopt in e2.
  unfold unknown_message, reported. destruct (node_range m) as [r|]; [|discriminate e2].
  destruct (node_name m) as [nm|]; [|discriminate e2]. injection e2 as _ <-. eexists. split; [reflexivity|].
  eexists. exists r. split; [apply in_or_app; right; left; reflexivity|]. cbn. auto.
Qed.
Theorem C49_chain_hidden_partial : forall fuel file node s x s' e c v s0 members ms z m t name i d,
  Chain node e (members ++ [m]) -> Start s e c v s0 ->
  Path s0 v c members ms z -> written m t name -> has s0 z (to_lowercase name) i d -> ~ visible v d ->
  resolve_member_type fuel file node s = Done x s' ->
  reported s' m hidden_message.
Proof.
  intros fuel file node s x s' e c v s0 members ms z m t name i d hc hr hF hw ho hu h. pose proof (start_visible _ _ _ _ _ hr) as hv.
  destruct (start_follow _ _ _ _ _ _ _ _ _ _ _ hc hr h) as (f1 & fname & s1 & hn1 & ha1 & e1).
  destruct (steps_read _ _ _ _ _ _ _ _ _ hF hv _ _ _ _ hn1 e1) as (s2 & hn2 & ha2 & hF2 & e2).
  destruct (written_link _ _ _ hw) as (hl & _ & hr2). cbn [follow_chain] in e2. rewrite hl in e2. cbn [eopt] in e2.
  unfold ebind at 1, eret at 1 in e2. unfold ebind at 1 in e2.
  destruct (get_all_symbols f1 z s2) as [mm s3| |] eqn:e3; try discriminate e2.
  destruct (near_has _ _ _ _ _ _ _ _ _ ho hn2 e3) as [(al & hz & q1 & q2 & q3) hn3]. rewrite hz, q1, q2, q3 in e2.
  unfold ebind at 1, e_data in e2. cbn [the_arena rst_arena least] in e2.
  assert (hd : data (r_arena s3) i = Some d).
  { rewrite (near_arena _ _ hn3). destruct ho as (n & _ & (l1 & l2 & _ & h0 & _) & _). exact h0. }
  rewrite hd, (invisible_ge _ _ hu) in e2. unfold ebind, eopt in e2. unfold reported.
  destruct (node_range m) as [r|]; [|discriminate e2]. injection e2 as _ <-.
  eexists. exists r. split; [apply in_or_app; right; left; reflexivity|]. cbn. auto.
Qed.
End Chains.

(** * Cases *)

Local Existing Instance ascii_runtime | 9.
Local Existing Instance plain_hashing | 9.

(** [B] extends [A]; the method [c] of [B] returns a [C], the method [d] of [C] a
    [B]. *)
Definition textC : string :=
  "<?php class A { protected function p() { } public $q; } class B extends A { function c(): C { } } class C { private $y; function d(): B { } }".
Definition backC : bst := opened "<?php" textC.
Definition symbolsC : list (N * Symbol) := Eval vm_compute in map (fun p => (fst p, n_data (snd p))) (a_nodes (b_arena backC)).
Definition arenaC : arena Symbol := Eval vm_compute in b_arena backC.
Definition indexC : list (str * N) := Eval vm_compute in b_global backC.
Definition stateC (class : option N) : rst := mkRst arenaC indexC [[]] class 1 [] [] [].
Definition namesC : list TypeRef := Eval vm_compute in flat_map (fun p => links (snd p)) symbolsC.
(** The names of the symbols, and [B] in [(new B)] *)
Definition meaningsC : list (NodeRange * N) := Eval vm_compute in
  (mkRange 11 0 12 0, 6) ::
  flat_map (fun tr => match tref_range tr, resolve_type_ref 20 tr 1 false (stateC None) with
                      | Some r, Done (Some n) _ => [(r, n)]
                      | _, _ => []
                      end) namesC.
Definition fileC (c : N) : N := if c =? 0 then 0 else 1.
Definition symbolC (i : N) : Symbol :=
  match find N.eqb i symbolsC with Some d => d | None => symbol49 0 end.

Lemma symbolsC_eq : forall cl, map (fun p => (fst p, n_data (snd p))) (a_nodes (r_arena (stateC cl))) = symbolsC.
Proof. intros cl. vm_compute. reflexivity. Qed.
Lemma linksC : forall c d tr, In (c, d) symbolsC -> In tr (links d) -> In tr namesC.
Proof.
  intros c d tr h hin.
  assert (q : namesC = flat_map (fun p => links (snd p)) symbolsC) by (vm_compute; reflexivity).
  rewrite q. apply in_flat_map. exists (c, d). auto.
Qed.
Lemma meaningsC_fun : forall r n n', In (r, n) meaningsC -> In (r, n') meaningsC -> n = n'.
Proof.
  intros r n n' h1 h2. unfold meaningsC in *. cbn [In] in *.
  intuition; repeat match goal with h : (_, _) = (_, _) |- _ => injection h as ? ?; subst end; congruence.
Qed.
Lemma someC : forall tr, In tr namesC -> tref_is_builtin tr || tref_is_empty tr = false.
Proof. intros tr h. unfold namesC in h. cbn [In] in h. repeat (destruct h as [<-|h]; [reflexivity|]). contradiction h. Qed.
Lemma lookupC : forall cl k tr ctx sc ct rf dg ca, In tr namesC -> In ctx (map fst symbolsC) ->
  exists r n, tref_range tr = Some r /\ In (r, n) meaningsC /\
  resolve_type_ref (S k) tr ctx false (with_rest (stateC cl) sc ct rf dg ca) =
  match find unique_eqb (fileC ctx, r) ca with
  | Some o => Done o (with_rest (stateC cl) sc ct rf dg ca)
  | None => Done (Some n) (with_rest (stateC cl) sc ct rf dg (put unique_eqb (fileC ctx, r) (Some n) ca))
  end.
Proof.
  intros cl k tr ctx sc ct rf dg ca h1 h2. unfold namesC in h1. cbn [In] in h1. cbn [symbolsC map fst In] in h2.
  repeat (destruct h1 as [<-|h1]); try contradiction h1;
  (repeat (destruct h2 as [<-|h2]); try contradiction h2);
    eexists; eexists; (split; [vm_compute; reflexivity|]);
    (split; [shelve|]);
    match goal with |- resolve_type_ref (S k) ?tr ?ctx false ?s = match ?x with _ => _ end =>
      edestruct (resolve_prefix k tr ctx s) as [g1 g2];
        [vm_compute; reflexivity| vm_compute; reflexivity|vm_compute; reflexivity|vm_compute; reflexivity|vm_compute; reflexivity|];
      destruct x as [o|] eqn:e; [apply g1; exact e|];
      erewrite g2; [reflexivity|exact e|vm_compute; reflexivity..]
    end.
  Unshelve.
  all: unfold meaningsC; cbn [In]; tauto.
Qed.

(** States that remember nothing wrong *)
Definition goodC (cl : option N) (s : rst) : Prop := right (stateC cl) meaningsC s.
Lemma goodC_start : forall cl, goodC cl (stateC cl).
Proof. intros cl. eexists _, _, _, _, _. split; [reflexivity|]. intros f r o []. Qed.
Lemma goodC_next : forall cl s1 s2 k c ctx d tr o, goodC cl s1 -> data (r_arena s1) c = Some d -> In tr (links d) ->
  resolve_type_ref k tr ctx false s1 = Done o s2 ->
  goodC cl s2 /\ exists r n, tref_range tr = Some r /\ o = Some n /\ In (r, n) meaningsC.
Proof.
  intros cl. exact (right_next (stateC cl) symbolsC namesC meaningsC fileC (symbolsC_eq cl) linksC meaningsC_fun someC (lookupC cl)).
Qed.
Lemma goodC_looked : forall cl s s1, goodC cl s -> looked s s1 -> goodC cl s1.
Proof. intros cl s s1 h. induction 1; [exact h|]. eapply goodC_next; eauto. Qed.
Lemma goodC_arena : forall cl s, goodC cl s -> r_arena s = arenaC.
Proof. intros cl s (sc & ct & rf & dg & ca & -> & _). reflexivity. Qed.
Lemma foundC : forall cl s c d ctx tr o, goodC cl s -> data arenaC c = Some d -> In tr (links d) -> found s ctx tr o ->
  exists r n, tref_range tr = Some r /\ o = Some n /\ In (r, n) meaningsC.
Proof.
  intros cl s c d ctx tr o hg hd hin (s1 & s2 & fuel & hl & e).
  assert (h1 : goodC cl s1) by (eapply goodC_looked; eauto).
  apply (goodC_next cl s1 s2 fuel c ctx d tr o h1); [rewrite (goodC_arena _ _ h1); exact hd|exact hin|exact e].
Qed.
Lemma followsC : forall cl s c n, goodC cl s -> follows s c n -> In (c, n) [(6, 2); (8, 9); (12, 6)].
Proof.
  intros cl s c n hg h. destruct h as [h|[h|[ne h]]];
    destruct h as (s1 & s2 & k & d & tr & h & hd & hi & e);
    (assert (h1 : goodC cl s1) by (eapply goodC_looked; eauto));
    (destruct (goodC_next cl s1 s2 k c c d tr (Some n) h1 hd) as (_ & r & n' & hr & q & hm);
      [unfold links; rewrite !in_app_iff; auto|exact e|]); injection q as <-;
    rewrite (goodC_arena _ _ h1) in hd; apply data_in in hd;
    change (map (fun p => (fst p, n_data (snd p))) (a_nodes arenaC)) with
      (map (fun p => (fst p, n_data (snd p))) (a_nodes (r_arena (stateC None)))) in hd; rewrite symbolsC_eq in hd;
    cbn [symbolsC In] in hd;
    repeat (destruct hd as [hd|hd]); try contradiction hd; injection hd as <- <-;
    vm_compute in hi; repeat (destruct hi as [hi|hi]); try contradiction hi;
    rewrite <- hi in hr; vm_compute in hr; injection hr as <-;
    cbn [meaningsC In] in hm; repeat (destruct hm as [hm|hm]; try discriminate hm; try contradiction hm);
    injection hm as <-; try congruence; cbn; auto.
Qed.
Lemma ancestorsC : forall cl s n c, goodC cl s -> ancestor s c n -> In c [6; 9; 2] -> c = 6 /\ n = 2.
Proof.
  intros cl s n c hg h. unfold ancestor in h. apply Operators_Properties.clos_trans_t1n in h.
  induction h as [c n h|c x n h1 h2 IH]; intros hc; cbn [In] in hc.
  - apply (followsC cl) in h; [|exact hg]. cbn in h. destruct hc as [<-|[<-|[<-|[]]]];
      repeat (destruct h as [h|h]; try discriminate h; try contradiction h); injection h as <-; auto.
  - apply (followsC cl) in h1; [|exact hg]. cbn in h1.
    assert (x = 2) by (destruct hc as [<-|[<-|[<-|[]]]];
      repeat (destruct h1 as [h1|h1]; try discriminate h1; try contradiction h1); injection h1 as <-; auto). subst x.
    destruct IH as [IH _]; [cbn; auto|discriminate IH].
Qed.

Ltac onceC hg k := let o := fresh "o" in let ho := fresh "ho" in
  intros o ho; eapply foundC with (c := k) in ho; [|exact hg|vm_compute; reflexivity|vm_compute; auto 10];
  let r := fresh "r" in let n := fresh "n" in let hr := fresh "hr" in let hm := fresh "hm" in let q := fresh "q" in
  destruct ho as (r & n & hr & q & hm); vm_compute in hr; injection hr as <-;
  cbn [meaningsC In] in hm; repeat (destruct hm as [hm|hm]; try discriminate hm; try contradiction hm);
  injection hm as <-; exact q.

Lemma child62 : forall cl s, goodC cl s -> child_of s 6 2.
Proof.
  intros cl s hg. eexists _, _. rewrite (goodC_arena _ _ hg). split; [vm_compute; reflexivity|]. split; [reflexivity|]. onceC hg 6.
Qed.
Lemma findsC : forall cl s c d ctx tr, goodC cl s -> data arenaC c = Some d -> In tr (links d) -> In ctx (map fst symbolsC) ->
  exists o, found s ctx tr o.
Proof.
  intros cl s c d ctx tr (sc & ct & rf & dg & ca & -> & _) hd hi hc.
  assert (hn : In tr namesC).
  { apply data_in in hd. change (map (fun p => (fst p, n_data (snd p))) (a_nodes arenaC)) with
      (map (fun p => (fst p, n_data (snd p))) (a_nodes (r_arena (stateC None)))) in hd. rewrite symbolsC_eq in hd.
    eapply linksC; eauto. }
  destruct (lookupC cl 0 tr ctx sc ct rf dg ca hn hc) as (r & n & _ & _ & e).
  destruct (find unique_eqb (fileC ctx, r) ca) as [o|];
    eexists; eexists _, _, 1%nat; (split; [apply looked_none|exact e]).
Qed.
Definition parentC : TypeRef := match the_list (y_inherits (symbolC 6)) with r :: _ => sr_type r | [] => tref_one [] end.
Lemma extends62 : forall cl s, goodC cl s -> extends s 6 2.
Proof.
  intros cl s hg.
  assert (H : forall o, found s 6 parentC o -> o = Some 2) by onceC hg 6.
  assert (H1 : exists o, found s 6 parentC o).
  { eapply (findsC cl s 6); [exact hg|vm_compute; reflexivity|vm_compute; auto|vm_compute; auto 10]. }
  destruct H1 as [o H1]. pose proof (H o H1). subst o.
  eexists (symbolC 6), _, (symbolC 2). rewrite (goodC_arena _ _ hg). split; [vm_compute; reflexivity|]. split; [left; reflexivity|].
  split; [vm_compute; reflexivity|]. split; [exact H1|]. split; [exact H|].
  intros r' q dq [<-|[]] hf _ _. apply H in hf. congruence.
Qed.

(** What [B] and [C] have: their own members and, for [B], those of [A] *)
Lemma hasC : forall cl s c n k i, goodC cl s ->
  In (c, n, k, i) [(6, 6, lit "c", 8); (6, 2, lit "p", 4); (6, 2, lit "q", 5); (9, 9, lit "d", 12); (9, 9, lit "y", 11); (2, 2, lit "p", 4)] ->
  has s c k i (symbolC i).
Proof.
  intros cl s c n k i hg h. pose proof (goodC_arena _ _ hg) as ha. exists n. split; [|split].
  - cbn [In] in h. repeat (destruct h as [h|h]); try contradiction h; injection h as <- <- <- <-;
      try (apply Relation_Operators.rt1n_refl);
      (eapply Relation_Operators.rt1n_trans; [left; eapply extends62; eauto|apply Relation_Operators.rt1n_refl]).
  - rewrite ha. cbn [In] in h. repeat (destruct h as [h|h]); try contradiction h; injection h as <- <- <- <-.
    + exists [7], []. repeat split; try (vm_compute; reflexivity). intros j dj [].
    + exists [3], [5]. repeat split; try (vm_compute; reflexivity).
      intros j dj [<-|[]] e e2; vm_compute in e; injection e as <-; vm_compute in e2; discriminate e2.
    + exists [3; 4], []. repeat split; try (vm_compute; reflexivity). intros j dj [].
    + exists [10; 11], []. repeat split; try (vm_compute; reflexivity). intros j dj [].
    + exists [10], [12]. repeat split; try (vm_compute; reflexivity).
      intros j dj [<-|[]] e e2; vm_compute in e; injection e as <-; vm_compute in e2; discriminate e2.
    + exists [3], [5]. repeat split; try (vm_compute; reflexivity).
      intros j dj [<-|[]] e e2; vm_compute in e; injection e as <-; vm_compute in e2; discriminate e2.
  - intros x hx. rewrite ha.
    assert (hx2 : In (c, x) [(6, 6); (6, 2); (9, 9); (2, 2)]).
    { destruct hx as [->|hx].
      - cbn [In] in h. repeat (destruct h as [h|h]); try contradiction h; injection h as <- <- <- <-; cbn; auto.
      - apply (ancestorsC cl) in hx; [destruct hx as [-> ->]; cbn; auto|exact hg|].
        cbn [In] in h. repeat (destruct h as [h|h]); try contradiction h; injection h as <- <- <- <-; cbn; auto. }
    assert (hx3 : x = 6 \/ x = 2 \/ x = 9).
    { cbn [In] in hx2. repeat (destruct hx2 as [hx2|hx2]); try contradiction hx2; injection hx2 as <- <-; auto. }
    split.
    + intros d hd (v & c0 & m & al & hi & _).
      destruct hx3 as [-> | [-> | ->]]; vm_compute in hd; injection hd as <-; destruct hi.
    + intros ne j (ks & d & hk & hi & hd & e).
      assert (hd2 : In (x, k) [(6, lit "class"); (6, lit "c"); (2, lit "class"); (2, lit "p"); (2, lit "q"); (9, lit "class"); (9, lit "y"); (9, lit "d")]).
      { clear - hx3 hk hi hd e. destruct hx3 as [-> | [-> | ->]]; vm_compute in hk; injection hk as <-; cbn [In] in hi;
        repeat (destruct hi as [<-|hi]; [vm_compute in hd; injection hd as <-; vm_compute in e; subst k; vm_compute; auto 20|]); contradiction hi. }
      clear - h hx2 hd2 ne. cbn [In] in h, hx2, hd2.
      repeat (destruct h as [h|h]); try contradiction h; injection h as <- <- <- <-;
      repeat (destruct hx2 as [hx2|hx2]; try discriminate hx2; try contradiction hx2); injection hx2 as <-; try congruence;
      repeat (destruct hd2 as [hd2|hd2]; try contradiction hd2); injection hd2; intros; vm_compute in *; discriminate.
Qed.
Lemma leadsC : forall cl s c i n, goodC cl s -> In (c, i, n) [(6, 8, 9); (9, 12, 6)] -> leads s c (symbolC i) n.
Proof.
  intros cl s c i n hg h. cbn [In] in h. destruct h as [h|[h|[]]]; injection h as <- <- <-.
  - split; [left; reflexivity|]. apply comes_named; [|onceC hg 8].
    eexists _, _, _. repeat (split; [first [reflexivity|discriminate]|]). discriminate.
  - split; [left; reflexivity|]. apply comes_named; [|onceC hg 12].
    eexists _, _, _. repeat (split; [first [reflexivity|discriminate]|]). discriminate.
Qed.
(** In [B], [int|C] stands for [C], [parent|C] for [A] and [static] for [B]. *)
Definition word_at (k : TokenType) : SRef := mkSRef (tref_one [mkToken 0 50 k None None]) (mkRng (mkPos 0 0) (mkPos 0 0)) None.
Lemma comesC : forall cl s, goodC cl s ->
  comes s 6 (word_at TTypeInt :: y_types (symbolC 8)) 9 /\
  comes s 6 (word_at TParent :: y_types (symbolC 8)) 2 /\
  comes s 6 [word_at TStatic] 6.
Proof.
  intros cl s hg. split; [|split].
  - apply comes_later; [|intros o ho; eapply builtin_none; [|exact ho]; reflexivity|eapply (leadsC cl s 6 8); [exact hg|cbn; auto]].
    eexists _, _, _. repeat (split; [first [reflexivity|discriminate]|]). discriminate.
  - eapply comes_parent; [reflexivity|reflexivity|eapply child62; exact hg].
  - apply comes_own. eexists. split; [reflexivity|]. right. left. reflexivity.
Qed.

(** The state after looking up the [B] of [(new B)] *)
Definition nameB : TypeRef := tref_one [mkToken 11 0 TIdentifier (Some (lit "B")) (Some 3)].
Definition afterB (cl : option N) : rst :=
  match resolve_type_ref 2 nameB 1 true (stateC cl) with Done _ s => s | _ => stateC cl end.
Lemma startB : forall cl, resolve_type_ref 2 nameB (r_container (stateC cl)) true (stateC cl) = Done (Some 6) (afterB cl).
Proof. intros cl. vm_compute. reflexivity. Qed.
Lemma goodB : forall cl, goodC cl (afterB cl).
Proof.
  intros cl. eexists _, _, _, _, _. split; [vm_compute; reflexivity|]. intros f r o hin. cbn [In] in hin.
  destruct hin as [hin|[]]. injection hin as <- <- <-. exists 6. split; [reflexivity|]. left. reflexivity.
Qed.
Ltac newB := apply Start_group; eapply Start_new; [left; reflexivity|]; eapply Start_type; [discriminate|apply startB].
Ltac readC hg o := eexists _, _; split; [apply written_name; reflexivity || discriminate|]; split;
  [eapply (hasC _ _ _ o); [exact hg|cbn; auto 10]|].

(** [(new B)->c()->d()->q]: a [C], a [B] and the [q] of [A] *)
Example C49_chain_case : exists node e m1 m2 m3 x s',
  syntax 60 (lit "<?php (new B)->c()->d()->q;") = Some [NExpressionStatement node] /\
  Chain node e ([m1; m2] ++ [m3]) /\ Start (stateC None) e 6 VPublic (afterB None) /\
  Path (afterB None) VPublic 6 [m1; m2] [(8, symbolC 8); (12, symbolC 12)] 6 /\
  reads (afterB None) 6 VPublic m3 (5, symbolC 5) /\
  resolve_member_type 60 1 node (stateC None) = Done x s'.
Proof.
  eexists _, _, _, _, _, _, _. split; [vm_compute; reflexivity|]. split; [apply parts_ok; reflexivity|]. split; [newB|].
  split.
  - eapply Path_member; [readC (goodB None) 6; vm_compute; auto|apply (leadsC None); [apply goodB|cbn; auto]|].
    eapply Path_member; [readC (goodB None) 9; vm_compute; auto|apply (leadsC None); [apply goodB|cbn; auto]|]. apply Path_none.
  - split; [readC (goodB None) 2; vm_compute; auto|]. vm_compute. reflexivity.
Qed.

(** [parent::p()] in [B] *)
Example C49_chain_parent_case : exists node e m x s',
  syntax 60 (lit "<?php parent::p();") = Some [NExpressionStatement node] /\
  Chain node e ([] ++ [m]) /\ Start (stateC (Some 6)) e 2 VProtected (stateC (Some 6)) /\
  reads (stateC (Some 6)) 2 VProtected m (4, symbolC 4) /\
  resolve_member_type 60 1 node (stateC (Some 6)) = Done x s'.
Proof.
  eexists _, _, _, _, _. split; [vm_compute; reflexivity|]. split; [apply parts_ok; reflexivity|].
  split; [eapply Start_parent; [reflexivity|reflexivity|apply (child62 (Some 6)), goodC_start]|].
  split; [readC (goodC_start (Some 6)) 2; discriminate|]. vm_compute. reflexivity.
Qed.

(** [(new B)->p()], which is protected, and [(new B)->c()->y], which is private *)
Example C49_chain_hidden_case : exists node1 node2 e m1 m2 m3 t1 t3 name1 name3 x1 s1 x2 s2,
  syntax 60 (lit "<?php (new B)->p();") = Some [NExpressionStatement node1] /\
  syntax 60 (lit "<?php (new B)->c()->y;") = Some [NExpressionStatement node2] /\
  Chain node1 e ([] ++ [m1]) /\ Chain node2 e ([m2] ++ [m3]) /\ Start (stateC None) e 6 VPublic (afterB None) /\
  written m1 t1 name1 /\ has (afterB None) 6 (to_lowercase name1) 4 (symbolC 4) /\ ~ visible VPublic (symbolC 4) /\
  Path (afterB None) VPublic 6 [m2] [(8, symbolC 8)] 9 /\
  written m3 t3 name3 /\ has (afterB None) 9 (to_lowercase name3) 11 (symbolC 11) /\ ~ visible VPublic (symbolC 11) /\
  resolve_member_type 60 1 node1 (stateC None) = Done x1 s1 /\
  resolve_member_type 60 1 node2 (stateC None) = Done x2 s2.
Proof.
  eexists _, _, _, _, _, _, _, _, _, _, _, _, _, _. split; [vm_compute; reflexivity|]. split; [vm_compute; reflexivity|].
  split; [apply parts_ok; reflexivity|]. split; [apply parts_ok; reflexivity|]. split; [newB|].
  split; [apply written_name; reflexivity || discriminate|].
  split; [eapply (hasC _ _ _ 2); [apply (goodB None)|cbn; auto 10]|]. split; [intros [h|h]; discriminate h|].
  split.
  { eapply Path_member; [readC (goodB None) 6; vm_compute; auto|apply (leadsC None); [apply goodB|cbn; auto]|]. apply Path_none. }
  split; [apply written_name; reflexivity || discriminate|].
  split; [eapply (hasC _ _ _ 9); [apply (goodB None)|cbn; auto 10]|]. split; [intros [h|h]; discriminate h|].
  split; vm_compute; reflexivity.
Qed.

(** [(new B)->c()->zz] *)
Example C49_chain_unknown_case : exists node e m1 m2 t name x s',
  syntax 60 (lit "<?php (new B)->c()->zz;") = Some [NExpressionStatement node] /\
  Chain node e ([m1] ++ [m2]) /\ Start (stateC None) e 6 VPublic (afterB None) /\
  Path (afterB None) VPublic 6 [m1] [(8, symbolC 8)] 9 /\
  written m2 t name /\ lacks (afterB None) 9 (to_lowercase name) /\
  resolve_member_type 60 1 node (stateC None) = Done x s'.
Proof.
  eexists _, _, _, _, _, _, _, _. split; [vm_compute; reflexivity|]. split; [apply parts_ok; reflexivity|]. split; [newB|].
  split.
  { eapply Path_member; [readC (goodB None) 6; vm_compute; auto|apply (leadsC None); [apply goodB|cbn; auto]|]. apply Path_none. }
  split; [apply written_name; reflexivity || discriminate|]. split; [|vm_compute; reflexivity].
  intros n hn.
  assert (hx : n = 9).
  { destruct hn as [->|hn]; [reflexivity|]. apply (ancestorsC None) in hn; [destruct hn as [hn _]; discriminate hn|apply goodB|cbn; auto]. }
  subst n. split.
  - intros j (ks & d & hk & hi & hd & e). vm_compute in hk. injection hk as <-. cbn [In] in hi.
    repeat (destruct hi as [<-|hi]; [vm_compute in hd; injection hd as <-; vm_compute in e; discriminate e|]). contradiction hi.
  - intros (d & v & cl & mm & tk & l & hd & hi & _). vm_compute in hd. injection hd as <-. destruct hi.
Qed.

Print Assumptions C49_chain_partial.
Print Assumptions C49_chain_unknown_partial.
Print Assumptions C49_chain_hidden_partial.
