(** Property C55: the symbols of a file are its declarations. *)

From Verif Require Import Base Token Scanner Node DocBlock Parser Assoc AssocFacts Arena ArenaFacts
  Symbol EnvMonad EnvFacts Workspace WorkspaceFacts Resolver SpecNames ResolverFacts
  Backend BackendFacts SpecServer ServerInv IndexFacts Prop_Server Prop_Names Prop_Edits.

Local Notation findS := (find str_eqb).
Local Existing Instance ascii_runtime | 9.
Local Existing Instance plain_hashing | 9.
Local Open Scope string_scope.
Local Open Scope N_scope.
Local Open Scope list_scope.

(** * Specification *)

(** What is said about a symbol, and the declarations inside of it *)
Inductive item := Item (says : Symbol -> Prop) (inner : list item).

(** The symbol without what the [use] statements and the parameters behind its
    head add to it *)
Definition strip (d : Symbol) : Symbol :=
  mkSymbol (y_kind d) (y_name d) (y_range d) (y_sel d) (y_deprecated d) (y_ns d) None None
    (y_inherits d) (y_types d) [] (y_static d) (y_vis d) (y_attribute d).

(** The symbol [i] is as described, and its children are the inner declarations,
    in their order. *)
Inductive mirrors (a : arena Symbol) : N -> item -> Prop :=
| mirrors_intro : forall i d (says : Symbol -> Prop) l its, data a i = Some d -> says (strip d) ->
    kids a i = Some l -> Forall2 (mirrors a) l its -> mirrors a i (Item says its).

(** The name of the symbol is the text of the token; its range is that of the
    node, and the range of its name that of the token. *)
Definition is_a (k : PhpSymbolKind) (name : Token) (d : Symbol) : Prop :=
  y_kind d = k /\ display_token name = Some (y_name d).
Definition covers (n : Node) (d : Symbol) : Prop := opt_map get_range (node_range n) = Some (y_range d).
Definition named_at (name : Token) (d : Symbol) : Prop := opt_map get_range (token_range name) = Some (y_sel d).
(** With a comment in front, the range starts there. *)
Definition covers_with (doc : option Node) (n : Node) (d : Symbol) : Prop :=
  exists r, node_range n = Some r /\ r_end (y_range d) = r_end (get_range r) /\
    match doc with
    | None => r_start (y_range d) = r_start (get_range r)
    | Some c => exists q, node_range c = Some q /\ r_start (y_range d) = r_start (get_range q)
    end.
Definition marked_deprecated (doc : option Node) : Prop :=
  exists c r s p v q, doc = Some (NDocComment c r s true p v q).
Definition deprecated_by (doc : option Node) (d : Symbol) : Prop := y_deprecated d = Some true <-> marked_deprecated doc.
Definition visible_by (t : option Token) (d : Symbol) : Prop :=
  match t with
  | None => y_vis d = VNone
  | Some t => match t_type t with
              | TPublic => y_vis d = VPublic
              | TProtected => y_vis d = VProtected
              | TPrivate => y_vis d = VPrivate
              | _ => y_vis d = VNone
              end
  end.
Definition static_by (t : option Token) (d : Symbol) : Prop := y_static d = true <-> t <> None.

(** The names of types in a declaration and in its comment *)
Inductive type_written : option Node -> list TypeRef -> Prop :=
| type_none : type_written None []
| type_data : forall n l, type_written (Some (NDataType n (map NTypeRef l))) l
| type_return : forall t n l, type_written (Some (NReturnType t (NDataType n (map NTypeRef l)))) l.
Definition given (o : option (list TypeRef)) : list TypeRef := match o with Some l => l | None => [] end.
Inductive vars_commented : option Node -> list TypeRef -> Prop :=
| vars_none : vars_commented None []
| vars_doc : forall c r s x p q vars,
    vars_commented (Some (NDocComment c r s x p (map (fun v => NDocCommentVar (fst (fst v)) (snd (fst v)) (snd v)) vars) q))
      (flat_map (fun v => given (snd (fst v))) vars).
Inductive returns_commented : option Node -> list TypeRef -> Prop :=
| returns_none : returns_commented None []
| returns_doc : forall c s x p q vars l,
    returns_commented (Some (NDocComment c (map (fun v => NDocCommentReturn (fst v) (snd v)) l) s x p vars q))
      (flat_map (fun v => given (fst v)) l).
Inductive param_commented : option Node -> list TypeRef -> Prop :=
| param_none : param_commented None []
| param_doc : forall name types text, param_commented (Some (NDocCommentParam name types text)) (given types).
Definition typed (l : list TypeRef) (d : Symbol) : Prop := map sr_type (y_types d) = l.
Definition descends (l : option (list TypeRef)) (d : Symbol) : Prop := opt_map (map sr_type) (y_inherits d) = l.

(** Nodes that declare something themselves, or bring names into a scope *)
Definition declaring (n : Node) : bool :=
  match n with
  | NGroupedUse _ _ _ _ _ | NUseDeclaration _ _ _ _ | NUseFunction _ _ _ _ | NUseConst _ _ _ _
  | NUseTraitInsteadOf _ _ _ _ _ | NUseTraitAs _ _ _ _ _ _ | NUseTraitAlterationBlock _ _ _ _ | NUseTrait _
  | NNamespaceStatement _ _ | NNamespaceBlock _ _ _ | NConst _ _ _ | NClassStatement _ _ _ _ _ _ _ _ _
  | NTraitStatement _ _ _ _ | NInterface _ _ _ _ _ | NClassConstantDefinitionStatement _ _ _ _ _
  | NDocCommentProperty _ _ _ | NPropertyDefinitionStatement _ _ _ _ _ _ _
  | NMethodDefinitionStatement _ _ _ _ _ _ _ _ _ _ | NArrowFunction _ _ _ _ _ _ _ _ _ _
  | NNamedFunctionDefinitionStatement _ _ _ _ _ | NFunctionArgument _ _ _ _ _ _ _ _ | NDefineStatement _ _ _ _ _ _ => true
  | _ => false
  end.
Definition importing (n : Node) : bool :=
  match n with
  | NGroupedUse _ _ _ _ _ | NUseDeclaration _ _ _ _ | NUseFunction _ _ _ _ | NUseConst _ _ _ _
  | NUseTraitInsteadOf _ _ _ _ _ | NUseTraitAs _ _ _ _ _ _ | NUseTraitAlterationBlock _ _ _ _ | NUseTrait _ => true
  | _ => false
  end.

(** The declarations of a node, with the namespace before and after it.  Nodes
    that declare nothing hand on the declarations inside of them. *)
Inductive declares : option str -> Node -> list item -> option str -> Prop :=
| d_other : forall ns n its ns', declaring n = false -> declare_all ns (children n) its ns' -> declares ns n its ns'
| d_import : forall ns n, importing n = true -> declares ns n [] ns
| d_namespace : forall ns t tr w ws, spells tr (Written false w ws) ->
    declares ns (NNamespaceStatement t (NTypeRef tr))
      [Item (fun d => y_kind d = KNamespace /\ y_name d = joined (w :: ws) /\
               opt_map get_range (tref_range tr) = Some (y_sel d)) []]
      (Some (joined (w :: ws)))
| d_block : forall ns t tr w ws block its ns', spells tr (Written false w ws) ->
    declares (Some (joined (w :: ws))) block its ns' ->
    declares ns (NNamespaceBlock t (Some (NTypeRef tr)) block) its None
| d_global : forall ns t block its ns', declares None block its ns' ->
    declares ns (NNamespaceBlock t None block) its None
| d_const : forall ns name t value,
    declares ns (NConst name t value) [Item (fun d => is_a KConstant name d /\ covers (NConst name t value) d) []] ns
| d_define : forall ns t label value op cp tok ci, t_label t = Some label ->
    declares ns (NDefineStatement (NLiteral t) value op cp tok ci)
      [Item (fun d => y_kind d = KConstant /\ y_name d = label) []] ns
| d_define_unknown : forall ns name value op cp tok ci, (forall t, name <> NLiteral t) ->
    declares ns (NDefineStatement name value op cp tok ci) [] ns
| d_class : forall ns t name ab fi impl ext body doc attrs comments members ns1 ns2,
    declare_all ns (opt_list doc) comments ns1 -> declares ns1 body members ns2 ->
    let n := NClassStatement t name ab fi (opt_map (map NTypeRef) impl) (opt_map NTypeRef ext) body doc attrs in
    declares ns n
      [Item (fun d => is_a KClass name d /\ covers n d /\ named_at name d /\ deprecated_by doc d /\ y_ns d = ns /\
               descends (opt_map (fun e => [e]) ext) d /\
               typed (tref_one [name] :: given impl) d)
         (Item (fun d => y_kind d = KMagicConst /\ y_name d = lit "class") [] :: comments ++ members)] ns2
| d_trait : forall ns t name body doc members ns', declares ns body members ns' ->
    let n := NTraitStatement t name body doc in
    declares ns n
      [Item (fun d => is_a KTrait name d /\ covers n d /\ named_at name d /\ deprecated_by doc d /\ y_ns d = ns) members] ns'
| d_interface : forall ns t name ext body doc members ns', declares ns body members ns' ->
    let n := NInterface t name (opt_map (map NTypeRef) ext) body doc in
    declares ns n
      [Item (fun d => is_a KInterface name d /\ covers n d /\ named_at name d /\ deprecated_by doc d /\ y_ns d = ns /\
               descends ext d) members] ns'
| d_constants : forall ns t l doc vis attrs types, vars_commented doc types ->
    let n := NClassConstantDefinitionStatement t (map (fun c => NClassConstant vis (fst c) (snd c)) l) doc vis attrs in
    declares ns n
      (map (fun c => Item (fun d => is_a KConstant (fst c) d /\ covers n d /\ deprecated_by doc d /\
                             visible_by vis d /\ typed types d) []) l) ns
| d_magic : forall ns name label types text, t_label name = Some label ->
    declares ns (NDocCommentProperty name types text)
      [Item (fun d => y_kind d = KProperty /\ y_name d = label /\ covers (NDocCommentProperty name types text) d /\
               typed (given types) d) []] ns
| d_properties : forall ns l doc vis ty st ab attrs types comments, type_written ty types -> vars_commented doc comments ->
    let n := NPropertyDefinitionStatement (map (fun p => NProperty (fst p) (snd p)) l) doc vis ty st ab attrs in
    declares ns n
      (map (fun p => Item (fun d => is_a KProperty (fst p) d /\ covers n d /\ deprecated_by doc d /\
                             visible_by vis d /\ typed (types ++ comments) d) []) l) ns
| d_method : forall ns t fi br name vis ab op args cp ret body doc' st doc attrs types comments inner ns',
    type_written ret types -> returns_commented doc comments ->
    declare_all ns (attrs ++ [NFunctionDefinitionStatement op args cp ret body doc']) inner ns' ->
    let n := NMethodDefinitionStatement t fi br name vis ab (NFunctionDefinitionStatement op args cp ret body doc') st doc attrs in
    declares ns n
      [Item (fun d => is_a KMethod name d /\ covers_with doc n d /\ named_at name d /\ deprecated_by doc d /\
               visible_by vis d /\ static_by st d /\ typed (types ++ comments) d) inner] ns'
| d_function : forall ns t br name op args cp ret body doc attrs types comments inner ns',
    type_written ret types -> returns_commented doc comments ->
    declare_all ns (attrs ++ [NFunctionDefinitionStatement op args cp ret body doc]) inner ns' ->
    let n := NNamedFunctionDefinitionStatement t br name (NFunctionDefinitionStatement op args cp ret body doc) attrs in
    declares ns n
      [Item (fun d => is_a KFunction name d /\ covers_with doc n d /\ named_at name d /\ typed (types ++ comments) d) inner] ns'
| d_arrow : forall ns st br t op args cp ar ret body attrs inner ns',
    let n := NArrowFunction st br t op args cp ar ret body attrs in
    declare_all ns (children n) inner ns' ->
    declares ns n [Item (fun d => y_kind d = KFunction /\ covers n d) inner] ns'
| d_parameter : forall ns ty name hd dv sp rf doc attrs types comments, type_written ty types -> param_commented doc comments ->
    let n := NFunctionArgument ty name hd dv sp rf doc attrs in
    declares ns n
      [Item (fun d => is_a KFunctionParameter name d /\ covers n d /\ named_at name d /\ typed (types ++ comments) d) []] ns
with declare_all : option str -> list Node -> list item -> option str -> Prop :=
| d_end : forall ns, declare_all ns [] [] ns
| d_more : forall ns n l its its' ns1 ns2, declares ns n its ns1 -> declare_all ns1 l its' ns2 ->
    declare_all ns (n :: l) (its ++ its') ns2.

(** * Proofs *)

Section Growing.
Context {RT : Runtime}.

Inductive mirrors_from (a : arena Symbol) (lo : N) : N -> item -> Prop :=
| mirrors_new : forall i d (says : Symbol -> Prop) l its, lo <= i -> data a i = Some d -> says (strip d) ->
    kids a i = Some l -> Forall2 (mirrors_from a lo) l its -> mirrors_from a lo i (Item says its).

Lemma mirrors_rect2 : forall (a : arena Symbol) lo (P : N -> item -> Prop),
  (forall i d (says : Symbol -> Prop) l its, lo <= i -> data a i = Some d -> says (strip d) -> kids a i = Some l ->
     Forall2 (mirrors_from a lo) l its -> Forall2 P l its -> P i (Item says its)) ->
  forall i t, mirrors_from a lo i t -> P i t.
Proof.
  intros a lo P H. fix F 3. intros i t [i' d says l its h1 h2 h3 h4 h5]. apply (H i' d says l its h1 h2 h3 h4 h5).
  clear h4. induction h5 as [|x y l its hx hl IH]; constructor; [apply F; exact hx|exact IH].
Qed.

Lemma Forall2_weaken : forall A B (P Q : A -> B -> Prop) l l', (forall x y, P x y -> Q x y) -> Forall2 P l l' -> Forall2 Q l l'.
Proof. intros A B P Q l l' h f. induction f; constructor; auto. Qed.

Lemma mirrors_public : forall a lo i t, mirrors_from a lo i t -> mirrors a i t.
Proof.
  intros a lo. apply mirrors_rect2. intros i d says l its _ h2 h3 h4 _ h6. econstructor; eauto.
Qed.

Lemma mirrors_frame : forall a a' lo lo', lo' <= lo ->
  (forall i d, lo <= i -> data a i = Some d -> exists d', data a' i = Some d' /\ strip d' = strip d) ->
  (forall i l, lo <= i -> kids a i = Some l -> kids a' i = Some l) ->
  forall i t, mirrors_from a lo i t -> mirrors_from a' lo' i t.
Proof.
  intros a a' lo lo' le hd hk. apply mirrors_rect2. intros i d says l its h1 h2 h3 h4 _ h6.
  destruct (hd _ _ h1 h2) as (d' & q1 & q2). econstructor; [lia|exact q1|rewrite q2; exact h3|eapply hk; eassumption|exact h6].
Qed.

Record grows (s s' : wst) (p : N) (its : list item) : Prop := {
  g_wf : wf (w_arena s');
  g_next : a_next (w_arena s) <= a_next (w_arena s');
  g_data : forall i d, data (w_arena s) i = Some d -> exists d', data (w_arena s') i = Some d' /\ strip d' = strip d;
  g_kids : forall i l, i <> p -> kids (w_arena s) i = Some l -> kids (w_arena s') i = Some l;
  g_new : forall l, kids (w_arena s) p = Some l -> exists new, kids (w_arena s') p = Some (l ++ new) /\
    Forall2 (mirrors_from (w_arena s') (a_next (w_arena s))) new its
}.

Definition there (s : wst) (p : N) : Prop := wf (w_arena s) /\ live (w_arena s) p.

Lemma live_data : forall (a : arena Symbol) i, live a i <-> exists d, data a i = Some d.
Proof.
  intros a i. unfold live, data. split.
  - intros (n & ->). eexists. reflexivity.
  - intros (d & e). destruct (node_of a i) as [n|]; [eauto|discriminate].
Qed.
Lemma live_kids : forall (a : arena Symbol) i, live a i <-> exists l, kids a i = Some l.
Proof.
  intros a i. unfold live, kids. split.
  - intros (n & ->). eexists. reflexivity.
  - intros (d & e). destruct (node_of a i) as [n|]; [eauto|discriminate].
Qed.
Lemma live_small : forall (a : arena Symbol) i, wf a -> live a i -> i < a_next a.
Proof. intros a i w (n & e). apply (wf_fresh _ w _ _ e). Qed.
Lemma grows_there : forall s s' p its q, grows s s' p its -> there s q -> there s' q.
Proof.
  intros s s' p its q g (w & l). split; [apply (g_wf _ _ _ _ g)|]. apply live_data in l as (d & e).
  destruct (g_data _ _ _ _ g _ _ e) as (d' & e' & _). apply live_data. eauto.
Qed.

Lemma grows_refl : forall s p, wf (w_arena s) -> grows s s p [].
Proof.
  intros s p w. constructor; eauto; [lia|]. intros l e. exists []. rewrite app_nil_r. split; [exact e|constructor].
Qed.
Lemma grows_ns : forall s s' o p its, grows (mkWst (w_arena s) o) s' p its -> grows s s' p its.
Proof. intros s s' o p its []. constructor; assumption. Qed.
Lemma grows_ns' : forall s s' o p its, grows s s' p its -> grows s (mkWst (w_arena s') o) p its.
Proof. intros s s' o p its []. constructor; assumption. Qed.

Lemma grows_trans : forall s s1 s2 p its its', there s p -> grows s s1 p its -> grows s1 s2 p its' ->
  grows s s2 p (its ++ its').
Proof.
  intros s s1 s2 p its its' (w & lp) g h. constructor.
  - apply (g_wf _ _ _ _ h).
  - pose proof (g_next _ _ _ _ g). pose proof (g_next _ _ _ _ h). lia.
  - intros i d e. destruct (g_data _ _ _ _ g _ _ e) as (d1 & e1 & q1). destruct (g_data _ _ _ _ h _ _ e1) as (d2 & e2 & q2).
    exists d2. split; [exact e2|congruence].
  - intros i l ne e. apply (g_kids _ _ _ _ h); [exact ne|]. apply (g_kids _ _ _ _ g); assumption.
  - intros l e. destruct (g_new _ _ _ _ g _ e) as (n1 & e1 & f1). destruct (g_new _ _ _ _ h _ e1) as (n2 & e2 & f2).
    exists (n1 ++ n2). split; [rewrite app_assoc; exact e2|]. apply Forall2_app.
    + eapply Forall2_weaken; [|exact f1]. apply mirrors_frame; [lia| |].
      * intros i d _ ed. apply (g_data _ _ _ _ h _ _ ed).
      * intros i k le ek. apply (g_kids _ _ _ _ h); [|exact ek]. apply (live_small _ _ w) in lp. lia.
    + eapply Forall2_weaken; [|exact f2]. apply mirrors_frame; [apply (g_next _ _ _ _ g)| |]; eauto.
Qed.

Lemma grows_update : forall i f s u s' p, wf (w_arena s) -> (forall d, strip (f d) = strip d) ->
  e_update i f s = Done u s' -> grows s s' p [] /\ w_ns s' = w_ns s.
Proof.
  intros i f s u s' p w hf e. unfold e_update in e. cbn [the_arena with_arena wst_arena] in e.
  destruct (update i f (w_arena s)) as [a|] eqn:eu; [|discriminate]. injection e as _ <-.
  destruct (node_of_update _ _ _ _ eu) as (nx & _ & sp). split; [|reflexivity].
  assert (hk : forall j, kids a j = kids (w_arena s) j).
  { intros j. unfold kids. rewrite sp. destruct (node_of (w_arena s) j); reflexivity. }
  constructor; cbn [w_arena].
  - eapply wf_update; eassumption.
  - lia.
  - intros j d ed. unfold data in *. rewrite sp. destruct (node_of (w_arena s) j) as [n|]; [|discriminate].
    injection ed as <-. eexists. split; [reflexivity|]. cbn. destruct (j =? i); [apply hf|reflexivity].
  - intros j l _ ek. rewrite hk. exact ek.
  - intros l ek. exists []. rewrite app_nil_r, hk. split; [exact ek|constructor].
Qed.

Lemma added : forall p d s c s', there s p -> add_child p d s = Done c s' ->
  there s' c /\ there s' p /\ w_ns s' = w_ns s /\ c = a_next (w_arena s) /\ a_next (w_arena s') = a_next (w_arena s) + 1 /\
  data (w_arena s') c = Some d /\ kids (w_arena s') c = Some [] /\
  (forall i, i <> c -> data (w_arena s') i = data (w_arena s) i) /\
  (forall i, i <> c -> i <> p -> kids (w_arena s') i = kids (w_arena s) i) /\
  (forall l, kids (w_arena s) p = Some l -> kids (w_arena s') p = Some (l ++ [c])).
Proof.
  intros p d s c s' (w & lp) e. unfold add_child in e. step e. unfold e_new in e1. cbn [the_arena with_arena wst_arena] in e1.
  destruct (new_node d (w_arena s)) as [i a1] eqn:en. injection e1 as <- <-.
  destruct (node_of_new _ _ _ _ en) as (-> & nx & sp). pose proof (wf_new _ _ _ _ w en) as w1.
  step e. injection e as <- <-. unfold e_append in e1. cbn [the_arena with_arena wst_arena w_arena w_ns] in e1.
  destruct (append p (a_next (w_arena s)) a1) as [a2|] eqn:ea; [|discriminate]. injection e1 as _ <-.
  destruct (node_of_append _ _ _ _ w1 ea) as (nx2 & _ & _ & _ & _ & sp2). pose proof (wf_append _ _ _ _ w1 ea) as w2.
  cbn [w_arena w_ns]. set (c := a_next (w_arena s)) in *.
  pose proof (live_small _ _ w lp) as lt.
  assert (nc : node_of a2 c = Some (mkAnode (Some p) [] d)).
  { rewrite sp2. unfold appended. rewrite sp, !N.eqb_refl. cbn [n_parent n_kids n_data filter app].
    rewrite (proj2 (N.eqb_neq c p)) by (unfold c; lia). reflexivity. }
  assert (no : forall i, i <> c -> node_of a2 i = match node_of (w_arena s) i with
      | Some n => Some (mkAnode (n_parent n) (n_kids n ++ (if i =? p then [c] else [])) (n_data n))
      | None => None end).
  { intros i ne. rewrite sp2. unfold appended. rewrite sp, (proj2 (N.eqb_neq i c) ne).
    destruct (node_of (w_arena s) i) as [n|] eqn:ei; [|reflexivity]. f_equal. f_equal.
    rewrite filter_none; [reflexivity|]. intros hi. destruct (wf_down _ w _ _ _ ei hi) as (m & em & _).
    apply (wf_fresh _ w) in em. unfold c in em. lia. }
  split; [split; [exact w2|eexists; exact nc]|].
  split; [split; [exact w2|]|].
  { destruct lp as (n & en'). eexists. cbn [w_arena]. rewrite no by (unfold c; lia). rewrite en'. reflexivity. }
  split; [reflexivity|]. split; [reflexivity|]. split; [lia|].
  split; [unfold data; rewrite nc; reflexivity|]. split; [unfold kids; rewrite nc; reflexivity|].
  split; [|split].
  - intros i ne. unfold data. rewrite no by exact ne. destruct (node_of (w_arena s) i); reflexivity.
  - intros i ne np. unfold kids. rewrite no by exact ne. destruct (node_of (w_arena s) i) as [n|]; [|reflexivity].
    cbn. rewrite (proj2 (N.eqb_neq i p) np), app_nil_r. reflexivity.
  - intros l ek. unfold kids in *. rewrite no by (unfold c; lia). destruct (node_of (w_arena s) p) as [n|]; [|discriminate].
    injection ek as <-. cbn. rewrite N.eqb_refl. reflexivity.
Qed.

Lemma grows_child : forall p d s c s1 s2 (says : Symbol -> Prop) its, there s p -> add_child p d s = Done c s1 ->
  grows s1 s2 c its -> says (strip d) -> grows s s2 p [Item says its].
Proof.
  intros p d s c s1 s2 says its t e g hs. destruct (added _ _ _ _ _ t e) as (tc & tp & _ & ec & nx & dc & kc & od & ok & op).
  destruct t as (w & lp). pose proof (live_small _ _ w lp) as lt. constructor.
  - apply (g_wf _ _ _ _ g).
  - pose proof (g_next _ _ _ _ g). lia.
  - intros i d0 e0. apply (g_data _ _ _ _ g). rewrite od; [exact e0|].
    assert (l0 : live (w_arena s) i) by (apply live_data; eauto). apply (live_small _ _ w) in l0. lia.
  - intros i l ne e0. assert (l0 : live (w_arena s) i) by (apply live_kids; eauto). apply (live_small _ _ w) in l0.
    apply (g_kids _ _ _ _ g); [lia|]. rewrite ok; [exact e0|lia|exact ne].
  - intros l e0. exists [c]. split; [apply (g_kids _ _ _ _ g); [lia|apply op; exact e0]|].
    constructor; [|constructor]. destruct (g_data _ _ _ _ g _ _ dc) as (d' & ed & sd).
    destruct (g_new _ _ _ _ g _ kc) as (new & ek & f). cbn [app] in ek.
    econstructor; [lia|exact ed|rewrite sd; exact hs|exact ek|].
    eapply Forall2_weaken; [|exact f]. apply mirrors_frame; [lia| |]; eauto.
Qed.

Lemma grows_leaf : forall p d s c s1 (says : Symbol -> Prop), there s p -> add_child p d s = Done c s1 ->
  says (strip d) -> grows s s1 p [Item says []] /\ w_ns s1 = w_ns s.
Proof.
  intros p d s c s1 says t e hs. pose proof (added _ _ _ _ _ t e) as (tc & tp & en & _). split; [|exact en].
  eapply grows_child; [exact t|exact e|apply grows_refl, (proj1 tc)|exact hs].
Qed.

(** ** What the helpers of the visitor read *)

Lemma srefs_map : forall l r, srefs l = Some r -> map sr_type r = l.
Proof.
  unfold srefs. induction l as [|t l IH]; intros r e; cbn [map seq_opt] in e; [injection e as <-; reflexivity|].
  destruct (sref_type t) as [x|] eqn:ex; cbn in e; [|discriminate].
  destruct (seq_opt (map sref_type l)) as [y|] eqn:ey; cbn in e; [|discriminate]. injection e as <-. cbn.
  rewrite (IH _ eq_refl). f_equal. unfold sref_type in ex. destruct (tref_range t); cbn in ex; [|discriminate].
  injection ex as <-. reflexivity.
Qed.
Lemma own_types : forall l, flat_map get_type_ref (map NTypeRef l) = l.
Proof. induction l as [|x l IH]; [reflexivity|]. cbn. rewrite IH. reflexivity. Qed.
Lemma type_written_read : forall o l, type_written o l -> type_refs_of o = l.
Proof. intros o l []; cbn; [reflexivity|apply own_types|apply own_types]. Qed.
Lemma vars_read : forall o l, vars_commented o l -> doc_vars o = l.
Proof. intros o l [|c r s x p q vars]; [reflexivity|]. cbn. induction vars as [|v vars IH]; [reflexivity|]. cbn. rewrite IH. reflexivity. Qed.
Lemma returns_read : forall o l, returns_commented o l -> doc_returns o = l.
Proof. intros o l [|c s x p q vars l0]; [reflexivity|]. cbn. induction l0 as [|v l0 IH]; [reflexivity|]. cbn. rewrite IH. reflexivity. Qed.
Lemma param_read : forall o l, param_commented o l -> type_refs_of o = l.
Proof. intros o l []; reflexivity. Qed.
Lemma deprecated_read : forall doc, deprecated_from_doc doc = Some true <-> marked_deprecated doc.
Proof.
  intros doc. unfold marked_deprecated. split.
  - destruct doc as [[]|]; cbn; try discriminate. destruct is_deprecated; [|discriminate]. intros _. repeat eexists.
  - intros (c & r & s & p & v & q & ->). reflexivity.
Qed.
Lemma visible_read : forall t d, y_vis d = vis_of t -> visible_by t d.
Proof. intros [t|] d e; cbn in *; [|exact e]. destruct (t_type t); exact e. Qed.
Lemma static_read : forall A (t : option A), is_some t = true <-> t <> None.
Proof. intros A [t|]; cbn; split; congruence. Qed.

Lemma fqdn_read : forall tr w ws, spells tr (Written false w ws) -> tref_to_fqdn tr = Some (joined (w :: ws)).
Proof.
  intros tr w ws h. inversion h as [|t w0 ts ws0 m ht hr e1 e2]; subst. unfold tref_to_fqdn. cbn [kind display_tokens].
  rewrite (show_word _ _ ht), (show_rest _ _ hr), joined_cons. reflexivity.
Qed.
Lemma make_read : forall k name r s d, make k name r s = Some d -> exists n r' s', name = Some n /\ r = Some r' /\ s = Some s' /\
  d = plain_symbol k n (get_range r') (get_range s').
Proof.
  intros k name r s d e. unfold make in e. destruct name as [n|]; [|discriminate]. destruct r as [r|]; [|discriminate].
  destruct s as [s|]; [|discriminate]. injection e as <-. repeat eexists.
Qed.

(** ** The traversal *)

Definition good (fuel : nat) : Prop := forall ns n its ns', declares ns n its ns' ->
  forall p s u s', there s p -> w_ns s = ns -> w_traverse fuel n p s = Done u s' -> grows s s' p its /\ w_ns s' = ns'.
Definition good_all (fuel : nat) : Prop := forall ns l its ns', declare_all ns l its ns' ->
  forall p s u s', there s p -> w_ns s = ns -> eiter (fun c => w_traverse fuel c p) l s = Done u s' ->
  grows s s' p its /\ w_ns s' = ns'.

Lemma all_good : forall fuel, good fuel -> good_all fuel.
Proof.
  intros fuel G ns l. revert ns. induction l as [|n l IH]; intros ns its ns' h p s u s' t en e; inversion h as [|ns0 n0 l0 its0 its1 ns1 ns2 hn hl]; subst; cbn [eiter] in e.
  - injection e as _ <-. split; [apply grows_refl, (proj1 t)|reflexivity].
  - step e. destruct (G _ _ _ _ hn _ _ _ _ t eq_refl e1) as [g1 n1].
    destruct (IH _ _ _ hl _ _ _ _ (grows_there _ _ _ _ _ g1 t) n1 e) as [g2 n2].
    split; [eapply grows_trans; eassumption|exact n2].
Qed.

Lemma declare_app : forall l ns its ns1 l' its' ns2, declare_all ns l its ns1 -> declare_all ns1 l' its' ns2 ->
  declare_all ns (l ++ l') (its ++ its') ns2.
Proof.
  induction l as [|n l IH]; intros ns its ns1 l' its' ns2 h h'; inversion h; subst; [exact h'|].
  cbn [app]. rewrite <- app_assoc. econstructor; [eassumption|eapply IH; eassumption].
Qed.
Lemma declare_one : forall ns n its ns', declares ns n its ns' -> declare_all ns [n] its ns'.
Proof. intros ns n its ns' h. rewrite <- (app_nil_r its). econstructor; [exact h|constructor]. Qed.
Lemma declare_types : forall l ns, declare_all ns (map NTypeRef l) [] ns.
Proof.
  induction l as [|x l IH]; intros ns; [constructor|]. cbn [map]. change (@nil item) with (@nil item ++ []).
  econstructor; [apply d_other; [reflexivity|constructor]|apply IH].
Qed.

Lemma steps : forall fuel n p s u s', w_traverse (S fuel) n p s = Done u s' ->
  exists s1 next s2 s3, w_before n s = Done tt s1 /\ w_visit n p s1 = Done next s2 /\
    (match next with None => eret tt | Some p => eiter (fun c => w_traverse fuel c p) (children n) end) s2 = Done tt s3 /\
    w_after n s3 = Done u s'.
Proof.
  intros fuel n p s u s' e. cbn [w_traverse] in e. step e. destruct x. step e. step e. destruct x0.
  do 4 eexists. split; [exact e1|]. split; [exact e0|]. split; [exact e2|exact e].
Qed.

Lemma other_visit : forall n, declaring n = false ->
  w_before n = eret tt /\ (forall p, w_visit n p = eret (Some p)) /\ w_after n = eret tt.
Proof. intros n h. destruct n; try discriminate h; repeat split; reflexivity. Qed.

Lemma import_visit : forall n p s1 next s2, importing n = true -> wf (w_arena s1) -> w_visit n p s1 = Done next s2 ->
  w_before n = eret tt /\ w_after n = eret tt /\ next = None /\ grows s1 s2 p [] /\ w_ns s2 = w_ns s1.
Proof.
  intros n p s1 next s2 h w e.
  destruct n; try discriminate h; (split; [reflexivity|]); (split; [reflexivity|]); cbn [w_visit] in e;
  try (take e as e1; unfold e_parent in e1; destruct (parent_of (the_arena s1) p); [|discriminate e1]; injection e1 as <- <-);
  repeat (take e as e1; apply eopt_done in e1 as [_ ->]);
  take e as e1; injection e as <- <-; (split; [reflexivity|]);
  (eapply grows_update; [exact w| |exact e1]); intros d; reflexivity.
Qed.

Ltac opts e := repeat (let h := fresh "o" in take e as h; apply eopt_done in h as [h ->]).
Ltac flat := unfold is_a, covers, covers_with, named_at, deprecated_by, static_by, descends, typed, strip, set_class, set_member, with_types, plain_symbol;
  cbn [y_kind y_name y_range y_sel y_deprecated y_ns y_imports y_alterations y_params y_inherits y_types y_static y_vis y_attribute].
Ltac says := repeat match goal with |- _ /\ _ => split end; try reflexivity; try (apply deprecated_read).

Lemma leaves : forall A (f : Node -> W unit) (mk : A -> Node) (says : A -> Symbol -> Prop) p,
  (forall x s u s', there s p -> f (mk x) s = Done u s' -> grows s s' p [Item (says x) []] /\ w_ns s' = w_ns s) ->
  forall l s u s', there s p -> eiter f (map mk l) s = Done u s' ->
  grows s s' p (map (fun x => Item (says x) []) l) /\ w_ns s' = w_ns s.
Proof.
  intros A f mk says p H. induction l as [|x l IH]; intros s u s' t e; cbn [map eiter] in e.
  - injection e as _ <-. split; [apply grows_refl, (proj1 t)|reflexivity].
  - step e. destruct (H _ _ _ _ t e1) as [g1 n1]. destruct (IH _ _ _ (grows_there _ _ _ _ _ g1 t) e) as [g2 n2].
    split; [|congruence]. cbn [map]. change (?a :: ?b) with ([a] ++ b). eapply grows_trans; eassumption.
Qed.

Lemma good_every : forall fuel, good fuel.
Proof.
  induction fuel as [|fuel IH]; intros ns n its ns' D p s u s' t en e; [discriminate e|].
  pose proof (all_good fuel IH) as A.
  apply steps in e as (s1 & next & s2 & s3 & eb & ev & ec & ea).
  destruct D.
  - (* other *)
    destruct (other_visit n H) as (q1 & q2 & q3). rewrite q1 in eb. rewrite q2 in ev. rewrite q3 in ea.
    injection eb as <-. injection ev as <- <-. injection ea as _ <-. eapply A; eassumption.
  - (* import *)
    destruct n; try discriminate H; injection eb as <-;
    destruct (import_visit _ _ _ _ _ H (proj1 t) ev) as (_ & _ & -> & g & n2); injection ec as <-; injection ea as _ <-;
    (split; [exact g|congruence]).
  - (* namespace *)
    cbn [w_before] in eb. take eb as e0. apply eopt_done in e0 as [e0 ->]. unfold set_ns, emod in eb. injection eb as <-.
    pose proof (fqdn_read _ _ _ H) as fq. rewrite fq in e0. remember (joined (w :: ws)) as full eqn:ef. injection e0 as <-.
    cbn [w_visit] in ev. opts ev. injection o as <-. rewrite fq in o0. injection o0 as <-.
    take ev as e0. unfold e_data in e0. destruct (data _ p) as [dp|]; [|discriminate]. injection e0 as <- <-.
    take ev as e0. injection ev as <- <-.
    assert (th : there (mkWst (w_arena s) (Some full)) p) by exact t.
    destruct (added _ _ _ _ _ th e0) as (tc & _ & n2 & _). cbn [children] in ec.
    destruct (A (w_ns t1) [NTypeRef tr] [] (w_ns t1) (declare_types [tr] _) _ _ _ _ tc eq_refl ec) as [g n3].
    injection ea as _ <-. split; [|rewrite n3, n2; reflexivity].
    apply grows_ns with (o := Some full). eapply grows_child; [exact th|exact e0|exact g|].
    says. cbn. rewrite o1. reflexivity.
  - (* named block *)
    cbn [w_before] in eb. take eb as e0. apply eopt_done in e0 as [e0 ->]. unfold set_ns, emod in eb. injection eb as <-.
    pose proof (fqdn_read _ _ _ H) as fq. rewrite fq in e0. remember (joined (w :: ws)) as full eqn:ef. injection e0 as <-.
    injection ev as <- <-. cbn [children opt_list app] in ec. injection ea as _ <-.
    destruct (A (Some full) ([NTypeRef tr] ++ [block]) ([] ++ its) ns'
      (declare_app _ _ _ _ _ _ _ (declare_types [tr] _) (declare_one _ _ _ _ D)) p (mkWst (w_arena s) (Some full)) _ _ t eq_refl ec) as [g n3].
    split; [|reflexivity]. apply grows_ns', grows_ns with (o := Some full). exact g.
  - (* nameless block *)
    injection eb as <-. injection ev as <- <-. cbn [children opt_list app] in ec. injection ea as _ <-.
    destruct (A None [block] its ns' (declare_one _ _ _ _ D) p (mkWst (w_arena s) None) _ _ t eq_refl ec) as [g n3].
    split; [|reflexivity]. apply grows_ns', grows_ns with (o := None). exact g.
  - (* const *)
    injection eb as <-. cbn [w_visit] in ev. opts ev. take ev as e0. injection ev as <- <-. injection ec as <-. injection ea as _ <-.
    apply make_read in o as (nm & r' & s'' & o1 & o2 & o3 & ->). rewrite <- en.
    eapply grows_leaf; [exact t|exact e0|]. flat. rewrite o1, o2. says.
  - (* define *)
    injection eb as <-. cbn [w_visit] in ev. opts ev. take ev as e0. injection ev as <- <-. injection ec as <-. injection ea as _ <-.
    apply make_read in o as (nm & r' & s'' & o1 & o2 & o3 & ->). rewrite <- en.
    eapply grows_leaf; [exact t|exact e0|]. flat. rewrite H in o1. injection o1 as <-. says.
  - (* define of an unknown name *)
    injection eb as <-. assert (ev' : w_visit (NDefineStatement name value op cp tok ci) p = eret None).
    { cbn [w_visit]. destruct name; try reflexivity. exfalso. eapply H. reflexivity. }
    rewrite ev' in ev. injection ev as <- <-. injection ec as <-. injection ea as _ <-.
    split; [apply grows_refl, (proj1 t)|exact en].
  - (* class *)
    injection eb as <-. cbn [n w_visit] in ev. opts ev. take ev as e0. injection e0 as <- <-. opts ev.
    take ev as e0. take ev as e1. injection ev as <- <-. injection ea as _ <-.
    apply make_read in o1 as (nm & r' & s'' & p1 & p2 & p3 & ->). injection p3 as <-.
    destruct (added _ _ _ _ _ t e0) as (tc & _ & n2 & _).
    destruct (grows_leaf _ _ _ _ _ (fun d => y_kind d = KMagicConst /\ y_name d = lit "class") tc e1) as [g1 n3]; [says|].
    pose proof (grows_there _ _ _ _ _ g1 tc) as tc'.
    assert (D' : declare_all ns (children n) (comments ++ [] ++ [] ++ members) ns2).
    { cbn [n children]. eapply declare_app; [exact H|]. eapply declare_app; [|eapply declare_app; [|apply declare_one; exact D]].
      - destruct ext as [x9|]; [apply (declare_types [x9])|constructor].
      - destruct impl as [l9|]; [apply (declare_types l9)|constructor]. }
    cbn [app] in D'. destruct (A _ _ _ _ D' _ _ _ _ tc' ltac:(congruence) ec) as [g2 n4]. split; [|exact n4].
    pose proof (grows_trans _ _ _ _ _ _ tc g1 g2) as g. cbn [app] in g.
    eapply grows_child; [exact t|exact e0|exact g|].
    fold n in p2. flat. rewrite p1, p2, o0. says; try congruence.
    + destruct ext as [x9|]; cbn in o.
      * destruct (sref_type x9) as [y9|] eqn:es; cbn in o; [|discriminate]. injection o as <-. cbn.
        pose proof (srefs_map [x9] [y9]) as q. unfold srefs in q. cbn in q. rewrite es in q. cbn in q. rewrite (q eq_refl). reflexivity.
      * injection o as <-. reflexivity.
    + cbn [map]. f_equal.
      * pose proof (srefs_map [tref_one [name]] [x2]) as q. unfold srefs in q. cbn [map seq_opt] in q. rewrite o2 in q. cbn in q.
        specialize (q eq_refl). injection q as q. exact q.
      * apply srefs_map in o3. rewrite o3. destruct impl as [l9|]; [apply own_types|reflexivity].
  - (* trait *)
    injection eb as <-. cbn [n w_visit] in ev. opts ev. take ev as e0. injection e0 as <- <-.
    take ev as e0. injection ev as <- <-. injection ea as _ <-.
    apply make_read in o as (nm & r' & s'' & p1 & p2 & p3 & ->).
    destruct (added _ _ _ _ _ t e0) as (tc & _ & n2 & _).
    destruct (A _ _ _ _ (declare_one _ _ _ _ D) _ _ _ _ tc ltac:(congruence) ec) as [g n4]. split; [|exact n4].
    eapply grows_child; [exact t|exact e0|exact g|]. fold n in p2. flat. rewrite p1, p2, p3. says. exact en.
  - (* interface *)
    injection eb as <-. cbn [n w_visit] in ev. opts ev. take ev as e0. injection e0 as <- <-.
    take ev as e0. injection ev as <- <-. injection ea as _ <-.
    apply make_read in o as (nm & r' & s'' & p1 & p2 & p3 & ->).
    destruct (added _ _ _ _ _ t e0) as (tc & _ & n2 & _).
    assert (D' : declare_all ns (children n) ([] ++ members) ns').
    { cbn [n children]. eapply declare_app; [|apply declare_one; exact D].
      destruct ext as [l9|]; [apply (declare_types l9)|constructor]. }
    cbn [app] in D'. destruct (A _ _ _ _ D' _ _ _ _ tc ltac:(congruence) ec) as [g n4]. split; [|exact n4].
    eapply grows_child; [exact t|exact e0|exact g|]. fold n in p2. flat. rewrite p1, p2, p3. says; [exact en|].
    destruct ext as [l9|]; cbn [opt_map] in o0.
    + rewrite own_types in o0. destruct (srefs l9) as [y9|] eqn:es; [|discriminate]. injection o0 as <-. cbn.
      rewrite (srefs_map _ _ es). reflexivity.
    + injection o0 as <-. reflexivity.
  - (* class constants *)
    injection eb as <-. cbn [n w_visit] in ev. take ev as e0. injection ev as <- <-. injection ec as <-. injection ea as _ <-.
    fold n in e0. rewrite <- en. eapply leaves; [|exact t|exact e0]. clear e0. intros [name value] s0 u0 s0' t0' e0. cbn [fst snd] in e0.
    opts e0. take e0 as e1. injection e0 as _ <-. apply make_read in o0 as (nm & r' & s'' & p1 & p2 & p3 & ->).
    eapply grows_leaf; [exact t0'|exact e1|]. cbn [fst]. flat. rewrite p1, p2. says.
    + apply visible_read. reflexivity.
    + apply srefs_map in o. rewrite o. apply vars_read. exact H.
  - (* magic properties *)
    injection eb as <-. cbn [w_visit] in ev. opts ev. take ev as e0. injection ev as <- <-. injection ec as <-. injection ea as _ <-.
    apply make_read in o0 as (nm & r' & s'' & p1 & p2 & p3 & ->). rewrite <- en.
    eapply grows_leaf; [exact t|exact e0|]. flat. rewrite p2. rewrite H in p1. injection p1 as <-. says.
    apply srefs_map in o. exact o.
  - (* properties *)
    injection eb as <-. cbn [n w_visit] in ev. opts ev. take ev as e0. injection ev as <- <-. injection ec as <-. injection ea as _ <-.
    rewrite <- en. eapply leaves; [|exact t|exact e0]. clear e0. intros [name value] s0 u0 s0' t0' e0. cbn [fst snd] in e0.
    opts e0. take e0 as e1. injection e0 as _ <-. apply make_read in o1 as (nm & r' & s'' & p1 & p2 & p3 & ->). injection p2 as <-.
    eapply grows_leaf; [exact t0'|exact e1|]. cbn [fst]. fold n in o0. flat. rewrite p1, o0. says.
    + apply visible_read. reflexivity.
    + apply srefs_map in o. rewrite o, (type_written_read _ _ H), (vars_read _ _ H0). reflexivity.
  - (* methods *)
    injection eb as <-. cbn [n w_visit] in ev. opts ev. take ev as e0. injection ev as <- <-. injection ea as _ <-.
    apply make_read in o0 as (nm & r' & s'' & p1 & p2 & p3 & ->).
    destruct (added _ _ _ _ _ t e0) as (tc & _ & n2 & _).
    destruct (A _ _ _ _ H1 _ _ _ _ tc ltac:(congruence) ec) as [g n4]. split; [|exact n4].
    eapply grows_child; [exact t|exact e0|exact g|]. fold n in p2. flat. rewrite p1, p3. says.
    + destruct doc as [c9|].
      * unfold rng_node_node in p2. destruct (node_range c9) as [q9|]; [|discriminate]. destruct (node_range n) as [r9|]; [|discriminate].
        injection p2 as <-. exists r9. says. exists q9. says.
      * exists r'. says. exact p2.
    + apply visible_read. reflexivity.
    + apply static_read.
    + apply srefs_map in o. rewrite o, (type_written_read _ _ H), (returns_read _ _ H0). reflexivity.
  - (* functions *)
    injection eb as <-. cbn [n w_visit] in ev. opts ev. take ev as e0. injection ev as <- <-. injection ea as _ <-.
    apply make_read in o0 as (nm & r' & s'' & p1 & p2 & p3 & ->).
    destruct (added _ _ _ _ _ t e0) as (tc & _ & n2 & _).
    destruct (A _ _ _ _ H1 _ _ _ _ tc ltac:(congruence) ec) as [g n4]. split; [|exact n4].
    eapply grows_child; [exact t|exact e0|exact g|]. fold n in p2. flat. rewrite p1, p3. says.
    + destruct doc as [c9|].
      * unfold rng_node_node in p2. destruct (node_range c9) as [q9|]; [|discriminate]. destruct (node_range n) as [r9|]; [|discriminate].
        injection p2 as <-. exists r9. says. exists q9. says.
      * exists r'. says. exact p2.
    + apply srefs_map in o. rewrite o, (type_written_read _ _ H), (returns_read _ _ H0). reflexivity.
  - (* arrow functions *)
    injection eb as <-. cbn [n w_visit] in ev. opts ev. take ev as e0. injection ev as <- <-. injection ea as _ <-.
    apply make_read in o0 as (nm & r' & s'' & p1 & p2 & p3 & ->).
    destruct (added _ _ _ _ _ t e0) as (tc & _ & n2 & _).
    destruct (A _ _ _ _ H _ _ _ _ tc ltac:(congruence) ec) as [g n4]. split; [|exact n4].
    eapply grows_child; [exact t|exact e0|exact g|]. fold n in p2. flat. rewrite p2. says.
  - (* parameters *)
    injection eb as <-. cbn [n w_visit] in ev. opts ev. take ev as e0. take ev as e1. injection ev as <- <-. injection ec as <-. injection ea as _ <-.
    apply make_read in o0 as (nm & r' & s'' & p1 & p2 & p3 & ->).
    match goal with |- grows _ _ _ [?i] /\ _ => assert (g : grows s t0 p [i] /\ w_ns t0 = w_ns s) end.
    { eapply grows_leaf; [exact t|exact e0|]. fold n in p2. flat. rewrite p1, p2, p3. says.
      apply srefs_map in o. rewrite o, (type_written_read _ _ H), (param_read _ _ H0). reflexivity. }
    destruct g as [g n1]. assert (g2 : grows t0 t1 p [] /\ w_ns t1 = w_ns t0).
    { eapply grows_update; [apply (g_wf _ _ _ _ g)| |exact e1]. intros d. reflexivity. }
    destruct g2 as [g2 n2].
    split; [|congruence]. change [?i] with ([i] ++ []). eapply grows_trans; eassumption.
Qed.

End Growing.

(** * C55 *)

Section C55.
Context {RT : Runtime} {HH : Hashing}.

(** Whatever the state of the server: when a syntax tree is indexed
    (backend/mod.rs:406-456, workspace_symbol.rs), the children of the file are
    the declarations in it, in their order, and so on below them.  What is
    missing for the full statement: whether a property is static and the
    visibility of one that is only commented, see the refutations. *)
Theorem C55_symbols_partial : forall s s' fuel path nodes range its ns, reachable s ->
  declare_all None nodes its ns ->
  collect_symbols fuel path nodes range s = Done tt s' ->
  exists f l, findS path (b_files s') = Some f /\ kids (b_arena s') f = Some l /\
    Forall2 (mirrors (b_arena s')) l its.
Proof.
  intros s s' fuel path nodes range its ns r D e. apply reachable_winv in r.
  destruct (collect_new _ _ _ _ _ _ _ (wi_wf _ r) (fun f h => proj1 (wi_files _ r _ _ h)) e) as (w & ev & _ & _ & _ & ef & _ & new & _).
  unfold visited in ev. destruct (new_node (plain_symbol KFile path range range) (b_arena s)) as [f a1] eqn:en.
  destruct (node_of_new _ _ _ _ en) as (-> & nx & sp). pose proof (wf_new _ _ _ _ (wi_wf _ r) en) as w1. cbn [snd] in ev.
  set (f := a_next (b_arena s)) in *.
  assert (t : there (mkWst a1 None) f).
  { split; [exact w1|]. eexists. cbn [w_arena]. rewrite sp, N.eqb_refl. reflexivity. }
  destruct (all_good fuel (good_every fuel) _ _ _ _ D _ _ _ _ t eq_refl ev) as [gr _].
  destruct (g_new _ _ _ _ gr []) as (l & ek & fl).
  { cbn [w_arena]. unfold kids. rewrite sp, N.eqb_refl. reflexivity. }
  cbn [w_arena app] in ek, fl. exists f, l. split; [rewrite ef; apply find_put_same, str_eqb_spec|].
  split; [unfold kids in *; rewrite new by lia; exact ek|].
  eapply Forall2_weaken; [|exact fl]. intros i it m. eapply mirrors_public with (lo := a_next a1).
  revert i it m. apply mirrors_frame; [lia| |].
  - intros i d le ed. unfold data in *. rewrite new by lia. eauto.
  - intros i k le ed. unfold kids in *. rewrite new by lia. exact ed.
Qed.

(** As seen from outside: a file that is not open changes on the disk. *)
Theorem C55_watched_partial : forall s s' fuel disk order path text nodes its ns, reachable s ->
  findS path (b_open s) = None -> disk path = Some text -> syntax fuel text = Some nodes ->
  declare_all None nodes its ns ->
  serve fuel disk order (EvWatched [path]) s = Done tt s' ->
  exists f l, findS path (b_files s') = Some f /\ kids (b_arena s') f = Some l /\
    Forall2 (mirrors (b_arena s')) l its.
Proof.
  intros s s' fuel disk order path text nodes its ns r no ed hs D e. cbn [serve did_change_watched] in e.
  unfold ebind at 1 in e. unfold eget at 1 in e. rewrite no, ed in e. cbn [eopt] in e.
  unfold ebind at 1 in e. unfold eret at 1 in e. take e as es. apply source_spec in es as [-> hx].
  destruct x as [[[nodes' range] errors]|]; [|congruence].
  take e as e1. injection e as <-. take e1 as ec. destruct x0.
  assert (nodes' = nodes) by congruence. subst nodes'.
  destruct (C55_symbols_partial _ _ _ _ _ _ _ _ r D ec) as (f & l & c1 & c2 & c3).
  take e1 as e0. apply eopt_done in e0 as [edg ->]. take e1 as e0. injection e0 as <- <-. injection e1 as _ <-.
  exists f, l. auto.
Qed.
End C55.

(** A file with most kinds of declarations *)
Definition text55 : string :=
  "<?php namespace A\B; use X\Y; interface I extends J {} class C extends D implements I { const K = 1; private $p = 2; public static function f(int $x): C { } } trait T { protected function h() {} } function g() {} const Z = 1;".
Definition nodes55 : list Node := Eval vm_compute in match syntax 400 (lit text55) with Some l => l | None => [] end.

Ltac refs l := eval cbv in (flat_map get_type_ref l).
Ltac oref o := lazymatch o with None => constr:(@None TypeRef) | Some (NTypeRef ?x) => constr:(Some x) end.
Ltac orefs o := lazymatch o with None => constr:(@None (list TypeRef)) | Some ?l => let x := refs l in constr:(Some x) end.
Ltac written :=
  lazymatch goal with
  | |- type_written None _ => apply type_none
  | |- type_written (Some (NDataType ?n ?l)) _ => let x := refs l in exact (type_data n x)
  | |- type_written (Some (NReturnType ?t (NDataType ?n ?l))) _ => let x := refs l in exact (type_return t n x)
  | |- vars_commented None _ => apply vars_none
  | |- returns_commented None _ => apply returns_none
  | |- param_commented None _ => apply param_none
  end.
Definition constants_of (l : list Node) : list (Token * Node) :=
  flat_map (fun c => match c with NClassConstant _ n v => [(n, v)] | _ => [] end) l.
Definition properties_of (l : list Node) : list (Token * option Node) :=
  flat_map (fun c => match c with NProperty n v => [(n, v)] | _ => [] end) l.
Ltac one :=
  lazymatch goal with
  | |- declares _ (NNamespaceStatement _ _) _ _ =>
      eapply d_namespace; apply spells_relative; [split; reflexivity|repeat (eapply rest_more; [split; reflexivity|split; reflexivity|]); apply rest_end]
  | |- declares _ (NClassStatement ?t ?name ?ab ?fi ?impl ?ext ?body ?doc ?attrs) _ _ =>
      let i := orefs impl in let e := oref ext in
      refine (d_class _ t name ab fi i e body doc attrs _ _ _ _ _ _); [all|one]
  | |- declares _ (NInterface ?t ?name ?ext ?body ?doc) _ _ =>
      let e := orefs ext in refine (d_interface _ t name e body doc _ _ _); one
  | |- declares _ (NTraitStatement _ _ _ _) _ _ => eapply d_trait; one
  | |- declares _ (NClassConstantDefinitionStatement ?t ?l ?doc ?vis ?attrs) _ _ =>
      let x := eval cbv in (constants_of l) in refine (d_constants _ t x doc vis attrs _ _); written
  | |- declares _ (NPropertyDefinitionStatement ?l ?doc ?vis ?ty ?st ?ab ?attrs) _ _ =>
      let x := eval cbv in (properties_of l) in refine (d_properties _ x doc vis ty st ab attrs _ _ _ _); written
  | |- declares _ (NMethodDefinitionStatement _ _ _ _ _ _ _ _ _ _) _ _ => eapply d_method; [written|written|all]
  | |- declares _ (NNamedFunctionDefinitionStatement _ _ _ _ _) _ _ => eapply d_function; [written|written|all]
  | |- declares _ (NFunctionArgument _ _ _ _ _ _ _ _) _ _ => eapply d_parameter; written
  | |- declares _ (NConst _ _ _) _ _ => apply d_const
  | |- declares _ ?n _ _ => let b := eval cbv in (importing n) in
      lazymatch b with true => apply d_import; reflexivity | false => eapply d_other; [reflexivity|cbn [children]; all] end
  end
with all := cbn [app opt_list opt_nodes opt_map map children]; lazymatch goal with
  | |- declare_all _ [] _ _ => apply d_end
  | |- declare_all _ (_ :: _) _ _ => eapply d_more; [one|all]
  end.

Example C55_case :
  let s := state_after [(disk2 "<?php" "<?php class Z {}", EvIndex [pA; pB])] in
  reachable s /\ findS pA (b_open s) = None /\ syntax 400 (lit text55) = Some nodes55 /\
  (exists its, declare_all None nodes55 its (Some (lit "A\B")) /\ List.length its = 6%nat) /\
  exists s', serve 400 (disk2 text55 "<?php") (fun m => m) (EvWatched [pA]) s = Done tt s'.
Proof.
  cbv zeta. split; [apply state_after_reachable|]. split; [vm_compute; reflexivity|].
  split; [vm_compute; reflexivity|]. split.
  - eexists. split; [unfold nodes55; all|reflexivity].
  - eexists. vm_compute. reflexivity.
Qed.

(** The full statement is false: a property that is written with [static] is
    not static, *)
Theorem C55_static_refuted : exists text s f c p d nodes t name ab fi im ex a cl op b l dc vi ty tok ab' at',
  syntax 400 (lit text) = Some nodes /\
  nodes = [NClassStatement t name ab fi im ex (NBlock op [NPropertyDefinitionStatement l dc vi ty (Some tok) ab' at'] cl) b a] /\
  t_type tok = TStatic /\
  serve 400 (disk2 text "<?php") (fun m => m) (EvWatched [pA]) backend_new = Done tt s /\
  findS pA (b_files s) = Some f /\ kids (b_arena s) f = Some [c] /\ (exists m, kids (b_arena s) c = Some [m; p]) /\
  data (b_arena s) p = Some d /\ y_kind d = KProperty /\ y_static d = false.
Proof.
  exists "<?php class A { public static $x; }". do 23 eexists.
  split; [vm_compute; reflexivity|]. split; [reflexivity|]. split; [reflexivity|].
  split; [vm_compute; reflexivity|]. split; [vm_compute; reflexivity|]. split; [vm_compute; reflexivity|].
  split; [eexists; vm_compute; reflexivity|]. split; [vm_compute; reflexivity|]. split; reflexivity.
Qed.

(** and one that is commented with [@property] is private. *)
Theorem C55_magic_refuted : exists text s f c p d,
  text = "<?php /** @property int $x */ class A { }" /\
  serve 400 (disk2 text "<?php") (fun m => m) (EvWatched [pA]) backend_new = Done tt s /\
  findS pA (b_files s) = Some f /\ kids (b_arena s) f = Some [c] /\ (exists m, kids (b_arena s) c = Some [m; p]) /\
  data (b_arena s) p = Some d /\ y_kind d = KProperty /\ y_name d = lit "x" /\ y_vis d = VPrivate.
Proof.
  do 6 eexists. split; [reflexivity|].
  split; [vm_compute; reflexivity|]. split; [vm_compute; reflexivity|]. split; [vm_compute; reflexivity|].
  split; [eexists; vm_compute; reflexivity|]. split; [vm_compute; reflexivity|]. repeat split.
Qed.

Print Assumptions C55_symbols_partial.
Print Assumptions C55_watched_partial.
Print Assumptions C55_static_refuted.
Print Assumptions C55_magic_refuted.
