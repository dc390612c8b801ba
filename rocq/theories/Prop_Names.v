(** Property C30: names of types are resolved by the rules of PHP, whatever
    the letter case. *)

From Coq Require Import Permutation.
From Verif Require Import Base Token Scanner Node DocBlock Parser Assoc AssocFacts Arena ArenaFacts
  Symbol EnvMonad EnvFacts Workspace WorkspaceFacts Resolver SpecNames ResolverFacts
  Backend BackendFacts SpecServer ServerInv Prop_Server.

Local Notation findS := (find str_eqb).
Local Existing Instance ascii_runtime | 9.
Local Existing Instance plain_hashing | 9.
Local Open Scope string_scope.
Local Open Scope N_scope.
Local Open Scope list_scope.

(** * Specification: the name resolution rules of the PHP manual *)

(** A name as written: with a leading backslash or not, the first word, the
    other words *)
Inductive written := Written (absolute : bool) (first : str) (rest : list str).

(** Words with backslashes between them *)
Fixpoint joined (l : list str) : str :=
  match l with
  | [] => []
  | [w] => w
  | w :: r => w ++ lit "\" ++ joined r
  end.

(** How the tokens of a name spell it *)
Definition word (t : Token) (w : str) : Prop := t_type t = TIdentifier /\ t_label t = Some w.
Definition backslash (t : Token) : Prop := t_type t = TNamespaceSeparator /\ t_label t = None.
Inductive spells_rest : list Token -> list str -> Prop :=
| rest_end : spells_rest [] []
| rest_more : forall b t w ts ws, backslash b -> word t w -> spells_rest ts ws ->
    spells_rest (b :: t :: ts) (w :: ws).
Inductive spells : TypeRef -> written -> Prop :=
| spells_absolute : forall b t w ts ws m, backslash b -> word t w -> spells_rest ts ws ->
    spells (mkTypeRef (b :: t :: ts) m) (Written true w ws)
| spells_relative : forall t w ts ws m, word t w -> spells_rest ts ws ->
    spells (mkTypeRef (t :: ts) m) (Written false w ws).

(** [use path] and [use path as alias], without a leading backslash *)
Definition import_spells (i : SymbolImport) (e : str * list str) : Prop :=
  let (alias, path) := e in
  (exists w ws, path = w :: ws /\ spells (i_path i) (Written false w ws)) /\
  match i_alias i with
  | Some t => t_label t = Some alias
  | None => alias = last path []
  end.

Section Spec.
Context {RT : Runtime}.

(** [means imports ns w full]: in the namespace [ns] and with the [imports],
    the written name [w] stands for [full]. *)
Inductive means (imports : list (str * list str)) (ns : list str) : written -> list str -> Prop :=
| means_absolute : forall w ws, means imports ns (Written true w ws) (w :: ws)
| means_imported : forall w ws alias path, In (alias, path) imports ->
    to_lowercase alias = to_lowercase w ->
    means imports ns (Written false w ws) (path ++ ws)
| means_local : forall w ws,
    (forall alias path, In (alias, path) imports -> to_lowercase alias <> to_lowercase w) ->
    means imports ns (Written false w ws) (ns ++ w :: ws).

(** The namespace that a place of a file is in: that of the class or function
    around it, or else that of the file, which has only one *)
Inductive placed (a : arena Symbol) (file : N) (anchor : Symbol) : list str -> Prop :=
| placed_own : forall ns, y_ns anchor = Some (joined ns) -> placed a file anchor ns
| placed_file : forall ns ks k dk, y_ns anchor = None -> kids a file = Some ks ->
    In k ks -> data a k = Some dk -> y_kind dk = KNamespace ->
    (forall i d, In i ks -> data a i = Some d -> y_kind d = KNamespace -> sym_name d = joined ns) ->
    placed a file anchor ns
| placed_global : forall ks, y_ns anchor = None -> kids a file = Some ks ->
    (forall i d, In i ks -> data a i = Some d -> y_kind d <> KNamespace) ->
    placed a file anchor [].

(** The name [w], written as [tr] under the symbol [anchor], is looked up for
    the first time; it stands for [full]. *)
Record asks (s : rst) (tr : TypeRef) (anchor : N) (w : written) (full : list str) : Prop := {
  as_wf : wf (r_arena s);
  as_spells : spells tr w;
  as_plain : match w with Written _ first _ => ~ In first (map lit ["self"; "static"; "parent"]) end;
  as_place : exists file fd d rg imports ns,
    top (r_arena s) anchor = Some file /\ data (r_arena s) file = Some fd /\
    data (r_arena s) anchor = Some d /\
    tref_range tr = Some rg /\ find unique_eqb (file, rg) (r_cache s) = None /\
    Forall2 import_spells (match y_imports fd with Some l => l | None => [] end) imports /\
    NoDup (map (fun e => to_lowercase (fst e)) imports) /\
    placed (r_arena s) file d ns /\ Forall (fun x => x <> []) ns /\
    means imports ns w full
}.
Definition first_word (w : written) : str := match w with Written _ f _ => f end.

End Spec.

(** * Proofs *)

Definition behind (ws : list str) : str := flat_map (fun w => lit "\" ++ w) ws.

Lemma joined_cons : forall ws w, joined (w :: ws) = w ++ behind ws.
Proof.
  induction ws as [|w' ws IH]; intros w; [cbn; rewrite app_nil_r; auto|].
  change (joined (w :: w' :: ws)) with (w ++ lit "\" ++ joined (w' :: ws)). rewrite IH. reflexivity.
Qed.

Lemma behind_app : forall a b, behind (a ++ b) = behind a ++ behind b.
Proof. intros. unfold behind. apply flat_map_app. Qed.

Lemma joined_ns : forall ns w ws, ns <> [] ->
  joined (ns ++ w :: ws) = joined ns ++ lit "\" ++ joined (w :: ws).
Proof.
  intros [|n ns] w ws ne; [congruence|]. cbn [app]. rewrite !joined_cons, behind_app. cbn.
  unfold behind at 2. cbn. rewrite <- app_assoc. reflexivity.
Qed.

Lemma show_word : forall t w, word t w -> display_token t = Some w.
Proof. intros t w [h1 h2]. unfold display_token. rewrite h1, h2. reflexivity. Qed.
Lemma show_backslash : forall t, backslash t -> display_token t = Some (lit "\").
Proof. intros t [h1 h2]. unfold display_token. rewrite h1, h2. reflexivity. Qed.

Lemma show_rest : forall ts ws, spells_rest ts ws -> display_tokens ts = Some (behind ws).
Proof.
  induction 1 as [|b t w ts ws hb ht hr IH]; [reflexivity|].
  cbn [display_tokens]. rewrite (show_backslash _ hb), (show_word _ _ ht), IH. reflexivity.
Qed.

Lemma spells_first : forall tr w, spells tr w -> tref_root tr = Some (Some (first_word w)) /\
  tref_is_empty tr = false /\ tref_is_builtin tr = false.
Proof.
  intros tr w h. inversion h as [b t w0 ts ws m hb ht hr|t w0 ts ws m ht hr]; subst.
  - unfold tref_root, tref_is_empty, tref_is_fully_qualified, tref_is_builtin. cbn [kind].
    destruct hb as [hb _]. rewrite hb. cbn. rewrite (show_word _ _ ht). auto.
  - unfold tref_root, tref_is_empty, tref_is_fully_qualified, tref_is_builtin. cbn [kind].
    pose proof (show_word _ _ ht) as e. destruct ht as [ht _]. rewrite ht. cbn. rewrite e.
    destruct ts; cbn; auto.
Qed.

Lemma last_skip : forall A (x y : A) l, last_opt (x :: y :: l) = last_opt (y :: l).
Proof.
  intros A x y l. unfold last_opt. cbn [rev]. destruct (rev l); reflexivity.
Qed.

Lemma last_rest : forall ts ws, spells_rest ts ws -> forall t w, word t w ->
  obind (last_opt (t :: ts)) t_label = Some (last (w :: ws) []).
Proof.
  induction 1 as [|b t' w' ts ws hb ht hr IH]; intros t w hw.
  - destruct hw as [_ e]. cbn. auto.
  - rewrite !last_skip, (IH _ _ ht). reflexivity.
Qed.

Section Proofs.
Context {RT : Runtime} {HH : Hashing}.

Lemma import_read : forall i alias path, import_spells i (alias, path) ->
  import_name i = Some alias /\ import_full_name i = Some (joined path).
Proof.
  intros i alias path [(w & ws & -> & h) ha].
  inversion h as [|t w0 ts ws0 m ht hr e1 e2]; subst.
  split.
  - unfold import_name. destruct (i_alias i) as [a|]; [exact ha|].
    unfold tref_tip. rewrite <- e1. cbn [kind]. rewrite (last_rest _ _ hr _ _ ht). subst. reflexivity.
  - unfold import_full_name, tref_to_fqdn. rewrite <- e1. cbn [kind display_tokens].
    rewrite (show_word _ _ ht), (show_rest _ _ hr), joined_cons. reflexivity.
Qed.

Lemma imports_read_f : forall l imports acc, Forall2 import_spells l imports ->
  exists m, fold_left (fun m i =>
      obind m (fun m => obind (import_name i) (fun name => obind (import_full_name i) (fun full =>
        Some (put str_eqb (to_lowercase name) full m))))) l (Some acc) = Some m /\
  (forall k, (forall alias path, In (alias, path) imports -> to_lowercase alias <> k) ->
     findS k m = findS k acc) /\
  (NoDup (map (fun e => to_lowercase (fst e)) imports) ->
     forall alias path, In (alias, path) imports -> findS (to_lowercase alias) m = Some (joined path)).
Proof.
  intros l imports acc h. revert acc. induction h as [|i [al pa] l imports hi h IH]; intros acc.
  - exists acc. split; [reflexivity|]. split; [auto|]. intros _ ? ? [].
  - cbn [fold_left obind]. destruct (import_read _ _ _ hi) as [-> ->]. cbn [obind].
    destruct (IH (put str_eqb (to_lowercase al) (joined pa) acc)) as (m & h1 & h2 & h3).
    exists m. split; [exact h1|]. split.
    + intros k hk. rewrite h2 by (intros; eapply hk; right; eauto).
      rewrite (find_put str_eqb str_eqb_spec).
      destruct (str_eqb_spec k (to_lowercase al)) as [e|ne]; auto.
      exfalso. eapply hk; [left; reflexivity|]. cbn. auto.
    + cbn [map fst]. intros nd alias path [e|hin].
      * injection e as -> ->. inversion nd as [|? ? n1 n2]; subst.
        rewrite h2.
        -- rewrite (find_put str_eqb str_eqb_spec).
           destruct (str_eqb_spec (to_lowercase alias) (to_lowercase alias)); congruence.
        -- intros al' pa' hin e. apply n1. apply in_map_iff. exists (al', pa'). auto.
      * inversion nd as [|? ? n1 n2]; subst. auto.
Qed.

Lemma imports_read : forall l imports, Forall2 import_spells l imports ->
  NoDup (map (fun e => to_lowercase (fst e)) imports) ->
  exists m, available_imports l = Some m /\
  (forall k, (forall alias path, In (alias, path) imports -> to_lowercase alias <> k) ->
     findS k m = None) /\
  (forall alias path, In (alias, path) imports -> findS (to_lowercase alias) m = Some (joined path)).
Proof.
  intros l imports h nd. destruct (imports_read_f l imports [] h) as (m & h1 & h2 & h3).
  exists m. unfold available_imports. split; [exact h1|]. split; auto.
Qed.

Lemma first_namespace : forall ks (s : rst) ns,
  (forall i, In i ks -> data (r_arena s) i <> None) ->
  (forall i d, In i ks -> data (r_arena s) i = Some d -> y_kind d = KNamespace -> sym_name d = ns) ->
  exists o, efind (fun c =>
        elet s <- e_data c in
        eret (if kind_eqb (y_kind s) KNamespace then Some (sym_name s) else None)) ks s = Done o s /\
  (o = Some ns \/ (o = None /\ forall i d, In i ks -> data (r_arena s) i = Some d -> y_kind d <> KNamespace)).
Proof.
  induction ks as [|k ks IH]; intros s ns hl hn.
  - exists None. split; [reflexivity|]. right. split; auto.
  - cbn [efind]. unfold ebind at 1. unfold ebind at 1. unfold e_data at 1. cbn [the_arena rst_arena].
    destruct (data (r_arena s) k) as [d|] eqn:ed; [|exfalso; eapply hl; [left; reflexivity|exact ed]].
    unfold eret at 1. destruct (kind_eqb (y_kind d) KNamespace) eqn:ek.
    + exists (Some ns). split; [|auto]. unfold eret. rewrite (hn k d); auto; [left; auto|].
      destruct (y_kind d); try discriminate; reflexivity.
    + destruct (IH s ns) as (o & h1 & h2).
      * intros; apply hl; right; auto.
      * intros; eapply hn; eauto; right; auto.
      * exists o. split; [exact h1|]. destruct h2 as [h2|[h2 h3]]; [auto|]. right. split; auto.
        intros i d' [e|hi] hd; [|eauto]. subst i. rewrite ed in hd. injection hd as <-.
        intros e. rewrite e in ek. discriminate.
Qed.

Lemma placed_read : forall (s : rst) file d ns, wf (r_arena s) -> placed (r_arena s) file d ns ->
  current_namespace d file s = Done (joined ns) s.
Proof.
  intros s file d ns hw h. unfold current_namespace.
  assert (live_kids : forall ks i, kids (r_arena s) file = Some ks -> In i ks -> data (r_arena s) i <> None).
  { intros ks i hk hi hd. unfold kids in hk. destruct (node_of (r_arena s) file) as [m|] eqn:e; [|discriminate].
    cbn in hk. injection hk as <-. destruct (wf_down _ hw _ _ _ e hi) as (n & hn & _).
    unfold data in hd. rewrite hn in hd. discriminate. }
  inversion h as [ns0 e|ns0 ks k dk e hk hi hd hkind hall|ks e hk hall]; subst.
  - rewrite e. reflexivity.
  - rewrite e. unfold ebind at 1. unfold e_kids. cbn [the_arena rst_arena]. rewrite hk.
    destruct (first_namespace ks s (joined ns)) as (o & h1 & h2).
    + intros i hi'. eapply live_kids; eauto.
    + intros i d' hi' hd' hk'. eapply hall; eauto.
    + unfold ebind at 1. rewrite h1. destruct h2 as [->|[-> h2]]; [reflexivity|].
      exfalso. eapply h2; eauto.
  - rewrite e. unfold ebind at 1. unfold e_kids. cbn [the_arena rst_arena]. rewrite hk.
    destruct (first_namespace ks s []) as (o & h1 & h2).
    + intros i hi'. eapply live_kids; eauto.
    + intros i d' hi' hd' hk'. exfalso. eapply hall; eauto.
    + unfold ebind at 1. rewrite h1. destruct h2 as [->|[-> h2]]; reflexivity.
Qed.

Lemma joined_nonempty : forall ns, Forall (fun x => x <> []) ns -> ns <> [] -> joined ns <> [].
Proof.
  intros [|n ns] hf ne; [congruence|]. rewrite joined_cons. inversion hf; subst.
  destruct n; [congruence|discriminate].
Qed.

Lemma joined_app : forall a b, a <> [] -> joined (a ++ b) = joined a ++ behind b.
Proof.
  intros [|x a] b ne; [congruence|]. cbn [app]. rewrite !joined_cons, behind_app, app_assoc. reflexivity.
Qed.

Lemma name_read : forall tr w imports ns full m l, spells tr w -> means imports ns w full ->
  Forall2 import_spells l imports ->
  Forall (fun x => x <> []) ns ->
  (forall k, (forall alias path, In (alias, path) imports -> to_lowercase alias <> k) ->
     findS k m = None) ->
  (forall alias path, In (alias, path) imports -> findS (to_lowercase alias) m = Some (joined path)) ->
  joined_name tr (first_word w) m (joined ns) = Some (joined full).
Proof.
  intros tr w imports ns full m l hs hm hi hn h1 h2. unfold joined_name.
  inversion hs as [b t w0 ts ws mu hb ht hr|t w0 ts ws mu ht hr]; subst.
  - inversion hm; subst. unfold tref_is_fully_qualified, tref_to_fqdn. cbn [kind].
    pose proof (show_backslash _ hb) as eb. destruct hb as [hb _]. rewrite hb. cbn [tt_eqb display_tokens].
    rewrite eb, (show_word _ _ ht), (show_rest _ _ hr), joined_cons. reflexivity.
  - assert (tref_is_fully_qualified (mkTypeRef (t :: ts) mu) = false) as ->.
    { unfold tref_is_fully_qualified. cbn [kind]. destruct ht as [ht _]. rewrite ht. reflexivity. }
    cbn [first_word].
    inversion hm as [|w1 ws1 alias path hin e|w1 ws1 hno]; subst.
    + rewrite <- e, (h2 _ _ hin). cbn [kind].
      assert (path <> []) as np.
      { clear -hin hi. induction hi as [|i [al pa] l imports hi h IH]; [destruct hin|].
        destruct hin as [e|hin]; [|auto]. injection e as -> ->.
        destruct hi as [(x & xs & -> & _) _]. discriminate. }
      rewrite joined_app by auto.
      destruct hr as [|b t' w' ts' ws' hb ht' hr].
      * cbn [List.length behind flat_map]. rewrite app_nil_r. reflexivity.
      * assert (1 <? N.of_nat (List.length (t :: b :: t' :: ts')) = true) as ->.
        { apply N.ltb_lt. cbn [List.length]. lia. }
        unfold tref_stem, tref_is_fully_qualified. cbn [kind].
        destruct ht as [ht _]. rewrite ht. change (tt_eqb TIdentifier TNamespaceSeparator) with false. cbn [skipn].
        rewrite (show_rest (b :: t' :: ts') (w' :: ws')) by (constructor; auto). reflexivity.
    + rewrite h1 by auto. unfold tref_to_fqdn. cbn [kind display_tokens].
      rewrite (show_word _ _ ht), (show_rest _ _ hr). cbn [obind].
      destruct ns as [|n ns].
      * change (joined []) with (@nil N). cbn [app]. rewrite joined_cons. reflexivity.
      * destruct (joined (n :: ns)) as [|c cs] eqn:ej; [exfalso; eapply joined_nonempty; [exact hn|discriminate|exact ej]|].
        rewrite joined_ns by discriminate. rewrite ej, joined_cons. reflexivity.
Qed.

(** What the lookup does with a name *)
Lemma resolve_step : forall fuel tr anchor reg s w full, asks s tr anchor w full ->
  exists file fd rg, top (r_arena s) anchor = Some file /\ data (r_arena s) file = Some fd /\
  tref_range tr = Some rg /\
  resolve_type_ref (S fuel) tr anchor reg s =
   (elet found <-
                (match findS (to_lowercase (joined full)) (r_global s) with
                 | Some node => eret (Some (node, joined full))
                 | None =>
                     match findS (to_lowercase (first_word w)) (r_global s) with
                     | Some node => eret (Some (node, first_word w))
                     | None =>
                         edo note (mkNote (sym_name fd)
                           (lit "Unresolvable type (" ++ debug_bool (tref_is_fully_qualified tr)
                            ++ lit ") '" ++ joined full ++ lit "'") rg SevError) in
                         eret None
                     end
                 end) in
              match found with
              | None => edo cache_put (file, rg) None in eret None
              | Some (node, comp) =>
                  edo (if reg then reference file rg node else eret tt) in
                  elet d <- e_data node in
                  edo (if fqdn_matches d comp then eret tt
                       else note (mkNote (sym_name fd)
                              (lit "Case mismatch between call and definition " ++ comp ++ lit " vs "
                               ++ fqdn d) rg SevWarning)) in
                  edo cache_put (file, rg) (Some node) in
                  eret (Some node)
              end) s.
Proof.
  intros fuel tr anchor reg s w full [hw hs hp (file & fd & d & rg & imports & ns & h1 & h2 & h3 & h4 & h5 & h6 & h7 & h8 & h9 & h10)].
  exists file, fd, rg. split; [auto|]. split; [auto|]. split; [auto|].
  destruct (spells_first _ _ hs) as (r1 & r2 & r3).
  destruct (imports_read _ _ h6 h7) as (m & i1 & i2 & i3).
  pose proof (name_read _ _ _ _ _ _ _ hs h10 h6 h9 i2 i3) as hj.
  assert (str_eqb (first_word w) (lit "self") = false /\ str_eqb (first_word w) (lit "static") = false /\
          str_eqb (first_word w) (lit "parent") = false) as (p1 & p2 & p3).
  { destruct w as [ab f r]. cbn [first_word]. cbn [map In] in hp.
    repeat split; match goal with |- str_eqb f ?x = false => destruct (str_eqb_spec f x) as [e|]; [exfalso; apply hp; rewrite e; auto|reflexivity] end. }
  cbn [resolve_type_ref]. rewrite r2, r3. cbn [orb].
  unfold ebind at 1. unfold e_top. cbn [the_arena rst_arena]. rewrite h1.
  unfold ebind at 1. unfold e_data at 1. cbn [the_arena rst_arena]. rewrite h2.
  unfold ebind at 1. rewrite r1. unfold eopt at 1, eret at 1.
  unfold ebind at 1. unfold eopt at 1, eret at 1.
  unfold ebind at 1. rewrite h4. unfold eopt at 1, eret at 1.
  unfold ebind at 1. unfold eget at 1. rewrite h5.
  unfold ebind at 1. unfold eget at 1.
  rewrite p1, p2, p3. cbn [orb].
  unfold ebind at 1. rewrite i1. unfold eopt at 1, eret at 1.
  unfold ebind at 1. unfold e_data at 1. cbn [the_arena rst_arena]. rewrite h3.
  unfold ebind at 1. rewrite (placed_read _ _ _ _ hw h8).
  unfold ebind at 1. rewrite hj. unfold eopt at 1, eret at 1.
  unfold ebind at 1. unfold eget at 1. reflexivity.
Qed.

(** C30.  If the full name that PHP's rules give is in the index, the answer is
    the symbol that the index has under it, whatever the letter case. *)
Theorem C30_found_partial : forall fuel tr anchor reg s w full node d,
  asks s tr anchor w full ->
  findS (to_lowercase (joined full)) (r_global s) = Some node -> data (r_arena s) node = Some d ->
  exists s', resolve_type_ref (S fuel) tr anchor reg s = Done (Some node) s'.
Proof.
  intros fuel tr anchor reg s w full node d ha hf hd.
  destruct (resolve_step fuel tr anchor reg s w full ha) as (file & fd & rg & h1 & h2 & h3 & ->).
  rewrite hf. unfold ebind at 1. unfold eret at 1.
  destruct reg; unfold ebind at 1.
  - unfold reference, emod. unfold ebind at 1. unfold e_data. cbn [the_arena rst_arena r_arena]. rewrite hd.
    destruct (fqdn_matches d (joined full)); eexists; reflexivity.
  - unfold eret at 1. unfold ebind at 1. unfold e_data. cbn [the_arena rst_arena]. rewrite hd.
    destruct (fqdn_matches d (joined full)); eexists; reflexivity.
Qed.

(** Without an entry for the full name and for the first word, there is no
    answer, and the user is told. *)
Theorem C30_unknown_partial : forall fuel tr anchor reg s w full,
  asks s tr anchor w full ->
  findS (to_lowercase (joined full)) (r_global s) = None ->
  findS (to_lowercase (first_word w)) (r_global s) = None ->
  exists s' n, resolve_type_ref (S fuel) tr anchor reg s = Done None s' /\
    r_diags s' = r_diags s ++ [n] /\ nt_severity n = SevError /\ tref_range tr = Some (nt_range n).
Proof.
  intros fuel tr anchor reg s w full ha hf hr.
  destruct (resolve_step fuel tr anchor reg s w full ha) as (file & fd & rg & h1 & h2 & h3 & ->).
  rewrite hf, hr. eexists. eexists. split; [reflexivity|]. cbn. auto.
Qed.

(** C30 is not met otherwise: if PHP's rules give a name without a symbol, the
    first word of the written name is looked up in the global namespace.
    [\A\B\C] may end up at the class [A]. *)
Theorem C30_fallback_refuted : forall fuel tr anchor reg s w full node d,
  asks s tr anchor w full ->
  findS (to_lowercase (joined full)) (r_global s) = None ->
  findS (to_lowercase (first_word w)) (r_global s) = Some node -> data (r_arena s) node = Some d ->
  exists s', resolve_type_ref (S fuel) tr anchor reg s = Done (Some node) s'.
Proof.
  intros fuel tr anchor reg s w full node d ha hf hr hd.
  destruct (resolve_step fuel tr anchor reg s w full ha) as (file & fd & rg & h1 & h2 & h3 & ->).
  rewrite hf, hr. unfold ebind at 1. unfold eret at 1.
  destruct reg; unfold ebind at 1.
  - unfold reference, emod. unfold ebind at 1. unfold e_data. cbn [the_arena rst_arena r_arena]. rewrite hd.
    destruct (fqdn_matches d (first_word w)); eexists; reflexivity.
  - unfold eret at 1. unfold ebind at 1. unfold e_data. cbn [the_arena rst_arena]. rewrite hd.
    destruct (fqdn_matches d (first_word w)); eexists; reflexivity.
Qed.

(** ** Letter case *)

Definition same_word (a b : str) : Prop := map ascii_lower a = map ascii_lower b.
Definition same_name (a b : written) : Prop :=
  match a, b with
  | Written x f r, Written y g q => x = y /\ same_word f g /\ Forall2 same_word r q
  end.
(** Lower-casing a text makes ASCII letter case irrelevant. *)
Definition folds_case : Prop := forall a b, same_word a b -> to_lowercase a = to_lowercase b.

Lemma same_app : forall a b c d, same_word a b -> same_word c d -> same_word (a ++ c) (b ++ d).
Proof. unfold same_word. intros. rewrite !map_app. congruence. Qed.
Lemma same_behind : forall r q, Forall2 same_word r q -> same_word (behind r) (behind q).
Proof.
  induction 1 as [|x y r q h1 h2 IH]; [reflexivity|].
  cbn [behind flat_map]. apply same_app; [apply same_app; [reflexivity|auto]|exact IH].
Qed.

Lemma spells_kind : forall tr ab f r, spells tr (Written ab f r) ->
  tref_is_fully_qualified tr = ab /\
  tref_to_fqdn tr = Some ((if ab then lit "\" else []) ++ f ++ behind r) /\
  (ab = false -> display_tokens (tref_stem tr) = Some (behind r) /\
     (1 <? N.of_nat (List.length (kind tr))) = negb (Nat.eqb (List.length r) 0)).
Proof.
  intros tr ab f r h. inversion h as [b t w0 ts ws mu hb ht hr|t w0 ts ws mu ht hr]; subst.
  - unfold tref_is_fully_qualified, tref_to_fqdn. cbn [kind].
    pose proof (show_backslash _ hb) as eb. destruct hb as [hb _]. rewrite hb.
    split; [reflexivity|]. split; [|discriminate].
    cbn [display_tokens]. rewrite eb, (show_word _ _ ht), (show_rest _ _ hr). reflexivity.
  - unfold tref_stem, tref_is_fully_qualified, tref_to_fqdn. cbn [kind].
    pose proof (show_word _ _ ht) as et. destruct ht as [ht _]. rewrite ht.
    split; [reflexivity|]. split; [cbn [display_tokens]; rewrite et, (show_rest _ _ hr); reflexivity|].
    intros _. change (tt_eqb TIdentifier TNamespaceSeparator) with false. cbn [skipn].
    split; [apply show_rest; auto|]. destruct hr; [reflexivity|].
    cbn [List.length Nat.eqb negb]. apply N.ltb_lt. lia.
Qed.

Lemma joined_same : folds_case -> forall tr1 tr2 w1 w2 m ns j1,
  spells tr1 w1 -> spells tr2 w2 -> same_name w1 w2 ->
  joined_name tr1 (first_word w1) m ns = Some j1 ->
  exists j2, joined_name tr2 (first_word w2) m ns = Some j2 /\ same_word j1 j2.
Proof.
  intros hf tr1 tr2 [x f r] [y g q] m ns j1 h1 h2 (<- & hfg & hrq). cbn [first_word].
  destruct (spells_kind _ _ _ _ h1) as (a1 & a2 & a3). destruct (spells_kind _ _ _ _ h2) as (b1 & b2 & b3).
  unfold joined_name. rewrite a1, a2, b1, b2. destruct x.
  - cbn [opt_map app skipn lit]. intros e. injection e as <-. eexists. split; [reflexivity|].
    apply same_app; [auto|apply same_behind; auto].
  - destruct (a3 eq_refl) as (a4 & a5). destruct (b3 eq_refl) as (b4 & b5). rewrite a4, a5, b4, b5.
    rewrite (hf _ _ hfg). assert (List.length r = List.length q) as <- by (clear -hrq; induction hrq; cbn; congruence). cbn [app].
    destruct (findS (to_lowercase g) m) as [im|].
    + destruct (negb (Nat.eqb (List.length r) 0)); cbn [opt_map]; intros e; injection e as <-;
        eexists; (split; [reflexivity|]); [|reflexivity].
      apply same_app; [reflexivity|apply same_behind; auto].
    + destruct ns as [|c ns]; cbn [opt_map]; intros e; injection e as <-; eexists; (split; [reflexivity|]).
      * apply same_app; [auto|apply same_behind; auto].
      * change (c :: ns ++ 92 :: f ++ behind r) with ((c :: ns) ++ lit "\" ++ f ++ behind r).
        apply same_app; [reflexivity|]. apply same_app; [reflexivity|].
        apply same_app; [auto|apply same_behind; auto].
Qed.

Lemma asks_reads : forall s tr anchor w full, asks s tr anchor w full ->
  exists file fd d m ns, top (r_arena s) anchor = Some file /\ data (r_arena s) file = Some fd /\
  data (r_arena s) anchor = Some d /\
  available_imports (match y_imports fd with Some l => l | None => [] end) = Some m /\
  current_namespace d file s = Done ns s /\
  joined_name tr (first_word w) m ns = Some (joined full).
Proof.
  intros s tr anchor w full [hw hs hp (file & fd & d & rg & imports & ns & h1 & h2 & h3 & h4 & h5 & h6 & h7 & h8 & h9 & h10)].
  destruct (imports_read _ _ h6 h7) as (m & i1 & i2 & i3).
  exists file, fd, d, m, (joined ns). repeat (split; [auto|]).
  { apply placed_read; auto. }
  eapply name_read; eauto.
Qed.

Lemma answer_of : forall fuel tr anchor reg s w full o s1, asks s tr anchor w full ->
  resolve_type_ref (S fuel) tr anchor reg s = Done o s1 ->
  match findS (to_lowercase (joined full)) (r_global s), findS (to_lowercase (first_word w)) (r_global s) with
  | Some n, _ | None, Some n => o = Some n /\ data (r_arena s) n <> None
  | None, None => o = None
  end.
Proof.
  intros fuel tr anchor reg s w full o s1 ha.
  destruct (resolve_step fuel tr anchor reg s w full ha) as (file & fd & rg & h1 & h2 & h3 & ->).
  destruct (findS (to_lowercase (joined full)) (r_global s)) as [n|];
    [|destruct (findS (to_lowercase (first_word w)) (r_global s)) as [n|]].
  1,2: unfold ebind at 1; unfold eret at 1; destruct reg; unfold ebind at 1;
    [unfold reference, emod|unfold eret at 1]; unfold ebind at 1; unfold e_data;
    cbn [the_arena rst_arena r_arena]; destruct (data (r_arena s) n) as [d|]; try discriminate;
    match goal with |- context [fqdn_matches ?a ?b] => destruct (fqdn_matches a b) end;
    unfold ebind, eret, note, cache_put, emod; intros e; injection e as <- _; (split; [reflexivity|discriminate]).
  unfold ebind, eret, note, cache_put, emod. intros e. injection e as <- _. reflexivity.
Qed.

(** C30, second half: two spellings that differ in letter case only get the
    same answer. *)
Theorem C30_case_insensitive : folds_case ->
  forall fuel tr1 tr2 anchor reg s w1 w2 full1 full2 o s1,
  asks s tr1 anchor w1 full1 -> asks s tr2 anchor w2 full2 -> same_name w1 w2 ->
  resolve_type_ref (S fuel) tr1 anchor reg s = Done o s1 ->
  exists s2, resolve_type_ref (S fuel) tr2 anchor reg s = Done o s2.
Proof.
  intros hf fuel tr1 tr2 anchor reg s w1 w2 full1 full2 o s1 ha1 ha2 hsame h.
  destruct (asks_reads _ _ _ _ _ ha1) as (file & fd & d & m & ns & a1 & a2 & a3 & a4 & a5 & a6).
  destruct (asks_reads _ _ _ _ _ ha2) as (file' & fd' & d' & m' & ns' & b1 & b2 & b3 & b4 & b5 & b6).
  assert (file' = file) by congruence. subst file'. assert (fd' = fd) by congruence. subst fd'.
  assert (d' = d) by congruence. subst d'. assert (m' = m) by congruence. subst m'.
  assert (ns' = ns) by congruence. subst ns'.
  destruct (joined_same hf _ _ _ _ _ _ _ (as_spells _ _ _ _ _ ha1) (as_spells _ _ _ _ _ ha2) hsame a6) as (j2 & c1 & c2).
  assert (j2 = joined full2) by congruence. subst j2.
  assert (to_lowercase (first_word w1) = to_lowercase (first_word w2)) as ew.
  { apply hf. destruct w1, w2. destruct hsame as (_ & h' & _). exact h'. }
  pose proof (answer_of _ _ _ _ _ _ _ _ _ ha1 h) as ho.
  rewrite (hf _ _ c2), ew in ho.
  destruct (findS (to_lowercase (joined full2)) (r_global s)) as [n|] eqn:e1;
    [|destruct (findS (to_lowercase (first_word w2)) (r_global s)) as [n|] eqn:e2].
  - destruct ho as [-> hl]. destruct (data (r_arena s) n) as [dn|] eqn:ed; [|congruence].
    eapply C30_found_partial; eauto.
  - destruct ho as [-> hl]. destruct (data (r_arena s) n) as [dn|] eqn:ed; [|congruence].
    eapply C30_fallback_refuted; eauto.
  - subst o. destruct (C30_unknown_partial fuel tr2 anchor reg s w2 full2 ha2 e1 e2) as (s' & n & e & _). eauto.
Qed.

End Proofs.

(** * Cases *)

(** The state after start-up and after opening the second of two files *)
Definition opened (x y : string) : bst :=
  state_after [(disk2 x y, EvIndex [pA; pB]); (disk2 x y, EvInitialized); (disk2 x y, EvOpen pB [])].

(** [class D extends c] in a file that imports [A\B] as [C] *)
Definition case30 : bst :=
  opened "<?php namespace A; class B {}" "<?php namespace U; use A\B as C; class D extends c {}".
Definition state30 : rst := resolver_new (b_arena case30) (b_global case30) 4.
Definition name30 : TypeRef :=
  match data (b_arena case30) 6 with
  | Some d => match y_inherits d with Some (r :: _) => sr_type r | _ => no_prefix end
  | None => no_prefix
  end.

Example C30_case : reachable case30 /\
  asks state30 name30 6 (Written false (lit "c") []) [lit "A"; lit "B"] /\
  findS (to_lowercase (joined [lit "A"; lit "B"])) (r_global state30) = Some 2 /\
  opt_map qualified (data (r_arena state30) 2) = Some (lit "A\B") /\
  (exists s', resolve_type_ref 5 name30 6 true state30 = Done (Some 2) s').
Proof.
  assert (r : reachable case30) by apply state_after_reachable.
  split; [exact r|]. split; [|split; [vm_compute; reflexivity|split; [vm_compute; reflexivity|]]].
  2:{ eexists. vm_compute. reflexivity. }
  constructor.
  - change (r_arena state30) with (b_arena case30). apply (wi_wf _ (reachable_winv _ r)).
  - vm_compute. apply spells_relative; [split; reflexivity|constructor].
  - vm_compute. intros [e|[e|[e|[]]]]; discriminate.
  - exists 4. eexists. eexists. eexists. exists [(lit "C", [lit "A"; lit "B"])], [lit "U"].
    split; [vm_compute; reflexivity|]. split; [vm_compute; reflexivity|]. split; [vm_compute; reflexivity|].
    split; [vm_compute; reflexivity|]. split; [vm_compute; reflexivity|].
    split; [|split; [|split; [|split]]].
    + vm_compute. constructor; [|constructor]. split; [|reflexivity]. eexists. eexists. split; [reflexivity|].
      apply spells_relative; [split; reflexivity|]. constructor; [split; reflexivity|split; reflexivity|constructor].
    + repeat constructor; intros [].
    + apply placed_own. vm_compute. reflexivity.
    + repeat constructor. discriminate.
    + apply (means_imported _ _ (lit "c") [] (lit "C") [lit "A"; lit "B"]); [left; reflexivity|reflexivity].
Qed.

(** The same name in another letter case, with a lower-casing of ASCII letters *)
Definition folding_runtime : Runtime :=
  {| rt_alnum := fun _ => false; rt_white := fun _ => false; rt_lower := map ascii_lower |}.
Example folds_case_met : @folds_case folding_runtime.
Proof.
  intros a b h. unfold to_lowercase. cbn [rt_lower folding_runtime].
  destruct (forallb is_ascii a), (forallb is_ascii b); exact h.
Qed.
Example same_name_met : same_name (Written false (lit "c") [lit "x"]) (Written false (lit "C") [lit "X"]).
Proof. repeat split; repeat constructor. Qed.

(** Which symbols the names of an open file were found to stand for *)
Definition stands_for (s : bst) (path : str) (from to : Position) (full : str) : Prop :=
  exists m i rs d, findS path (b_refs s) = Some m /\ In (i, rs) m /\
    In (mkRange (pos_char from) (pos_line from) (pos_char to) (pos_line to)) rs /\
    data (b_arena s) i = Some d /\ qualified d = full.

(** C30 does not hold in general.  The name [C] in the namespace [U] stands for
    [U\C]; it is taken for the class [C] of the global namespace.  The name
    [B] imported by [use \A\B] stands for [A\B]; it is not found.  The class
    [A\Generator] is not found. *)
Theorem C30_refuted :
  (exists s, s = opened "<?php class C {}" "<?php namespace U; class D extends C {}" /\
     stands_for s pB (mkPos 0 35) (mkPos 0 36) (lit "C")) /\
  (exists s, s = opened "<?php namespace A; class B {}" "<?php namespace U; use \A\B; class D extends B {}" /\
     findS (lit "a\b") (b_global s) <> None /\
     ~ stands_for s pB (mkPos 0 45) (mkPos 0 46) (lit "A\B")) /\
  (exists s, s = opened "<?php namespace A; class Generator {}" "<?php namespace A; class D extends Generator {}" /\
     findS (lit "a\generator") (b_global s) <> None /\
     ~ stands_for s pB (mkPos 0 35) (mkPos 0 44) (lit "A\Generator")).
Proof.
  split; [|split].
  - eexists. split; [reflexivity|]. eexists. exists 1. eexists. eexists.
    split; [vm_compute; reflexivity|]. split; [right; left; reflexivity|]. split; [left; reflexivity|].
    split; vm_compute; reflexivity.
  - eexists. split; [reflexivity|]. split; [vm_compute; discriminate|].
    intros (m & i & rs & d & h1 & h2 & h3 & _).
    assert (e : findS pB (b_refs (opened "<?php namespace A; class B {}" "<?php namespace U; use \A\B; class D extends B {}"))
                = Some [(6, [mkRange 35 0 36 0])]) by (vm_compute; reflexivity).
    rewrite e in h1. injection h1 as <-. destruct h2 as [h2|[]]. injection h2 as <- <-.
    destruct h3 as [h3|[]]. cbn in h3. discriminate h3.
  - eexists. split; [reflexivity|]. split; [vm_compute; discriminate|].
    intros (m & i & rs & d & h1 & h2 & h3 & _).
    assert (e : findS pB (b_refs (opened "<?php namespace A; class Generator {}" "<?php namespace A; class D extends Generator {}"))
                = Some [(6, [mkRange 25 0 26 0])]) by (vm_compute; reflexivity).
    rewrite e in h1. injection h1 as <-. destruct h2 as [h2|[]]. injection h2 as <- <-.
    destruct h3 as [h3|[]]. cbn in h3. discriminate h3.
Qed.

Print Assumptions C30_found_partial.
Print Assumptions C30_unknown_partial.
Print Assumptions C30_fallback_refuted.
Print Assumptions C30_case_insensitive.
Print Assumptions C30_refuted.
