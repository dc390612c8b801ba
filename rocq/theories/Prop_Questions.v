(** Property C63: asking the server does not change what it knows. *)

From Verif Require Import Base Token Scanner Node DocBlock Parser Assoc AssocFacts Arena ArenaFacts
  Symbol EnvMonad EnvFacts Workspace WorkspaceFacts Resolver SpecNames ResolverFacts Backend BackendFacts
  SpecServer ServerInv IndexFacts Suggester Implementation Prop_Server Prop_Names Prop_References Publish Prop_Publish.

Local Notation findS := (find str_eqb).
Local Open Scope string_scope.
Local Open Scope N_scope.
Local Open Scope list_scope.

Section Questions.
Context {RT : Runtime} {HH : Hashing}.

(** * Specification *)

(** The questions an editor asks *)
Inductive question :=
| QDefinition (path : str) (p : Position)
| QHover (path : str) (p : Position)
| QHighlight (path : str) (p : Position)
| QImplementation (path : str) (p : Position)
| QCompletion (path : str) (p : Position) (trigger : option N)
| QSymbols (query : str)
| QOutline (path : str).

(** Answering [q] in the state [s] ends in the state [s']. *)
Definition answered (fuel : nat) (order : FileReferenceMap -> FileReferenceMap) (q : question) (s s' : bst) : Prop :=
  match q with
  | QDefinition path p => exists x, goto_definition order path p s = Done x s'
  | QHover path p => exists x, hover order path p s = Done x s'
  | QHighlight path p => exists x, document_highlight order path p s = Done x s'
  | QImplementation path p => exists x, goto_implementation fuel path p s = Done x s'
  | QCompletion path p trigger => exists x, completion fuel order path p trigger s = Done x s'
  | QSymbols query => exists x, symbol_query query s = Done x s'
  | QOutline path => exists x, document_symbol fuel path s = Done x s'
  end.

(** A search for the uses of a symbol *)
Definition searched (fuel : nat) (disk : str -> option str) (order : FileReferenceMap -> FileReferenceMap) (s s' : bst) : Prop :=
  (exists path p x, references fuel disk path p s = Done x s') \/
  (exists path p name x, rename fuel disk order path p name s = Done x s').

(** The declarations stay: the same symbols with the same data, apart from what
    is known of their types. *)
Definition declarations_stay (a a' : arena Symbol) : Prop :=
  forall i d, data a i = Some d -> y_kind d <> KVariable ->
    exists d', data a' i = Some d' /\ with_types [] d' = with_types [] d.

(** * Proofs *)
Lemma reads_find : forall A C (f : A -> B (option C)) l, (forall x, reads (f x)) -> reads (efind f l).
Proof.
  intros A C f l h. induction l as [|x l IH]; cbn [efind]; [apply reads_ret|].
  apply reads_bind; [apply h|]. intros [y|]; [apply reads_ret|exact IH].
Qed.
Lemma reads_parent : forall i, reads (e_parent (S := bst) i).
Proof. intros i s x s' e. unfold e_parent in e. destruct (parent_of (the_arena s) i); [now injection e|discriminate]. Qed.
Lemma reads_resolver : forall A c (m : R A), reads (with_resolver c m).
Proof. intros A c m s x s' e. unfold with_resolver in e. destruct (m _); try discriminate e. now injection e. Qed.
Lemma reads_fuel : forall A, reads (efuel : B A).
Proof. intros A s x s' e. discriminate e. Qed.
Lemma reads_panic : forall A, reads (epanic : B A).
Proof. intros A s x s' e. discriminate e. Qed.
Ltac asking :=
  repeat first
    [ apply reads_ret | apply reads_get | apply reads_opt | apply reads_data | apply reads_kids | apply reads_top
    | apply reads_parent | apply reads_resolver | apply reads_fuel | apply reads_panic | apply reads_cursor
    | apply reads_fold; intros | apply reads_map; intros | apply reads_find; intros
    | apply reads_bind; [|intros]
    | match goal with |- reads (match ?x with _ => _ end) => destruct x end ].
Lemma reads_node : forall fuel n p anc, reads (find_node fuel n p anc).
Proof.
  induction fuel as [|fuel IH]; intros n p anc; cbn [find_node]; [apply reads_fuel|].
  apply reads_bind; [|intros; asking]. apply reads_find. intros c. asking. apply IH.
Qed.
Lemma reads_ancestors : forall i, reads (e_ancestors i).
Proof. intros i. unfold e_ancestors. asking. Qed.
Lemma reads_class : forall l, reads (first_class l).
Proof. intros l. unfold first_class. asking. Qed.
Lemma reads_this : forall pr suc token, reads (this_object pr suc token).
Proof. intros. unfold this_object. asking. Qed.
Lemma reads_object : forall pr suc object, reads (member_object pr suc object).
Proof.
  intros. destruct object; cbn [member_object]; try apply reads_ret; try apply reads_this; [|asking].
  match goal with |- reads (match ?c with _ => _ end) => destruct c end; try apply reads_ret. asking.
Qed.
Lemma reads_of : forall node parent suc, reads (object_of node parent suc).
Proof.
  intros. unfold object_of. apply reads_bind; [apply reads_opt|]. intros pr.
  assert (K : reads (match parent with
    | NMember object _ _ _ _ => elet ro <- member_object pr suc object in eret (fst ro, snd ro, true)
    | _ => eret (pr, None, false) end)).
  { destruct parent; try apply reads_ret. apply reads_bind; [apply reads_object|]. intros. apply reads_ret. }
  destruct node; try exact K. asking.
Qed.
Lemma reads_members : forall fuel order trigger node parent suc refs, reads (suggest_members fuel order trigger node parent suc refs).
Proof.
  intros. unfold suggest_members. apply reads_bind; [apply reads_opt|]. intros prefix.
  apply reads_bind; [apply reads_of|]. intros [[r this] nm].
  destruct (match this with Some t => Some t | None => _ end); [|apply reads_ret].
  apply reads_bind; [apply reads_ancestors|]. intros anc. apply reads_bind; [apply reads_class|]. intros c. asking.
Qed.
Lemma reads_suggestions : forall fuel order trigger p suc ast refs, reads (get_suggestions_at fuel order trigger p suc ast refs).
Proof.
  intros. unfold get_suggestions_at. apply reads_bind; [apply reads_find; intros; apply reads_node|].
  assert (V : reads (suggest_variables suc)).
  { unfold suggest_variables. apply reads_bind; [asking|]. intros cs. apply reads_bind; [asking|]. intros l.
    apply reads_bind; [apply reads_ancestors|]. intros anc. apply reads_bind; [apply reads_class|]. intros. apply reads_ret. }
  intros [[node anc]|].
  - assert (K : reads (if class_block (rev (removelast anc)) then eret (map sug_token [TPublic; TPrivate; TProtected]) else suggest_symbols node)).
    { destruct (class_block _); [apply reads_ret|]. unfold suggest_symbols. asking. }
    destruct node; try exact K; try exact V; try (unfold suggest_traits, suggest_imports; asking; fail).
    all: apply reads_bind; [apply reads_opt|]; intros; apply reads_members.
  - destruct (match trigger with Some c => _ | None => _ end); [exact V|]. unfold suggest_keywords. asking.
Qed.
Lemma reads_item : forall fd g, reads (completion_item fd g).
Proof. intros. unfold completion_item, import_line, insert_text. asking. Qed.
Lemma reads_completion : forall fuel order path p trigger, reads (completion fuel order path p trigger).
Proof.
  intros. unfold completion. apply reads_bind; [apply reads_get|]. intros o.
  destruct (find str_eqb path o) as [[ast r]|]; [|apply reads_ret].
  apply reads_bind; [apply reads_get|]. intros files. destruct (find str_eqb path files) as [file|]; [|apply reads_ret].
  apply reads_bind; [apply reads_data|]. intros fd. apply reads_bind; [apply reads_get|]. intros a.
  apply reads_bind; [apply reads_opt|]. intros suc. apply reads_bind; [apply reads_get|]. intros refs.
  destruct (find str_eqb path refs) as [references|]; [|apply reads_ret].
  apply reads_bind; [apply reads_suggestions|]. intros l.
  apply reads_bind; [apply reads_map; intros; apply reads_item|]. intros. apply reads_ret.
Qed.
Lemma reads_implementing : forall fuel i, reads (implementing_interfaces fuel i).
Proof. intros. unfold implementing_interfaces, names_interface, enclosing_file. asking. Qed.
Lemma reads_implementation : forall fuel path p, reads (goto_implementation fuel path p).
Proof. intros. unfold goto_implementation. asking; try apply reads_implementing; unfold method_of; asking. Qed.

(** ** Questions about the place of the cursor *)
Theorem C63_questions : forall fuel order q s s', answered fuel order q s s' -> s' = s.
Proof.
  intros fuel order [path p|path p|path p|path p|path p trigger|query|path] s s' [x e]; revert x e.
  - intros x e. eapply reads_definition. exact e.
  - intros x e. eapply reads_hover. exact e.
  - intros x e. eapply reads_highlight. exact e.
  - intros x e. eapply reads_implementation. exact e.
  - intros x e. eapply reads_completion. exact e.
  - intros x e. eapply reads_query. exact e.
  - intros x e. eapply reads_outline. exact e.
Qed.

(** ** Searches *)
Lemma stay_trans : forall a b c, declarations_stay a b -> declarations_stay b c ->
  (forall i d d', data a i = Some d -> with_types [] d' = with_types [] d -> y_kind d' = y_kind d) -> declarations_stay a c.
Proof.
  intros a b c h1 h2 k i d hd nk. destruct (h1 _ _ hd nk) as (d1 & e1 & s1).
  destruct (h2 _ _ e1) as (d2 & e2 & s2); [rewrite (k _ _ _ hd s1); exact nk|]. exists d2. split; [exact e2|congruence].
Qed.
Lemma analyse_stays : forall fuel path nodes s x s', winv s -> analyse fuel path nodes s = Done x s' ->
  declarations_stay (b_arena s) (b_arena s').
Proof.
  intros fuel path nodes s x s' I e. unfold analyse in e.
  take e as e1. injection e1 as <- <-. destruct (findS path (b_files s)) as [f|] eqn:ef.
  2:{ injection e as _ <-. intros i d h _. eauto. }
  assert (lf : exists n, node_of (b_arena s) f = Some n /\ y_kind (n_data n) = KFile).
  { destruct (node_of (b_arena s) f) as [n|] eqn:en.
    - exists n. split; auto. eapply (wi_files _ I); eauto.
    - exfalso. take e as e1. unfold purge_variables in e1. take e1 as e0. injection e0 as <- <-.
      take e1 as e0. apply eopt_done in e0 as [ed ->]. unfold descendants in ed.
      rewrite below_S, en in ed. discriminate. }
  destruct lf as (nf & enf & kf).
  take e as e1. destruct (purge_spec _ _ _ _ (wi_wf _ I) e1) as (a1 & -> & g1).
  destruct (sh_keep _ _ g1 _ _ enf) as (nf1 & enf1 & df1 & _); [congruence|].
  take e as e0. cbn [b_arena with_arena bst_arena] in *.
  apply resolve_drifts in e0 as (-> & g2 & _); [|apply g1|exists nf1; exact enf1]. cbn in g2.
  take e as e0. apply notes_core in e0 as (c1 & _). injection e as _ <-. cbn in c1. rewrite c1.
  intros i d hd nk. unfold data in hd. destruct (node_of (b_arena s) i) as [n|] eqn:en; [|discriminate hd]. injection hd as <-.
  destruct (sh_keep _ _ g1 _ _ en nk) as (n1 & en1 & dn1 & _).
  destruct (df_data _ _ g2 _ _ (data_node _ _ _ en1)) as (d' & ed & sd). exists d'. split; [exact ed|]. rewrite <- dn1. exact sd.
Qed.

Lemma search_keeps : forall fuel disk name l acc s x s', winv s ->
  efold (search_file fuel disk name) acc l s = Done x s' ->
  winv s' /\ frame s s' /\ declarations_stay (b_arena s) (b_arena s') /\
  exists notes, forall q, adds q s s' notes.
Proof.
  intros fuel disk name. induction l as [|p l IH]; intros acc s x s' I e; cbn [efold] in e.
  - injection e as _ <-. split; [exact I|]. split; [repeat split|]. split; [intros i d h _; eauto|]. exists []. intros q. apply adds_none. reflexivity.
  - take e as e1.
    assert (K : winv t /\ frame s t /\ declarations_stay (b_arena s) (b_arena t) /\ exists notes, forall q, adds q s t notes).
    { assert (same : t = s -> winv t /\ frame s t /\ declarations_stay (b_arena s) (b_arena t) /\ exists notes, forall q, adds q s t notes).
      { intros ->. split; [exact I|]. split; [repeat split|]. split; [intros i d h _; eauto|]. exists []. intros q. apply adds_none. reflexivity. }
      unfold search_file in e1. destruct (disk p) as [content|]; [|injection e1 as _ <-; auto].
      destruct (contains content name); [|injection e1 as _ <-; auto].
      take e1 as es. apply source_spec in es as [-> hs]. destruct x1 as [[[nodes range] errors]|]; [|injection e1 as _ <-; auto].
      clear same. take e1 as ea. injection e1 as _ <-. split; [eapply analyse_winv; eauto|]. split; [eapply analyse_frame; eauto|].
      split; [eapply analyse_stays; eauto|].
      clear - ea. unfold analyse in ea. take ea as e0. injection e0 as <- <-.
      destruct (findS p (b_files s)) as [file|]; [|injection ea as _ <-; exists []; intros q; apply adds_none; reflexivity].
      take ea as ep. take ea as er. take ea as en. injection ea as _ <-. eexists. intros q.
      apply (blind_keeps _ _ _ _ _ (blind_purge _)) in ep. apply (blind_keeps _ _ _ _ _ (blind_resolve _ _ _)) in er.
      apply (adds_notes q) in en. intros old h. apply en. congruence. }
    destruct K as (I1 & F1 & D1 & notes & N1). destruct (IH _ _ _ _ I1 e) as (I2 & F2 & D2 & more & N2).
    split; [exact I2|]. split; [eapply frame_trans; eauto|]. split.
    + eapply stay_trans; eauto. intros i d d' _ h. apply (f_equal y_kind) in h. exact h.
    + exists (notes ++ more). intros q. eapply adds_more; eauto.
Qed.

(** A search leaves the files, the index, the texts and trees of the editor and
    the recorded uses as they are, and all declarations.  It may throw away
    variables, and it adds messages about names. *)
Theorem C63_search_partial : forall fuel disk order s s', reachable s -> searched fuel disk order s s' ->
  b_files s' = b_files s /\ b_global s' = b_global s /\ b_open s' = b_open s /\ b_latest s' = b_latest s /\
  b_refs s' = b_refs s /\ declarations_stay (b_arena s) (b_arena s') /\
  exists notes, forall q old, findS q (b_diags s) = Some old ->
    findS q (b_diags s') = Some (old ++ map as_sent (concerning q notes)).
Proof.
  intros fuel disk order s s' r h. apply reachable_winv in r.
  assert (same : s' = s -> b_files s' = b_files s /\ b_global s' = b_global s /\ b_open s' = b_open s /\ b_latest s' = b_latest s /\
    b_refs s' = b_refs s /\ declarations_stay (b_arena s) (b_arena s') /\
    exists notes, forall q old, findS q (b_diags s) = Some old ->
      findS q (b_diags s') = Some (old ++ map as_sent (concerning q notes))).
  { intros ->. repeat (split; [reflexivity|]). split; [intros i d h' _; eauto|]. exists []. intros q old ho. cbn. rewrite app_nil_r. exact ho. }
  assert (S : forall name x, references_of fuel disk name s = Done x s' -> b_files s' = b_files s /\ b_global s' = b_global s /\ b_open s' = b_open s /\ b_latest s' = b_latest s /\
    b_refs s' = b_refs s /\ declarations_stay (b_arena s) (b_arena s') /\
    exists notes, forall q old, findS q (b_diags s) = Some old ->
      findS q (b_diags s') = Some (old ++ map as_sent (concerning q notes))).
  { intros name x e. unfold references_of in e. take e as e0. injection e0 as <- <-.
    destruct (search_keeps _ _ _ _ _ _ _ _ r e) as (_ & (f1 & f2 & f3 & f4 & f5) & D & notes & A). repeat (split; [assumption|]). eauto. }
  destruct h as [(path & p & x & e)|(path & p & name & x & e)].
  - unfold references in e. take e as e1. apply reads_cursor in e1. subst. destruct x0 as [[suc name]|]; [|injection e as _ <-; auto].
    take e as e1. injection e as _ <-. eapply S. exact e1.
  - unfold rename in e. take e as e1. injection e1 as <- <-.
    destruct (obind (findS path (b_refs s)) (referenced_symbol order p)) as [nuc|]; [|injection e as _ <-; auto].
    take e as e1. apply reads_data in e1. subst. take e as e1. injection e as _ <-. eapply S. exact e1.
Qed.
End Questions.

(** * Concrete cases *)
Section Cases.
Local Existing Instance ascii_runtime | 9.
Local Existing Instance plain_hashing | 9.


(** The full claim is false: a search for the uses of a name in a file whose
    messages are known adds them once more. *)
Definition disk63 : str -> option str := disk2 "<?php class K {}" "<?php new K(); new Foo();".
Definition open63 : bst := state_after
  [(disk63, EvIndex [pA; pB]); (disk63, EvInitialized); (disk63, EvOpen pB [])].
Definition found63 : bst := match references 400 disk63 pA (mkPos 0 12) open63 with Done _ s => s | _ => open63 end.
Theorem C63_refuted : exists fuel disk order s s' q d, reachable s /\ searched fuel disk order s s' /\
  findS q (b_diags s) = Some [d] /\ findS q (b_diags s') = Some [d; d].
Proof.
  exists 400%nat, disk63, (fun m => m), open63, found63, pB. eexists. split; [apply state_after_reachable|].
  split; [left; exists pA, (mkPos 0 12); eexists; vm_compute; reflexivity|]. split; vm_compute; reflexivity.
Qed.

(** The questions have answers in that state. *)
Example C63_case : forall q, In q [QDefinition pB (mkPos 0 10); QHover pB (mkPos 0 10); QHighlight pB (mkPos 0 10);
    QImplementation pB (mkPos 0 10); QCompletion pB (mkPos 0 19) None; QSymbols (lit "k"); QOutline pA] ->
  exists s', answered 400 (fun m => m) q open63 s'.
Proof.
  intros q h. repeat (destruct h as [<-|h]; [exists open63; cbn [answered]; eexists; vm_compute; reflexivity|]). destruct h.
Qed.
End Cases.

Print Assumptions C63_questions.
Print Assumptions C63_search_partial.
Print Assumptions C63_refuted.
