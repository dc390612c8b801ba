(** Property C62: what the editor is told about the problems in a file. *)

From Coq Require Import Permutation.
From Verif Require Import Base Token Scanner Node DocBlock Parser Assoc AssocFacts Arena ArenaFacts
  Symbol EnvMonad EnvFacts Workspace WorkspaceFacts Resolver SpecNames ResolverFacts Backend BackendFacts
  SpecServer ServerInv Prop_Server Prop_Names Prop_References Publish.
From Verif Require ParserFuel SpecGrammar Prop_Grammar.

Local Notation findS := (find str_eqb).
Local Open Scope string_scope.
Local Open Scope N_scope.
Local Open Scope list_scope.

Section Publish.
Context {RT : Runtime} {HH : Hashing}.

(** * Specification *)

(** Reading the text with that bound ends with these complaints. *)
Definition complaints (fuel : nat) (text : str) (errors : list perr) : Prop :=
  exists ts tree p, scan text = SOk ts /\ ast fuel ts = POk (tree, errors) p.
(** Where a complaint is about *)
Definition about (e : perr) (r : NodeRange) : Prop :=
  match e with
  | EMissingIdentifier t | EWrongToken _ t | EUnexpectedToken t | ERValueInWriteContext t => token_range t = Some r
  | EIllegalOffset n => node_range n = Some r
  | EEof => r = mkRange 0 0 0 0
  end.
(** The complaint as it is sent *)
Definition sent (e : perr) (d : Diagnostic) : Prop :=
  exists r, about e r /\
    d = DParse e (mkRng (mkPos (start_line r) (start_col r)) (mkPos (end_line r) (end_col r))).
(** A message about a name as it is sent *)
Definition as_sent (n : Notification) : Diagnostic :=
  DNote (nt_message n) (nt_severity n)
    (mkRng (mkPos (start_line (nt_range n)) (start_col (nt_range n))) (mkPos (end_line (nt_range n)) (end_col (nt_range n)))).
Definition is_note (d : Diagnostic) : Prop := exists n, d = as_sent n.
(** Those of the messages that are about the file *)
Definition concerning (path : str) (notes : list Notification) : list Notification :=
  filter (fun n => str_eqb (nt_file n) path) notes.

(** The complaints of the parser in their order, then the messages about names
    in the file, in the order in which they were found *)
Definition problems (path : str) (errors : list perr) (notes : list Notification) (l : list Diagnostic) : Prop :=
  exists first, l = first ++ map as_sent (concerning path notes) /\ Forall2 sent errors first.

(** The analysis of a file, which starts without the variables that were known,
    finds these messages. *)
Definition finds (fuel : nat) (path : str) (nodes : list Node) (s : bst) (notes : list Notification) : Prop :=
  match findS path (b_files s) with
  | None => notes = []
  | Some file => exists s1 t s2, purge_variables file s = Done tt s1 /\ resolve_names fuel nodes file s1 = Done t s2 /\
      notes = r_diags t
  end.
(** The analyses of several files, one after the other, find these. *)
Inductive find_all (fuel : nat) : list (str * (list Node * Range)) -> bst -> list Notification -> bst -> Prop :=
| find_none : forall s, find_all fuel [] s [] s
| find_more : forall q nodes range files s notes s1 more s2,
    finds fuel q nodes s notes -> collect_references fuel q nodes s = Done tt s1 -> find_all fuel files s1 more s2 ->
    find_all fuel ((q, (nodes, range)) :: files) s (notes ++ more) s2.

(** * Proofs *)
Lemma sent_of : forall e d, diagnostic_of e = Some d <-> sent e d.
Proof.
  intros e d. unfold sent, about, diagnostic_of, get_range.
  assert (G : forall (e : perr) (o : option NodeRange),
    opt_map (fun r => DParse e (mkRng (mkPos (start_line r) (start_col r)) (mkPos (end_line r) (end_col r)))) o = Some d <->
    exists r, o = Some r /\ d = DParse e (mkRng (mkPos (start_line r) (start_col r)) (mkPos (end_line r) (end_col r)))).
  { intros e0 [r|]; cbn [opt_map]; split.
    - intros h. injection h as <-. eauto.
    - intros (r' & h & ->). injection h as <-. reflexivity.
    - discriminate.
    - intros (r' & h & _). discriminate h. }
  destruct e; try apply G.
  etransitivity; [apply (G EEof (Some (mkRange 0 0 0 0)))|]. split; intros (r & h & hd); exists r; [injection h as <-|subst r]; auto.
Qed.
Lemma sent_all : forall errors l, diagnostics_of errors = Some l -> Forall2 sent errors l.
Proof.
  unfold diagnostics_of. induction errors as [|e errors IH]; intros l h; cbn [map seq_opt] in h.
  - injection h as <-. constructor.
  - destruct (diagnostic_of e) as [d|] eqn:ed; [|discriminate h].
    destruct (seq_opt (map diagnostic_of errors)) as [l0|]; cbn in h; [|discriminate h].
    injection h as <-. constructor; [apply sent_of; exact ed|apply IH; reflexivity].
Qed.

Lemma source_done : forall fuel text (s : bst) x s', source_to_ast fuel text s = Done x s' ->
  s' = s /\ match x with
            | inl (_, _, errors) => complaints fuel text errors
            | inr _ => forall errors, ~ complaints fuel text errors
            end.
Proof.
  intros fuel text s x s' e. unfold source_to_ast, complaints, scan in *.
  destruct (scan_state text) as [t| | |]; try discriminate e; cbn [sbind].
  - destruct (ast fuel (rev (s_toks t))) as [[a errors] p|er p| |] eqn:ea; try discriminate e; injection e as <- <-; split; try reflexivity.
    + eauto 10.
    + intros errors (ts & tree & q & h & h2). injection h as <-. congruence.
  - injection e as <- <-. split; [reflexivity|]. intros errors (ts & tree & q & h & _). discriminate h.
Qed.
Lemma complaints_one : forall fuel text e1 e2, complaints fuel text e1 -> complaints fuel text e2 -> e1 = e2.
Proof. intros fuel text e1 e2 (ts & t & p & h1 & h2) (ts' & t' & p' & h1' & h2'). congruence. Qed.

(** Analyses only add messages about names. *)
Definition adds (q : str) (s s' : bst) (notes : list Notification) : Prop :=
  forall old, findS q (b_diags s) = Some old -> findS q (b_diags s') = Some (old ++ map as_sent (concerning q notes)).
Lemma adds_none : forall q s s', b_diags s' = b_diags s -> adds q s s' [].
Proof. intros q s s' e old h. cbn. rewrite app_nil_r, e. exact h. Qed.
Lemma adds_more : forall q s t u n m, adds q s t n -> adds q t u m -> adds q s u (n ++ m).
Proof.
  intros q s t u n m h1 h2 old h. unfold concerning. rewrite filter_app, map_app, app_assoc. apply h2. apply h1. exact h.
Qed.
Lemma adds_notes : forall q l s u s', eiter add_note l s = Done u s' -> adds q s s' l.
Proof.
  intros q. induction l as [|n l IH]; intros s u s' e; cbn [eiter] in e.
  - injection e as _ <-. apply adds_none. reflexivity.
  - take e as e1. change (n :: l) with ([n] ++ l). eapply adds_more; [|eapply IH; exact e]. unfold add_note in e1. take e1 as e0. injection e0 as <- <-. injection e1 as _ <-.
    intros old h. cbn [b_diags]. unfold upsert. rewrite find_put by apply str_eqb_spec. unfold concerning. cbn [filter].
    destruct (str_eqb_spec q (nt_file n)) as [<-|ne].
    + rewrite h. destruct (str_eqb_spec q q) as [_|k]; [|congruence]. reflexivity.
    + destruct (str_eqb_spec (nt_file n) q) as [k|_]; [congruence|]. cbn. rewrite app_nil_r. exact h.
Qed.
Lemma adds_references : forall fuel path nodes s s', collect_references fuel path nodes s = Done tt s' ->
  exists notes, finds fuel path nodes s notes /\ forall q, adds q s s' notes.
Proof.
  intros fuel path nodes s s' e. unfold collect_references in e. take e as ea.
  assert (g : exists notes, finds fuel path nodes s notes /\ forall q, adds q s t notes).
  { unfold analyse in ea. take ea as e0. injection e0 as <- <-. unfold finds.
    destruct (findS path (b_files s)) as [file|]; [|injection ea as _ <-; exists []; split; [reflexivity|]; intros q; apply adds_none; reflexivity].
    take ea as ep. take ea as er. take ea as en. injection ea as _ <-.
    match type of ep with _ = Done ?v _ => destruct v end. eexists. split; [eauto 10|]. intros q.
    apply (blind_keeps _ _ _ _ _ (blind_purge _)) in ep. apply (blind_keeps _ _ _ _ _ (blind_resolve _ _ _)) in er.
    apply (adds_notes q) in en. intros old h. apply en. congruence. }
  destruct g as (notes & g1 & g2). exists notes. split; [exact g1|]. intros q.
  destruct x; [|injection e as <-; apply g2].
  take e as e0. injection e0 as <- <-. injection e as <-. intros old h. cbn [b_diags]. apply g2. exact h.
Qed.
Lemma adds_tasks : forall fuel l s s',
  eiter (fun t : str * (list Node * Range) => collect_references fuel (fst t) (fst (snd t))) l s = Done tt s' ->
  exists notes, find_all fuel l s notes s' /\ forall q, adds q s s' notes.
Proof.
  intros fuel. induction l as [|[p [nodes range]] l IH]; intros s s' e; cbn [eiter] in e.
  - injection e as <-. exists []. split; [constructor|]. intros q. apply adds_none. reflexivity.
  - take e as e1. destruct x. cbn [fst snd] in e1. destruct (IH _ _ e) as (more & h1 & h2).
    destruct (adds_references _ _ _ _ _ e1) as (notes & h3 & h4). exists (notes ++ more).
    split; [econstructor; eassumption|]. intros q. eapply adds_more; eauto.
Qed.

(** Collecting symbols does not open or close files. *)
Definition stays_open {A : Type} (m : B A) : Prop := forall s x s', m s = Done x s' -> b_open s' = b_open s.
Lemma so_bind : forall {A C : Type} (m : B A) (f : A -> B C), stays_open m -> (forall a, stays_open (f a)) -> stays_open (ebind m f).
Proof. intros A C m f hm hf s x s' e. take e as e1. rewrite (hf _ _ _ _ e). eapply hm. exact e1. Qed.
Lemma so_iter : forall {A : Type} (f : A -> B unit), (forall a, stays_open (f a)) -> forall l, stays_open (eiter f l).
Proof.
  intros A f hf. induction l as [|a l IH]; [intros s x s' e; injection e as _ <-; reflexivity|]. cbn [eiter].
  apply so_bind; auto.
Qed.
Lemma so_ret : forall {A : Type} (a : A), stays_open (eret a).
Proof. intros A a s x s' e. injection e as _ <-. reflexivity. Qed.
Lemma so_get : forall {A : Type} (f : bst -> A), stays_open (eget f).
Proof. intros A f s x s' e. injection e as _ <-. reflexivity. Qed.
Lemma so_opt : forall {A : Type} (o : option A), stays_open (eopt o).
Proof. intros A [a|] s x s' e; [|discriminate e]. injection e as _ <-. reflexivity. Qed.
Lemma so_kids : forall i, stays_open (e_kids i).
Proof. intros i s x s' e. unfold e_kids in e. destruct (kids _ i); [|discriminate e]. injection e as _ <-. reflexivity. Qed.
Lemma so_data : forall i, stays_open (e_data i).
Proof. intros i s x s' e. unfold e_data in e. destruct (data _ i); [|discriminate e]. injection e as _ <-. reflexivity. Qed.
Lemma so_new : forall d, stays_open (e_new d).
Proof. intros d s x s' e. unfold e_new in e. destruct (new_node d _). injection e as _ <-. reflexivity. Qed.
Ltac leaf := first [apply so_kids | apply so_data | apply so_new | intros ? ? ? e; injection e as _ <-; reflexivity].
Lemma collect_open : forall fuel path nodes range, stays_open (collect_symbols fuel path nodes range).
Proof.
  intros fuel path nodes range. unfold collect_symbols.
  apply so_bind; [leaf|]. intros file. apply so_bind.
  { intros s x s' e. unfold visit_symbols in e. destruct (eiter _ nodes _) as [u w| |]; try discriminate e. injection e as _ <-. reflexivity. }
  intros _. apply so_bind; [apply so_get|]. intros files. apply so_bind; [leaf|]. intros _. apply so_bind.
  - destruct (findS path files) as [old|]; [|apply so_ret]. apply so_bind; [leaf|]. intros cs. apply so_bind.
    { apply so_iter. intros c. unfold deregister. apply so_bind; [leaf|]. intros d. apply so_bind; [apply so_get|]. intros g. leaf. }
    intros _. apply so_bind; [apply so_get|]. intros a. apply so_bind; [apply so_opt|]. intros ds. apply so_bind.
    { unfold forget_references. apply so_bind; [apply so_get|]. intros g. leaf. }
    intros _ s x s' e. unfold on_arena in e. destruct (remove_subtree old (b_arena s)); [|discriminate e]. injection e as _ <-. reflexivity.
  - intros _. apply so_bind; [leaf|]. intros cs. apply so_iter. intros c. unfold register. apply so_bind; [leaf|].
    intros d. destruct (register_global (y_kind d)); [|apply so_ret]. apply so_bind; [apply so_get|]. intros g. leaf.
Qed.

(** ** After a change *)

(** The editor is told the problems of the new text, which are the complaints of
    the parser and what the analyses of the open files, with the new tree of
    this file among them, find in this file; also if there are no problems any
    more.  It is told nothing about other files. *)
Theorem C62_changed : forall fuel disk order path text texts s l s' errors,
  complaints fuel text errors ->
  handle fuel disk order (EvChange path (text :: texts)) s = Done l s' ->
  exists ds notes s1 nodes range, l = [(path, ds)] /\ problems path errors notes ds /\
    syntax fuel text = Some nodes /\ findS path (b_open s1) = Some (nodes, range) /\
    (forall q, q <> path -> findS q (b_open s1) = findS q (b_open s)) /\
    find_all fuel (h_order (b_open s1)) s1 notes s'.
Proof.
  intros fuel disk order path text texts s l s' errors hc e. cbn [handle] in e. take e as es. destruct x.
  cbn [serve did_change] in es. take es as e1. injection e1 as <- <-. take es as e1. injection e1 as _ <-.
  set (s1 := mkBst _ _ _ _ _ _ _) in es. assert (ho : b_open s1 = b_open s) by reflexivity. clearbody s1. unfold refresh_file in es. take es as e1.
  pose proof (source_spec _ _ _ _ _ e1) as [_ hsyn]. apply source_done in e1 as [-> hx].
  destruct x0 as [[[nodes range] errors']|]; [|exfalso; eapply hx; exact hc].
  assert (errors' = errors) by (eapply complaints_one; eauto). subst errors'.
  take es as e1. take e1 as ec. take e1 as e0. apply eopt_done in e0 as [el ->].
  take e1 as e0. injection e0 as <- <-. take e1 as e0. injection e0 as _ <-.
  take e1 as e0. injection e0 as <- <-. injection e1 as _ <-.
  apply collect_open in ec.
  take es as e0. injection e0 as <- <-. match type of es with eiter _ _ ?z = _ => set (s2 := z) in es end.
  apply adds_tasks in es as (notes & hn & ha).
  specialize (ha path x2). cbn [s2 b_diags] in ha. rewrite find_put_same in ha by apply str_eqb_spec. specialize (ha eq_refl).
  unfold publish_file in e. take e as e0. injection e0 as <- <-. rewrite ha in e. injection e as <- <-.
  eexists. exists notes, s2, nodes, range. split; [reflexivity|]. split; [exists x2; split; [reflexivity|apply sent_all; exact el]|].
  split; [exact hsyn|]. split; [apply find_put_same; apply str_eqb_spec|]. split; [|exact hn].
  intros q ne. cbn [s2 b_open]. rewrite find_put_other; [congruence|apply str_eqb_spec|exact ne].
Qed.

(** A text that follows the grammar is never complained about. *)
Theorem C62_valid_partial : forall fuel disk order path text texts s l s' ts tree,
  scan text = SOk ts ->
  ~ (exists t, In t ts /\ t_type t = THereDocEnd /\ t_label t = Some []) ->
  SpecGrammar.File (filter Prop_Grammar.in_grammar ts) tree ->
  handle fuel disk order (EvChange path (text :: texts)) s = Done l s' ->
  exists ds, l = [(path, ds)] /\ Forall is_note ds.
Proof.
  intros fuel disk order path text texts s l s' ts tree hs hh hf e.
  destruct (Prop_Grammar.C46_no_false_errors_partial text ts tree hs hh hf) as (tree' & (n0 & p & h) & _).
  assert (hc : complaints fuel text []).
  { destruct (ParserFuel.ast_mono fuel (Nat.max fuel n0) ts (Nat.le_max_l _ _)) as [q|q].
    - exfalso. cbn [handle] in e. take e as es. destruct x.
      cbn [serve did_change] in es. take es as e1. injection e1 as <- <-. take es as e1. injection e1 as _ <-.
      unfold refresh_file in es. take es as e1. unfold source_to_ast in e1. unfold scan in hs.
      destruct (scan_state text) as [sc| | |]; cbn [sbind] in hs; try discriminate hs. injection hs as <-. rewrite q in e1. discriminate e1.
    - exists ts, tree', p. split; [exact hs|]. rewrite q. apply h. apply Nat.le_max_r. }
  destruct (C62_changed _ _ _ _ _ _ _ _ _ _ hc e) as (ds & notes & _ & _ & _ & -> & (first & -> & h1) & _).
  inversion h1. subst first. eexists. split; [reflexivity|]. apply Forall_forall. intros d hd.
  apply in_map_iff in hd as (n & <- & _). exists n. reflexivity.
Qed.

(** A text that cannot be read leaves the problems of the text before, and the
    editor is told those again. *)
Theorem C62_unreadable_refuted : forall fuel disk order path text texts s l s' old,
  (forall errors, ~ complaints fuel text errors) -> findS path (b_diags s) = Some old ->
  handle fuel disk order (EvChange path (text :: texts)) s = Done l s' ->
  exists notes s1, l = [(path, old ++ map as_sent (concerning path notes))] /\
    b_open s1 = b_open s /\ find_all fuel (h_order (b_open s)) s1 notes s'.
Proof.
  intros fuel disk order path text texts s l s' old hc ho e. cbn [handle] in e. take e as es. destruct x.
  cbn [serve did_change] in es. take es as e1. injection e1 as <- <-. take es as e1. injection e1 as _ <-.
  set (s1 := mkBst _ _ _ _ _ _ _) in es. assert (ho1 : findS path (b_diags s1) = Some old) by exact ho.
  assert (hop : b_open s1 = b_open s) by reflexivity.
  clearbody s1. unfold refresh_file in es. take es as e1. apply source_done in e1 as [-> hx].
  destruct x0 as [[[nodes range] errors']|]; [exfalso; eapply hc; exact hx|].
  take es as e1. injection e1 as _ <-. take es as e0. injection e0 as <- <-. rewrite hop in es. apply adds_tasks in es as (notes & hn & ha).
  unfold publish_file in e. take e as e0. injection e0 as <- <-. rewrite (ha path old ho1) in e. injection e as <- <-. eauto.
Qed.

(** ** After a file was opened *)
Theorem C62_opened : forall fuel disk order path text source s l s' errors,
  disk path = Some source -> findS path (b_open s) = None -> complaints fuel source errors ->
  handle fuel disk order (EvOpen path text) s = Done l s' ->
  exists ds notes s1 nodes, l = [(path, ds)] /\ problems path errors notes ds /\ syntax fuel source = Some nodes /\
    b_arena s1 = b_arena s /\ b_files s1 = b_files s /\ b_global s1 = b_global s /\ finds fuel path nodes s1 notes.
Proof.
  intros fuel disk order path text source s l s' errors hd hopen hc e. cbn [handle] in e. take e as es. destruct x.
  cbn [serve] in es. unfold did_open in es. rewrite hd in es. take es as e1. apply eopt_done in e1 as [q ->]. injection q as <-.
  take es as e1. injection e1 as <- <-. take es as e1. injection e1 as _ <-.
  take es as e1. injection e1 as <- <-. cbn [b_open] in es. rewrite hopen in es.
  take es as ek. take ek as e1. pose proof (source_spec _ _ _ _ _ e1) as [_ hsyn]. apply source_done in e1 as [-> hx].
  destruct x1 as [[[nodes range] errors']|]; [|exfalso; eapply hx; exact hc].
  assert (errors' = errors) by (eapply complaints_one; eauto). subst errors'.
  take ek as e0. apply eopt_done in e0 as [el ->]. take ek as e0. injection e0 as <- <-.
  take ek as e0. injection e0 as _ <-. take ek as e0. injection e0 as _ <-. injection ek as <- <-.
  take es as e0. injection e0 as <- <-. cbn [b_open] in es. rewrite find_put_same in es by apply str_eqb_spec.
  match type of es with collect_references _ _ _ ?z = _ => set (s2 := z) in es end.
  apply adds_references in es as (notes & hn & ha). specialize (ha path x1). cbn [s2 b_diags] in ha.
  rewrite find_put_same in ha by apply str_eqb_spec. specialize (ha eq_refl).
  unfold publish_file in e. take e as e0. injection e0 as <- <-. rewrite ha in e. injection e as <- _.
  eexists. exists notes, s2, nodes. split; [reflexivity|]. split; [exists x1; split; [reflexivity|apply sent_all; exact el]|].
  split; [exact hsyn|]. repeat (split; [reflexivity|]). exact hn.
Qed.

(** ** After the start *)

(** What is recorded while the files are indexed *)
Definition recorded (fuel : nat) (disk : str -> option str) (paths : list str) (s : bst) : Prop :=
  NoDup (keys (b_diags s)) /\
  forall q ds, findS q (b_diags s) = Some ds <->
    In q paths /\ exists text errors, disk q = Some text /\ complaints fuel text errors /\ Forall2 sent errors ds.
Lemma sent_one : forall errors l1 l2, Forall2 sent errors l1 -> Forall2 sent errors l2 -> l1 = l2.
Proof.
  intros errors l1 l2 h. revert l2. induction h as [|e d errors l1 h _ IH]; intros l2 h2; inversion h2; subst; [reflexivity|].
  f_equal; [|auto]. apply sent_of in h. match goal with h3 : sent e _ |- _ => apply sent_of in h3 end. congruence.
Qed.
Lemma index_recorded : forall fuel disk paths done s s', recorded fuel disk done s ->
  eiter (index_path fuel disk) paths s = Done tt s' -> recorded fuel disk (done ++ paths) s'.
Proof.
  intros fuel disk. induction paths as [|p paths IH]; intros done s s' h e; cbn [eiter] in e.
  - injection e as <-. rewrite app_nil_r. exact h.
  - take e as e1. destruct x. replace (done ++ p :: paths) with ((done ++ [p]) ++ paths) by (rewrite <- app_assoc; reflexivity).
    eapply IH; [|exact e]. clear e IH. destruct h as [nd h].
    assert (skip : (forall text errors, disk p = Some text -> ~ complaints fuel text errors) -> b_diags t = b_diags s ->
      recorded fuel disk (done ++ [p]) t).
    { intros hn et. split; [rewrite et; exact nd|]. intros q ds. rewrite et, h. rewrite in_app_iff. cbn [In]. split.
      - intros [h1 h2]. auto.
      - intros [[h1|[<-|[]]] h2]; [auto|]. exfalso. destruct h2 as (text & errors & d1 & d2 & _). eapply hn; eauto. }
    unfold index_path in e1. destruct (disk p) as [content|] eqn:ed.
    2:{ injection e1 as <-. apply skip; [discriminate|reflexivity]. }
    take e1 as es. apply source_done in es as [-> hx]. destruct x as [[[nodes range] errors]|].
    2:{ injection e1 as <-. apply skip; [|reflexivity]. intros text er q. injection q as <-. apply hx. }
    clear skip. unfold index_result in e1. take e1 as ec. apply (blind_keeps _ _ _ _ _ (blind_collect _ _ _ _)) in ec.
    take e1 as e0. apply eopt_done in e0 as [el ->]. apply sent_all in el.
    take e1 as e0. injection e0 as <- <-. injection e1 as <-. cbn [b_diags]. rewrite ec. split.
    + cbn [b_diags]. apply nodup_put; [apply str_eqb_spec|exact nd].
    + intros q ds. cbn [b_diags]. rewrite find_put by apply str_eqb_spec. rewrite in_app_iff. cbn [In].
      destruct (str_eqb_spec q p) as [->|ne].
      * split.
        -- intros k. injection k as <-. split; [auto|]. exists content, errors. auto.
        -- intros [_ (text & errors' & d1 & d2 & d3)]. rewrite ed in d1. injection d1 as <-.
           assert (errors' = errors) by (eapply complaints_one; eauto). subst errors'. f_equal. eapply sent_one; eauto.
      * rewrite h. split; intros [h1 h2]; split; auto. destruct h1 as [h1|[<-|[]]]; [exact h1|congruence].
Qed.
Lemma register_quiet : forall c (s s' : bst) u, register c s = Done u s' -> b_diags s' = b_diags s.
Proof.
  intros c s s' u e1. unfold register in e1. take e1 as e2. apply (blind_keeps _ _ _ _ _ (blind_data _)) in e2. rewrite <- e2.
  destruct (register_global (y_kind x)); [|injection e1 as _ <-; reflexivity].
  take e1 as e3. injection e3 as <- <-. injection e1 as _ <-. reflexivity.
Qed.
Lemma each_quiet : forall {A : Type} (f : A -> B unit),
  (forall a (s s' : bst) u, f a s = Done u s' -> b_diags s' = b_diags s) ->
  forall l (s s' : bst) u, eiter f l s = Done u s' -> b_diags s' = b_diags s.
Proof.
  intros A f hf. induction l as [|a l IH]; intros s s' u e; cbn [eiter] in e; [injection e as _ <-; reflexivity|].
  take e as e1. rewrite (IH _ _ _ e). eapply hf. exact e1.
Qed.
Lemma rebuild_quiet : forall (s s' : bst) u, rebuild_global s = Done u s' -> b_diags s' = b_diags s.
Proof.
  intros s s' u e. unfold rebuild_global in e. take e as e0. injection e0 as <- <-. take e as e0. injection e0 as _ <-.
  apply each_quiet in e; [exact e|]. clear. intros f s s' u e. take e as e2. apply (blind_keeps _ _ _ _ _ (blind_kids _)) in e2. rewrite <- e2.
  eapply each_quiet; [apply register_quiet|exact e].
Qed.

(** After the start the editor is told about the files with complaints and about
    no others, about each of them once and with all of its complaints. *)
Theorem C62_start : forall fuel disk order paths s l s',
  init_workspace fuel disk paths backend_new = Done tt s ->
  handle fuel disk order EvInitialized s = Done l s' ->
  NoDup (map fst l) /\
  forall q ds, In (q, ds) l <->
    In q paths /\ exists text errors, disk q = Some text /\ complaints fuel text errors /\ errors <> [] /\ Forall2 sent errors ds.
Proof.
  intros fuel disk order paths s l s' e1 e2. unfold init_workspace in e1. take e1 as e0. destruct x.
  apply (index_recorded fuel disk paths []) in e0.
  2:{ split; [constructor|]. intros q ds. cbn. split; [discriminate|]. intros [[] _]. }
  cbn [app] in e0. apply rebuild_quiet in e1. destruct e0 as [nd h]. rewrite <- e1 in nd. 
  assert (h' : forall q ds, findS q (b_diags s) = Some ds <-> In q paths /\ exists text errors, disk q = Some text /\ complaints fuel text errors /\ Forall2 sent errors ds).
  { intros q ds. rewrite e1. apply h. }
  clear h e1. cbn [handle] in e2. unfold publish_all in e2. take e2 as e0. injection e0 as <- <-. take e2 as e0. injection e2 as <- _.
  pose proof (h_perm _ (b_diags s)) as hp. split.
  - assert (N1 : NoDup (map fst (h_order (b_diags s)))).
    { eapply Permutation_NoDup; [apply Permutation_map, Permutation_sym, hp|exact nd]. }
    revert N1. clear. induction (h_order (b_diags s)) as [|[q ds] r IH]; intros N1; [constructor|]. cbn [map fst] in N1. inversion N1 as [|? ? n1 n2]; subst.
    cbn [filter snd]. destruct ds; [auto|]. cbn [map fst]. constructor; [|auto]. intros hin. apply n1.
    apply in_map_iff in hin. destruct hin as (x & ex & hx). apply filter_In in hx. apply in_map_iff. exists x. tauto.
  - intros q ds. rewrite filter_In. cbn [snd].
    assert (K : In (q, ds) (h_order (b_diags s)) <-> findS q (b_diags s) = Some ds).
    { split; intros k.
      - apply (in_find str_eqb str_eqb_spec); [exact nd|]. eapply Permutation_in; [exact hp|exact k].
      - eapply Permutation_in; [apply Permutation_sym; exact hp|]. eapply (find_in str_eqb str_eqb_spec). exact k. }
    rewrite K, h'. split.
    + intros [(h1 & text & errors & d1 & d2 & d3) hn]. split; [exact h1|]. exists text, errors. split; [exact d1|]. split; [exact d2|]. split; [|exact d3].
      intros ->. inversion d3. subst ds. discriminate hn.
    + intros (h1 & text & errors & d1 & d2 & d4 & d3). split; [eauto 10|]. destruct d3; [contradiction|reflexivity].
Qed.
End Publish.

(** * Concrete cases *)
Section Cases.
Local Existing Instance ascii_runtime | 9.
Local Existing Instance plain_hashing | 9.

Definition run62 (e : event) (s : bst) : option (list message) :=
  match handle 400 disk26 (fun m => m) e s with Done l _ => Some l | _ => None end.

(** A text with a mistake, its correction, and a text that uses an unknown class *)
Definition start62 : bst := state_after [(disk26, EvIndex [pA; pB]); (disk26, EvInitialized); (disk26, EvOpen pA [])].
Definition broken62 : str := lit "<?php class { } new Bar();".
Definition notes_only (l : list Diagnostic) : bool := forallb (fun d => match d with DNote _ _ _ => true | _ => false end) l.
Definition complain (fuel : nat) (text : str) : option (list perr) :=
  match scan text with
  | SOk ts => match ast fuel ts with POk (_, errors) _ => Some errors | _ => None end
  | _ => None
  end.
Lemma complain_spec : forall fuel text errors, complain fuel text = Some errors <-> complaints fuel text errors.
Proof.
  intros fuel text errors. unfold complain, complaints. split.
  - destruct (scan text) as [ts| | |]; try discriminate. destruct (ast fuel ts) as [[tree er] p|er p| |] eqn:ea; try discriminate.
    intros h. injection h as <-. eauto 10.
  - intros (ts & tree & p & -> & ->). reflexivity.
Qed.
Example complaints_case :
  (exists e1, complaints 400 broken62 [e1]) /\ complaints 400 (lit "<?php new Bar();") [] /\
  (forall errors, ~ complaints 400 (lit "<?php echo <<<X") errors).
Proof.
  split; [|split].
  - eexists. apply complain_spec. vm_compute. reflexivity.
  - apply complain_spec. vm_compute. reflexivity.
  - intros errors h. apply complain_spec in h. vm_compute in h. discriminate h.
Qed.
Example C62_changed_case :
  (exists a b, run62 (EvChange pA [broken62]) start62 = Some [(pA, [a; b])] /\ notes_only [a] = false /\ notes_only [b] = true) /\
  (exists b, run62 (EvChange pA [lit "<?php new Bar();"]) start62 = Some [(pA, [b])] /\ notes_only [b] = true) /\
  run62 (EvChange pA [lit "<?php"]) start62 = Some [(pA, [])].
Proof.
  split; [|split].
  - do 2 eexists. split; [vm_compute; reflexivity|]. split; reflexivity.
  - eexists. split; [vm_compute; reflexivity|]. reflexivity.
  - vm_compute. reflexivity.
Qed.
Example C62_valid_case : run62 (EvChange pA [Prop_Grammar.example_text]) start62 <> None /\
  exists ts tree, scan Prop_Grammar.example_text = SOk ts /\ SpecGrammar.File (filter Prop_Grammar.in_grammar ts) tree.
Proof.
  split; [vm_compute; discriminate|].
  destruct Prop_Grammar.example_file as [tree h]. exists Prop_Grammar.example_tokens, tree. split; [vm_compute; reflexivity|exact h].
Qed.
(** The mistake that was corrected is still told, since the text ends in a
    string that is not closed. *)
Example C62_unreadable_case : exists a b c,
  run62 (EvChange pA [lit "<?php echo <<<X"]) (state_after
    [(disk26, EvIndex [pA; pB]); (disk26, EvInitialized); (disk26, EvOpen pA []); (disk26, EvChange pA [broken62])])
  = Some [(pA, [a; b; c])] /\ notes_only [a] = false /\ b = c.
Proof. do 3 eexists. split; [vm_compute; reflexivity|]. split; reflexivity. Qed.
Example C62_opened_case : findS pB (b_open start62) = None /\
  exists b, run62 (EvOpen pB []) start62 = Some [(pB, [b])] /\ notes_only [b] = true.
Proof. split; [vm_compute; reflexivity|]. eexists. split; [vm_compute; reflexivity|reflexivity]. Qed.

Definition disk62 : str -> option str := disk2 "<?php $x = ; class { }" "<?php class Fine { }".
Example C62_start_case : exists a r,
  match (edo init_workspace 400 disk62 [pA; pB] in handle 400 disk62 (fun m => m) EvInitialized) backend_new with
  | Done l _ => l = [(pA, a :: r)]
  | _ => False
  end.
Proof. do 2 eexists. vm_compute. reflexivity. Qed.

(** ** Other files *)

(** A change of one file can add a problem to another file that is open, and the
    editor is not told. *)
Definition disk62o : str -> option str := disk2 "<?php class Foo { }" "<?php new Foo();".
Definition open62o : bst := state_after
  [(disk62o, EvIndex [pA; pB]); (disk62o, EvInitialized); (disk62o, EvOpen pA []); (disk62o, EvOpen pB [])].
Definition after62o : bst :=
  match serve 400 disk62o (fun m => m) (EvChange pA [lit "<?php"]) open62o with Done _ s' => s' | _ => open62o end.
Theorem C62_others_refuted : exists s l s' q d, reachable s /\
  findS q (b_open s) <> None /\ findS q (b_diags s) = Some [] /\
  handle 400 disk62o (fun m => m) (EvChange pA [lit "<?php"]) s = Done l s' /\
  findS q (b_diags s') = Some [d] /\ forall ds, ~ In (q, ds) l.
Proof.
  exists open62o, [(pA, [])], after62o, pB. eexists. split; [apply state_after_reachable|].
  split; [vm_compute; discriminate|]. split; [vm_compute; reflexivity|]. split; [vm_compute; reflexivity|].
  split; [vm_compute; reflexivity|]. intros ds [h|[]]. apply (f_equal fst) in h. vm_compute in h. discriminate h.
Qed.
End Cases.

Print Assumptions C62_changed.
Print Assumptions C62_valid_partial.
Print Assumptions C62_unreadable_refuted.
Print Assumptions C62_opened.
Print Assumptions C62_start.
Print Assumptions C62_others_refuted.
