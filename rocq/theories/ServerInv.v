(** The server stays consistent, whatever is asked of it. *)

From Coq Require Import Permutation.
From Verif Require Import Base Token Scanner Node DocBlock Parser Assoc AssocFacts Arena ArenaFacts
  Symbol EnvMonad EnvFacts Workspace WorkspaceFacts WorkspaceSim Resolver SpecNames ResolverFacts Backend
  BackendFacts SpecServer.

Ltac step e := let x := fresh "x" in let t := fresh "t" in let e1 := fresh "e1" in
  apply ebind_done in e as (x & t & e1 & e).

Tactic Notation "take" ident(e) "as" ident(h) :=
  let x := fresh "x" in let t := fresh "t" in apply ebind_done in e as (x & t & h & e).

Section Reads.
Context {RT : Runtime} {HH : Hashing}.

(** * Requests that change nothing *)

Definition reads {A} (m : B A) : Prop := forall s x s', m s = Done x s' -> s' = s.

Lemma reads_ret : forall A (x : A), reads (eret x).
Proof. intros A x s y s' e. now injection e. Qed.
Lemma reads_get : forall A (f : bst -> A), reads (eget f).
Proof. intros A f s y s' e. now injection e. Qed.
Lemma reads_opt : forall A (o : option A), reads (eopt o).
Proof. intros A o s y s' e. now apply eopt_done in e. Qed.
Lemma reads_bind : forall A C (m : B A) (k : A -> B C), reads m -> (forall x, reads (k x)) -> reads (ebind m k).
Proof.
  intros A C m k h1 h2 s x s' e. apply ebind_done in e as (y & t & e1 & e2).
  apply h1 in e1. subst. eapply h2; eauto.
Qed.
Lemma reads_data : forall i, reads (e_data (S := bst) i).
Proof. intros i s x s' e. unfold e_data in e. destruct (data (the_arena s) i); [now injection e|discriminate]. Qed.
Lemma reads_kids : forall i, reads (e_kids (S := bst) i).
Proof. intros i s x s' e. unfold e_kids in e. destruct (kids (the_arena s) i); [now injection e|discriminate]. Qed.
Lemma reads_top : forall i, reads (e_top (S := bst) i).
Proof. intros i s x s' e. unfold e_top in e. destruct (top (the_arena s) i); [now injection e|discriminate]. Qed.
Lemma reads_fold : forall A C (f : A -> C -> B A) l x, (forall x y, reads (f x y)) -> reads (efold f x l).
Proof.
  intros A C f. induction l as [|y l IH]; intros x h; cbn [efold]; [apply reads_ret|].
  apply reads_bind; auto.
Qed.
Lemma reads_map : forall A C (f : A -> B C) l, (forall x, reads (f x)) -> reads (emap f l).
Proof.
  intros A C f. induction l as [|y l IH]; intros h; cbn [emap]; [apply reads_ret|].
  repeat (apply reads_bind; intros; auto); apply reads_ret.
Qed.

Ltac reading :=
  repeat first
    [ apply reads_ret | apply reads_get | apply reads_opt | apply reads_data | apply reads_kids
    | apply reads_top | apply reads_fold; intros | apply reads_map; intros
    | apply reads_bind; [|intros]
    | match goal with |- reads (match ?x with _ => _ end) => destruct x end ].

Lemma reads_cursor : forall path p, reads (symbol_under_cursor path p).
Proof. intros. unfold symbol_under_cursor. reading. Qed.

Lemma reads_location : forall p l, reads (first_location p l).
Proof. intros p. induction l as [|[n r] l IH]; cbn [first_location]; reading; apply IH. Qed.

Lemma reads_definition : forall order path p, reads (goto_definition order path p).
Proof. intros. unfold goto_definition. reading. apply reads_location. Qed.

Lemma reads_hover : forall order path p, reads (hover order path p).
Proof. intros. unfold hover. apply reads_bind; [apply reads_cursor|intros]. reading. Qed.

Lemma reads_highlight : forall order path p, reads (document_highlight order path p).
Proof. intros. unfold document_highlight. reading. Qed.

Lemma reads_query : forall q, reads (symbol_query q).
Proof. intros. unfold symbol_query. reading. Qed.

Lemma reads_doc : forall fuel i, reads (to_doc_sym fuel i).
Proof.
  induction fuel as [|fuel IH]; intros i; [intros s x s' e; discriminate|].
  cbn [to_doc_sym]. reading; apply IH.
Qed.

Lemma reads_outline : forall fuel path, reads (document_symbol fuel path).
Proof. intros. unfold document_symbol. reading. apply reads_doc. Qed.

End Reads.

(** * Keeping an invariant *)

Section Keep.
Context {RT : Runtime} {HH : Hashing}.

Local Notation findS := (find str_eqb).

(** [Inv] survives the analysis of [Good] syntax trees of files with a path
    in [P]. *)
Record keeps (Inv : bst -> Prop) (Good : list Node -> Prop) (P : str -> Prop) : Prop := {
  kp_collect : forall fuel path nodes range s u s', Inv s -> P path -> Good nodes ->
    collect_symbols fuel path nodes range s = Done u s' -> Inv s';
  kp_analyse : forall fuel path nodes s x s', Inv s -> Good nodes ->
    analyse fuel path nodes s = Done x s' -> Inv s';
  kp_rebuild : forall s u s', Inv s -> rebuild_global s = Done u s' -> Inv s';
  kp_rest : forall s s', Inv s -> b_arena s' = b_arena s -> b_files s' = b_files s ->
    b_global s' = b_global s -> NoDup (keys (b_open s')) ->
    (forall p nodes r, findS p (b_open s') = Some (nodes, r) -> Good nodes) -> Inv s';
  kp_nodup : forall s, Inv s -> NoDup (keys (b_open s));
  kp_open : forall s p nodes r, Inv s -> findS p (b_open s) = Some (nodes, r) -> Good nodes
}.

Variables (Inv : bst -> Prop) (Good : list Node -> Prop) (P : str -> Prop).
Hypothesis K : keeps Inv Good P.

Definition good_text (src : str) : Prop :=
  forall fuel nodes, syntax fuel src = Some nodes -> Good nodes.
Definition good_disk (disk : str -> option str) : Prop :=
  forall p text, disk p = Some text -> P p /\ good_text text.

Lemma keep_same : forall s s', Inv s -> core_eq s s' -> Inv s'.
Proof.
  intros s s' I (h1 & h2 & h3 & h4). eapply (kp_rest _ _ _ K); eauto; rewrite h4.
  - eapply kp_nodup; eauto.
  - intros. eapply kp_open; eauto.
Qed.

Lemma keep_put : forall s s' path nodes r, Inv s -> b_arena s' = b_arena s -> b_files s' = b_files s ->
  b_global s' = b_global s -> b_open s' = put str_eqb path (nodes, r) (b_open s) -> Good nodes -> Inv s'.
Proof.
  intros s s' path nodes r I h1 h2 h3 h4 g. eapply (kp_rest _ _ _ K); eauto; rewrite h4.
  - apply nodup_put; [apply str_eqb_spec|]. eapply kp_nodup; eauto.
  - intros p n q e. rewrite find_put in e by apply str_eqb_spec.
    destruct (str_eqb p path); [injection e as <- _; auto|]. eapply kp_open; eauto.
Qed.

Lemma keep_references : forall fuel path nodes s u s', Inv s -> Good nodes ->
  collect_references fuel path nodes s = Done u s' -> Inv s'.
Proof.
  intros fuel path nodes s u s' I g e. unfold collect_references in e. step e.
  apply (kp_analyse _ _ _ K) in e1; auto. destruct x as [m|]; [|injection e as _ <-; auto].
  step e. injection e0 as <- <-. injection e as _ <-. eapply keep_same; eauto. repeat split.
Qed.

Lemma keep_tasks : forall fuel l s u s', Inv s -> Forall (fun t => Good (fst (snd t))) l ->
  eiter (fun t : str * (list Node * Range) => collect_references fuel (fst t) (fst (snd t))) l s = Done u s' ->
  Inv s'.
Proof.
  intros fuel. induction l as [|t l IH]; intros s u s' I h e; cbn [eiter] in e.
  - injection e as _ <-. auto.
  - inversion h; subst. step e. eapply IH; [|eauto|exact e]. eapply keep_references; eauto.
Qed.

Lemma good_tasks : forall s, Inv s ->
  Forall (fun t : str * (list Node * Range) => Good (fst (snd t))) (h_order (b_open s)).
Proof.
  intros s I. apply Forall_forall. intros [p [nodes r]] hi. cbn.
  apply (Permutation_in _ (h_perm _ _)) in hi.
  eapply (kp_open _ _ _ K); [exact I|]. apply in_find; eauto; [apply str_eqb_spec|eapply kp_nodup; eauto].
Qed.

Lemma keep_index : forall fuel path nodes range errors s u s', Inv s -> P path -> Good nodes ->
  index_result fuel path nodes range errors s = Done u s' -> Inv s'.
Proof.
  intros fuel path nodes range errors s u s' I hp g e. unfold index_result in e.
  step e. apply (kp_collect _ _ _ K) in e1; auto.
  repeat (step e; try (apply eopt_done in e0 as [_ ->]); try (injection e0 as _ <-)).
  injection e as _ <-. eapply keep_same; eauto. repeat split.
Qed.

Lemma keep_refresh : forall fuel path src s u s', Inv s -> P path -> good_text src ->
  refresh_file fuel path src s = Done u s' -> Inv s'.
Proof.
  intros fuel path src s u s' I hp ht e. unfold refresh_file in e.
  step e. apply source_spec in e1 as [-> hx]. step e.
  assert (I1 : Inv t).
  { destruct x as [[[nodes range] errors]|].
    - step e1. apply ht in hx. apply (kp_collect _ _ _ K) in e0; auto.
      step e1. apply eopt_done in e2 as [_ ->]. step e1. injection e2 as <- <-.
      step e1. injection e2 as _ <-. step e1. injection e2 as <- <-. injection e1 as _ <-.
      eapply keep_put; eauto; reflexivity.
    - injection e1 as _ <-. auto. }
  step e. injection e0 as <- <-.
  eapply keep_tasks; [exact I1|apply good_tasks; exact I1|exact e].
Qed.

Lemma keep_change : forall fuel path changes s u s', Inv s -> P path ->
  Forall good_text changes -> did_change fuel path changes s = Done u s' -> Inv s'.
Proof.
  intros fuel path changes s u s' I hp ht e. unfold did_change in e.
  destruct changes as [|text r]; [injection e as _ <-; auto|]. inversion ht; subst.
  step e. injection e1 as <- <-. step e. injection e1 as _ <-.
  eapply keep_refresh; [| | |exact e]; auto. eapply keep_same; eauto. repeat split.
Qed.

Lemma keep_did_open : forall fuel disk path text s u s', Inv s -> good_disk disk ->
  did_open fuel disk path text s = Done u s' -> Inv s'.
Proof.
  intros fuel disk path text s u s' I hd e. unfold did_open in e.
  step e. apply eopt_done in e1 as [ed ->]. destruct (hd _ _ ed) as [hp ht].
  step e. injection e1 as <- <-. step e. injection e1 as _ <-. step e. injection e1 as <- <-.
  set (s1 := mkBst _ _ _ _ _ _ _) in e.
  assert (I1 : Inv s1) by (eapply keep_same; eauto; repeat split).
  step e.
  assert (I2 : Inv t).
  { destruct (findS path (b_open s)) as [o|].
    - injection e1 as _ <-. auto.
    - step e1. apply source_spec in e0 as [-> hx].
      destruct x2 as [[[nodes range] errors]|].
      + apply ht in hx. step e1. apply eopt_done in e0 as [_ ->]. step e1. injection e0 as <- <-.
        step e1. injection e0 as _ <-. step e1. injection e0 as _ <-. injection e1 as _ <-.
        eapply (keep_put s1); eauto; reflexivity.
      + injection e1 as _ <-. auto. }
  destruct x1; [|injection e as _ <-; auto].
  step e. injection e0 as <- <-.
  destruct (findS path (b_open t)) as [[nodes r]|] eqn:eo; [|injection e as _ <-; auto].
  eapply keep_references; [exact I2| |exact e]. eapply (kp_open _ _ _ K); eauto.
Qed.

Lemma keep_close : forall path s u s', Inv s -> did_close path s = Done u s' -> Inv s'.
Proof.
  intros path s u s' I e. unfold did_close in e. injection e as _ <-.
  eapply (kp_rest _ _ _ K); eauto; cbn.
  - apply nodup_del. eapply kp_nodup; eauto.
  - intros p n q e. rewrite find_del in e by apply str_eqb_spec.
    destruct (str_eqb path p); [discriminate|]. eapply kp_open; eauto.
Qed.

Lemma keep_watched : forall fuel disk paths s u s', Inv s -> good_disk disk ->
  did_change_watched fuel disk paths s = Done u s' -> Inv s'.
Proof.
  intros fuel disk. induction paths as [|path rest IH]; intros s u s' I hd e; cbn [did_change_watched] in e.
  - injection e as _ <-. auto.
  - step e. injection e1 as <- <-. destruct (findS path (b_open s)); [injection e as _ <-; auto|].
    step e. apply eopt_done in e1 as [ed ->]. destruct (hd _ _ ed) as [hp ht].
    step e. apply source_spec in e1 as [-> hx]. step e.
    destruct x0 as [[[nodes range] errors]|].
    + apply (IH t u s'); auto. eapply keep_index; eauto.
    + injection e1 as _ <-. apply (IH s u s'); auto.
Qed.

Lemma keep_path : forall fuel disk path s u s', Inv s -> good_disk disk ->
  index_path fuel disk path s = Done u s' -> Inv s'.
Proof.
  intros fuel disk path s u s' I hd e. unfold index_path in e.
  destruct (disk path) as [content|] eqn:ed; [|injection e as _ <-; auto].
  destruct (hd _ _ ed) as [hp ht]. step e. apply source_spec in e1 as [-> hx].
  destruct x as [[[nodes range] errors]|]; [|injection e as _ <-; auto].
  eapply keep_index; eauto.
Qed.

Lemma keep_init : forall fuel disk paths s u s', Inv s -> good_disk disk ->
  init_workspace fuel disk paths s = Done u s' -> Inv s'.
Proof.
  intros fuel disk paths s u s' I hd e. unfold init_workspace in e. step e.
  eapply (kp_rebuild _ _ _ K); [|exact e]. revert s I e1.
  induction paths as [|p paths IH]; intros s I e1; cbn [eiter] in e1.
  - injection e1 as _ <-. auto.
  - step e1. eapply IH; [|exact e1]. eapply keep_path; eauto.
Qed.

Lemma keep_search : forall fuel disk name paths s found x s', Inv s -> good_disk disk ->
  efold (search_file fuel disk name) found paths s = Done x s' -> Inv s'.
Proof.
  intros fuel disk name. induction paths as [|p paths IH]; intros s found x s' I hd e; cbn [efold] in e.
  - injection e as _ <-. auto.
  - step e. eapply IH; [|exact hd|exact e]. unfold search_file in e1.
    destruct (disk p) as [content|] eqn:ed; [|injection e1 as _ <-; auto].
    destruct (contains content name); [|injection e1 as _ <-; auto].
    destruct (hd _ _ ed) as [hp ht]. step e1. apply source_spec in e0 as [-> hx].
    destruct x1 as [[[nodes range] errors]|]; [|injection e1 as _ <-; auto].
    step e1. injection e1 as _ <-. eapply (kp_analyse _ _ _ K); [exact I| |exact e0]. eapply ht; eauto.
Qed.

Lemma keep_references_of : forall fuel disk name s x s', Inv s -> good_disk disk ->
  references_of fuel disk name s = Done x s' -> Inv s'.
Proof.
  intros fuel disk name s x s' I hd e. unfold references_of in e. step e. injection e1 as <- <-.
  eapply keep_search; eauto.
Qed.

Lemma keep_request : forall fuel disk path p s x s', Inv s -> good_disk disk ->
  references fuel disk path p s = Done x s' -> Inv s'.
Proof.
  intros fuel disk path p s x s' I hd e. unfold references in e. step e. apply reads_cursor in e1. subst.
  destruct x0 as [[suc name]|]; [|injection e as _ <-; auto].
  step e. injection e as _ <-. eapply keep_references_of; eauto.
Qed.

Lemma keep_rename : forall fuel disk order path p new s x s', Inv s -> good_disk disk ->
  rename fuel disk order path p new s = Done x s' -> Inv s'.
Proof.
  intros fuel disk order path p new s x s' I hd e. unfold rename in e. step e. apply reads_get in e1. subst.
  destruct (obind _ _) as [nuc|]; [|injection e as _ <-; auto].
  step e. apply reads_data in e1. subst. step e. injection e as _ <-. eapply keep_references_of; eauto.
Qed.

Definition good_event (disk : str -> option str) (e : event) : Prop :=
  good_disk disk /\
  match e with
  | EvChange path texts => P path /\ Forall good_text texts
  | _ => True
  end.

Lemma keep_serve : forall fuel disk order e s s', Inv s -> good_event disk e ->
  serve fuel disk order e s = Done tt s' -> Inv s'.
Proof.
  intros fuel disk order e s s' I [hd he] r. destruct e; cbn [serve] in r.
  - eapply keep_init; eauto.
  - injection r as <-. eapply keep_same; eauto. repeat split.
  - eapply keep_did_open; eauto.
  - destruct he. eapply keep_change; eauto.
  - eapply keep_close; eauto.
  - eapply keep_watched; eauto.
  - unfold ignore in r. step r. injection r as <-. eapply keep_request; eauto.
  - unfold ignore in r. step r. injection r as <-. eapply keep_rename; eauto.
  - unfold ignore in r. step r. injection r as <-. apply reads_definition in e1. now subst.
  - unfold ignore in r. step r. injection r as <-. apply reads_hover in e1. now subst.
  - unfold ignore in r. step r. injection r as <-. apply reads_highlight in e1. now subst.
  - unfold ignore in r. step r. injection r as <-. apply reads_query in e1. now subst.
  - unfold ignore in r. step r. injection r as <-. apply reads_outline in e1. now subst.
Qed.

End Keep.

(** * The index *)

Section Index.
Context {RT : Runtime} {HH : Hashing}.
Variable D : str -> Prop.

Local Notation findS := (find str_eqb).

(** The index that is built anew from the indexed files *)
Lemma rebuild_inv : forall s u s', binv D s -> rebuild_global s = Done u s' -> binv D s'.
Proof.
  intros s u s' I e. unfold rebuild_global in e. step e. injection e1 as <- <-.
  step e. injection e1 as _ <-.
  assert (I1 : binv D (with_global [] s)).
  { destruct I. constructor; cbn; auto. discriminate. }
  assert (hf : forall p f, In (p, f) (h_order (b_files s)) -> findS p (b_files s) = Some f).
  { intros p f hi. apply (Permutation_in _ (h_perm _ _)) in hi.
    apply in_find; auto; [apply str_eqb_spec|apply (bi_nodup _ _ I)]. }
  change (mkBst _ _ [] _ _ _ _) with (with_global [] s) in e.
  assert (fs : b_files (with_global [] s) = b_files s) by reflexivity.
  revert I1 hf e fs. generalize (with_global [] s). generalize (h_order (b_files s)).
  induction l as [|[p f] l IH]; intros b I1 hf e fs; cbn [eiter] in e.
  - injection e as _ <-. auto.
  - step e. cbn [snd] in e1. step e1.
    assert (ef : findS p (b_files b) = Some f) by (rewrite fs; apply hf; simpl; auto).
    destruct (bi_files _ _ I1 _ _ ef) as [(nf & enf & pf & kf & nn) _].
    rewrite (e_kids_done f b nf enf) in e0. injection e0 as <- <-.
    rewrite register_all in e1.
    2:{ intros c hc. destruct (wf_down _ (bi_wf _ _ I1) _ _ _ enf hc) as (m & em & _). exists m. auto. }
    injection e1 as _ <-. apply (IH _) in e; auto; [|intros; apply hf; simpl; auto].
    destruct I1 as [J1 J2 J3 J4 J5 J6 J7]. constructor; cbn; auto.
    intros k n h. apply find_registered in h as [h|(h1 & h2 & h3)]; auto.
    destruct (wf_down _ J1 _ _ _ enf h1) as (m & em & ep). unfold is_global, key_of, data in h2, h3.
    rewrite em in h2, h3. cbn in h2, h3. exists m, p, f. auto.
Qed.

Lemma binv_keeps : keeps (binv D) (Forall (clean D)) (fun p => D (bare p)).
Proof.
  constructor.
  - intros fuel path nodes range s u s' I hp g e.
    eapply collect_inv; [exact I|exact hp|apply clean_declares; exact g|exact e].
  - intros. eapply analyse_inv; eauto.
  - apply rebuild_inv.
  - intros s s' I h1 h2 h3 h4 h5. destruct I. constructor; rewrite ?h1, ?h2, ?h3; auto.
  - intros s I. apply (bi_open_nodup _ _ I).
  - intros. eapply (bi_open _ _ H); eauto.
Qed.

End Index.

(** * The forest, without any condition on the texts *)

Section Forest.
Context {RT : Runtime} {HH : Hashing}.

Local Notation findS := (find str_eqb).

Record winv (s : bst) : Prop := {
  wi_wf : wf (b_arena s);
  wi_nodup : NoDup (keys (b_files s));
  wi_files : forall p f, findS p (b_files s) = Some f -> f < a_next (b_arena s) /\
    (forall n, node_of (b_arena s) f = Some n -> y_kind (n_data n) = KFile);
  wi_open : NoDup (keys (b_open s))
}.

Lemma deregister_core : forall l s u s', eiter deregister l s = Done u s' ->
  exists g, s' = with_global g s.
Proof.
  induction l as [|c l IH]; intros s u s' e; cbn [eiter] in e.
  - injection e as _ <-. exists (b_global s). destruct s; auto.
  - step e. unfold deregister in e1. step e1. apply reads_data in e0. subst.
    step e1. injection e0 as <- <-. injection e1 as _ <-. apply IH in e as [g ->]. exists g. auto.
Qed.

Lemma register_core : forall l s u s', eiter register l s = Done u s' ->
  exists g, s' = with_global g s.
Proof.
  induction l as [|c l IH]; intros s u s' e; cbn [eiter] in e.
  - injection e as _ <-. exists (b_global s). destruct s; auto.
  - step e. unfold register in e1. step e1. apply reads_data in e0. subst.
    destruct (register_global (y_kind x0)).
    + step e1. injection e0 as <- <-. injection e1 as _ <-. apply IH in e as [g ->]. exists g. auto.
    + injection e1 as _ <-. apply IH in e as [g ->]. exists g. auto.
Qed.

(** The new symbols of a file are not touched when the old ones go. *)
Lemma collect_new : forall fuel path nodes range s u s', wf (b_arena s) ->
  (forall f, findS path (b_files s) = Some f -> f < a_next (b_arena s)) ->
  collect_symbols fuel path nodes range s = Done u s' ->
  let f := a_next (b_arena s) in
  exists w, visited fuel path nodes range (b_arena s) = Done tt w /\
    tree (fun _ => True) f path (b_arena s) (w_arena w) /\
    wf (b_arena s') /\ a_next (b_arena s') = a_next (w_arena w) /\
    b_files s' = put str_eqb path f (b_files s) /\ b_open s' = b_open s /\
    (forall i, f <= i -> node_of (b_arena s') i = node_of (w_arena w) i) /\
    (forall i n, i < f -> node_of (b_arena s') i = Some n -> exists n0,
       node_of (b_arena s) i = Some n0 /\ n_data n = n_data n0).
Proof.
  intros fuel path nodes range s u s' ws hold e f.
  assert (hn : Forall (declares_in (fun _ => True)) nodes).
  { apply Forall_forall. intros n _ m _. apply Forall_forall. auto. }
  unfold collect_symbols in e. unfold ebind at 1 in e. unfold e_new in e. cbn [the_arena bst_arena] in e.
  unfold new_node in e. cbn [snd] in e. unfold ebind at 1 in e. unfold visit_symbols in e.
  cbn [b_arena with_arena bst_arena] in e.
  change (eiter (fun node => w_traverse fuel node (a_next (b_arena s))) nodes _)
    with (visited fuel path nodes range (b_arena s)) in e.
  destruct (visited fuel path nodes range (b_arena s)) as [[] w| |] eqn:ev; try discriminate.
  pose proof (visited_tree _ _ _ _ _ _ _ _ ws hn ev) as T. fold f in T.
  pose proof (tr_wf _ _ _ _ _ T) as w2.
  exists w. split; auto. split; auto. cbn [b_arena with_arena bst_arena] in e.
  step e. injection e1 as <- <-. step e. injection e1 as _ <-. cbn in e.
  step e. step e. apply reads_kids in e0. subst. apply register_core in e as [g ->]. cbn.
  destruct (findS path (b_files s)) as [old|] eqn:eo.
  - step e1. apply reads_kids in e0. subst. step e1. apply deregister_core in e0 as [g' ->].
    step e1. injection e0 as <- <-. step e1. apply eopt_done in e0 as [ed ->].
    step e1. injection e0 as _ <-. unfold on_arena in e1. cbn in ed, e1.
    destruct (remove_subtree old (w_arena w)) as [a'|] eqn:er; [|discriminate].
    injection e1 as _ <-. cbn.
    destruct (node_of_prune_spec _ _ _ w2 er) as (sp1 & sp2).
    destruct (node_of_prune _ _ _ w2 er) as (ds' & no & en & nx & _).
    pose proof (hold old eq_refl) as ho. fold f in ho.
    split; [eapply wf_prune; eauto|]. split; auto. split; auto. split; auto. split.
    + intros i hi. assert (nu : ~ Up (w_arena w) i old).
      { intros v. apply (Up_new _ path (b_arena s) _ T) in v; auto. fold f in v. lia. }
      rewrite (sp2 _ nu). destruct (node_of (w_arena w) i) as [n|] eqn:e; auto.
      rewrite filter_none; [destruct n; auto|]. intros hk.
      destruct (wf_down _ w2 _ _ _ e hk) as (m & em & pm).
      rewrite (tr_old _ _ _ _ _ T) in em by auto. destruct (wf_up _ ws _ _ _ em pm) as (q & eq & _).
      apply (wf_fresh _ ws) in eq. unfold f in hi. lia.
    + intros i n hi e. assert (nu : ~ Up (w_arena w) i old).
      { intros v. rewrite sp1 in e by auto. discriminate. }
      rewrite (sp2 _ nu) in e. rewrite (tr_old _ _ _ _ _ T) in e by auto.
      destruct (node_of (b_arena s) i) as [n0|]; [|discriminate]. injection e as <-. exists n0. auto.
  - injection e1 as _ <-. cbn. split; auto. split; auto. split; auto. split; auto. split; auto.
    intros i n hi e. rewrite (tr_old _ _ _ _ _ T) in e by auto. eauto.
Qed.

Lemma visited_grows : forall fuel path nodes range a w, wf a ->
  visited fuel path nodes range a = Done tt w -> a_next a < a_next (w_arena w).
Proof.
  intros fuel path nodes range a w wa e.
  assert (hn : Forall (declares_in (fun _ => True)) nodes).
  { apply Forall_forall. intros n _ m _. apply Forall_forall. auto. }
  pose proof (visited_tree _ _ _ _ _ _ _ _ wa hn e) as T.
  destruct (tr_root _ _ _ _ _ T) as (n & en & _). eapply wf_fresh; eauto. apply T.
Qed.

Lemma resolve_drifts : forall fuel nodes file s r s', wf (b_arena s) -> live (b_arena s) file ->
  resolve_names fuel nodes file s = Done r s' ->
  s' = with_arena (r_arena r) s /\ drifts (b_arena s) (r_arena r) /\ rinv r.
Proof.
  intros fuel nodes file s r s' w lf e. unfold resolve_names in e.
  destruct (eiter _ nodes _) as [u r1| |] eqn:ei; try discriminate. injection e as -> <-.
  split; auto.
  assert (ri : rinv (resolver_new (b_arena s) (b_global s) file)).
  { split; auto. constructor; auto. constructor. }
  assert (k : forall nodes r0 u r1, rinv r0 -> live (r_arena r0) file ->
    eiter (fun node => n_traverse fuel file node file) nodes r0 = Done u r1 ->
    drifts (r_arena r0) (r_arena r1) /\ rinv r1).
  { clear. induction nodes as [|n nodes IH]; intros r0 u r1 ri lf e; cbn [eiter] in e.
    - injection e as _ <-. split; auto. apply (gr_refl _ growth_drifts). apply ri.
    - step e. destruct (traverse_drifts _ _ _ _ _ _ _ ri lf e1) as (ri' & g & _).
      destruct (IH _ _ _ ri' (gr_live _ growth_drifts _ _ _ (proj1 ri) g lf) e) as [g' ri''].
      split; auto. eapply (gr_trans _ growth_drifts); eauto. apply ri. }
  eapply (k nodes _ _ _ ri) in ei; eauto.
Qed.

Lemma analyse_winv : forall fuel path nodes s x s', winv s -> analyse fuel path nodes s = Done x s' ->
  winv s' /\ b_files s' = b_files s /\ b_global s' = b_global s /\ b_open s' = b_open s.
Proof.
  intros fuel path nodes s x s' I e. unfold analyse in e.
  step e. injection e1 as <- <-. destruct (findS path (b_files s)) as [f|] eqn:ef.
  2:{ injection e as _ <-. auto. }
  assert (lf : exists n, node_of (b_arena s) f = Some n /\ y_kind (n_data n) = KFile).
  { destruct (node_of (b_arena s) f) as [n|] eqn:en.
    - exists n. split; auto. eapply (wi_files _ I); eauto.
    - exfalso. step e. unfold purge_variables in e1. step e1. injection e0 as <- <-.
      step e1. apply eopt_done in e0 as [ed ->]. unfold descendants in ed.
      rewrite below_S, en in ed. discriminate. }
  destruct lf as (nf & enf & kf).
  step e. destruct (purge_spec _ _ _ _ (wi_wf _ I) e1) as (a1 & -> & g1).
  destruct (sh_keep _ _ g1 _ _ enf) as (nf1 & enf1 & df1 & _); [congruence|].
  step e. cbn [b_arena with_arena bst_arena] in *.
  apply resolve_drifts in e0 as (-> & g2 & _); [|apply g1|exists nf1; exact enf1]. cbn in g2.
  step e. apply notes_core in e0 as (c1 & c2 & c3 & c4). injection e as _ <-. cbn in c1, c2, c3, c4.
  split; auto. destruct I as [J1 J2 J3 J4]. constructor; rewrite ?c1, ?c2, ?c4; auto.
  - apply g2.
  - intros p g eg. destruct (J3 _ _ eg) as [h1 h2].
    pose proof (df_next _ _ g2) as nx. rewrite (sh_next _ _ g1) in nx. split; [lia|].
    intros n en. destruct (live_dec a1 g) as [[m em]|nl].
    + destruct (df_data _ _ g2 _ _ (data_node _ _ _ em)) as (d' & ed & sd).
      unfold data in ed. rewrite en in ed. injection ed as <-.
      destruct (same_kind _ _ sd) as [qk _]. rewrite qk.
      destruct (sh_back _ _ g1 _ _ em) as (m0 & em0 & ->). eapply h2; eauto.
    + exfalso. destruct (df_new _ _ g2 g) as [l|l]; [exists n; auto|contradiction|].
      rewrite (sh_next _ _ g1) in l. lia.
Qed.

Lemma rebuild_core : forall s u s', rebuild_global s = Done u s' -> exists g, s' = with_global g s.
Proof.
  intros s u s' e. unfold rebuild_global in e. step e. injection e1 as <- <-.
  step e. injection e1 as _ <-.
  change (mkBst _ _ [] _ _ _ _) with (with_global [] s) in e.
  assert (k : forall l b u s', eiter (fun f : str * N => elet cs <- e_kids (snd f) in eiter register cs) l b
    = Done u s' -> exists g, s' = with_global g b).
  { clear. induction l as [|f l IH]; intros b u s' e; cbn [eiter] in e.
    - injection e as _ <-. exists (b_global b). destruct b; auto.
    - step e. step e1. apply reads_kids in e0. subst. apply register_core in e1 as [g ->].
      apply IH in e as [g' ->]. exists g'. auto. }
  apply k in e as [g ->]. exists g. auto.
Qed.

Lemma winv_keeps : keeps winv (fun _ => True) (fun _ => True).
Proof.
  constructor.
  - intros fuel path nodes range s u s' I _ _ e.
    destruct (collect_new _ _ _ _ _ _ _ (wi_wf _ I)
      (fun f h => proj1 (wi_files _ I _ _ h)) e) as (w & ev & T & w' & nx & ef & eo & sn & so).
    pose proof (visited_grows _ _ _ _ _ _ (wi_wf _ I) ev) as gr.
    constructor; rewrite ?ef, ?eo, ?nx; auto.
    + apply nodup_put; [apply str_eqb_spec|]. apply (wi_nodup _ I).
    + intros p f h. rewrite find_put in h by apply str_eqb_spec. destruct (str_eqb p path).
      * injection h as <-. split; auto. intros n en. rewrite sn in en by lia.
        destruct (tr_root _ _ _ _ _ T) as (n' & en' & _ & k & _). congruence.
      * destruct (wi_files _ I _ _ h) as [h1 h2]. split; [lia|].
        intros n en. apply so in en as (n0 & en0 & ->); auto.
    + apply (wi_open _ I).
  - intros. eapply analyse_winv; eauto.
  - intros s u s' I e. apply rebuild_core in e as [g ->]. destruct I. constructor; auto.
  - intros s s' I h1 h2 h3 h4 _. destruct I. constructor; rewrite ?h1, ?h2; auto.
  - intros s I. apply (wi_open _ I).
  - auto.
Qed.

Lemma winv_new : winv backend_new.
Proof. constructor; simpl; try discriminate; try apply wf_empty; constructor. Qed.

End Forest.

Lemma reachable_winv : forall {RT : Runtime} s, reachable s -> winv s.
Proof.
  induction 1 as [|s s' hs fuel disk order e h IH r]; [apply winv_new|].
  eapply keep_serve; [apply winv_keeps|exact IH| |exact r].
  split; [split; auto; intros ? ? _; auto|]. destruct e; auto. split; auto.
  apply Forall_forall. intros ? _ ? ? _. auto.
Qed.
