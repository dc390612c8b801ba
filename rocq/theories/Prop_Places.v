(** Property C66: the range sent for a name selects exactly the name. *)

From Coq Require Import Permutation.
From Verif Require Import Base Token Scanner Node NodeFacts DocBlock Parser Assoc AssocFacts Arena ArenaFacts
  Symbol EnvMonad EnvFacts Workspace WorkspaceFacts Resolver SpecNames ResolverFacts Backend BackendFacts
  SpecServer ServerInv SpecScanner Prop_Scanner Prop_Parser Prop_Server Prop_Definition Prop_Highlight Prop_Declarations Prop_NoCrash
  Prop_Locals.

Local Notation findS := (find str_eqb).
Local Open Scope string_scope.
Local Open Scope N_scope.
Local Open Scope list_scope.

(** * Specification *)

(** The word stands in the text, and the range goes from its first character to
    behind its last one. *)
Definition selects (src : str) (r : Range) (word : str) : Prop :=
  exists before after, src = before ++ word ++ after /\
    pos_of before = (pos_line (r_start r), pos_char (r_start r)) /\
    pos_of (before ++ word) = (pos_line (r_end r), pos_char (r_end r)).

(** Visible characters of ASCII *)
Definition plain (c : char) : Prop := 32 < c /\ c < 127.

(** What is written for the token of a name or a variable *)
Definition writes (t : Token) (word : str) : Prop :=
  exists name, t_label t = Some name /\ Forall plain name /\
    ((t_type t = TIdentifier /\ word = name) \/ (t_type t = TVariable /\ word = 36 :: name)).

(** * Proofs *)

Lemma plain_bytes : forall s, Forall plain s -> byte_len s = N.of_nat (List.length s).
Proof.
  induction 1 as [|c s [h1 h2] _ IH]; [reflexivity|]. cbn [byte_len fold_right List.length].
  change (fold_right (fun c n => utf8_len c + n) 0 s) with (byte_len s). rewrite IH. unfold utf8_len.
  destruct (N.ltb_spec c 128); lia.
Qed.
Lemma plain_split : forall s cur, Forall plain s -> split_nl s cur = match rev cur ++ s with [] => [] | w => [w] end.
Proof.
  induction s as [|c s IH]; intros cur h; cbn [split_nl].
  - rewrite app_nil_r. destruct cur as [|c cur]; [reflexivity|]. destruct (rev (c :: cur)) eqn:e; [|reflexivity].
    apply (f_equal (@List.length _)) in e. rewrite rev_length in e. discriminate e.
  - inversion h as [|? ? [h1 h2] h3]; subst. destruct (N.eqb_spec c 10); [lia|]. rewrite IH by exact h3. cbn [rev]. rewrite <- app_assoc. reflexivity.
Qed.
Lemma plain_pos : forall s p, Forall plain s -> fold_left pos_step s p = (fst p, snd p + N.of_nat (List.length s)).
Proof.
  induction s as [|c s IH]; intros [l k] h; cbn [fold_left List.length fst snd]; [f_equal; lia|].
  inversion h as [|? ? [h1 h2] h3]; subst. rewrite IH by exact h3. unfold pos_step.
  destruct (N.eqb_spec c 10); [lia|]. destruct (N.eqb_spec c 13); [lia|]. cbn [fst snd]. f_equal. lia.
Qed.

Section Places.
Context {RT : Runtime}.

(** Every token of a name or a variable *)
Theorem C66_token_partial : forall src ts t word, scan src = SOk ts -> In t ts -> writes t word ->
  exists r, token_range t = Some r /\ selects src (get_range r) word.
Proof.
  intros src ts t word e hin (name & el & hp & hk). apply C39_tokens_true in e. rewrite Forall_forall in e.
  destruct (e _ hin) as (before & lex & rest & es & ep & sp). unfold token_pos in ep.
  assert (k : lex = word /\ display_token t = Some word /\ Forall plain word /\ word <> []).
  { unfold spelled in sp. unfold display_token. rewrite el in *. destruct hk as [[ht ->]|[ht ->]]; rewrite ht in *.
    - destruct sp as (s1 & s2 & _). injection s1 as ->. auto.
    - destruct sp as (_ & s1 & s2 & _). subst lex. split; [reflexivity|]. split; [reflexivity|]. split; [|discriminate].
      constructor; [unfold plain; lia|exact hp]. }
  destruct k as (-> & ed & hw & hn). exists (mkRange (t_col t) (t_line t) (t_col t + byte_len word) (t_line t)). split.
  - unfold token_range, token_end. rewrite ed, el. unfold lines. rewrite plain_split by exact hw. cbn [rev app].
    destruct word; [now elim hn|]. reflexivity.
  - exists before, rest. split; [exact es|]. cbn. split; [exact ep|]. unfold pos_of in *. rewrite fold_left_app, ep.
    rewrite plain_pos by exact hw. cbn [fst snd]. rewrite plain_bytes by exact hw. reflexivity.
Qed.

(** The range of the name of a declaration *)
Theorem C66_selection_partial : forall src ts t word d, scan src = SOk ts -> In t ts -> writes t word ->
  named_at t d -> selects src (y_sel d) word.
Proof.
  intros src ts t word d e hin w h. destruct (C66_token_partial _ _ _ _ e hin w) as (r & er & s).
  unfold named_at in h. rewrite er in h. injection h as <-. exact s.
Qed.

(** ** Local variables *)
Local Ltac part := eapply in_sub; [|eassumption]; cbn [subnodes opt_list]; rewrite ?in_app_iff; simpl; tauto.

Lemma node_trans : forall a b c, node_in a b -> node_in b c -> node_in a c.
Proof. intros a b c h k. induction k; [exact h|]. eapply in_sub; eauto. Qed.
Lemma reads_in : forall n t, Prop_Locals.reads n t -> node_in (NVariable t) n.
Proof.
  intros n t h. induction h; try part.
  - constructor.
  - eapply in_sub; [left; reflexivity|constructor].
  - eapply in_sub; [left; reflexivity|]. part.
  - eapply node_trans; [eassumption|]. apply child_in. assumption.
Qed.
Lemma occurs_in : forall n t, occurs n t -> node_in (NVariable t) n.
Proof.
  intros n t h. induction h.
  - constructor.
  - eapply in_sub; [left; reflexivity|constructor].
  - eapply node_trans; [eassumption|]. apply child_in. assumption.
Qed.
Lemma consults_in : forall n t, consults n t -> node_in (NVariable t) n.
Proof.
  intros n t h. induction h.
  - apply reads_in. assumption.
  - apply reads_in. assumption.
  - match goal with h : Prop_Locals.reads _ _ |- _ => apply reads_in in h end. part.
  - match goal with h : Prop_Locals.reads _ _ |- _ => apply reads_in in h end. part.
  - eapply node_trans; [eassumption|]. apply child_in. assumption.
Qed.
Lemma follows_in : forall n t0 t, follows n t0 t -> node_in (NVariable t) n.
Proof.
  intros n t0 t h. induction h as [n l1 m l2 k l3 t0 t _ e _ hc|n c t0 t _ hc _ IH].
  - eapply node_trans; [apply consults_in; exact hc|]. apply child_in. rewrite e, !in_app_iff. right. right.
    rewrite in_app_iff. right. left. reflexivity.
  - eapply node_trans; [exact IH|]. apply child_in. exact hc.
Qed.
Lemma written_node : forall x n t, written_in x n t -> node_in (NVariable t) n.
Proof. intros x n t [_ [h|(t0 & _ & h)]]; [apply occurs_in; exact h|eapply follows_in; exact h]. Qed.
Lemma within_node : forall n m, Prop_Locals.within n m -> node_in m n.
Proof. intros n m h. induction h; [constructor|]. eapply node_trans; [eassumption|]. apply child_in. assumption. Qed.
Lemma body_node : forall f body, body_of f body -> node_in body f.
Proof.
  intros f body h. unfold body_of in h. destruct f; try contradiction.
  - destruct f; try contradiction. destruct body0; [|contradiction]. subst.
    eapply in_sub; [left; reflexivity|]. eapply in_sub; [|constructor]. cbn [subnodes opt_list]. rewrite !in_app_iff. simpl. tauto.
  - destruct f; try contradiction. destruct body0; [|contradiction]. subst.
    eapply in_sub; [left; reflexivity|]. eapply in_sub; [|constructor]. cbn [subnodes opt_list]. rewrite !in_app_iff. simpl. tauto.
Qed.

(** A variable of the tree of a text is a token of the text. *)
Lemma syntax_token : forall fuel text nodes top t x, syntax fuel text = Some nodes -> In top nodes ->
  node_in (NVariable t) top -> t_label t = Some x -> exists ts, scan text = SOk ts /\ In t ts.
Proof.
  intros fuel text nodes top t x e hi hn el. unfold syntax in e. destruct (scan_state text) as [st| | |] eqn:es; try discriminate e.
  destruct (ast fuel (rev (s_toks st))) as [[a errs] s0| | |] eqn:ea; try discriminate e. injection e as ->.
  exists (rev (s_toks st)). split; [unfold scan; rewrite es; reflexivity|].
  destruct (C12_tree_tokens _ _ _ _ _ ea _ hi) as [k _]. destruct (k t) as [h|[_ h]]; [|exact h|congruence].
  exists (NVariable t). split; [exact hn|]. left. reflexivity.
Qed.

(** Highlighting a local variable selects the variable, dollar sign included, at
    all its places in the text that was analysed. *)
Theorem C66_highlight_partial : forall (HH : Hashing) fuel path text nodes s s' file top f body x order p t0 r0, reachable s' ->
  (forall m, Permutation (order m) m) -> syntax fuel text = Some nodes ->
  findS path (b_files s) = Some file -> collect_references fuel path nodes s = Done tt s' ->
  In top nodes -> Prop_Locals.within top f -> body_of f body -> x <> lit "this" -> ~ rebinds x body ->
  written_in x body t0 -> token_range t0 = Some r0 -> in_range p (get_range r0) = true ->
  (forall i j r q, recorded s' path i r -> recorded s' path j q ->
     in_range p (get_range r) = true -> in_range p (get_range q) = true -> i = j) ->
  Forall plain x ->
  exists l, document_highlight order path p s' = Done (Some l) s' /\
  forall t, written_in x body t -> t_type t = TVariable ->
    exists r, In r l /\ selects text r (36 :: x) /\ r_start r = mkPos (t_line t) (t_col t).
Proof.
  intros HH fuel path text nodes s s' file top f body x order p t0 r0 hre ho es ef e hi hw hb hn hr h0 er0 hp hu hx.
  destruct (C57_highlight_partial _ _ _ _ _ _ _ _ _ _ _ _ _ _ hre ho ef e hi hw hb hn hr h0 er0 hp hu) as (l & el & hl).
  exists l. split; [exact el|]. intros t ht tt'. destruct (hl t ht) as (r & er & hin). exists (get_range r). split; [exact hin|].
  assert (nt : node_in (NVariable t) top).
  { eapply node_trans; [|apply within_node; exact hw]. eapply node_trans; [eapply written_node; exact ht|]. apply body_node. exact hb. }
  destruct (syntax_token _ _ _ _ _ x es hi nt (proj1 ht)) as (ts & sc & it). split.
  - destruct (C66_token_partial text ts t (36 :: x) sc it) as (r' & er' & s'').
    + exists x. split; [apply ht|]. split; [exact hx|]. right. auto.
    + assert (r' = r) by congruence. subst r'. exact s''.
  - unfold token_range in er. destruct (token_end t) as [[c k]|]; [|discriminate er]. injection er as <-. reflexivity.
Qed.
End Places.

(** * Names outside of ASCII *)

(** A runtime in which the letter U+00E9 is one *)
Definition latin_runtime : Runtime :=
  {| rt_alnum := fun c => c =? 233; rt_white := fun _ => false; rt_lower := fun s => s |}.

(** The length is counted in bytes: the range of `é` in a text ends behind the
    semicolon that follows. *)
Theorem C66_refuted : exists (RT : Runtime) src ts t r, scan src = SOk ts /\ In t ts /\ t_type t = TIdentifier /\
  t_label t = Some [233] /\ token_range t = Some r /\ ~ selects src (get_range r) [233] /\
  pos_of src = (pos_line (r_end (get_range r)), pos_char (r_end (get_range r))) /\ exists before, src = before ++ [233; 59].
Proof.
  exists latin_runtime, (lit "<?php " ++ [233; 59]). do 3 eexists.
  split; [vm_compute; reflexivity|]. split; [right; left; reflexivity|]. split; [reflexivity|]. split; [reflexivity|].
  split; [vm_compute; reflexivity|]. split; [|split; [vm_compute; reflexivity|eexists; reflexivity]].
  intros (before & after & e & h1 & h2). cbn in h1, h2.
  rewrite app_assoc in e. unfold pos_of in h1, h2. rewrite fold_left_app, h1 in h2. cbn in h2. discriminate h2.
Qed.

(** * Concrete cases *)

Section Cases.
Local Existing Instance ascii_runtime | 9.
Local Existing Instance plain_hashing | 9.

(** The places of [$y] in a function *)
Definition only (p : Position) (k : N) (m : FileReferenceMap) : bool :=
  forallb (fun e => implb (existsb (fun r => in_range p (get_range r)) (snd e)) (fst e =? k)) m.
Lemma only_ok : forall s path m p k, findS path (b_refs s) = Some m -> only p k m = true ->
  forall i r, recorded s path i r -> in_range p (get_range r) = true -> i = k.
Proof.
  intros s path m p k em o i r (m' & rs & e & hi & hrs) hp. rewrite em in e. injection e as <-.
  unfold only in o. rewrite forallb_forall in o. specialize (o _ hi). cbn [fst snd] in o.
  assert (x : existsb (fun r => in_range p (get_range r)) rs = true) by (apply existsb_exists; eauto).
  rewrite x in o. apply N.eqb_eq. exact o.
Qed.
Local Notation state66 := (state_after (events57 ++ [(disk2 "<?php" text57, EvOpen pB [])])).
Definition map66 : FileReferenceMap := match findS pB (b_refs state66) with Some m => m | None => [] end.
Definition symbol66 : N := match referenced_symbol (fun m => m) (mkPos 0 28) map66 with Some i => i | None => 0 end.

Definition shown66 (o : out bst (option (list Range))) : nat := match o with Done (Some k) _ => List.length k | _ => O end.

Example C66_case : exists l, document_highlight (fun m => m) pB (mkPos 0 28) state66 = Done (Some l) state66 /\
  List.length l = 6%nat /\
  Forall (fun t => t_type t = TVariable) (writing 50 (lit "y") body57) /\
  forall t, In t (writing 50 (lit "y") body57) -> exists r, In r l /\ selects (lit text57) r (lit "$y") /\
    r_start r = mkPos (t_line t) (t_col t).
Proof.
  pose proof C57_case as cs. cbv zeta in cs. destruct cs as (h1 & h2 & (file & h3) & h4 & (f & h5 & h6 & h7) & h8 & h9 & h10 & _).
  assert (ty : Forall (fun t => t_type t = TVariable) (writing 50 (lit "y") body57)) by (vm_compute; repeat constructor).
  assert (t0 : exists t r, In t (writing 50 (lit "y") body57) /\ token_range t = Some r /\ in_range (mkPos 0 28) (get_range r) = true).
  { do 2 eexists. split; [left; vm_compute; reflexivity|]. split; vm_compute; reflexivity. }
  destruct t0 as (t0 & r0 & k1 & k2 & k3). rewrite Forall_forall in h10.
  assert (em : findS pB (b_refs state66) = Some map66) by (vm_compute; reflexivity).
  assert (o : only (mkPos 0 28) symbol66 map66 = true) by (vm_compute; reflexivity).
  pose proof (only_ok _ _ _ _ _ em o) as un. clear em o.
  destruct (C66_highlight_partial plain_hashing 400%nat pB (lit text57) nodes57 (state_after events57) state66 file f f body57 (lit "y")
    (fun m => m) (mkPos 0 28) t0 r0 h1 (fun m => Permutation_refl m) h2 h3 h4 h5 h6 h7 h8 h9 (h10 _ k1) k2 k3) as (l & el & hl).
  { intros i j r q hi hj pi pj. rewrite (un _ _ hi pi), (un _ _ hj pj). reflexivity. }
  { vm_compute. repeat constructor. }
  exists l. split; [exact el|]. split.
  { apply (f_equal shown66) in el. cbn [shown66] in el. rewrite <- el. vm_compute. reflexivity. }
  split; [exact ty|]. rewrite Forall_forall in ty. intros t ht. apply hl; auto.
Qed.
End Cases.

Print Assumptions C66_token_partial.
Print Assumptions C66_selection_partial.
Print Assumptions C66_highlight_partial.
Print Assumptions C66_refuted.
