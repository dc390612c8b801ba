(** Facts about doc comments: reading one never fails, and what is collected
    can be measured. *)

From Verif Require Import Base Token Node DocBlock TokenFacts ScannerMore.

Ltac splits := repeat match goal with |- _ /\ _ => split end.

Section WithRuntime.
Context `{Runtime}.

(** A token of a type written in a doc comment *)
Definition doc_tok (t : Token) : Prop := exists e, token_end t = Some e.
Definition doc_tref (tr : TypeRef) : Prop := kind tr <> [] /\ Forall doc_tok (kind tr).

Definition doc_shape (n : Node) : Prop :=
  match n with
  | NDocCommentParam _ (Some l) _ | NDocCommentVar _ (Some l) _ => Forall doc_tref l
  | NDocCommentReturn (Some l) _ => Forall doc_tref l /\ l <> []
  | NDocCommentProperty _ (Some l) _ => Forall doc_tref l /\ l <> []
  | NDocCommentProperty name None _ => doc_tok name
  | NDocCommentParam _ None _ | NDocCommentVar _ None _ | NDocCommentReturn None _ => True
  | _ => False
  end.

Local Notation len s := (List.length (d_chars s)).

Lemma d_advance_len : forall s c s', d_advance s = (c, s') ->
  (len s' <= len s)%nat /\ (c <> None -> len s' < len s)%nat /\ (c = None -> d_chars s = []).
Proof.
  intros [l k ch] c s'. unfold d_advance. cbn. destruct ch as [|x r]; intros E; injection E as <- <-; cbn.
  - intuition lia.
  - destruct ((x =? 10) || (x =? 13)); cbn; intuition (try lia; try discriminate).
Qed.

Lemma d_skip_len : forall s, (len (d_skip_blanks s) <= len s)%nat.
Proof.
  intros s. unfold d_skip_blanks. generalize (d_line s) (d_col s).
  induction (d_chars s) as [|c r IH]; intros l k; cbn; [lia|].
  destruct (is_whitespace c); cbn; [|lia].
  match goal with |- context [d_skip_go r ?a ?b] => specialize (IH a b) end. lia.
Qed.

Lemma d_ident_len : forall a s n s', d_collect_identifier a s = (n, s') -> (len s' <= len s)%nat.
Proof.
  intros a s. unfold d_collect_identifier. generalize (d_line s) (d_col s) (@nil N).
  induction (d_chars s) as [|c r IH]; intros l k acc n s'; cbn.
  - intros E. injection E as <- <-. cbn. lia.
  - destruct (is_alnum c || (c =? 95) || ((c =? 36) && a)).
    + intros E. apply IH in E. lia.
    + intros E. injection E as <- <-. cbn. lia.
Qed.

Lemma d_rest_len : forall s n s', d_rest_of_line s = (n, s') -> (len s' <= len s)%nat.
Proof.
  intros s. unfold d_rest_of_line. generalize (d_line s) (d_col s) (@nil N).
  induction (d_chars s) as [|c r IH]; intros l k acc n s'; cbn.
  - intros E. injection E as <- <-. cbn. lia.
  - destruct (c =? 10) eqn:C.
    + intros E. injection E as <- <-. cbn. lia.
    + intros E. apply IH in E. lia.
Qed.

Lemma doc_tok_named : forall ty l c n, n <> [] -> doc_tok (token_named ty l c 0 n).
Proof.
  intros ty l c n Hn. unfold doc_tok.
  eapply token_end_some; [reflexivity|]. right. cbn.
  destruct ty; try discriminate; auto; destruct k; discriminate.
Qed.
Lemma doc_tok_ns : forall l c, doc_tok (token_new TNamespaceSeparator l c 0).
Proof. intros. eexists. reflexivity. Qed.

Local Ltac dl := repeat match goal with E : d_chars _ = _ |- _ => rewrite E in * end; cbn [List.length] in *; lia.

Lemma d_type_ref_some : forall fuel a parts s, (len s < fuel)%nat -> Forall doc_tok parts ->
  exists o s', d_type_ref fuel a parts s = Some (o, s') /\ (len s' <= len s)%nat
    /\ match o with Some tr => doc_tref tr | None => True end.
Proof.
  induction fuel as [|fuel IH]; intros a parts s Hf Hp; [dl|].
  cbn [d_type_ref]. destruct (d_collect_identifier a s) as [ident s1] eqn:E1.
  pose proof (d_ident_len _ _ _ _ E1) as L1.
  set (parts' := match ident with [] => parts | _ => parts ++ [token_named (d_token_type ident) (d_line s) (d_col s) 0 ident] end).
  assert (Hp' : Forall doc_tok parts').
  { unfold parts'. destruct ident; auto. apply Forall_app. split; auto.
    constructor; auto. apply doc_tok_named. discriminate. }
  assert (Hfin : forall mult, match (match parts' with [] => None | _ => Some (mkTypeRef parts' mult) end)
                         with Some tr => doc_tref tr | None => True end).
  { intros mult. destruct parts' eqn:Ep; auto. split; cbn; auto; discriminate. }
  clearbody parts'. unfold d_peek. destruct (d_chars s1) as [|c r] eqn:C1.
  - eexists _, _. split; [reflexivity|]. split; [dl|apply Hfin].
  - destruct (d_advance s1) as [o2 s2] eqn:E2. cbn [snd].
    assert (L2 : (len s2 < len s1)%nat).
    { pose proof (d_advance_len _ _ _ E2) as (_ & L & _). apply L.
      unfold d_advance in E2. rewrite C1 in E2. injection E2 as <- _. discriminate. }
    destruct (c =? 92).
    + destruct (IH a (parts' ++ [token_new TNamespaceSeparator (d_line s) (d_col s) 0]) s2) as (o & s' & -> & L & K).
      * dl.
      * apply Forall_app. split; auto. constructor; auto. apply doc_tok_ns.
      * eexists _, _. splits; eauto. dl.
    + destruct (c =? 91).
      * destruct (d_advance s2) as [o3 s3] eqn:E3. pose proof (d_advance_len _ _ _ E3) as (L3 & _ & _).
        assert (R : exists o s', d_type_ref fuel a parts' (snd (d_advance s3)) = Some (o, s')
                   /\ (len s' <= len s)%nat /\ match o with Some tr => doc_tref tr | None => True end).
        { destruct (d_advance s3) as [o4 s4] eqn:E4. pose proof (d_advance_len _ _ _ E4) as (L4 & _ & _).
          cbn [snd]. destruct (IH a parts' s4) as (o & s' & -> & L & K); auto.
          - dl.
          - eexists _, _. splits; eauto. dl. }
        destruct o3 as [n|]; auto.
        destruct (n =? 93); auto. eexists _, _. split; [reflexivity|]. split; [dl|apply Hfin].
      * eexists _, _. split; [reflexivity|]. split; [dl|apply Hfin].
Qed.

Lemma d_type_refs_some : forall fuel a acc s, (len s < fuel)%nat -> Forall doc_tref acc ->
  exists l s', d_type_refs fuel a acc s = Some (l, s') /\ (len s' <= len s)%nat /\ Forall doc_tref l.
Proof.
  induction fuel as [|fuel IH]; intros a acc s Hf Ha; [dl|].
  cbn [d_type_refs].
  destruct (d_type_ref_some (d_fuel s) a [] s) as (o & s1 & -> & L1 & K); [unfold d_fuel; dl|constructor|].
  destruct o as [tr|]; [|eexists _, _; splits; eauto; dl].
  assert (Ha' : Forall doc_tref (acc ++ [tr])) by (apply Forall_app; auto).
  unfold d_peek. destruct (d_chars s1) as [|c r] eqn:C1; [eexists _, _; splits; eauto; dl|].
  destruct (c =? 124); [|eexists _, _; splits; eauto; dl].
  destruct (d_advance s1) as [o2 s2] eqn:E2. cbn [snd].
  assert (L2 : (len s2 < len s1)%nat).
  { pose proof (d_advance_len _ _ _ E2) as (_ & L & _). apply L.
    unfold d_advance in E2. rewrite C1 in E2. injection E2 as <- _. discriminate. }
  destruct (IH a (acc ++ [tr]) s2) as (l & s' & -> & L & K'); auto.
  { dl. }
  eexists _, _. splits; eauto. dl.
Qed.

Lemma d_named_some : forall s, exists trs name descr s',
  d_named s = Some ((trs, name, descr), s') /\ (len s' <= len s)%nat /\ Forall doc_tref trs /\ doc_tok name.
Proof.
  intros s. unfold d_named. pose proof (d_skip_len s) as L0. set (s0 := d_skip_blanks s) in *.
  destruct (d_type_refs_some (d_fuel s0) false [] s0) as (l & s1 & -> & L1 & K); [unfold d_fuel; dl|constructor|].
  pose proof (d_skip_len s1) as L2. set (s2 := d_skip_blanks s1) in *.
  match goal with |- context [let (name, s) := ?x in _] => destruct x as [name s3] eqn:E3 end.
  assert (L3 : (len s3 <= len s2)%nat).
  { unfold d_peek in E3. destruct (d_chars s2) eqn:C; [injection E3 as <- <-; dl|].
    destruct (n =? 36); [|injection E3 as <- <-; dl].
    destruct (d_advance s2) as [o s4] eqn:E4. apply d_ident_len in E3. apply d_advance_len in E4. cbn [snd] in *. dl. }
  destruct (d_rest_of_line s3) as [descr s4] eqn:E4. apply d_rest_len in E4.
  eexists _, _, _, _. splits; eauto; [dl|].
  eapply token_end_some; [reflexivity|]. right. discriminate.
Qed.

Definition dacc_ok (a : dacc) : Prop :=
  Forall doc_shape (a_properties a ++ a_params a ++ a_returns a ++ a_vars a).

Lemma d_scan_some : forall fuel s a, (len s < fuel)%nat -> dacc_ok a ->
  exists a', d_scan fuel s a = Some a' /\ dacc_ok a'.
Proof.
  induction fuel as [|fuel IH]; intros s a Hf Ha; [lia|].
  cbn [d_scan]. destruct (d_advance s) as [c s1] eqn:E1.
  pose proof (d_advance_len _ _ _ E1) as (L1 & L1' & _).
  destruct c as [c|]; [|eauto]. specialize (L1' ltac:(discriminate)).
  unfold dacc_ok in Ha. rewrite !Forall_app in Ha. destruct Ha as (A1 & A2 & A3 & A4).
  assert (Hi : forall s' a', (len s' <= len s1)%nat -> dacc_ok a' ->
     exists a'', d_scan fuel s' a' = Some a'' /\ dacc_ok a'').
  { intros s' a' Hl Ha'. apply IH; auto. lia. }
  assert (OK : forall d b p1 p2 p3 p4, Forall doc_shape p1 -> Forall doc_shape p2 ->
     Forall doc_shape p3 -> Forall doc_shape p4 -> dacc_ok (mkDacc d b p1 p2 p3 p4)).
  { intros. unfold dacc_ok. cbn. rewrite !Forall_app. auto. }
  assert (Ha : dacc_ok a) by (unfold dacc_ok; rewrite !Forall_app; auto).
  destruct (c =? 64).
  - destruct (d_collect_identifier false s1) as [dir s2] eqn:E2.
    pose proof (d_ident_len _ _ _ _ E2) as L2.
    pose proof (d_skip_len s2) as L3. set (s3 := d_skip_blanks s2) in *. clearbody s3.
    destruct (str_eqb dir (lit "param")).
    { destruct (d_named_some s3) as (trs & nm & de & s4 & -> & L4 & K & Kn).
      apply Hi; [lia|]. apply OK; auto. apply Forall_app; split; auto. }
    destruct (str_eqb dir (lit "return")).
    { pose proof (d_skip_len s3) as L4. set (s4 := d_skip_blanks s3) in *. clearbody s4.
      destruct (d_type_refs_some (d_fuel s4) true [] s4) as (trs & s5 & -> & L5 & K); [unfold d_fuel; lia|constructor|].
      pose proof (d_skip_len s5) as L6. set (s6 := d_skip_blanks s5) in *. clearbody s6.
      destruct (d_rest_of_line s6) as [de s7] eqn:E7. apply d_rest_len in E7.
      apply Hi; [lia|]. apply OK; auto. apply Forall_app; split; auto. constructor; auto.
      destruct trs; cbn; auto. split; auto. discriminate. }
    destruct (str_eqb dir (lit "var")).
    { destruct (d_named_some s3) as (trs & nm & de & s4 & -> & L4 & K & Kn).
      apply Hi; [lia|]. apply OK; auto. apply Forall_app; split; auto. }
    destruct (str_eqb dir (lit "deprecated")).
    { apply Hi; [lia|]. apply OK; auto. }
    destruct (str_eqb dir (lit "property")).
    { destruct (d_named_some s3) as (trs & nm & de & s4 & -> & L4 & K & Kn).
      apply Hi; [lia|]. apply OK; auto. apply Forall_app; split; auto. constructor; auto.
      destruct trs; cbn; auto. split; auto. discriminate. }
    apply Hi; auto. lia.
  - destruct (c =? 42); apply Hi; auto.
Qed.

(** Reading a labelled comment gives a [DocComment] of that comment. *)
Lemma docblock_scan_some : forall c, t_label c <> None ->
  exists rt de dep ps vs prs, docblock_scan c = Some (NDocComment c rt de dep ps vs prs)
    /\ Forall doc_shape (rt ++ ps ++ vs ++ prs).
Proof.
  intros c Hc. unfold docblock_scan. destruct (t_label c) as [l|] eqn:E; [|congruence].
  set (s := mkDst _ _ _).
  destruct (d_scan_some (d_fuel s) s (mkDacc [] false [] [] [] [])) as (a & -> & K).
  - unfold d_fuel. lia.
  - constructor.
  - eexists _, _, _, _, _, _. splits; eauto. unfold dacc_ok in K. rewrite !Forall_app in *. intuition.
Qed.

End WithRuntime.
