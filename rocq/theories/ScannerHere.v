(** The last token that is not a comment or a line break is never the start
    of a heredoc: the parser, having taken the start, finds another token. *)

From Verif Require Import Base Token TokenFacts Scanner SpecScanner ScannerFacts.

Definition trivia (t : Token) : bool :=
  match t_type t with TMultilineComment | TLineComment | TLinebreak => true | _ => false end.

(** newest token first *)
Fixpoint lastok (l : list Token) : Prop :=
  match l with
  | [] => True
  | t :: r => if trivia t then lastok r else t_type t <> THereDocStart
  end.

Section Here.
  Context `{RT : Runtime}.

  Definition J (s : Scn) : Prop := lastok (s_toks s).
  (** a step that keeps [J] and the context *)
  Definition K (s s' : Scn) : Prop := (J s -> J s') /\ s_ctx s' = s_ctx s.

  Lemma K_refl : forall s, K s s. Proof. split; auto. Qed.
  Lemma K_trans : forall a b c, K a b -> K b c -> K a c.
  Proof. intros a b c [H1 H2] [H3 H4]. split; auto. congruence. Qed.

  Lemma K_advance_on : forall cs s, K s (snd (advance_on cs s)).
  Proof.
    induction cs as [|c r IH]; intros s; cbn; [split; auto|].
    destruct (c =? 10); cbn.
    - split; [|reflexivity]. unfold J. cbn. unfold push_token. destruct (is_in_script (s_ctx s)); auto.
    - destruct (c =? 13); [apply IH|split; auto].
  Qed.
  Lemma K_advance : forall s, K s (snd (advance s)). Proof. intros; apply K_advance_on. Qed.
  Lemma K_skip : forall s, K s (skip s). Proof. intros; apply K_advance_on. Qed.

  Lemma K_collect_while : forall n p acc s a s', collect_while n p acc s = SOk (a, s') -> K s s'.
  Proof.
    induction n as [|n IH]; intros p acc s a s'; cbn; [discriminate|].
    destruct (peek s) as [c|]; [|injection 1 as <- <-; apply K_refl].
    destruct (p c); [|injection 1 as <- <-; apply K_refl].
    intros H. eapply K_trans; [apply K_skip|eauto].
  Qed.
  Lemma K_until : forall n q e acc s a s', until_escaped n q e acc s = SOk (a, s') -> K s s'.
  Proof.
    induction n as [|n IH]; intros q e acc s a s'; cbn; [discriminate|].
    pose proof (K_advance s) as HK. destruct (advance s) as [[c|] s1]; cbn in HK.
    - destruct (c =? 92); [intros H; eapply K_trans; eauto|].
      destruct ((c =? q) && negb e); [injection 1 as <- <-; auto|]. intros H; eapply K_trans; eauto.
    - injection 1 as <- <-; auto.
  Qed.
  Lemma K_doc : forall n acc s a s', doc_comment_loop n acc s = SOk (a, s') -> K s s'.
  Proof.
    induction n as [|n IH]; intros acc s a s'; cbn; [discriminate|].
    pose proof (K_advance s) as HK. destruct (advance s) as [[c|] s1]; cbn in HK.
    - destruct ((c =? 42) && peek_is s1 47); [injection 1 as <- <-|intros H]; eapply K_trans; eauto; apply K_skip.
    - injection 1 as <- <-; auto.
  Qed.

  Lemma J_push : forall s k, k <> THereDocStart -> J s -> J (push_token s k).
  Proof.
    intros s k Hk H. unfold push_token. destruct (is_in_script (s_ctx s)); auto. unfold J. cbn.
    unfold trivia. cbn. destruct k; auto; discriminate.
  Qed.
  Lemma J_named : forall s k l, k <> THereDocStart -> J s -> J (push_named_token s k l).
  Proof.
    intros s k l Hk H. unfold J. cbn. unfold trivia. cbn. destruct k; auto; discriminate.
  Qed.
  Lemma J_ctx : forall s c, J s -> J (set_ctx s c). Proof. auto. Qed.
  Lemma J_skip : forall s, J s -> J (skip s). Proof. intros; now apply (K_skip s). Qed.
  Lemma J_adv : forall s k, k <> THereDocStart -> J s -> J (adv_push s k).
  Proof. intros s k Hk H. unfold adv_push. apply J_push; auto. now apply J_skip. Qed.

  Lemma J_line : forall n acc s s', line_comment_loop n acc s = SOk s' -> J s -> J s'.
  Proof.
    induction n as [|n IH]; intros acc s s'; cbn; [discriminate|].
    destruct (peek s) as [c|]; [|injection 1 as <-; apply J_named; discriminate].
    destruct ((c =? 10) || (c =? 13)); [injection 1 as <-; apply J_named; discriminate|].
    destruct (c =? 63).
    - destruct (peek_is (skip s) 62).
      + injection 1 as <-. intros HJ. apply J_ctx, J_push; [discriminate|]. apply J_named; [discriminate|]. now apply J_skip, J_skip.
      + intros H HJ. eapply IH; eauto. now apply J_skip.
    - pose proof (K_advance s) as [HK _]. destruct (advance s) as [[d|] s1]; [|discriminate]. cbn in HK. eauto.
  Qed.

  Lemma K_spaces : forall n s s', skip_spaces n s = SOk s' -> K s s'.
  Proof.
    induction n as [|n IH]; intros s s'; cbn; [discriminate|].
    destruct (peek_is s 32); [|injection 1 as <-; apply K_refl]. intros. eapply K_trans; [apply K_skip|eauto].
  Qed.

  Lemma J_here : forall s s', tokenize_here_doc s = SOk s' -> J s'.
  Proof.
    intros s s'. unfold tokenize_here_doc. destruct (skip_spaces _ s) as [s0| | |]; cbn [sbind]; try discriminate.
    destruct (if peek_is s0 34 then _ else _) as [[marker s1]| | |]; cbn [sbind]; try discriminate.
    destruct (heredoc_loop _ _ _ _ _ _) as [[[h l] s3]| | |]; cbn [sbind]; try discriminate.
    destruct (peek s3); [|discriminate]. injection 1 as <-. unfold J. cbn. discriminate.
  Qed.

  Lemma map_keyword_not : forall w t, map_keyword w = Some t -> t <> THereDocStart.
  Proof. intros w t H ->. apply map_keyword_some in H as [H _]. discriminate. Qed.

  Definition JP (r : sres Scn) : Prop := forall s', r = SOk s' -> J s'.

  Lemma JP_ok : forall s, J s -> JP (SOk s). Proof. intros s H s' E. now injection E as <-. Qed.
  Lemma JP_if : forall (b : bool) x y, JP x -> JP y -> JP (if b then x else y). Proof. now intros []. Qed.

  Lemma JP_word : forall c s, is_in_script (s_ctx s) = true -> J s -> JP (scan_word c s).
  Proof.
    intros c s Hc HJ s'. unfold scan_word. destruct (is_ident_char c); [|discriminate].
    unfold collect_identifier. destruct (collect_while _ _ _ _) as [[r s1]| | |] eqn:E; cbn [sbind]; try discriminate.
    apply K_collect_while in E as [HK Hx]. specialize (HK HJ).
    destruct (map_keyword (c :: r)) eqn:Em; [injection 1 as <-; apply J_push; auto; eapply map_keyword_not; eauto|].
    destruct (str_eqb _ _); [|injection 1 as <-; apply J_named; [discriminate|auto]].
    destruct (s_toks s1) as [|t rest] eqn:Et; [injection 1 as <-; apply J_named; [discriminate|auto]|].
    destruct (tt_eqb _ _); injection 1 as <-; [|apply J_named; [discriminate|auto]].
    unfold J, push_token. cbn [s_ctx set_toks]. rewrite Hx, Hc. cbn. discriminate.
  Qed.

  Lemma JP_close : forall s, is_in_script (s_ctx s) = true -> J s -> JP (close_parenthesis s).
  Proof.
    intros s Hc HJ. unfold close_parenthesis.
    assert (HP : JP (SOk (push_token s TCloseParenthesis))) by (apply JP_ok, J_push; [discriminate|auto]).
    destruct (s_toks s) as [|prev [|pos rest]]; auto; destruct (map_cast (t_type prev)) as [k|] eqn:Ek; auto.
    destruct (tt_eqb _ _); auto. unfold push_token. cbn [s_ctx set_toks]. rewrite Hc. cbn. apply JP_ok.
    unfold J. cbn. unfold trivia. cbn. destruct (t_type prev); cbn in Ek; try discriminate; injection Ek as <-; discriminate.
  Qed.

  Ltac col :=
    match goal with
    | |- JP (sbind ?m _) =>
        let E := fresh "E" in
        destruct m as [[? ?]| | |] eqn:E; cbn [sbind]; try (intros ? ?; discriminate)
    end.

  Lemma JP_number : forall c s, J s -> JP (scan_number c s).
  Proof.
    intros c s HJ. unfold scan_number, collect_hex_number, collect_binary_number, collect_number. repeat apply JP_if.
    - col. apply K_collect_while in E as [E _]. apply JP_ok, J_named; [discriminate|]. now apply E, J_skip.
    - col. apply K_collect_while in E as [E _]. apply JP_ok, J_named; [discriminate|]. now apply E, J_skip.
    - col. apply K_collect_while in E as [E _]. specialize (E HJ).
      destruct (peek_is s0 46).
      + destruct (collect_while _ _ _ (skip s0)) as [[d s2]| | |] eqn:E2; cbn [sbind]; try (intros ? ?; discriminate).
        apply K_collect_while in E2 as [E2 _]. specialize (E2 (J_skip _ E)). destruct (peek_is s2 101 || peek_is s2 69); [|apply JP_ok, J_named; [discriminate|auto]].
        assert (HX : forall nm, JP (let '(number, s4) := (if peek_is (skip s2) 45 then (nm ++ [45], skip (skip s2))
            else if peek_is (skip s2) 43 then (nm ++ [43], skip (skip s2)) else (nm, skip s2)) in
            slet (dec, s5) <- collect_while (fuel_of s4) is_digit [] s4 ;;
            SOk (push_named_token s5 TExponentialNumber (number ++ dec)))).
        { intros nm. destruct (peek_is (skip s2) 45); [|destruct (peek_is (skip s2) 43)]; col;
          match goal with HE : collect_while _ _ _ _ = SOk _ |- _ => apply K_collect_while in HE as [HE _] end;
          apply JP_ok, J_named; try discriminate; auto using J_skip. }
        apply HX.
      + cbn [sbind]. destruct (peek_is s0 101 || peek_is s0 69); [|apply JP_ok, J_named; [discriminate|auto]].
        assert (HX : forall nm, JP (let '(number, s4) := (if peek_is (skip s0) 45 then (nm ++ [45], skip (skip s0))
            else if peek_is (skip s0) 43 then (nm ++ [43], skip (skip s0)) else (nm, skip s0)) in
            slet (dec, s5) <- collect_while (fuel_of s4) is_digit [] s4 ;;
            SOk (push_named_token s5 TExponentialNumber (number ++ dec)))).
        { intros nm. destruct (peek_is (skip s0) 45); [|destruct (peek_is (skip s0) 43)]; col;
          match goal with HE : collect_while _ _ _ _ = SOk _ |- _ => apply K_collect_while in HE as [HE _] end;
          apply JP_ok, J_named; try discriminate; auto using J_skip. }
        apply HX.
  Qed.

  Ltac jj :=
    lazymatch goal with
    | |- J (set_ctx _ _) => apply J_ctx; jj
    | |- J (skip _) => apply J_skip; jj
    | |- J (adv_push _ _) => apply J_adv; [discriminate|jj]
    | |- J (push_token _ _) => apply J_push; [discriminate|jj]
    | |- J (push_named_token _ _ _) => apply J_named; [discriminate|jj]
    | |- J ?s => assumption
    end.

  Lemma JP_char : forall c s, (is_in_script (s_ctx s) = true \/ c = 60) -> J s -> JP (scan_char c s).
  Proof.
    intros c s Hc HJ. unfold scan_char, collect_identifier, collect_until_escaped, collect_number, consume_line_comment, collect_doc_comment_information.
    assert (Hs : (c =? 60) = false -> is_in_script (s_ctx s) = true).
    { intros E. destruct Hc as [Hc| ->]; [exact Hc|discriminate]. }
    clear Hc.
    repeat (cbv zeta; lazymatch goal with
      | |- JP (if is_digit _ then _ else _) => apply JP_if; [now apply JP_number|]
      | |- JP (if ?c =? ?n then _ else _) => let E := fresh "E" in destruct (c =? n) eqn:E
      | |- JP (if _ then _ else _) => apply JP_if
      | |- JP (SOk _) => apply JP_ok; jj
      | |- JP (tokenize_here_doc _) => intros ? ?; eapply J_here; eassumption
      | |- JP (line_comment_loop _ _ _) => intros ? ?; eapply J_line; [eassumption|]; now apply J_skip
      | |- JP (close_parenthesis _) => apply JP_close; auto
      | |- JP (scan_word _ _) => apply JP_word; auto
      | |- JP (sbind ?m _) =>
        let E := fresh "E" in
        destruct m as [[? ?]| | |] eqn:E; cbn [sbind]; try (intros ? ?; discriminate);
        first [apply K_collect_while in E as [E _] | apply K_until in E as [E _] | apply K_doc in E as [E _]];
        assert (J _) by (apply E; jj); clear E
      end).
    destruct l; apply JP_ok; jj.
  Qed.

  Lemma J_loop : forall n s s', scan_loop n s = SOk s' -> J s -> J s'.
  Proof.
    induction n as [|n IH]; intros s s'; cbn [scan_loop]; [discriminate|]. intros H HJ.
    pose proof (K_advance (set_start s)) as [HK _]. destruct (advance (set_start s)) as [[c|] s1]; cbn in HK.
    - destruct (negb (is_in_script (s_ctx s1)) && negb (c =? 60)) eqn:Eb; [apply IH in H; auto|].
      destruct (scan_char c s1) as [s2| | |] eqn:E; cbn [sbind] in H; try discriminate.
      apply IH in H; auto. apply JP_char in E; auto.
      destruct (is_in_script (s_ctx s1)); [now left|]. right. cbn in Eb. apply N.eqb_eq. now destruct (c =? 60).
    - injection H as <-. apply J_push; [discriminate|]. auto.
  Qed.
End Here.

(** in document order *)
Fixpoint here_followed (l : list Token) : Prop :=
  match l with
  | [] => True
  | t :: r => (t_type t = THereDocStart -> existsb (fun u => negb (trivia u)) r = true) /\ here_followed r
  end.

Theorem scan_here_followed `{RT : Runtime} : forall src ts, scan src = SOk ts -> here_followed ts.
Proof.
  intros src ts H. unfold scan in H. destruct (scan_state src) as [s| | |] eqn:E; cbn in H; try discriminate.
  injection H as <-. unfold scan_state in E. apply J_loop in E; [|exact I]. unfold J in E.
  revert E. generalize (s_toks s). intros l Hl. rewrite <- (rev_involutive l) in Hl. revert Hl. generalize (rev l). clear.
  induction l as [|t r IH]; intros H; cbn; auto.
  assert (Hr : lastok (rev r)).
  { cbn in H. revert H. generalize (rev r). clear. induction l as [|x l IH]; cbn; auto. destruct (trivia x); auto. }
  split; [|now apply IH]. intros Ht.
  destruct (existsb _ r) eqn:Ex; auto. exfalso. cbn in H.
  assert (Hn : Forall (fun u => trivia u = true) (rev r)).
  { apply Forall_rev, Forall_forall. intros x Hx. destruct (trivia x) eqn:Et; auto.
    assert (existsb (fun u => negb (trivia u)) r = true) by (apply existsb_exists; exists x; now rewrite Et). congruence. }
  clear - H Ht Hn. revert H Hn. generalize (rev r). induction l as [|x l IH]; cbn.
  - unfold trivia. rewrite Ht. congruence.
  - intros H Hn. inversion Hn; subst. rewrite H2 in H. auto.
Qed.
