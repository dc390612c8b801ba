(** Further facts about the scanner: fuel, HTML, literals, comments, and the
    rendering of tokens. *)

From Verif Require Import Base Token TokenFacts Scanner SpecScanner ScannerFacts ScannerCrlf.

Section More.
  Context {RT : Runtime}.

  Lemma scan_loop_mono : forall n m s, (n <= m)%nat -> scan_loop n s <> SFuel -> scan_loop m s = scan_loop n s.
  Proof.
    induction n; intros m s Hle H; [cbn in H; congruence|]. destruct m; [lia|]. cbn [scan_loop] in *. cbv zeta in *.
    destruct (advance (set_start s)) as [[c|] s1]; auto.
    destruct (negb (is_in_script (s_ctx s1)) && negb (c =? 60)).
    - apply IHn; [lia|auto].
    - destruct (scan_char c s1); cbn [sbind] in *; auto. apply IHn; [lia|auto].
  Qed.

  Lemma scan_fuel_irrelevant : forall src m, (List.length src < m)%nat ->
    scan_loop m (scanner_new src) = scan_state src.
  Proof.
    intros src m H. unfold scan_state. apply scan_loop_mono; [unfold fuel_of; cbn; lia|].
    pose proof (scan_state_spec src) as F. unfold scan_state in F. intros E. rewrite E in F. exact F.
  Qed.

  Lemma scan_cases : forall src,
    (exists ts, scan src = SOk ts) \/ (exists e, scan src = SErr e).
  Proof.
    intros src. unfold scan. pose proof (scan_state_spec src) as F.
    destruct (scan_state src) as [s|e| |]; cbn in *; try contradiction; [left|right]; eauto.
  Qed.

  Lemma scan_final : forall src ts, scan src = SOk ts ->
    exists s, scan_state src = SOk s /\ ts = rev (s_toks s) /\ At src src [] s /\ s_chars s = [].
  Proof.
    intros src ts H. unfold scan in H. pose proof (scan_state_spec src) as F.
    destruct (scan_state src) as [s|e| |]; cbn in *; try discriminate. injection H as <-.
    destruct F as (p & HA & Hch). exists s. splits; auto.
    pose proof (at_src _ _ _ _ HA) as E. rewrite Hch in E. cbn in E. rewrite app_nil_r in E. now subst p.
  Qed.

  Lemma toks_ok_forall : forall src ts b, toks_ok src b ts -> Forall (token_true src) ts.
  Proof. induction ts; intros b H; constructor; cbn in H; [tauto|]. eapply IHts; apply H. Qed.

  Lemma toks_ok_le : forall src ts b t, toks_ok src b ts -> In t ts -> pos_le (token_pos t) b.
  Proof.
    induction ts; intros b t H Hin; [destruct Hin|]. cbn in H. destruct H as (_ & H1 & _ & H2).
    destruct Hin as [->|Hin]; auto. eapply pos_le_trans; [eapply IHts; eauto|exact H1].
  Qed.

  Lemma toks_ok_nth : forall src ts b, toks_ok src b ts ->
    (forall i t, nth_error (rev ts) i = Some t -> t_offset t = Some (N.of_nat i))
    /\ (forall i j a c, (i <= j)%nat -> nth_error (rev ts) i = Some a -> nth_error (rev ts) j = Some c ->
          pos_le (token_pos a) (token_pos c)).
  Proof.
    induction ts as [|t ts IH]; intros b H.
    - split; intros; destruct i; discriminate.
    - cbn in H. destruct H as (_ & H1 & H2 & H3). destruct (IH _ H3) as [IH1 IH2]. cbn [rev].
      assert (Hlen : List.length (rev ts) = List.length ts) by apply rev_length.
      assert (Hlast : forall i x, nth_error (rev ts ++ [t]) i = Some x ->
                 (i < List.length ts)%nat /\ nth_error (rev ts) i = Some x \/ (i = List.length ts /\ x = t)).
      { intros i x Hi. destruct (Nat.lt_ge_cases i (List.length ts)).
        - left. split; auto. rewrite nth_error_app1 in Hi by lia. auto.
        - right. rewrite nth_error_app2 in Hi by lia. rewrite Hlen in Hi.
          destruct (i - List.length ts)%nat as [|k] eqn:Ek; cbn in Hi; [|destruct k; discriminate].
          injection Hi as <-. split; auto; lia. }
      split.
      + intros i x Hi. apply Hlast in Hi as [[_ Hi]|[-> ->]]; auto.
      + intros i j a c Hij Ha Hc. apply Hlast in Ha, Hc.
        destruct Ha as [[La Ha]|[-> ->]], Hc as [[Lc Hc]|[-> ->]].
        * eauto.
        * eapply toks_ok_le; eauto. apply in_rev. eapply nth_error_In; eauto.
        * lia.
        * apply pos_le_refl.
  Qed.

  (** * Text outside of tags *)
  Lemma push_out : forall s k, s_ctx s = OutScript -> push_token s k = s.
  Proof. intros s k H. unfold push_token. now rewrite H. Qed.

  Lemma skip_out : forall s, s_ctx s = OutScript -> s_ctx (skip s) = OutScript /\ s_toks (skip s) = s_toks s
     /\ exists w, s_chars s = w ++ s_chars (skip s).
  Proof.
    intros s H. unfold skip, advance. pose proof (advance_on_spec (s_chars s) s) as A.
    destruct (advance_on (s_chars s) s) as [[c|] s'].
    - destruct A as (_ & crs & _ & Hch & Hs). cbn [snd]. rewrite Hs at 1 2. cbn [s_ctx s_toks]. rewrite push_out by auto.
      splits; auto; [destruct (c =? 10); auto|]. exists (crs ++ [c]). rewrite Hch, <- app_assoc. reflexivity.
    - destruct A as (_ & ->). cbn. splits; auto. exists (s_chars s). now rewrite app_nil_r.
  Qed.

  Lemma html_loop : forall n s ts, s_ctx s = OutScript -> s_toks s = ts ->
    (List.length (s_chars s) < n)%nat ->
    ~ contains (lit "<?") (s_chars s) -> ~ contains (lit "<<<") (s_chars s) ->
    exists s', scan_loop n s = SOk s' /\ s_toks s' = ts.
  Proof.
    induction n; intros s ts Hc Ht Hn H1 H2; [lia|]. cbn [scan_loop]. cbv zeta.
    pose proof (advance_on_spec (s_chars s) (set_start s)) as A. unfold advance. cbn [set_start s_chars].
    fold (set_start s). destruct (advance_on (s_chars s) (set_start s)) as [[c|] s1].
    - destruct A as (_ & crs & _ & Hch & Hs).
      assert (Hc1 : s_ctx s1 = OutScript) by (rewrite Hs; exact Hc).
      assert (Ht1 : s_toks s1 = ts).
      { rewrite Hs. cbn. rewrite (push_out (set_start s)) by exact Hc. destruct (c =? 10); exact Ht. }
      assert (Hn1 : (List.length (s_chars s1) < n)%nat) by (rewrite Hch, app_length in Hn; cbn in Hn; lia).
      assert (H1c : ~ contains (lit "<?") (c :: s_chars s1)).
      { intros Hx. apply H1. rewrite Hch. now apply contains_app_r. }
      assert (H2c : ~ contains (lit "<<<") (c :: s_chars s1)).
      { intros Hx. apply H2. rewrite Hch. now apply contains_app_r. }
      assert (Hrec : forall s2 w, s_ctx s2 = OutScript -> s_toks s2 = ts -> c :: s_chars s1 = w ++ s_chars s2 -> w <> [] ->
                exists s', scan_loop n s2 = SOk s' /\ s_toks s' = ts).
      { intros s2 w Hc2 Ht2 Hw Hne. apply IHn; auto.
        - destruct w; [congruence|]. cbn in Hw. injection Hw as _ Hw. rewrite Hw, app_length in Hn1. lia.
        - intros Hx. apply H1c. rewrite Hw. now apply contains_app_r.
        - intros Hx. apply H2c. rewrite Hw. now apply contains_app_r. }
      rewrite Hc1. cbn [is_in_script negb andb].
      destruct (c =? 60) eqn:E60; cbn [negb].
      2:{ apply (Hrec s1 [c]); auto. discriminate. }
      apply N.eqb_eq in E60. subst c. unfold scan_char. cbn [N.eqb Pos.eqb orb].
      destruct (skip_out _ Hc1) as (Hc2 & Ht2 & w2 & Hw2).
      destruct (skip_out _ Hc2) as (Hc3 & Ht3 & w3 & Hw3).
      assert (Hr1 : exists s', scan_loop n s1 = SOk s' /\ s_toks s' = ts).
      { apply (Hrec s1 [60]); auto. discriminate. }
      assert (Hr2 : exists s', scan_loop n (skip s1) = SOk s' /\ s_toks s' = ts).
      { apply (Hrec (skip s1) (60 :: w2)); auto; [congruence| |discriminate]. cbn. now rewrite <- Hw2. }
      assert (Hr3 : exists s', scan_loop n (skip (skip s1)) = SOk s' /\ s_toks s' = ts).
      { apply (Hrec (skip (skip s1)) (60 :: w2 ++ w3)); auto; [congruence| |discriminate].
        cbn. rewrite <- app_assoc, <- Hw3. now rewrite <- Hw2. }
      destruct (peek_is s1 60) eqn:P60.
      { destruct (peek_is (skip s1) 60) eqn:P60'.
        - exfalso. apply H2c. rewrite (chars_skip_is _ _ P60 eq_refl), (chars_skip_is _ _ P60' eq_refl).
          exists [], (s_chars (skip (skip s1))). reflexivity.
        - destruct (peek_is (skip s1) 61); unfold adv_push; rewrite push_out by auto; exact Hr3 || exact Hr2. }
      destruct (peek_is s1 63) eqn:P63.
      { exfalso. apply H1c. rewrite (chars_skip_is _ _ P63 eq_refl). exists [], (s_chars (skip s1)). reflexivity. }
      destruct (peek_is s1 61) eqn:P61.
      { destruct (peek_is (skip s1) 62); unfold adv_push; rewrite push_out by auto; exact Hr3 || exact Hr2. }
      destruct (peek_is s1 62) eqn:P62; unfold adv_push; rewrite push_out by auto; exact Hr2 || exact Hr1.
    - destruct A as (_ & ->). eexists. split; [reflexivity|]. rewrite push_out; auto.
  Qed.

  (** * Literals and comments, one at a time *)

  Definition is_lb (t : Token) : Prop := t_type t = TLinebreak.

  Lemma advance_cons : forall s c r, s_chars s = c :: r -> c <> 13 ->
    exists s1 lbs, advance s = (Some c, s1) /\ s_chars s1 = r /\ s_ctx s1 = s_ctx s /\ s_start s1 = s_start s
      /\ s_toks s1 = lbs ++ s_toks s /\ Forall is_lb lbs /\ (c <> 10 -> lbs = []).
  Proof.
    intros s c r H Hc. unfold advance. rewrite H. cbn [advance_on].
    destruct (c =? 10) eqn:E10.
    - unfold push_token. destruct (is_in_script (s_ctx s)); eexists.
      + exists [token_new TLinebreak (fst (s_start s)) (snd (s_start s)) (N.of_nat (List.length (s_toks s)))].
        splits; cbn; auto; [constructor; auto; reflexivity|]. intros Hx. apply N.eqb_eq in E10. contradiction.
      + exists []. splits; cbn; auto; constructor.
    - destruct (c =? 13) eqn:E13; [apply N.eqb_eq in E13; contradiction|].
      eexists. exists []. splits; cbn; auto.
  Qed.

  Lemma skip_cons : forall s c r, s_chars s = c :: r -> c <> 13 ->
    exists lbs, s_chars (skip s) = r /\ s_ctx (skip s) = s_ctx s /\ s_start (skip s) = s_start s
      /\ s_toks (skip s) = lbs ++ s_toks s /\ Forall is_lb lbs /\ (c <> 10 -> lbs = []).
  Proof.
    intros s c r H Hc. destruct (advance_cons _ _ _ H Hc) as (s1 & lbs & E & ?). unfold skip. rewrite E. eauto.
  Qed.

  Lemma until_escaped_body : forall q body, quoted_body q body -> forall n acc s rest,
    q <> 92 -> q <> 13 -> q <> 10 -> ~ In 13 body ->
    s_chars s = body ++ q :: rest -> (List.length (s_chars s) < n)%nat ->
    exists s' lbs, until_escaped n q false acc s = SOk (rev acc ++ body, s')
      /\ s_chars s' = rest /\ s_ctx s' = s_ctx s /\ s_start s' = s_start s
      /\ s_toks s' = lbs ++ s_toks s /\ Forall is_lb lbs.
  Proof.
    intros q body Hb. induction Hb as [|c r Hcq Hc92 Hb IH|c r Hb IH]; intros n acc s rest Hq92 Hq13 Hq10 H13 Hch Hn;
      (destruct n; [lia|]); cbn [until_escaped].
    - cbn in Hch. destruct (advance_cons _ _ _ Hch Hq13) as (s1 & lbs & E & A1 & A2 & A3 & A4 & A5 & _).
      rewrite E. apply N.eqb_neq in Hq92. rewrite Hq92, N.eqb_refl. cbn. exists s1, lbs. splits; auto.
      now rewrite app_nil_r.
    - cbn in Hch. assert (Hc13 : c <> 13) by (intros ->; apply H13; left; auto).
      destruct (advance_cons _ _ _ Hch Hc13) as (s1 & lbs & E & A1 & A2 & A3 & A4 & A5 & _).
      rewrite E. apply N.eqb_neq in Hc92, Hcq. rewrite Hc92, Hcq. cbn [andb].
      destruct (IH n (c :: acc) s1 rest) as (s' & l2 & E2 & B1 & B2 & B3 & B4 & B5); auto.
      { intros Hx. apply H13. right; auto. } { rewrite Hch in Hn. rewrite A1. cbn in Hn. lia. }
      exists s', (l2 ++ lbs). rewrite E2. cbn [rev]. rewrite <- app_assoc. splits; auto; try congruence.
      + rewrite B4, A4. now rewrite app_assoc.
      + apply Forall_app; auto.
    - cbn in Hch. destruct (advance_cons _ _ _ Hch ltac:(lia)) as (s1 & lbs & E & A1 & A2 & A3 & A4 & A5 & _).
      rewrite E. cbn [N.eqb Pos.eqb negb]. assert (Hc13 : c <> 13) by (intros ->; apply H13; right; left; auto).
      destruct n; [rewrite Hch in Hn; cbn in Hn; lia|]. cbn [until_escaped].
      destruct (advance_cons _ _ _ A1 Hc13) as (s2 & l2 & E2 & B1 & B2 & B3 & B4 & B5 & _). rewrite E2.
      destruct (IH n (c :: 92 :: acc) s2 rest) as (s' & l3 & E3 & C1 & C2 & C3 & C4 & C5); auto.
      { intros Hx. apply H13. right; right; auto. } { rewrite Hch in Hn. rewrite B1. cbn in Hn. lia. }
      assert (Hres : SOk (rev (c :: 92 :: acc) ++ r, s') = SOk (rev acc ++ 92 :: c :: r, s')).
      { cbn [rev]. now rewrite <- !app_assoc. }
      exists s', (l3 ++ l2 ++ lbs). rewrite <- Hres.
      splits; try congruence.
      + destruct (c =? 92) eqn:E92; [cbn [negb]; exact E3|]. cbn [negb]. rewrite andb_false_r. exact E3.
      + rewrite C4, B4, A4. now rewrite !app_assoc.
      + repeat (apply Forall_app; split); auto.
  Qed.

  Lemma line_comment_body : forall body n acc s rest,
    ~ In 10 body -> ~ In 13 body -> ~ contains (lit "?>") body ->
    s_chars s = body ++ rest -> (List.length (s_chars s) < n)%nat ->
    (forall r, rest <> 62 :: r) ->
    (rest = [] \/ (exists r, rest = 10 :: r \/ rest = 13 :: r) ->
     exists s', line_comment_loop n acc s = SOk s' /\ s_chars s' = rest /\ s_ctx s' = s_ctx s
       /\ s_toks s' = token_named TLineComment (fst (s_start s)) (snd (s_start s))
                        (N.of_nat (List.length (s_toks s))) (rev acc ++ body) :: s_toks s)
    /\ (forall r, rest = 63 :: 62 :: r -> s_ctx s = InScript ->
     exists s', line_comment_loop n acc s = SOk s' /\ s_chars s' = r /\ s_ctx s' = OutScript
       /\ exists t, t_type t = TScriptEnd /\ s_toks s' = t ::
                       token_named TLineComment (fst (s_start s)) (snd (s_start s))
                        (N.of_nat (List.length (s_toks s))) (rev acc ++ body) :: s_toks s).
  Proof.
    induction body as [|c body IH]; intros n acc s rest H10 H13 Hend Hch Hn Hgt; (destruct n; [lia|]);
      cbn [line_comment_loop]; unfold peek; rewrite Hch.
    - cbn [app]. rewrite app_nil_r. split.
      + intros [->|(r & [->| ->])]; cbn; eexists; splits; eauto.
      + intros r -> Hctx. cbn in Hch. cbn [hd_error N.eqb Pos.eqb orb].
        destruct (skip_cons _ _ _ Hch ltac:(lia)) as (lb & A1 & A2 & A3 & A4 & _ & A5).
        rewrite (A5 ltac:(lia)) in A4. cbn in A4.
        assert (P : peek_is (skip s) 62 = true) by (unfold peek_is, peek; rewrite A1; reflexivity).
        rewrite P. destruct (skip_cons _ _ _ A1 ltac:(lia)) as (lb2 & B1 & B2 & B3 & B4 & _ & B5).
        rewrite (B5 ltac:(lia)) in B4. cbn in B4.
        assert (I : is_in_script (s_ctx (skip (skip s))) = true) by (rewrite B2, A2, Hctx; reflexivity).
        eexists. splits; [reflexivity| | |].
        * cbn. rewrite chars_push. exact B1.
        * reflexivity.
        * unfold push_token. cbn [s_ctx push_named_token set_toks]. rewrite I. cbn [set_ctx s_toks set_toks push_named_token].
          rewrite B4, A4, B3, A3. eexists. split; [|reflexivity]. reflexivity.
    - cbn [app hd_error].
      assert (Hc10 : (c =? 10) = false) by (apply N.eqb_neq; intros ->; apply H10; left; auto).
      assert (Hc13 : (c =? 13) = false) by (apply N.eqb_neq; intros ->; apply H13; left; auto).
      rewrite Hc10, Hc13. cbn [orb]. cbn in Hch.
      pose proof (advance_cons _ _ _ Hch ltac:(now apply N.eqb_neq)) as (s1 & lb & E & A1 & A2 & A3 & A4 & _ & A5).
      rewrite (A5 ltac:(now apply N.eqb_neq)) in A4. cbn in A4.
      assert (Hs1 : skip s = s1) by (unfold skip; now rewrite E).
      assert (R : (if c =? 63 then
            (let s1 := skip s in if peek_is s1 62 then 
              (let s2 := skip s1 in let s3 := push_token (push_named_token s2 TLineComment (rev acc)) TScriptEnd in
               SOk (set_ctx s3 OutScript)) else line_comment_loop n (63 :: acc) s1)
          else match advance s with (Some d, s1) => line_comment_loop n (d :: acc) s1 | (None, _) => SPanic end)
          = line_comment_loop n (c :: acc) s1).
      { rewrite E. cbv zeta. rewrite Hs1. destruct (c =? 63) eqn:E63; auto. apply N.eqb_eq in E63. subst c.
        unfold peek_is, peek. rewrite A1. destruct body as [|d body]; cbn.
        - destruct rest as [|d r]; cbn; auto. destruct (d =? 62) eqn:Ed; auto. apply N.eqb_eq in Ed. subst d.
          exfalso. eapply Hgt; reflexivity.
        - destruct (d =? 62) eqn:Ed; auto. apply N.eqb_eq in Ed. subst d. exfalso. apply Hend. exists [], body. reflexivity. }
      cbv zeta in R |- *. rewrite R.
      destruct (IH n (c :: acc) s1 rest) as [I1 I2]; auto.
      { intros Hx; apply H10; right; auto. } { intros Hx; apply H13; right; auto. }
      { intros Hx. apply Hend. now apply (contains_app_r _ [c]). }
      { rewrite Hch in Hn. rewrite A1. cbn in Hn. lia. }
      rewrite A4, A3, A2 in I1. rewrite A4, A3, A2 in I2. cbn [rev] in I1, I2. rewrite <- app_assoc in I1, I2. cbn [app] in I1, I2. split; auto.
  Qed.

  Lemma doc_comment_body : forall body n acc s rest,
    ~ In 13 body -> ~ contains (lit "*/") body ->
    s_chars s = body ++ lit "*/" ++ rest -> (List.length (s_chars s) < n)%nat ->
    exists s' lbs, doc_comment_loop n acc s = SOk (rev acc ++ body, s')
      /\ s_chars s' = rest /\ s_ctx s' = s_ctx s /\ s_start s' = s_start s
      /\ s_toks s' = lbs ++ s_toks s /\ Forall is_lb lbs.
  Proof.
    induction body as [|c body IH]; intros n acc s rest H13 Hend Hch Hn; (destruct n; [lia|]); cbn [doc_comment_loop].
    - cbn in Hch. destruct (advance_cons _ _ _ Hch ltac:(lia)) as (s1 & lbs & E & A1 & A2 & A3 & A4 & A5 & _).
      rewrite E. cbn [N.eqb Pos.eqb andb].
      assert (P : peek_is s1 47 = true) by (unfold peek_is, peek; rewrite A1; reflexivity). rewrite P.
      destruct (skip_cons _ _ _ A1 ltac:(lia)) as (lb2 & B1 & B2 & B3 & B4 & B5 & _).
      exists (skip s1), (lb2 ++ lbs). rewrite app_nil_r. splits; auto; try congruence.
      + rewrite B4, A4. now rewrite app_assoc.
      + apply Forall_app; auto.
    - cbn [app] in Hch. assert (Hc13 : c <> 13) by (intros ->; apply H13; left; auto).
      destruct (advance_cons _ _ _ Hch Hc13) as (s1 & lbs & E & A1 & A2 & A3 & A4 & A5 & _). rewrite E.
      assert (P : (c =? 42) && peek_is s1 47 = false).
      { destruct (c =? 42) eqn:E42; auto. cbn [andb]. apply N.eqb_eq in E42. subst c.
        unfold peek_is, peek. rewrite A1. destruct body as [|d body]; cbn; auto.
        destruct (d =? 47) eqn:Ed; auto. apply N.eqb_eq in Ed. subst d. exfalso. apply Hend. exists [], body. reflexivity. }
      rewrite P. destruct (IH n (c :: acc) s1 rest) as (s' & l2 & E2 & B1 & B2 & B3 & B4 & B5); auto.
      { intros Hx; apply H13; right; auto. } { intros Hx. apply Hend. now apply (contains_app_r _ [c]). }
      { rewrite Hch in Hn. rewrite A1. cbn [List.length] in Hn. lia. }
      exists s', (l2 ++ lbs). rewrite E2. cbn [rev]. rewrite <- app_assoc. splits; auto; try congruence.
      + rewrite B4, A4. now rewrite app_assoc.
      + apply Forall_app; auto.
  Qed.

  (** One round of the main loop inside a script *)
  Lemma scan_loop_char : forall n s c r, s_ctx s = InScript -> s_chars s = c :: r -> c <> 13 -> c <> 10 ->
    exists s1, scan_loop (S n) s = (slet s2 <- scan_char c s1 ;; scan_loop n s2)
      /\ s_chars s1 = r /\ s_ctx s1 = InScript /\ s_start s1 = (s_line s, s_col s) /\ s_toks s1 = s_toks s.
  Proof.
    intros n s c r Hctx Hch H13 H10. cbn [scan_loop]. cbv zeta.
    destruct (advance_cons (set_start s) c r Hch H13) as (s1 & lbs & E & A1 & A2 & A3 & A4 & _ & A5).
    rewrite (A5 H10) in A4. cbn in A2, A3, A4. exists s1. rewrite E, A2, Hctx. cbn [is_in_script negb andb].
    splits; auto; congruence.
  Qed.

  Definition quote_kind (q : char) (k : TokenType) : Prop :=
    (q = 39 /\ k = TConstantEncapsedString) \/ (q = 96 /\ k = TShellEscape)
    \/ (q = 34 /\ k = TEncapsedAndWhitespaceString).

  Lemma scan_quoted : forall n s q k body rest,
    quote_kind q k -> s_ctx s = InScript -> quoted_body q body -> ~ In 13 body ->
    s_chars s = q :: body ++ q :: rest ->
    exists s' lbs t, scan_loop (S n) s = scan_loop n s' /\ s_chars s' = rest /\ s_ctx s' = InScript
      /\ s_toks s' = t :: lbs ++ s_toks s /\ Forall is_lb lbs
      /\ t_type t = k /\ t_label t = Some body /\ token_pos t = (s_line s, s_col s).
  Proof.
    intros n s q k body rest Hq Hctx Hb H13 Hch.
    assert (Hq3 : q <> 13 /\ q <> 10 /\ q <> 92) by (destruct Hq as [[-> _]|[[-> _]|[-> _]]]; lia).
    destruct Hq3 as (Q1 & Q2 & Q3).
    destruct (scan_loop_char n s q _ Hctx Hch Q1 Q2) as (s1 & E & A1 & A2 & A3 & A4).
    destruct (until_escaped_body q body Hb (fuel_of s1) [] s1 rest Q3 Q1 Q2 H13 A1) as (s2 & lbs & E2 & B1 & B2 & B3 & B4 & B5).
    { unfold fuel_of. lia. }
    assert (C : scan_char q s1 = SOk (push_named_token s2 k body)).
    { unfold scan_char. destruct Hq as [[-> ->]|[[-> ->]|[-> ->]]]; cbn [N.eqb Pos.eqb orb is_digit];
        unfold collect_until_escaped; rewrite E2; reflexivity. }
    eexists. exists lbs. eexists. rewrite E, C. cbn [sbind]. splits; [reflexivity|..].
    - exact B1.
    - cbn. congruence.
    - cbn. rewrite B4, A4. reflexivity.
    - exact B5.
    - reflexivity.
    - reflexivity.
    - unfold token_pos. cbn. rewrite B3, A3. reflexivity.
  Qed.

  Lemma scan_line_comment : forall n s body rest intro,
    s_ctx s = InScript -> ~ In 10 body -> ~ In 13 body -> ~ contains (lit "?>") body ->
    (intro = lit "//" \/ exists x, intro = [35; x] /\ x <> 91 /\ x <> 10 /\ x <> 13) ->
    s_chars s = intro ++ body ++ rest ->
    (rest = [] \/ (exists r, rest = 10 :: r \/ rest = 13 :: r) ->
      exists s' t, scan_loop (S n) s = scan_loop n s' /\ s_chars s' = rest /\ s_ctx s' = InScript
        /\ s_toks s' = t :: s_toks s /\ t_type t = TLineComment /\ t_label t = Some body
        /\ token_pos t = (s_line s, s_col s))
    /\ (forall r, rest = lit "?>" ++ r ->
      exists s' e t, scan_loop (S n) s = scan_loop n s' /\ s_chars s' = r /\ s_ctx s' = OutScript
        /\ s_toks s' = e :: t :: s_toks s /\ t_type e = TScriptEnd /\ t_type t = TLineComment /\ t_label t = Some body
        /\ token_pos t = (s_line s, s_col s)).
  Proof.
    intros n s body rest intro Hctx H10 H13 Hend Hin Hch.
    assert (S1 : exists s1, scan_loop (S n) s = (slet s2 <- line_comment_loop (fuel_of s1) [] s1 ;; scan_loop n s2)
       /\ s_chars s1 = body ++ rest /\ s_ctx s1 = InScript /\ s_start s1 = (s_line s, s_col s) /\ s_toks s1 = s_toks s).
    { destruct Hin as [->|(x & -> & X1 & X2 & X3)].
      - change (s_chars s = 47 :: 47 :: body ++ rest) in Hch. destruct (scan_loop_char n s _ _ Hctx Hch ltac:(lia) ltac:(lia)) as (s1 & E & A1 & A2 & A3 & A4).
        destruct (skip_cons s1 _ _ A1 ltac:(lia)) as (lb & B1 & B2 & B3 & B4 & _ & B5).
        rewrite (B5 ltac:(lia)) in B4. exists (skip s1). splits; try congruence.
        + rewrite E. unfold scan_char. cbn [N.eqb Pos.eqb orb].
          assert (P : peek_is s1 47 = true) by (unfold peek_is, peek; rewrite A1; reflexivity). now rewrite P.
        + rewrite B4. exact A4.
      - change (s_chars s = 35 :: x :: body ++ rest) in Hch. destruct (scan_loop_char n s _ _ Hctx Hch ltac:(lia) ltac:(lia)) as (s1 & E & A1 & A2 & A3 & A4).
        destruct (skip_cons s1 _ _ A1 X3) as (lb & B1 & B2 & B3 & B4 & _ & B5).
        rewrite (B5 X2) in B4. exists (skip s1). splits; try congruence.
        + rewrite E. unfold scan_char. cbn [N.eqb Pos.eqb orb].
          assert (P : peek_is s1 91 = false) by (unfold peek_is, peek; rewrite A1; cbn; now apply N.eqb_neq). now rewrite P.
        + rewrite B4. exact A4. }
    destruct S1 as (s1 & E & A1 & A2 & A3 & A4).
    split.
    - intros Hr. destruct (line_comment_body body (fuel_of s1) [] s1 rest H10 H13 Hend A1) as [I1 _]; auto.
      { intros r ->. destruct Hr as [|(r0 & [|])]; discriminate. }
      destruct (I1 Hr) as (s2 & E2 & B1 & B2 & B3). eexists. eexists. rewrite E, E2. cbn [sbind].
      splits; [reflexivity|exact B1|congruence|rewrite B3, A4; reflexivity|reflexivity|reflexivity|].
      unfold token_pos; cbn. now rewrite A3.
    - intros r ->. destruct (line_comment_body body (fuel_of s1) [] s1 _ H10 H13 Hend A1) as [_ I2]; auto.
      { intros r'; discriminate. }
      destruct (I2 r eq_refl A2) as (s2 & E2 & B1 & B2 & e & Et & B3). do 3 eexists. rewrite E, E2. cbn [sbind].
      splits; [reflexivity|exact B1|exact B2|rewrite B3, A4; reflexivity|exact Et|reflexivity|reflexivity|].
      unfold token_pos; cbn. now rewrite A3.
  Qed.

  Lemma scan_block_comment : forall n s body rest,
    s_ctx s = InScript -> ~ In 13 body -> ~ contains (lit "*/") body ->
    s_chars s = lit "/*" ++ body ++ lit "*/" ++ rest ->
    exists s' lbs t, scan_loop (S n) s = scan_loop n s' /\ s_chars s' = rest /\ s_ctx s' = InScript
      /\ s_toks s' = t :: lbs ++ s_toks s /\ Forall is_lb lbs
      /\ t_type t = TMultilineComment /\ t_label t = Some body /\ token_pos t = (s_line s, s_col s).
  Proof.
    intros n s body rest Hctx H13 Hend Hch.
    change (lit "/*" ++ body ++ lit "*/" ++ rest) with (47 :: 42 :: body ++ lit "*/" ++ rest) in Hch.
    destruct (scan_loop_char n s _ _ Hctx Hch ltac:(lia) ltac:(lia)) as (s1 & E & A1 & A2 & A3 & A4).
    destruct (skip_cons s1 _ _ A1 ltac:(lia)) as (lb & B1 & B2 & B3 & B4 & _ & B5).
    rewrite (B5 ltac:(lia)) in B4. cbn in B4.
    destruct (doc_comment_body body (fuel_of (skip s1)) [] (skip s1) rest H13 Hend B1) as (s2 & lbs & E2 & C1 & C2 & C3 & C4 & C5).
    { unfold fuel_of. lia. }
    assert (P : peek_is s1 47 = false /\ peek_is s1 42 = true) by (unfold peek_is, peek; rewrite A1; split; reflexivity).
    destruct P as [P1 P2].
    eexists. exists lbs. eexists. rewrite E. unfold scan_char. cbn [N.eqb Pos.eqb orb]. rewrite P1, P2.
    unfold collect_doc_comment_information. rewrite E2. cbn [sbind].
    splits; [reflexivity|exact C1|cbn; congruence|cbn; rewrite C4, B4, A4; reflexivity|exact C5|reflexivity|reflexivity|].
    unfold token_pos. cbn. rewrite C3, B3, A3. reflexivity.
  Qed.

  (** * Rendering *)

  Lemma lines_nonempty : forall s, s <> [] -> lines s <> [].
  Proof.
    intros s H. unfold lines. assert (G : forall s cur, (s <> [] \/ cur <> []) -> split_nl s cur <> []).
    { induction s0 as [|c r IH]; intros cur Hc; cbn.
      - destruct Hc as [|]; [congruence|]. destruct cur; [congruence|discriminate].
      - destruct (c =? 10); [discriminate|]. apply IH. right. discriminate. }
    apply G. auto.
  Qed.

  Lemma token_end_some : forall t me, display_token t = Some me -> (t_label t = None \/ me <> []) ->
    exists e, token_end t = Some e.
  Proof.
    intros t me Hd H. unfold token_end. rewrite Hd. destruct (t_label t) as [l|]; [|eauto].
    destruct H as [|H]; [discriminate|]. destruct (Nat.eqb _ 1); [eauto|].
    pose proof (lines_nonempty _ H) as Hl. destruct (rev (lines me)) eqn:E; [|eauto].
    exfalso. apply Hl. rewrite <- (rev_involutive (lines me)), E. reflexivity.
  Qed.

  Lemma fixed_displayable :
    forallb (fun k => negb (fixed_kind k) || match spellings k with [] => true | _ => is_some (display_type k) end)
      all_types = true.
  Proof. vm_compute. reflexivity. Qed.

  Lemma app_mid_ne : forall (a b c : str), b <> [] -> a ++ b ++ c <> [].
  Proof. intros a b c H E. apply app_eq_nil in E as [_ E]. apply app_eq_nil in E as [E _]. contradiction. Qed.

  Lemma token_true_end : forall src t, token_true src t ->
    ~ (t_type t = THereDocEnd /\ t_label t = Some []) -> exists e, token_end t = Some e.
  Proof.
    intros src t (b & lex & r & _ & _ & Hs) Hx.
    destruct (fixed_kind (t_type t)) eqn:Ef.
    - destruct t as [c l k lab o]. cbn [t_type] in *. pose proof (spelled_fixed_inv _ _ _ _ _ _ _ Ef Hs) as Hin.
      assert (lab = None).
      { destruct k; cbn -[to_lowercase spellings] in Hs; try discriminate Ef; tauto. }
      subst lab. pose proof fixed_displayable as F. rewrite forallb_forall in F.
      specialize (F k (all_types_complete k)). rewrite Ef in F. cbn [negb orb] in F.
      destruct (spellings k); [destruct Hin|]. destruct (display_type k) as [d|] eqn:Ed; [|discriminate].
      eapply token_end_some with (me := d); [exact Ed|]. left; reflexivity.
    - destruct t as [c l k lab o]. cbn [t_type t_label] in *. unfold spelled in Hs. cbn [t_type t_label] in Hs.
      assert (D : exists me, display_token (mkToken c l k lab o) = Some me /\ (lab = None \/ me <> [])).
      { destruct k; try discriminate Ef; unfold display_token; cbn [t_label t_type];
          repeat match goal with
          | H : exists _, _ |- _ => destruct H
          | H : _ /\ _ |- _ => destruct H
          | H : _ \/ _ |- _ => destruct H
          end; subst; try (eexists; split; [reflexivity|left; reflexivity]);
          try (eexists; split; [reflexivity|right; discriminate]);
          try (match goal with H : ?a <> [] |- context [map ascii_lower (?a ++ _)] => destruct a; [congruence|] end;
               eexists; split; [reflexivity|right; discriminate]).
        - destruct lab; eexists; split; try reflexivity; [right; discriminate|left; reflexivity].
        - eexists; split; [reflexivity|right; assumption].
        - eexists; split; [reflexivity|right]. destruct x; discriminate.
        - eexists; split; [reflexivity|right; assumption].
        - destruct lab; [|discriminate]. eexists; split; [reflexivity|right; discriminate].
        - destruct lab; [|discriminate]. eexists; split; [reflexivity|right; discriminate].
        - destruct lab; [|discriminate]. eexists; split; [reflexivity|right]. intros ->. apply Hx. split; reflexivity. }
      destruct D as (me & D1 & D2). eapply token_end_some; eauto.
  Qed.
End More.
