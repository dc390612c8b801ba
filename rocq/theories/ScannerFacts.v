(** Proofs about the scanner model: termination, positions, spelling. *)

From Verif Require Import Base Token TokenFacts Scanner SpecScanner.

Lemma pos_of_app : forall a b, pos_of (a ++ b) = fold_left pos_step b (pos_of a).
Proof. intros. unfold pos_of. now rewrite fold_left_app. Qed.

Lemma pos_step_crs : forall crs p, (forall c, In c crs -> c = 13) -> fold_left pos_step crs p = p.
Proof.
  induction crs as [|c crs IH]; intros p H; simpl; auto.
  rewrite (H c) by (left; auto). rewrite IH by (intros; apply H; right; auto).
  destruct p; reflexivity.
Qed.

Lemma pos_of_crs : forall a crs, (forall c, In c crs -> c = 13) -> pos_of (a ++ crs) = pos_of a.
Proof. intros. rewrite pos_of_app. now apply pos_step_crs. Qed.

Lemma pos_le_refl : forall p, pos_le p p.
Proof. intros [a b]; unfold pos_le; simpl; lia. Qed.
Lemma pos_le_trans : forall a b c, pos_le a b -> pos_le b c -> pos_le a c.
Proof. intros [a1 a2] [b1 b2] [c1 c2]; unfold pos_le; simpl; lia. Qed.
Lemma pos_step_le : forall p c, pos_le p (pos_step p c).
Proof. intros [l k] c; unfold pos_le, pos_step. destruct (c =? 10); [|destruct (c =? 13)]; simpl; lia. Qed.
Lemma pos_fold_le : forall b p, pos_le p (fold_left pos_step b p).
Proof.
  induction b; intros; simpl; [apply pos_le_refl|].
  eapply pos_le_trans; [apply pos_step_le|apply IHb].
Qed.
Lemma pos_of_le : forall a b, pos_le (pos_of a) (pos_of (a ++ b)).
Proof. intros. rewrite pos_of_app. apply pos_fold_le. Qed.

Lemma str_eqb_eq : forall a b, str_eqb a b = true <-> a = b.
Proof.
  induction a; destruct b; simpl; split; intros; try congruence; auto.
  - apply andb_true_iff in H as [H1 H2]. apply N.eqb_eq in H1. apply IHa in H2. congruence.
  - inversion H; subst. rewrite N.eqb_refl. simpl. now apply IHa.
Qed.

Definition crs_only (l : str) : Prop := forall c, In c l -> c = 13.

Lemma no_cr_crs : forall l, crs_only l -> no_cr l = [].
Proof.
  induction l; intros; simpl; auto. rewrite (H a) by (left; auto). simpl. apply IHl.
  intros c Hc; apply H; right; auto.
Qed.
Lemma no_cr_app : forall a b, no_cr (a ++ b) = no_cr a ++ no_cr b.
Proof. intros; apply filter_app. Qed.

Ltac splits := repeat match goal with |- _ /\ _ => split end.

Ltac at_exact H :=
  let e := fresh in pose proof H as e;
  repeat first [rewrite <- app_assoc in e | progress cbn [app] in e];
  repeat first [rewrite <- app_assoc | progress cbn [app]]; exact e.

(** * Taking a character *)

Lemma advance_on_spec : forall cs s,
  match advance_on cs s with
  | (None, s') =>
      crs_only cs /\ s' = mkScn (s_col s) (s_start s) (s_line s) (s_ctx s) (s_toks s) []
  | (Some c, s') =>
      c <> 13 /\ exists crs, crs_only crs /\ cs = crs ++ c :: s_chars s' /\
      s' = mkScn (snd (pos_step (s_line s, s_col s) c)) (s_start s)
             (fst (pos_step (s_line s, s_col s) c)) (s_ctx s)
             (if c =? 10 then s_toks (push_token s TLinebreak) else s_toks s) (s_chars s')
  end.
Proof.
  induction cs as [|c r IH]; intros s; cbn [advance_on].
  - split; auto. intros c [].
  - destruct (c =? 10) eqn:E1.
    + apply N.eqb_eq in E1; subst. split; [lia|]. exists []. simpl. splits; auto. intros c [].
    + destruct (c =? 13) eqn:E2.
      * apply N.eqb_eq in E2; subst. specialize (IH s).
        destruct (advance_on r s) as [[d|] s'].
        -- destruct IH as (Hd & crs & Hc & He & Hs). split; auto. exists (13 :: crs).
           split; [intros x [<-|Hx]; auto|]. split; auto. simpl. now f_equal.
        -- destruct IH as [Hc Hs]. split; auto. intros x [<-|Hx]; auto.
      * split; [now apply N.eqb_neq in E2|]. exists []. cbn. rewrite E1, E2. splits; auto. intros x [].
Qed.

Section Inv.
  Context {RT : Runtime}.
  Variable src : str.

  (** Newest token first; [bound] is a position no token lies behind. *)
  Fixpoint toks_ok (bound : N * N) (ts : list Token) : Prop :=
    match ts with
    | [] => True
    | t :: r => token_true src t /\ pos_le (token_pos t) bound
                /\ t_offset t = Some (N.of_nat (List.length r)) /\ toks_ok (token_pos t) r
    end.

  Lemma toks_ok_mono : forall ts a b, pos_le a b -> toks_ok a ts -> toks_ok b ts.
  Proof.
    destruct ts; simpl; intros; auto. destruct H0 as (?&?&?&?). splits; auto.
    eapply pos_le_trans; eauto.
  Qed.

  (** The scanner is in the middle of a lexeme: it started behind [p] and has
      read [lex] since. *)
  Record At (p lex : str) (s : Scn) : Prop := {
    at_src : src = p ++ lex ++ s_chars s;
    at_start : s_start s = pos_of p;
    at_pos : (s_line s, s_col s) = pos_of (p ++ lex);
    at_toks : toks_ok (pos_of p) (s_toks s)
  }.

  Lemma At_toks : forall p lex s ts, At p lex s -> toks_ok (pos_of p) ts -> At p lex (set_toks s ts).
  Proof. intros p lex s ts [] H. constructor; auto. Qed.

  Lemma At_ctx : forall p lex s c, At p lex s -> At p lex (set_ctx s c).
  Proof. intros p lex s c []. constructor; auto. Qed.

  Lemma At_push_gen : forall p lex s k l before lex' rest,
    At p lex s ->
    src = before ++ lex' ++ rest -> pos_of before = pos_of p ->
    spelled (mkToken (snd (pos_of p)) (fst (pos_of p)) k l (Some (N.of_nat (List.length (s_toks s))))) lex' rest ->
    toks_ok (pos_of p) (mkToken (snd (pos_of p)) (fst (pos_of p)) k l
                          (Some (N.of_nat (List.length (s_toks s)))) :: s_toks s).
  Proof.
    intros p lex s k l before lex' rest HA Hs Hp Hsp.
    assert (Hpos: (fst (pos_of p), snd (pos_of p)) = pos_of p) by (destruct (pos_of p); auto).
    cbn [toks_ok]. unfold token_pos; cbn [t_line t_col t_offset]. rewrite Hpos. split; [|split; [|split]].
    - exists before, lex', rest. unfold token_pos; cbn [t_line t_col]. rewrite Hpos. splits; auto.
    - apply pos_le_refl.
    - reflexivity.
    - apply HA.
  Qed.

  Lemma At_push_named : forall p lex s k l before lex' rest,
    At p lex s ->
    src = before ++ lex' ++ rest -> pos_of before = pos_of p ->
    spelled (mkToken (snd (pos_of p)) (fst (pos_of p)) k (Some l) (Some (N.of_nat (List.length (s_toks s))))) lex' rest ->
    At p lex (push_named_token s k l).
  Proof.
    intros. apply At_toks; auto. unfold token_named. rewrite (at_start _ _ _ H).
    eapply At_push_gen; eauto.
  Qed.

  Lemma At_push_token : forall p lex s k before lex' rest,
    At p lex s ->
    src = before ++ lex' ++ rest -> pos_of before = pos_of p ->
    spelled (mkToken (snd (pos_of p)) (fst (pos_of p)) k None (Some (N.of_nat (List.length (s_toks s))))) lex' rest ->
    At p lex (push_token s k).
  Proof.
    intros. unfold push_token. destruct (is_in_script (s_ctx s)); auto.
    apply At_toks; auto. unfold token_new. rewrite (at_start _ _ _ H). eapply At_push_gen; eauto.
  Qed.

  (** a token with a fixed spelling *)
  Lemma At_push_fixed : forall p lex s k,
    At p lex s ->
    (forall o c l, spelled (mkToken c l k None o) lex (s_chars s)) ->
    At p lex (push_token s k).
  Proof. intros. eapply At_push_token; eauto. apply H. Qed.

  Lemma At_linebreak : forall p lex s, At p lex s -> At p lex (push_token s TLinebreak).
  Proof. intros. eapply At_push_fixed; eauto. reflexivity. Qed.

  Lemma At_advance : forall p lex s,
    At p lex s ->
    match advance s with
    | (Some c, s') => exists crs, crs_only crs /\ c <> 13 /\ At p (lex ++ crs ++ [c]) s'
        /\ s_chars s = crs ++ c :: s_chars s' /\ s_ctx s' = s_ctx s
    | (None, s') => crs_only (s_chars s) /\ At p (lex ++ s_chars s) s' /\ s_chars s' = []
        /\ s_toks s' = s_toks s /\ s_ctx s' = s_ctx s /\ s_start s' = s_start s
        /\ s_line s' = s_line s /\ s_col s' = s_col s
    end.
  Proof.
    intros p lex s HA. pose proof (advance_on_spec (s_chars s) s) as H. unfold advance.
    destruct (advance_on (s_chars s) s) as [[c|] s'].
    - destruct H as (Hc & crs & Hcrs & Hch & Hs). exists crs. splits; auto; [constructor|].
      + rewrite (at_src _ _ _ HA), Hch, <- !app_assoc. reflexivity.
      + rewrite Hs. cbn. apply HA.
      + rewrite Hs. cbn [s_line s_col]. rewrite <- surjective_pairing, (at_pos _ _ _ HA).
        rewrite (app_assoc p), (pos_of_app (p ++ lex)), fold_left_app, (pos_step_crs crs) by auto. reflexivity.
      + rewrite Hs. cbn [s_toks]. destruct (c =? 10); [|apply HA]. apply (At_linebreak _ _ _ HA).
      + rewrite Hs; reflexivity.
    - destruct H as [Hcrs ->]. cbn. splits; auto. constructor; cbn; try apply HA.
      + rewrite app_nil_r. apply HA.
      + rewrite app_assoc, (pos_of_crs _ _ Hcrs). apply HA.
  Qed.

  (** Skipping a known character *)
  Lemma peek_is_cons : forall s x, peek_is s x = true -> exists r, s_chars s = x :: r.
  Proof.
    intros s x H. unfold peek_is, peek in H. destruct (s_chars s) as [|d r]; simpl in H; [congruence|].
    apply N.eqb_eq in H; subst. eauto.
  Qed.

  Lemma At_skip : forall p lex s x,
    At p lex s -> hd_error (s_chars s) = Some x -> x <> 13 -> At p (lex ++ [x]) (skip s)
      /\ s_chars s = x :: s_chars (skip s) /\ s_ctx (skip s) = s_ctx s
      /\ (x <> 10 -> s_toks (skip s) = s_toks s).
  Proof.
    intros p lex s x HA H Hx. destruct (s_chars s) as [|y r] eqn:Hr; [discriminate|]. injection H as ->.
    pose proof (At_advance _ _ _ HA) as A. pose proof (advance_on_spec (s_chars s) s) as B.
    unfold skip. unfold advance in A |- *.
    destruct (advance_on (s_chars s) s) as [[c|] s'].
    - destruct A as (crs & Hcrs & Hc & A & Hch & Hctx). rewrite Hr in Hch.
      destruct B as (_ & crs' & _ & _ & B).
      destruct crs as [|y crs].
      + simpl in Hch. injection Hch as -> ->. split; [exact A|split; [reflexivity|split; [exact Hctx|]]].
        intros Hx10. cbn [snd]. rewrite B. cbn. destruct (c =? 10) eqn:E; auto. apply N.eqb_eq in E; exfalso; auto.
      + simpl in Hch. injection Hch as -> ->. exfalso. apply Hx. apply Hcrs. left; auto.
    - destruct A as (Hcrs & _). exfalso. apply Hx. apply Hcrs. rewrite Hr. left; auto.
  Qed.

  Lemma At_skip_is : forall p lex s x,
    At p lex s -> peek_is s x = true -> (x =? 13) = false -> At p (lex ++ [x]) (skip s).
  Proof.
    intros p lex s x HA H Hx. apply N.eqb_neq in Hx. destruct (peek_is_cons _ _ H) as [r Hr].
    apply (At_skip p lex s x); auto. now rewrite Hr.
  Qed.
  Lemma chars_skip_is : forall s x, peek_is s x = true -> (x =? 13) = false ->
    s_chars s = x :: s_chars (skip s).
  Proof.
    intros s x H Hx. destruct (peek_is_cons _ _ H) as [r Hr]. unfold skip, advance. rewrite Hr. cbn.
    rewrite Hx. destruct (x =? 10); reflexivity.
  Qed.

  (** Everything that is read only makes the lexeme longer. *)
  Definition Post (p lex : str) (r : sres Scn) : Prop :=
    match r with
    | SOk s' => exists more, At p (lex ++ more) s'
    | SErr _ => True
    | SPanic | SFuel => False
    end.

  (** * Inner loops *)

  Lemma collect_while_spec : forall f n p lex s acc,
    At p lex s -> (forall c, f c = true -> c <> 13 /\ c <> 10) ->
    (List.length (s_chars s) < n)%nat ->
    exists w s', collect_while n f acc s = SOk (rev acc ++ w, s') /\ At p (lex ++ w) s'
      /\ s_chars s = w ++ s_chars s' /\ forallb f w = true
      /\ (forall c r, s_chars s' = c :: r -> f c = false) /\ s_ctx s' = s_ctx s /\ s_toks s' = s_toks s.
  Proof.
    induction n; intros p lex s acc HA Hf Hn; [lia|]. cbn [collect_while]. unfold peek.
    destruct (hd_error (s_chars s)) as [c|] eqn:Hp.
    - destruct (f c) eqn:Hfc.
      + destruct (Hf _ Hfc) as [Hc13 Hc10]. destruct (At_skip _ _ _ _ HA Hp Hc13) as (HA' & Hch & Hctx & Htk).
        destruct (IHn p (lex ++ [c]) (skip s) (c :: acc) HA' Hf) as (w & s' & E & HA2 & Hch' & Hw & Hmax & Hctx' & Htk').
        { rewrite Hch in Hn. simpl in Hn. lia. }
        exists (c :: w), s'. rewrite E. simpl rev. rewrite <- app_assoc. split; [reflexivity|]. splits; auto.
        * at_exact HA2.
        * rewrite Hch, Hch'. reflexivity.
        * simpl. now rewrite Hfc.
        * congruence.
        * rewrite Htk'. auto.
      + exists [], s. rewrite !app_nil_r. splits; auto.
        intros d r Hd. rewrite Hd in Hp. injection Hp as ->. auto.
    - exists [], s. rewrite !app_nil_r. splits; auto.
      intros d r Hd. rewrite Hd in Hp. discriminate.
  Qed.

  Lemma is_ident_char_spec : forall c, is_ident_char c = true <-> ident_char c.
  Proof. intros. unfold is_ident_char, ident_char. rewrite orb_true_iff, N.eqb_eq. tauto. Qed.

  Lemma ident_char_not_eol : forall c, is_ident_char c = true -> c <> 13 /\ c <> 10.
  Proof.
    intros c H. unfold is_ident_char in H. apply orb_true_iff in H as [H|H].
    - split; intros ->; vm_compute in H; discriminate.
    - apply N.eqb_eq in H. lia.
  Qed.

  Lemma digit_not_eol : forall c, is_digit c = true -> c <> 13 /\ c <> 10.
  Proof. intros c H. unfold is_digit in H. apply andb_true_iff in H as [H1 H2]. apply N.leb_le in H1. lia. Qed.

  Lemma hex_not_eol : forall c, is_hex c = true -> c <> 13 /\ c <> 10.
  Proof. intros c H. split; intros ->; vm_compute in H; discriminate. Qed.
  Lemma bin_not_eol : forall c, is_binary c = true -> c <> 13 /\ c <> 10.
  Proof. intros c H. split; intros ->; vm_compute in H; discriminate. Qed.

  Lemma until_escaped_spec : forall n q esc acc p lex s,
    At p lex s -> (List.length (s_chars s) < n)%nat -> q <> 13 ->
    exists (body : str) (s' : Scn), 
      (until_escaped n q esc acc s = SOk (rev acc ++ no_cr body, s') /\
       ((At p (lex ++ body ++ [q]) s' /\ s_chars s = body ++ q :: s_chars s'
          /\ (if esc then no_cr body = [] -> False else True)
          /\ (if esc then match no_cr body with c :: r => quoted_body q r | [] => False end
              else quoted_body q (no_cr body)))
        \/ (At p (lex ++ body) s' /\ s_chars s' = [] /\ s_chars s = body)))
      /\ s_ctx s' = s_ctx s.
  Proof.
    induction n; intros q esc acc p lex s HA Hn Hq; [lia|]. cbn [until_escaped].
    pose proof (At_advance _ _ _ HA) as A. destruct (advance s) as [[c|] s1].
    - destruct A as (crs & Hcrs & Hc & A & Hch & Hctx).
      assert (Hn' : (List.length (s_chars s1) < n)%nat).
      { rewrite Hch, app_length in Hn. simpl in Hn. lia. }
      assert (Hbody : forall b, no_cr (crs ++ c :: b) = c :: no_cr b).
      { intros. rewrite no_cr_app, (no_cr_crs _ Hcrs). simpl.
        destruct (c =? 13) eqn:E; [apply N.eqb_eq in E; exfalso; auto|reflexivity]. }
      assert (Hrec : forall esc' : bool,
         (forall body : str, (if esc' then match no_cr body with x :: r => quoted_body q r | [] => False end
              else quoted_body q (no_cr body)) -> 
              (if esc then quoted_body q (no_cr body) else quoted_body q (c :: no_cr body))) ->
         exists (body : str) (s' : Scn), 
      (until_escaped n q esc' (c :: acc) s1 = SOk (rev acc ++ no_cr body, s') /\
       ((At p (lex ++ body ++ [q]) s' /\ s_chars s = body ++ q :: s_chars s'
          /\ (if esc then no_cr body = [] -> False else True)
          /\ (if esc then match no_cr body with c :: r => quoted_body q r | [] => False end
              else quoted_body q (no_cr body)))
        \/ (At p (lex ++ body) s' /\ s_chars s' = [] /\ s_chars s = body)))
      /\ s_ctx s' = s_ctx s).
      { intros esc' Himp. destruct (IHn q esc' (c :: acc) p _ s1 A Hn' Hq) as (body & s' & [E H] & Hctx').
        exists (crs ++ c :: body), s'. split; [|congruence]. rewrite E, Hbody. simpl rev. rewrite <- app_assoc. split; auto.
        destruct H as [(HA' & Hch' & _ & Hq')|(HA' & H1 & H2)].
        - left. splits; auto.
          + at_exact HA'.
          + rewrite Hch, Hch', <- app_assoc. reflexivity.
          + destruct esc; auto. discriminate.
          + specialize (Himp _ Hq'). destruct esc; exact Himp.
        - right. splits; auto.
          + at_exact HA'.
          + rewrite Hch, H2. reflexivity. }
      destruct (c =? 92) eqn:Ec.
      + apply N.eqb_eq in Ec; subst c. apply Hrec. intros body Hb. destruct esc; simpl in Hb |- *.
        * exact Hb.
        * destruct (no_cr body); [contradiction|]. now apply QEscape.
      + destruct ((c =? q) && negb esc) eqn:Eq.
        * apply andb_true_iff in Eq as [Eq1 Eq2]. apply N.eqb_eq in Eq1; subst c.
          destruct esc; [discriminate|].
          exists crs, s1. split; [|auto]. rewrite (no_cr_crs _ Hcrs), app_nil_r. split; auto. left.
          splits; auto. constructor.
        * apply Hrec. intros body Hb. destruct esc; auto. simpl in Eq. rewrite andb_true_r in Eq.
          apply N.eqb_neq in Ec, Eq. now constructor.
    - destruct A as (Hcrs & A & Hch & Htk & Hctx & _).
      exists (s_chars s), s1. split; [|auto]. rewrite (no_cr_crs _ Hcrs), app_nil_r. split; auto. 
  Qed.

  Lemma doc_comment_spec : forall n acc p lex s,
    At p lex s -> (List.length (s_chars s) < n)%nat ->
    exists body s', doc_comment_loop n acc s = SOk (rev acc ++ no_cr body, s') /\
      ((At p (lex ++ body ++ lit "*/") s' /\ s_chars s = body ++ lit "*/" ++ s_chars s'
         /\ ~ contains (lit "*/") body)
       \/ (At p (lex ++ body) s' /\ s_chars s' = [] /\ s_chars s = body)) /\ s_ctx s' = s_ctx s.
  Proof.
    induction n; intros acc p lex s HA Hn; [lia|]. cbn [doc_comment_loop].
    pose proof (At_advance _ _ _ HA) as A. destruct (advance s) as [[c|] s1].
    - destruct A as (crs & Hcrs & Hc & A & Hch & Hctx).
      assert (Hn' : (List.length (s_chars s1) < n)%nat).
      { rewrite Hch, app_length in Hn. simpl in Hn. lia. }
      assert (Hbody : forall b, no_cr (crs ++ c :: b) = c :: no_cr b).
      { intros. rewrite no_cr_app, (no_cr_crs _ Hcrs). simpl.
        destruct (c =? 13) eqn:E; [apply N.eqb_eq in E; exfalso; auto|reflexivity]. }
      destruct ((c =? 42) && peek_is s1 47) eqn:Eend.
      + apply andb_true_iff in Eend as [E1 E2]. apply N.eqb_eq in E1; subst c.
        pose proof (At_skip_is _ _ _ _ A E2 eq_refl) as A2. pose proof (chars_skip_is _ _ E2 eq_refl) as Hch2.
        exists crs, (skip s1). rewrite (no_cr_crs _ Hcrs), app_nil_r. split; auto. split.
        * left. split; [|split].
          -- at_exact A2.
          -- rewrite Hch, Hch2. reflexivity.
          -- intros (x & y & Hxy). assert (In 42 crs) by (rewrite Hxy; apply in_or_app; right; left; auto).
             apply Hcrs in H. discriminate.
        * rewrite <- Hctx. destruct (peek_is_cons _ _ E2) as [r Hr].
          apply (At_skip _ _ s1 47 A); [now rewrite Hr|lia].
      + destruct (IHn (c :: acc) p _ s1 A Hn') as (body & s' & E & H & Hctx').
        exists (crs ++ c :: body), s'. rewrite E, Hbody. simpl rev. rewrite <- app_assoc. split; auto.
        split; [|congruence].
        destruct H as [(HA' & Hch' & Hno)|(HA' & H1 & H2)].
        * left. split; [|split].
          -- at_exact HA'.
          -- rewrite Hch, Hch', <- app_assoc. reflexivity.
          -- (* no end marker inside *)
             intros (x & y & Hxy).
             assert (Hx : exists x', x = crs ++ x').
             { clear -Hcrs Hxy. revert x Hxy. induction crs as [|r0 crs IH]; intros; [exists x; auto|].
               destruct x as [|x0 x].
               - simpl in Hxy. injection Hxy as Hr0 _. rewrite (Hcrs r0 (or_introl eq_refl)) in Hr0. discriminate.
               - simpl in Hxy. injection Hxy as -> Hxy. 
                 destruct (IH (fun c Hc => Hcrs c (or_intror Hc)) _ Hxy) as [x' ->]. exists x'; reflexivity. }
             destruct Hx as [x' ->]. rewrite <- app_assoc in Hxy. apply app_inv_head in Hxy.
             destruct x' as [|x0 x'].
             ++ cbn in Hxy. injection Hxy as -> Hbody2. 
                rewrite Hbody2 in Hch'. unfold peek_is, peek in Eend. rewrite Hch' in Eend. discriminate.
             ++ cbn in Hxy. injection Hxy as -> Hbody2. apply Hno. exists x', y. exact Hbody2.
        * right. split; [|split]; auto.
          -- at_exact HA'.
          -- rewrite Hch, H2. reflexivity.
    - destruct A as (Hcrs & A & Hch & Htk & Hctx & _).
      exists (s_chars s), s1. rewrite (no_cr_crs _ Hcrs), app_nil_r. split; auto.
  Qed.

  Lemma contains_snoc : forall a b u v, contains [a; b] (u ++ [v]) ->
    contains [a; b] u \/ (v = b /\ exists u', u = u' ++ [a]).
  Proof.
    intros a b u v (x & y & H). destruct y as [|y0 y] using rev_ind.
    - right. rewrite app_nil_r in H. change [a; b] with ([a] ++ [b]) in H. rewrite app_assoc in H.
      apply app_inj_tail in H as [H1 H2]. split; auto. exists x; auto.
    - left. rewrite !app_assoc in H. apply app_inj_tail in H as [H1 H2]. exists x, y.
      rewrite H1, <- !app_assoc. reflexivity.
  Qed.

  Lemma Post_mono : forall p lex more r, Post p (lex ++ more) r -> Post p lex r.
  Proof.
    intros p lex more [s'| | |]; simpl; auto. intros [m H]. exists (more ++ m). now rewrite app_assoc.
  Qed.

  Lemma Post_ok : forall p lex s, At p lex s -> Post p lex (SOk s).
  Proof. intros. exists []. now rewrite app_nil_r. Qed.

  Definition comment_intro (intro : str) : Prop :=
    intro = lit "//" \/ exists crs x, intro = 35 :: crs ++ x
                /\ (forall c, In c crs -> c = 13) /\ (List.length x <= 1)%nat.

  Lemma line_comment_spec : forall n intro acc p s,
    comment_intro intro ->
    At p (intro ++ rev acc) s -> (List.length (s_chars s) < n)%nat ->
    ~ In 10 (rev acc) -> ~ In 13 (rev acc) -> ~ contains (lit "?>") (rev acc) ->
    (hd_error acc = Some 63 -> hd_error (s_chars s) <> Some 62) ->
    Post p (intro ++ rev acc) (line_comment_loop n acc s).
  Proof.
    induction n; intros intro acc p s Hi HA Hn H10 H13 Hend Hq; [lia|]. cbn [line_comment_loop]. unfold peek.
    assert (Hpush : forall s' rest lexm, At p (intro ++ rev acc ++ lexm) s' -> s_chars s = rest -> 
              At p (intro ++ rev acc ++ lexm) (push_named_token s' TLineComment (rev acc))).
    { intros s' rest lexm HA' Hr. eapply At_push_named with (before := p) (lex' := intro ++ rev acc) (rest := s_chars s); eauto.
      - rewrite (at_src _ _ _ HA). reflexivity.
      - cbn. exists intro, (rev acc). splits; auto. }
    destruct (hd_error (s_chars s)) as [c|] eqn:Hp.
    2:{ apply Post_ok. specialize (Hpush s (s_chars s) []). rewrite !app_nil_r in Hpush. eauto. }
    destruct ((c =? 10) || (c =? 13)) eqn:Eeol.
    { apply Post_ok. specialize (Hpush s (s_chars s) []). rewrite !app_nil_r in Hpush. eauto. }
    apply orb_false_iff in Eeol as [E10 E13]. apply N.eqb_neq in E10, E13.
    destruct (At_skip _ _ _ _ HA Hp E13) as (HA1 & Hch1 & Hctx1 & _).
    assert (Hn1 : (List.length (s_chars (skip s)) < n)%nat) by (rewrite Hch1 in Hn; simpl in Hn; lia).
    assert (Hrec : (c = 63 -> hd_error (s_chars (skip s)) <> Some 62) -> 
                   Post p (intro ++ rev acc) (line_comment_loop n (c :: acc) (skip s))).
    { intros Hc. apply Post_mono with (more := [c]). rewrite <- app_assoc. change (rev acc ++ [c]) with (rev (c :: acc)).
      apply IHn; auto.
      - simpl rev. now rewrite app_assoc.
      - simpl rev. rewrite in_app_iff. intros [|[|[]]]; auto.
      - simpl rev. rewrite in_app_iff. intros [|[|[]]]; auto.
      - simpl rev. intros Hcon. apply contains_snoc in Hcon as [|[Hv [u' Hu]]]; auto.
        apply (f_equal (@rev _)) in Hu. rewrite rev_involutive, rev_app_distr in Hu. simpl in Hu. subst acc c.
        apply Hq; reflexivity.
      - simpl. intros Hx. injection Hx as Hx. apply Hc. exact Hx. }
    destruct (c =? 63) eqn:E63.
    - apply N.eqb_eq in E63. subst c. destruct (peek_is (skip s) 62) eqn:Egt.
      + pose proof (At_skip_is _ _ _ _ HA1 Egt eq_refl) as HA2. 
        apply Post_mono with (more := [63; 62]). apply Post_ok. apply At_ctx.
        assert (HA2' : At p (intro ++ rev acc ++ [63; 62]) (skip (skip s))) by at_exact HA2.
        rewrite <- app_assoc. eapply At_push_fixed; [eapply Hpush; eauto|].
        intros. cbn. split; auto. exists (intro ++ rev acc). now rewrite <- app_assoc.
      + apply Hrec. intros _ Hx. unfold peek_is, peek in Egt. rewrite Hx in Egt. discriminate.
    - apply N.eqb_neq in E63. pose proof (At_advance _ _ _ HA) as A. unfold skip in *.
      destruct (advance s) as [[d|] s1].
      + destruct A as (crs & Hcrs & Hd & _ & Hch & _). cbn [snd] in *.
        assert (d = c).
        { rewrite Hch1 in Hch. destruct crs as [|x crs]; simpl in Hch; injection Hch; auto.
          intros _ ->. exfalso. apply E13. apply Hcrs. left; auto. }
        subst d. apply Hrec. intros; contradiction.
      + destruct A as (Hcrs & _). apply E13. apply Hcrs. rewrite Hch1. left; auto.
  Qed.

  Lemma starts_with_app : forall a b c, starts_with a b = true -> starts_with a (b ++ c) = true.
  Proof.
    induction a; intros; simpl in *; auto. destruct b; [discriminate|]. simpl.
    apply andb_true_iff in H as [H1 H2]. rewrite H1. simpl. auto.
  Qed.

  (** generic "reads further" facts *)
  Lemma At_skip_any : forall p lex s, At p lex s ->
    exists more, At p (lex ++ more) (skip s) /\ s_chars s = more ++ s_chars (skip s)
      /\ (s_chars s <> [] -> more <> []).
  Proof.
    intros p lex s HA. pose proof (At_advance _ _ _ HA) as A. unfold skip.
    destruct (advance s) as [[c|] s1]; cbn [snd].
    - destruct A as (crs & _ & _ & A & Hch & _). exists (crs ++ [c]). splits; auto.
      + rewrite Hch, <- app_assoc; reflexivity.
      + intros _. destruct crs; discriminate.
    - destruct A as (_ & A & Hch & _). exists (s_chars s). splits; auto.
      rewrite Hch. now rewrite app_nil_r.
  Qed.

  Lemma skip_spaces_spec : forall n p lex s, At p lex s -> (List.length (s_chars s) < n)%nat ->
    exists more s', skip_spaces n s = SOk s' /\ At p (lex ++ more) s'.
  Proof.
    induction n; intros p lex s HA Hn; [lia|]. cbn [skip_spaces].
    destruct (peek_is s 32) eqn:E.
    - pose proof (At_skip_is _ _ _ _ HA E eq_refl) as HA1. pose proof (chars_skip_is _ _ E eq_refl) as Hch.
      destruct (IHn _ _ _ HA1) as (m & s' & E' & HA2); [rewrite Hch in Hn; simpl in Hn; lia|].
      exists ([32] ++ m), s'. split; auto. now rewrite app_assoc.
    - exists [], s. split; auto. now rewrite app_nil_r.
  Qed.

  Lemma match_marker_spec : forall marker acc p lex s, At p lex s ->
    match match_marker marker acc s with
    | (_, _, s') => exists more, At p (lex ++ more) s' /\ s_chars s = more ++ s_chars s'
        /\ (marker <> [] -> s_chars s <> [] -> more <> [])
    end.
  Proof.
    induction marker as [|m marker IH]; intros acc p lex s HA; cbn [match_marker].
    - exists []. rewrite app_nil_r. splits; auto.
    - destruct (At_skip_any _ _ _ HA) as (more & HA1 & Hch & Hne). unfold skip in *.
      destruct (advance s) as [[c|] s1]; cbn [snd] in *.
      + destruct (c =? m).
        * specialize (IH (c :: acc) _ _ _ HA1). destruct (match_marker marker (c :: acc) s1) as [[q b] s'].
          destruct IH as (m2 & HA2 & Hch2 & _). exists (more ++ m2). rewrite app_assoc. splits; auto.
          -- rewrite Hch, Hch2. now rewrite app_assoc.
          -- intros _ Hs. specialize (Hne Hs). destruct more; [congruence|discriminate].
        * exists more. splits; auto.
      + specialize (IH acc _ _ _ HA1). destruct (match_marker marker acc s1) as [[q b] s'].
        destruct IH as (m2 & HA2 & Hch2 & _). exists (more ++ m2). rewrite app_assoc. splits; auto.
        * rewrite Hch, Hch2. now rewrite app_assoc.
        * intros _ Hs. specialize (Hne Hs). destruct more; [congruence|discriminate].
  Qed.

  Lemma heredoc_loop_spec : forall n marker h l b p lex s,
    At p lex s -> (List.length (s_chars s) < n)%nat ->
    exists more h' l' s', heredoc_loop n marker h l b s = SOk (h', l', s') /\ At p (lex ++ more) s'.
  Proof.
    induction n; intros marker h l b p lex s HA Hn; [lia|]. cbn [heredoc_loop]. unfold peek.
    destruct (hd_error (s_chars s)) as [c|] eqn:Hp.
    2:{ exists [], (rev h), (rev l), s. split; auto. now rewrite app_nil_r. }
    assert (Hne : s_chars s <> []) by (intros E; rewrite E in Hp; discriminate).
    assert (Hrec : forall m2 h2 l2 b2 s2, At p (lex ++ m2) s2 -> s_chars s = m2 ++ s_chars s2 -> m2 <> [] ->
        exists more h' l' s', heredoc_loop n marker h2 l2 b2 s2 = SOk (h', l', s') /\ At p (lex ++ more) s').
    { intros m2 h2 l2 b2 s2 HA2 Hch2 Hm2. destruct (IHn marker h2 l2 b2 _ _ _ HA2) as (m & h' & l' & s' & E & HA').
      - rewrite Hch2, app_length in Hn. destruct m2; [congruence|]. simpl in Hn. lia.
      - exists (m2 ++ m), h', l', s'. split; auto. now rewrite app_assoc. }
    destruct (At_skip_any _ _ _ HA) as (more & HA1 & Hch & Hmore). specialize (Hmore Hne).
    destruct (c =? 10); [eapply Hrec; eauto|].
    destruct (negb b || (c =? 32) || (c =? 9)); [eapply Hrec; eauto|].
    pose proof (match_marker_spec marker [] _ _ _ HA) as Hm.
    destruct marker as [|m0 marker].
    - cbn [match_marker] in Hm |- *. exists [], (rev h), (rev []), s. split; auto. now rewrite app_nil_r.
    - remember (m0 :: marker) as mk. destruct (match_marker mk [] s) as [[q b'] s'].
      destruct Hm as (m2 & HA2 & Hch2 & Hm2). destruct b'.
      + exists m2, (rev h), q, s'. auto.
      + eapply Hrec; eauto. apply Hm2; auto. subst; discriminate.
  Qed.

  Lemma At_push_here : forall p lex s k l,
    At p lex s -> (forall c li o, spelled (mkToken c li k (Some l) o) lex (s_chars s)) ->
    At p lex (push_named_token s k l).
  Proof. intros p lex s k l HA H. eapply At_push_named with (before := p); eauto. apply HA. Qed.

  Lemma At_push_heredoc : forall p lex s k l,
    (k = THereDocStart \/ k = THereDocEnd \/ k = TEncapsedAndWhitespaceString) ->
    starts_with (lit "<<<") lex = true -> At p lex s -> At p lex (push_named_token s k l).
  Proof.
    intros p lex s k l Hk Hl HA. eapply At_push_named with (before := p) (lex' := lex); eauto; [apply HA|].
    destruct Hk as [->|[->| ->]]; cbn; auto.
  Qed.

  Lemma here_doc_spec : forall p lex s, At p lex s -> starts_with (lit "<<<") lex = true ->
    Post p lex (tokenize_here_doc s).
  Proof.
    intros p lex s HA Hl. unfold tokenize_here_doc.
    destruct (skip_spaces_spec (fuel_of s) p lex s HA) as (m0 & s0 & E0 & HA0); [unfold fuel_of; lia|].
    rewrite E0. cbn [sbind].
    assert (Hm : exists m1 marker s1, 
       (if peek_is s0 34 then collect_until_escaped 34 (skip s0)
        else if peek_is s0 39 then collect_until_escaped 39 (skip s0)
        else collect_identifier s0) = SOk (marker, s1) /\ At p (lex ++ m0 ++ m1) s1).
    { assert (Hq : forall q, q <> 13 -> exists m1 marker s1, collect_until_escaped q (skip s0) = SOk (marker, s1)
               /\ At p (lex ++ m0 ++ m1) s1).
      { intros q Hq. destruct (At_skip_any _ _ _ HA0) as (ms & HAs & _ & _).
        destruct (until_escaped_spec (fuel_of (skip s0)) q false [] _ _ _ HAs) as (body & s1 & [E H] & _);
          [unfold fuel_of; lia|auto|].
        unfold collect_until_escaped. rewrite E.
        destruct H as [(H & _)|(H & _)].
        - exists (ms ++ body ++ [q]), (rev [] ++ no_cr body), s1. split; auto. at_exact H.
        - exists (ms ++ body), (rev [] ++ no_cr body), s1. split; auto. at_exact H. }
      destruct (peek_is s0 34); [apply Hq; lia|]. destruct (peek_is s0 39); [apply Hq; lia|].
      destruct (collect_while_spec is_ident_char (fuel_of s0) _ _ s0 [] HA0) as (w & s1 & E & HA1 & _);
        [apply ident_char_not_eol|unfold fuel_of; lia|].
      exists w, (rev [] ++ w), s1. split; [exact E|]. now rewrite app_assoc. }
    destruct Hm as (m1 & marker & s1 & E1 & HA1). rewrite E1. cbn [sbind].
    assert (HA2 : At p (lex ++ m0 ++ m1) (push_named_token s1 THereDocStart marker)).
    { apply At_push_heredoc; auto. now apply starts_with_app. }
    destruct (heredoc_loop_spec (fuel_of (push_named_token s1 THereDocStart marker)) marker [] [] false _ _ _ HA2)
      as (m2 & h & l & s3 & E3 & HA3); [unfold fuel_of; lia|].
    rewrite E3. cbn [sbind]. destruct (peek s3) eqn:Ep; [|exact I].
    exists (m0 ++ m1 ++ m2). rewrite <- !app_assoc in HA3.
    apply At_push_heredoc; auto; [now apply starts_with_app|].
    apply At_push_heredoc; auto. now apply starts_with_app.
  Qed.

  Definition fixed_kind (k : TokenType) : bool :=
    match k with
    | TIdentifier | TVariable | TLongNumber | THexNumber | TBinaryNumber | TDecimalNumber
    | TExponentialNumber | TConstantEncapsedString | TShellEscape | TEncapsedAndWhitespaceString
    | THereDocStart | THereDocEnd | TMultilineComment | TLineComment | TScriptEnd | TLinebreak
    | TEof => false
    | _ => true
    end.

  Lemma spelled_fixed : forall k lex rest c l o, fixed_kind k = true ->
    In (to_lowercase lex) (map lit (spellings k)) -> spelled (mkToken c l k None o) lex rest.
  Proof. intros k; destruct k; cbn -[to_lowercase spellings]; intros; try discriminate; auto. Qed.

  Lemma spelled_fixed_inv : forall k lex rest c l o lab, fixed_kind k = true ->
    spelled (mkToken c l k lab o) lex rest -> In (to_lowercase lex) (map lit (spellings k)).
  Proof. intros k; destruct k; cbn -[to_lowercase spellings]; intros; try discriminate; tauto. Qed.

  Lemma Post_push : forall p lex s k, At p lex s -> fixed_kind k = true ->
    In (to_lowercase lex) (map lit (spellings k)) -> Post p lex (SOk (push_token s k)).
  Proof. intros. apply Post_ok. eapply At_push_fixed; eauto. intros. now apply spelled_fixed. Qed.

  Lemma Post_adv_push : forall p lex s x k, At p lex s -> peek_is s x = true -> (x =? 13) = false ->
    fixed_kind k = true -> In (to_lowercase (lex ++ [x])) (map lit (spellings k)) ->
    Post p lex (SOk (adv_push s k)).
  Proof.
    intros. apply Post_mono with (more := [x]). apply Post_push; auto. eapply At_skip_is; eauto.
  Qed.

  (** a quoted literal *)
  Lemma quoted_spec : forall p s q k,
    At p [q] s -> q <> 13 ->
    (forall body c l o rest,
        (quoted_body q (no_cr body) -> spelled (mkToken c l k (Some (no_cr body)) o) (q :: body ++ [q]) rest)) ->
    (forall body c l o, spelled (mkToken c l k (Some (no_cr body)) o) (q :: body) []) ->
    Post p [q] (slet (str, s1) <- collect_until_escaped q s ;; SOk (push_named_token s1 k str)).
  Proof.
    intros p s q k HA Hq Hk Hk'.
    destruct (until_escaped_spec (fuel_of s) q false [] _ _ _ HA) as (body & s' & [E H] & _);
      [unfold fuel_of; lia|auto|].
    unfold collect_until_escaped. rewrite E. cbn [sbind rev app].
    destruct H as [(HA' & Hch & _ & Hb)|(HA' & Hch' & Hch)].
    - apply Post_mono with (more := body ++ [q]). apply Post_ok. cbn [app].
      apply At_push_here; [exact HA'|]. intros. apply Hk; auto.
    - apply Post_mono with (more := body). apply Post_ok. cbn [app].
      apply At_push_here; [exact HA'|]. intros. rewrite Hch'. apply Hk'.
  Qed.

  (** numbers *)
  Lemma collect_number_spec : forall p lex s, At p lex s ->
    exists w s', collect_number s = SOk (w, s') /\ At p (lex ++ w) s' /\ forallb is_digit w = true
      /\ s_chars s = w ++ s_chars s'.
  Proof.
    intros p lex s HA.
    destruct (collect_while_spec is_digit (fuel_of s) _ _ s [] HA) as (w & s1 & E & HA1 & Hch & Hw & _);
      [apply digit_not_eol|unfold fuel_of; lia|].
    exists w, s1. splits; auto.
  Qed.

  Lemma hex_listed : forall x, is_hex x = true -> In x (lit "0123456789abcdefABCDEF").
  Proof.
    intros x H. assert (L : (48 <= x /\ x <= 57) \/ (97 <= x /\ x <= 102) \/ (65 <= x /\ x <= 70)).
    { unfold is_hex, is_digit in H. repeat rewrite orb_true_iff in H. repeat rewrite andb_true_iff in H.
      repeat rewrite N.leb_le in H. tauto. }
    assert (E : In x (map N.of_nat (seq 48 10)) \/ In x (map N.of_nat (seq 97 6)) \/ In x (map N.of_nat (seq 65 6))).
    { destruct L as [L|[L|L]]; [left|right; left|right; right]; apply in_map_iff; exists (N.to_nat x);
        (split; [apply N2Nat.id|apply in_seq; lia]). }
    rewrite <- !in_app_iff in E. vm_compute in E. vm_compute. intuition.
  Qed.

  Lemma scan_number_spec : forall p c s, At p [c] s -> is_digit c = true -> Post p [c] (scan_number c s).
  Proof.
    intros p c s HA Hc. unfold scan_number.
    destruct (peek_is s 120 && (c =? 48)) eqn:Ex.
    { apply andb_true_iff in Ex as [E1 E2]. apply N.eqb_eq in E2; subst c.
      pose proof (At_skip_is _ _ _ _ HA E1 eq_refl) as HA1.
      destruct (collect_while_spec is_hex (fuel_of (skip s)) _ _ _ [] HA1) as (w & s1 & E & HA2 & Hch & Hw & _);
        [apply hex_not_eol|unfold fuel_of; lia|].
      unfold collect_hex_number. rewrite E. cbn [sbind]. exists ([120] ++ w).
      rewrite app_assoc. apply At_push_here; [exact HA2|]. intros. cbn. exists w; splits; auto.
      apply Forall_forall. intros x Hx. rewrite forallb_forall in Hw. specialize (Hw _ Hx). now apply hex_listed. }
    destruct (peek_is s 98 && (c =? 48)) eqn:Eb.
    { apply andb_true_iff in Eb as [E1 E2]. apply N.eqb_eq in E2; subst c.
      pose proof (At_skip_is _ _ _ _ HA E1 eq_refl) as HA1.
      destruct (collect_while_spec is_binary (fuel_of (skip s)) _ _ _ [] HA1) as (w & s1 & E & HA2 & Hch & Hw & _);
        [apply bin_not_eol|unfold fuel_of; lia|].
      unfold collect_binary_number. rewrite E. cbn [sbind]. exists ([98] ++ w).
      rewrite app_assoc. apply At_push_here; [exact HA2|]. intros. cbn. exists w; splits; auto.
      apply Forall_forall. intros x Hx. rewrite forallb_forall in Hw. specialize (Hw _ Hx). unfold is_binary in Hw.
      apply orb_true_iff in Hw as [Hw|Hw]; apply N.eqb_eq in Hw; auto. }
    clear Ex Eb. destruct (collect_number_spec _ _ _ HA) as (ds & s1 & E1 & HA1 & Hds & _). rewrite E1. cbn [sbind].
    assert (Hd : forallb is_digit (c :: ds) = true) by (simpl; rewrite Hc; auto).
    assert (Hfrac : exists num ty s2 more,
        (if peek_is s1 46 then
           slet (dec, s2) <- collect_number (skip s1) ;; SOk ((c :: ds) ++ [46] ++ dec, TDecimalNumber, s2)
         else SOk (c :: ds, TLongNumber, s1)) = SOk (num, ty, s2)
        /\ At p ([c] ++ more) s2 /\ num = [c] ++ more /\ map ascii_lower num = num
        /\ (exists a b, num = a ++ b /\ a <> [] /\ forallb is_digit a = true
              /\ (b = [] \/ exists b', b = 46 :: b' /\ forallb is_digit b' = true))
        /\ (forall col l o, spelled (mkToken col l ty (Some num) o) ([c] ++ more) (s_chars s2))).
    { assert (Hlow : forall w, forallb is_digit w = true -> map ascii_lower w = w).
      { intros w Hw. rewrite forallb_forall in Hw. rewrite <- (map_id w) at 2. apply map_ext_in.
        intros a Ha. specialize (Hw _ Ha). unfold is_digit in Hw. unfold ascii_lower, is_upper.
        apply andb_true_iff in Hw as [_ Hw]. apply N.leb_le in Hw.
        destruct (65 <=? a) eqn:E; auto. apply N.leb_le in E. lia. }
      destruct (peek_is s1 46) eqn:Edot.
      - pose proof (At_skip_is _ _ _ _ HA1 Edot eq_refl) as HA2.
        destruct (collect_number_spec _ _ _ HA2) as (dec & s2 & E2 & HA3 & Hdec & _). rewrite E2. cbn [sbind].
        exists ((c :: ds) ++ [46] ++ dec), TDecimalNumber, s2, (ds ++ [46] ++ dec). splits; auto.
        + at_exact HA3.
        + rewrite map_app. f_equal; [apply (Hlow (c :: ds)); auto|]. cbn [map app]. f_equal. apply (Hlow dec); auto.
        + exists (c :: ds), (46 :: dec). splits; auto; [discriminate|]. right. exists dec. auto.
        + intros. cbn -[is_digit forallb]. exists (c :: ds), dec. splits; auto.
      - exists (c :: ds), TLongNumber, s1, ds. splits; auto.
        { exists (c :: ds), []. rewrite app_nil_r. splits; auto. discriminate. }
        intros. cbn -[is_digit forallb]. splits; auto. discriminate. }
    destruct Hfrac as (num & ty & s2 & more & E2 & HA2 & Hnum & Hlow & (na & nb & Hab & Hna & Hnd & Hnb) & Hsp). 
    match goal with |- Post _ _ (sbind ?x _) => replace x with (@SOk (str * TokenType * Scn) (num, ty, s2)) by (symmetry; exact E2) end.
    cbn [sbind]. clear E2.
    destruct (peek_is s2 101 || peek_is s2 69) eqn:Ee.
    - assert (He : exists e, (e = 101 \/ e = 69) /\ peek_is s2 e = true).
      { apply orb_true_iff in Ee as [H|H]; [exists 101|exists 69]; auto. }
      destruct He as (e & He & Hpk). 
      assert (HA3 : At p ([c] ++ more ++ [e]) (skip s2)).
      { rewrite app_assoc. eapply At_skip_is; eauto. destruct He; subst; reflexivity. }
      assert (Hsg : exists sg s4, (if peek_is (skip s2) 45 then ((num ++ [101]) ++ [45], skip (skip s2))
                      else if peek_is (skip s2) 43 then ((num ++ [101]) ++ [43], skip (skip s2))
                      else (num ++ [101], skip s2)) = ((num ++ [101]) ++ sg, s4)
                      /\ At p ([c] ++ more ++ [e] ++ sg) s4 /\ map ascii_lower sg = sg
                      /\ (sg = [] \/ sg = [45] \/ sg = [43])).
      { destruct (peek_is (skip s2) 45) eqn:E45.
        - exists [45], (skip (skip s2)). splits; auto. pose proof (At_skip_is _ _ _ _ HA3 E45 eq_refl) as HA4. at_exact HA4.
        - destruct (peek_is (skip s2) 43) eqn:E43.
          + exists [43], (skip (skip s2)). splits; auto. pose proof (At_skip_is _ _ _ _ HA3 E43 eq_refl) as HA4. at_exact HA4.
          + exists [], (skip s2). rewrite !app_nil_r. splits; auto. }
      destruct Hsg as (sg & s4 & Esg & HA4 & Hsg & Hsg3). cbv zeta. rewrite Esg.
      destruct (collect_number_spec _ _ _ HA4) as (dec & s5 & E5 & HA5 & Hdec & _). rewrite E5. cbn [sbind].
      exists (more ++ [e] ++ sg ++ dec). 
      assert (HA6 : At p ([c] ++ more ++ [e] ++ sg ++ dec) s5) by at_exact HA5.
      apply At_push_here; auto. intros. unfold spelled. cbn [t_type t_label]. split;
        [|exists na, nb, e, sg, dec; splits; auto; rewrite (app_assoc na), <- Hab, Hnum, <- app_assoc; reflexivity].
      f_equal.
      rewrite <- !app_assoc. rewrite (app_assoc [c]), <- Hnum. rewrite !map_app, Hlow, Hsg.
      rewrite (map_ext_in ascii_lower (fun x => x) dec), map_id.
      + destruct He; subst e; reflexivity.
      + intros a Ha. rewrite forallb_forall in Hdec. specialize (Hdec _ Ha). unfold is_digit in Hdec.
        unfold ascii_lower, is_upper. apply andb_true_iff in Hdec as [_ Hw]. apply N.leb_le in Hw.
        destruct (65 <=? a) eqn:E; auto. apply N.leb_le in E. lia.
    - exists more. apply At_push_here; auto. 
  Qed.

  (** words *)
  Lemma assoc_str_some : forall k l v, assoc_str k l = Some v -> exists k', In (k', v) l /\ k = lit k'.
  Proof.
    induction l as [|[k0 v0] l IH]; simpl; intros v H; [discriminate|].
    destruct (str_eqb k (lit k0)) eqn:E.
    - injection H as <-. apply str_eqb_eq in E. eauto.
    - destruct (IH _ H) as (k' & ? & ?). eauto.
  Qed.
  Lemma assoc_str_none : forall k l, assoc_str k l = None -> ~ In k (map lit (map fst l)).
  Proof.
    induction l as [|[k0 v0] l IH]; simpl; intros H; [tauto|].
    destruct (str_eqb k (lit k0)) eqn:E; [discriminate|].
    intros [Hk|Hk]; [|now apply IH].
    rewrite <- Hk in E. assert (str_eqb (lit k0) (lit k0) = true) by now apply str_eqb_eq. congruence.
  Qed.

  Lemma keyword_table_keys : map fst keyword_table = all_keywords.
  Proof. reflexivity. Qed.

  Lemma keyword_table_spelled :
    forallb (fun '(k, v) => fixed_kind v && existsb (String.eqb k) (spellings v)) keyword_table = true.
  Proof. vm_compute. reflexivity. Qed.

  Lemma map_keyword_some : forall w k, map_keyword w = Some k ->
    fixed_kind k = true /\ In (to_lowercase w) (map lit (spellings k)).
  Proof.
    intros w k H. unfold map_keyword in H.
    destruct (str_eqb w (lit "INF")) eqn:E1.
    { apply str_eqb_eq in E1. subst w. injection H as <-. split; [reflexivity|]. left. reflexivity. }
    destruct (str_eqb w (lit "NAN")) eqn:E2.
    { apply str_eqb_eq in E2. subst w. injection H as <-. split; [reflexivity|]. left. reflexivity. }
    apply assoc_str_some in H as (k' & Hin & ->).
    pose proof keyword_table_spelled as T. rewrite forallb_forall in T. specialize (T _ Hin). cbn beta iota in T.
    apply andb_true_iff in T as [T1 T2]. split; auto.
    apply existsb_exists in T2 as (x & Hx & Heq). apply String.eqb_eq in Heq. subst x. now apply in_map.
  Qed.

  Lemma map_keyword_none : forall w, map_keyword w = None -> ~ In (to_lowercase w) (map lit all_keywords).
  Proof.
    intros w H. unfold map_keyword in H.
    destruct (str_eqb w (lit "INF")); [discriminate|]. destruct (str_eqb w (lit "NAN")); [discriminate|].
    apply assoc_str_none in H. now rewrite keyword_table_keys in H.
  Qed.

  Lemma Forall_ident : forall w, forallb is_ident_char w = true -> Forall ident_char w.
  Proof. intros. apply Forall_forall. intros x Hx. rewrite forallb_forall in H. apply is_ident_char_spec. auto. Qed.

  Lemma map_keyword_none' : forall w, map_keyword w = None -> w <> lit "INF" /\ w <> lit "NAN".
  Proof. intros w H. split; intros ->; discriminate H. Qed.

  Lemma scan_word_spec : forall p c s, At p [c] s -> is_digit c = false -> Post p [c] (scan_word c s).
  Proof.
    intros p c s HA Hdig. unfold scan_word. destruct (is_ident_char c) eqn:Ec; [|exact I].
    destruct (collect_while_spec is_ident_char (fuel_of s) _ _ s [] HA) as (w & s1 & E & HA1 & Hch & Hw & Hmax & _);
      [apply ident_char_not_eol|unfold fuel_of; lia|].
    unfold collect_identifier. rewrite E. cbn [sbind rev app].
    assert (Hid : At p (c :: w) (push_named_token s1 TIdentifier (c :: w)) \/ map_keyword (c :: w) <> None).
    { destruct (map_keyword (c :: w)) eqn:Em; [right; discriminate|left].
      apply At_push_here; [exact HA1|]. intros. cbn -[to_lowercase all_keywords]. splits; auto.
      - discriminate.
      - constructor; [now apply is_ident_char_spec|now apply Forall_ident].
      - intros (d & r & Hd & Hid). apply is_ident_char_spec in Hid. rewrite (Hmax _ _ Hd) in Hid. discriminate.
      - now apply map_keyword_none.
      - apply (map_keyword_none' _ Em).
      - apply (map_keyword_none' _ Em).
      - intros x y E0. now injection E0 as <- _. }
    destruct (map_keyword (c :: w)) as [k|] eqn:Em.
    - destruct (map_keyword_some _ _ Em) as [Hk1 Hk2]. exists w. eapply At_push_fixed; [exact HA1|].
      intros. now apply spelled_fixed.
    - destruct Hid as [Hid|Hid]; [|congruence].
      destruct (str_eqb (c :: w) (lit "from")) eqn:Ef; [|exists w; exact Hid].
      destruct (s_toks s1) as [|t rest] eqn:Et; [exists w; exact Hid|].
      destruct (tt_eqb (t_type t) TYield); [|exists w; exact Hid].
      apply str_eqb_eq in Ef. exists w. eapply At_push_fixed.
      + apply At_toks; [exact HA1|]. pose proof (at_toks _ _ _ HA1) as Ht. rewrite Et in Ht.
        destruct Ht as (_ & Hle & _ & Ht). eapply toks_ok_mono; eauto.
      + intros. apply spelled_fixed; auto. cbn [app]. rewrite Ef. left. reflexivity.
  Qed.

  (** closing parenthesis and casts *)

  (** closing parenthesis and casts *)
  Lemma close_parenthesis_spec : forall p s, At p [41] s -> is_in_script (s_ctx s) = true ->
    Post p [41] (close_parenthesis s).
  Proof.
    intros p s HA Hctx. unfold close_parenthesis.
    assert (Hplain : Post p [41] (SOk (push_token s TCloseParenthesis))).
    { apply Post_push; auto. left. reflexivity. }
    destruct (s_toks s) as [|prev [|pos rest]] eqn:Ht; auto.
    - destruct (map_cast (t_type prev)); auto.
    - destruct (map_cast (t_type prev)) as [cast|] eqn:Ec; auto.
      destruct (tt_eqb (t_type pos) TOpenParenthesis) eqn:Eo; auto.
      apply tt_eqb_eq in Eo. unfold push_token. cbn [s_ctx set_toks]. rewrite Hctx. cbn [s_toks set_toks token_new t_type t_label t_offset].
      pose proof (at_toks _ _ _ HA) as Hok; rewrite Ht in Hok.
      destruct Hok as (_ & Hle1 & _ & Htrue & Hle2 & _ & Hrest).
      destruct Htrue as (b & lex & r & Hsrc & Hpos & Hsp).
      set (t := mkToken (t_col pos) (t_line pos) cast None (Some (N.of_nat (List.length rest)))).
      assert (Hgood : At p [41] (set_toks s (t :: rest))).
      { apply At_toks; [exact HA|]. cbn [toks_ok]. splits.
        - exists b, lex, r. splits; auto.
          destruct pos as [pc pl pk plab po]. cbn [t_type] in *. subst pk.
          apply spelled_fixed_inv in Hsp; [|reflexivity]. apply spelled_fixed.
          + destruct (t_type prev); simpl in Ec; try discriminate; injection Ec as <-; reflexivity.
          + destruct (t_type prev); simpl in Ec; try discriminate; injection Ec as <-; exact Hsp.
        - eapply pos_le_trans; eauto.
        - reflexivity.
        - exact Hrest. }
      exists []. exact Hgood.
  Qed.

  (** * One step *)

  Lemma Post_push' : forall p lex0 more lex s k, At p lex s -> lex = lex0 ++ more -> fixed_kind k = true ->
    In (to_lowercase lex) (map lit (spellings k)) -> Post p lex0 (SOk (push_token s k)).
  Proof. intros. subst lex. eapply Post_mono. eapply Post_push; eauto. Qed.

  Lemma Post_adv_push' : forall p lex0 more lex s x k, At p lex s -> lex = lex0 ++ more ->
    peek_is s x = true -> (x =? 13) = false ->
    fixed_kind k = true -> In (to_lowercase (lex ++ [x])) (map lit (spellings k)) ->
    Post p lex0 (SOk (adv_push s k)).
  Proof. intros. subst lex. eapply Post_mono. eapply Post_adv_push; eauto. Qed.

  Lemma Post_mono' : forall p lex0 more lex r, lex = lex0 ++ more -> Post p lex r -> Post p lex0 r.
  Proof. intros. subst. eapply Post_mono; eauto. Qed.

  Ltac inlow := cbn; repeat (first [left; reflexivity | right]).
  Ltac known :=
    match goal with
    | H : (?c =? ?n) = true |- _ => apply N.eqb_eq in H; subst c
    end.
  Ltac grow := cbn [app]; reflexivity.
  Ltac ops :=
    repeat match goal with
      | HA : At ?p _ ?s |- Post ?p _ (SOk (push_token ?s _)) =>
          eapply Post_push' with (1 := HA); [grow|reflexivity|inlow]
      | HA : At ?p _ ?s, E : peek_is ?s _ = true |- Post ?p _ (SOk (adv_push ?s _)) =>
          eapply Post_adv_push' with (1 := HA); [grow|exact E|reflexivity|reflexivity|inlow]
      | HA : At ?p ?l ?s |- Post ?p _ (if peek_is ?s ?x then _ else _) =>
          let E := fresh "Pk" in destruct (peek_is s x) eqn:E;
          [let HA' := fresh "HA" in pose proof (At_skip_is _ _ _ _ HA E eq_refl) as HA'; cbn [app] in HA' |]
      end.

  Lemma scan_char_spec : forall p c s,
    At p [c] s -> (is_in_script (s_ctx s) = true \/ c = 60) -> Post p [c] (scan_char c s).
  Proof.
    intros p c s HA Hctx. unfold scan_char.
    destruct ((c =? 32) || (c =? 9) || (c =? 13) || (c =? 10)); [now apply Post_ok|].
    destruct (c =? 58) eqn:E; [known; ops|clear E].
    destruct (c =? 64) eqn:E; [known; ops|clear E].
    destruct (c =? 126) eqn:E; [known; ops|clear E].
    destruct (c =? 44) eqn:E; [known; ops|clear E].
    destruct (c =? 92) eqn:E; [known; ops|clear E].
    destruct (c =? 38) eqn:E; [known; ops|clear E].
    destruct (c =? 37) eqn:E; [known; ops|clear E].
    destruct (c =? 124) eqn:E; [known; ops|clear E].
    destruct (c =? 62) eqn:E; [known; ops|clear E].
    destruct (c =? 60) eqn:E; [known; ops|].
    { (* here doc *)
      eapply Post_mono' with (2 := here_doc_spec _ _ _ HA1 eq_refl). grow. }
    { (* opening tags *)
      destruct (peek_is (skip s) 32 || peek_is (skip s) 10 || peek_is (skip s) 9 || peek_is (skip s) 13).
      { eapply Post_push' with (1 := At_ctx _ _ _ InScript HA0); [grow|reflexivity|inlow]. }
      ops.
      - eapply Post_push' with (1 := At_ctx _ _ _ InScript HA1); [grow|reflexivity|inlow].
      - eapply Post_push' with (1 := At_ctx _ _ _ InScript HA3); [grow|reflexivity|inlow].
      - eapply Post_mono' with (2 := Post_ok _ _ _ HA2); grow.
      - eapply Post_mono' with (2 := Post_ok _ _ _ HA1); grow.
      - eapply Post_mono' with (2 := Post_ok _ _ _ HA0); grow. }
    assert (Hin : is_in_script (s_ctx s) = true).
    { destruct Hctx as [Hctx| ->]; auto. discriminate. }
    clear Hctx E.
    destruct (c =? 63) eqn:E; [known; ops|clear E].
    { (* closing tag *)
      eapply Post_mono' with (lex := [63; 62]); [grow|]. apply Post_ok, At_ctx. unfold adv_push.
      eapply At_push_fixed; [exact HA0|]. intros. cbn. split; auto. exists []. reflexivity. }
    { (* question mark and minus *)
      eapply Post_mono' with (lex := [63; 45]); [grow|]. apply Post_push; [|reflexivity|inlow].
      eapply At_push_token with (before := p) (lex' := [63]); [exact HA0| |reflexivity|].
      - rewrite (at_src _ _ _ HA0) at 1. cbn [app]. reflexivity.
      - intros. apply spelled_fixed; [reflexivity|inlow]. }
    destruct (c =? 33) eqn:E; [known; ops|clear E].
    destruct (c =? 46) eqn:E; [known; ops|clear E].
    { (* two dots *)
      eapply Post_mono' with (lex := [46; 46]); [grow|]. apply Post_ok.
      eapply At_push_token with (before := p) (lex' := [46]) (rest := 46 :: s_chars (skip s)).
      - eapply At_push_token with (before := p) (lex' := [46]) (rest := 46 :: s_chars (skip s)); [exact HA0| |reflexivity|].
        + rewrite (at_src _ _ _ HA0) at 1. cbn [app]. reflexivity.
        + intros. apply spelled_fixed; [reflexivity|inlow].
      - rewrite (at_src _ _ _ HA0) at 1. cbn [app]. reflexivity.
      - reflexivity.
      - intros. apply spelled_fixed; [reflexivity|inlow]. }
    { (* .5 *)
      destruct (match peek s with Some d => is_digit d | None => false end); [|ops].
      destruct (collect_number_spec _ _ _ HA) as (w & s' & Ew & HA' & Hw & _). rewrite Ew. cbn [sbind].
      exists w. apply At_push_here; [exact HA'|]. intros. cbn -[forallb is_digit]. exists [], w. splits; auto. }
    destruct (c =? 94) eqn:E; [known; ops|clear E].
    destruct (c =? 43) eqn:E; [known; ops|clear E].
    destruct (c =? 45) eqn:E; [known; ops|clear E].
    destruct (c =? 42) eqn:E; [known; ops|clear E].
    destruct (c =? 35) eqn:E; [known; ops|clear E].
    { (* number sign comment *)
      pose proof (At_advance _ _ _ HA) as A. unfold skip. destruct (advance s) as [[d|] s1]; cbn [snd].
      - destruct A as (crs & Hcrs & Hd & A & Hch & _).
        eapply Post_mono' with (lex := 35 :: crs ++ [d]); [grow|].
        pose proof (line_comment_spec (fuel_of s1) (35 :: crs ++ [d]) [] p s1) as L.
        cbn [rev] in L. rewrite app_nil_r in L. apply L; auto; try (cbn; tauto); try (unfold fuel_of; lia).
        + right. exists crs, [d]. splits; auto.
        + intros (a & b & Hab). destruct a; discriminate.
        + discriminate.
      - destruct A as (Hcrs & A & Hch & _).
        eapply Post_mono' with (lex := 35 :: s_chars s); [grow|].
        pose proof (line_comment_spec (fuel_of s1) (35 :: s_chars s) [] p s1) as L.
        cbn [rev] in L. rewrite app_nil_r in L. apply L; auto; try (cbn; tauto); try (unfold fuel_of; lia).
        + right. exists (s_chars s), []. rewrite app_nil_r. splits; auto.
        + intros (a & b & Hab). destruct a; discriminate.
        + discriminate. }
    destruct (c =? 47) eqn:E; [known; ops|clear E].
    { eapply Post_mono' with (lex := [47; 47]); [grow|].
      pose proof (line_comment_spec (fuel_of (skip s)) [47; 47] [] p (skip s)) as L.
      cbn [rev] in L. rewrite app_nil_r in L. apply L; auto; try (cbn; tauto); try (unfold fuel_of; lia).
      + left. reflexivity.
      + intros (a & b & Hab). destruct a; discriminate.
      + discriminate. }
    { unfold collect_doc_comment_information.
      destruct (doc_comment_spec (fuel_of (skip s)) [] _ _ _ HA0) as (body & s' & Ed & H & _); [unfold fuel_of; lia|].
      rewrite Ed. cbn [sbind rev app].
      destruct H as [(HA' & Hch & Hno)|(HA' & Hch' & Hch)].
      - eapply Post_mono' with (lex := [47; 42] ++ body ++ lit "*/"); [grow|]. apply Post_ok.
        apply At_push_here; [exact HA'|]. intros. exists body. left. splits; auto.
      - eapply Post_mono' with (lex := [47; 42] ++ body); [grow|]. apply Post_ok.
        apply At_push_here; [exact HA'|]. intros. exists body. right. splits; auto. }
    destruct (c =? 61) eqn:E; [known; ops|clear E].
    destruct (c =? 36) eqn:E; [known|clear E].
    { destruct (collect_while_spec is_ident_char (fuel_of s) _ _ s [] HA) as (w & s1 & Ew & HA1 & Hch & Hw & Hmax & _);
        [apply ident_char_not_eol|unfold fuel_of; lia|].
      unfold collect_identifier. rewrite Ew. cbn [sbind rev app].
      assert (Hrest : ~ starts_ident (s_chars s1)).
      { intros (d & r & Hd & Hid). apply is_ident_char_spec in Hid. rewrite (Hmax _ _ Hd) in Hid. discriminate. }
      eapply Post_mono' with (lex := [36] ++ w); [grow|].
      destruct w as [|w0 w]; apply Post_ok.
      - eapply At_push_fixed; [exact HA1|]. intros. cbn. auto.
      - apply At_push_here; [exact HA1|]. intros. cbn. splits; auto; [discriminate|]. now apply Forall_ident. }
    destruct (is_digit c) eqn:Edig; [now apply scan_number_spec|].
    destruct (c =? 40) eqn:E; [known; ops|clear E].
    destruct (c =? 41) eqn:E; [known; now apply close_parenthesis_spec|clear E].
    destruct (c =? 123) eqn:E; [known; ops|clear E].
    destruct (c =? 125) eqn:E; [known; ops|clear E].
    destruct (c =? 91) eqn:E; [known; ops|clear E].
    destruct (c =? 93) eqn:E; [known; ops|clear E].
    destruct (c =? 59) eqn:E; [known; ops|clear E].
    destruct (c =? 39) eqn:E; [known|clear E].
    { apply quoted_spec; auto; [lia| |]; intros; exists body; [left|right]; splits; auto. }
    destruct (c =? 96) eqn:E; [known|clear E].
    { apply quoted_spec; auto; [lia| |]; intros; exists body; [left|right]; splits; auto. }
    destruct (c =? 34) eqn:E; [known|clear E].
    { apply quoted_spec; auto; [lia| |]; intros; left; exists body; [left|right]; splits; auto. }
    now apply scan_word_spec.
  Qed.

  (** * The whole run *)

  Lemma At_set_start : forall p lex s, At p lex s -> At (p ++ lex) [] (set_start s).
  Proof.
    intros p lex s HA. constructor; cbn.
    - rewrite (at_src _ _ _ HA). now rewrite <- app_assoc.
    - apply HA.
    - rewrite app_nil_r. apply HA.
    - eapply toks_ok_mono; [|apply HA]. apply pos_of_le.
  Qed.

  Lemma At_advance_move : forall p s, At p [] s ->
    match advance s with
    | (Some c, s1) => exists crs : str, At (p ++ crs) [c] s1 /\ s_chars s = crs ++ c :: s_chars s1 /\ s_ctx s1 = s_ctx s
    | (None, s1) => At (p ++ s_chars s) [] s1 /\ s_chars s1 = []
    end.
  Proof.
    intros p s HA. pose proof (At_advance _ _ _ HA) as A. destruct (advance s) as [[c|] s1].
    - destruct A as (crs & Hcrs & Hc & A & Hch & Hctx). exists crs. splits; auto.
      pose proof (pos_of_crs p crs Hcrs) as Hp.
      constructor.
      + rewrite (at_src _ _ _ A). cbn [app]. now rewrite <- !app_assoc.
      + rewrite Hp. apply A.
      + rewrite (at_pos _ _ _ A). cbn [app]. now rewrite <- !app_assoc.
      + rewrite Hp. apply A.
    - destruct A as (Hcrs & A & Hch & Htk & _ & Hst & Hl & Hcol). split; auto. 
      pose proof (pos_of_crs p (s_chars s) Hcrs) as Hp. constructor.
      + rewrite (at_src _ _ _ A). cbn [app]. now rewrite <- !app_assoc.
      + rewrite Hp. apply A.
      + rewrite (at_pos _ _ _ A). cbn [app]. now rewrite app_nil_r.
      + rewrite Hp. apply A.
  Qed.

  Definition Final (r : sres Scn) : Prop :=
    match r with
    | SOk s => exists p, At p [] s /\ s_chars s = []
    | SErr _ => True
    | SPanic | SFuel => False
    end.

  Lemma scan_loop_spec : forall n p lex s, At p lex s -> (List.length (s_chars s) < n)%nat ->
    Final (scan_loop n s).
  Proof.
    induction n; intros p lex s HA Hn; [lia|]. cbn [scan_loop]. cbv zeta.
    pose proof (At_advance_move _ _ (At_set_start _ _ _ HA)) as A.
    destruct (advance (set_start s)) as [[c|] s1].
    - destruct A as (crs & A & Hch & Hctx). cbn [s_chars set_start] in Hch.
      assert (Hn1 : (List.length (s_chars s1) < n)%nat) by (rewrite Hch, app_length in Hn; simpl in Hn; lia).
      destruct (negb (is_in_script (s_ctx s1)) && negb (c =? 60)) eqn:Eo.
      + eapply IHn; eauto.
      + assert (Hc : is_in_script (s_ctx s1) = true \/ c = 60).
        { destruct (is_in_script (s_ctx s1)); auto. right. simpl in Eo. 
          destruct (c =? 60) eqn:E; [now apply N.eqb_eq in E|discriminate]. }
        pose proof (scan_char_spec _ _ _ A Hc) as P. destruct (scan_char c s1) as [s2|e| |]; simpl in P; auto.
        destruct P as [more P]. cbn [sbind]. eapply IHn; eauto.
        pose proof (at_src _ _ _ A) as S1. pose proof (at_src _ _ _ P) as S2. rewrite S1 in S2 at 1.
        apply app_inv_head in S2. cbn [app] in S2. injection S2 as S2. rewrite S2, app_length in Hn1. lia.
    - destruct A as [A Hch]. exists ((p ++ lex) ++ s_chars (set_start s)). split.
      + eapply At_push_fixed; [exact A|]. intros. cbn. splits; auto. rewrite Hch. intros ? [].
      + unfold push_token. destruct (is_in_script (s_ctx s1)); auto.
  Qed.

  Lemma scan_state_spec : Final (scan_state src).
  Proof.
    unfold scan_state. eapply (scan_loop_spec _ [] []); [|unfold fuel_of; cbn; lia].
    constructor; cbn; auto.
  Qed.
End Inv.
