(** Proofs for line ending insensitivity. *)

From Verif Require Import Base Token TokenFacts Scanner SpecScanner ScannerFacts.

Definition crlf (s : str) : str := flat_map (fun c => if c =? 10 then [13; 10] else [c]) s.

Definition X (s : Scn) : Scn :=
  mkScn (s_col s) (s_start s) (s_line s) (s_ctx s) (s_toks s) (crlf (s_chars s)).

Definition no13 (s : Scn) : Prop := ~ In 13 (s_chars s).

Definition xres (r : sres Scn) : sres Scn :=
  match r with SOk s => SOk (X s) | SErr e => SErr e | SPanic => SPanic | SFuel => SFuel end.

Lemma advance_X : forall s, no13 s -> advance (X s) = (fst (advance s), X (snd (advance s))).
Proof.
  intros [col st line ctx toks cs] H. unfold advance, no13 in *. cbn [X s_chars] in *. destruct cs as [|c r]; [reflexivity|].
  cbn [crlf flat_map]. destruct (c =? 10) eqn:E.
  - apply N.eqb_eq in E. subst c. cbn. unfold push_token. cbn. destruct ctx; reflexivity.
  - cbn [app]. cbn [advance_on]. rewrite E. destruct (c =? 13) eqn:E13.
    + apply N.eqb_eq in E13. subst c. exfalso. apply H. left; auto.
    + reflexivity.
Qed.

Lemma advance_chars : forall s, no13 s -> s_chars s = match fst (advance s) with
  | Some c => c :: s_chars (snd (advance s)) | None => s_chars (snd (advance s)) end.
Proof.
  intros [col st line ctx toks cs] H. unfold advance, no13 in *. cbn [s_chars] in *. destruct cs as [|c r]; [reflexivity|].
  cbn [advance_on]. destruct (c =? 10) eqn:E; [reflexivity|]. destruct (c =? 13) eqn:E13; [|reflexivity].
  apply N.eqb_eq in E13. subst c. exfalso. apply H. left; auto.
Qed.

Lemma advance_none : forall s, no13 s -> fst (advance s) = None -> s_chars s = [].
Proof.
  intros [col st line ctx toks cs] H. unfold advance, no13 in *. cbn [s_chars] in *. destruct cs as [|c r]; [reflexivity|].
  cbn [advance_on]. destruct (c =? 10) eqn:E; [discriminate|]. destruct (c =? 13) eqn:E13; [|discriminate].
  apply N.eqb_eq in E13. subst c. exfalso. apply H. left; auto.
Qed.

Lemma no13_snd : forall s, no13 s -> no13 (snd (advance s)).
Proof.
  intros s H. pose proof (advance_chars s H) as E. unfold no13 in *. rewrite E in H.
  destruct (fst (advance s)); auto. simpl in H. tauto.
Qed.

Lemma skip_X : forall s, no13 s -> skip (X s) = X (skip s).
Proof. intros. unfold skip. now rewrite advance_X. Qed.
Lemma no13_skip : forall s, no13 s -> no13 (skip s).
Proof. intros. now apply no13_snd. Qed.

Lemma peek_X : forall s, peek (X s) = match peek s with Some c => Some (if c =? 10 then 13 else c) | None => None end.
Proof.
  intros [col st line ctx toks cs]. unfold peek. cbn. destruct cs as [|c r]; cbn; auto.
  destruct (c =? 10); reflexivity.
Qed.

Lemma peek_not13 : forall s c, no13 s -> peek s = Some c -> c <> 13.
Proof.
  intros s c H E. unfold peek, no13 in *. destruct (s_chars s); [discriminate|]. injection E as ->.
  intros ->. apply H. left; auto.
Qed.

Lemma peek_is_X : forall s x, (x =? 10) = false -> (x =? 13) = false -> peek_is (X s) x = peek_is s x.
Proof.
  intros s x H10 H13. unfold peek_is. rewrite peek_X. destruct (peek s) as [c|]; auto.
  destruct (c =? 10) eqn:E; auto. apply N.eqb_eq in E. subst c.
  rewrite N.eqb_sym in H10. rewrite N.eqb_sym in H13. now rewrite H10, H13.
Qed.

Lemma push_X : forall s k, push_token (X s) k = X (push_token s k).
Proof. intros [col st line ctx toks cs] k. unfold push_token. cbn. destruct ctx; reflexivity. Qed.
Lemma named_X : forall s k l, push_named_token (X s) k l = X (push_named_token s k l).
Proof. reflexivity. Qed.
Lemma set_ctx_X : forall s c, set_ctx (X s) c = X (set_ctx s c).
Proof. reflexivity. Qed.
Lemma set_start_X : forall s, set_start (X s) = X (set_start s).
Proof. reflexivity. Qed.
Lemma adv_push_X : forall s k, no13 s -> adv_push (X s) k = X (adv_push s k).
Proof. intros. unfold adv_push. now rewrite skip_X, push_X. Qed.
Lemma chars_push : forall s k, s_chars (push_token s k) = s_chars s.
Proof. intros s k. unfold push_token. destruct (is_in_script _); reflexivity. Qed.

Lemma len_crlf_pos : forall s, (List.length (s_chars s) <= List.length (s_chars (X s)))%nat.
Proof.
  intros [col st line ctx toks cs]. cbn. induction cs; cbn; auto. rewrite app_length.
  destruct (a =? 10); cbn; lia.
Qed.

Section Loops.
  Context {RT : Runtime}.

  Definition xpair (r : sres (str * Scn)) : sres (str * Scn) :=
    match r with SOk (a, s) => SOk (a, X s) | SErr e => SErr e | SPanic => SPanic | SFuel => SFuel end.

  Lemma len_advance : forall s n, no13 s -> fst (advance s) <> None -> (List.length (s_chars s) < S n)%nat ->
    (List.length (s_chars (snd (advance s))) < n)%nat.
  Proof.
    intros s n H Hs Hn. rewrite (advance_chars s H) in Hn. destruct (fst (advance s)); [cbn in Hn; lia|congruence].
  Qed.
  Lemma len_advance_X : forall s n, no13 s -> fst (advance s) <> None -> (List.length (s_chars (X s)) < S n)%nat ->
    (List.length (s_chars (X (snd (advance s)))) < n)%nat.
  Proof.
    intros s n H Hs Hn. cbn [X s_chars] in *. rewrite (advance_chars s H) in Hn.
    destruct (fst (advance s)) as [c|]; [|congruence]. cbn in Hn. rewrite app_length in Hn.
    destruct (c =? 10); cbn in Hn; unfold crlf; lia.
  Qed.
  Lemma peek_advance : forall s c, no13 s -> peek s = Some c -> fst (advance s) = Some c.
  Proof.
    intros [col st line ctx toks cs] c H E. unfold peek, advance, no13 in *. cbn [s_chars] in *.
    destruct cs as [|d r]; [discriminate|]. injection E as ->. cbn.
    destruct (c =? 10); auto. destruct (c =? 13) eqn:E13; auto.
    apply N.eqb_eq in E13. subst c. exfalso. apply H. left; auto.
  Qed.

  Lemma collect_while_X : forall f, f 10 = false -> f 13 = false -> forall n m acc s,
    no13 s -> (List.length (s_chars s) < n)%nat -> (List.length (s_chars (X s)) < m)%nat ->
    collect_while m f acc (X s) = xpair (collect_while n f acc s)
    /\ match collect_while n f acc s with SOk (_, s') => no13 s' | _ => True end.
  Proof.
    intros f f10 f13. induction n; intros m acc s H Hn Hm; [lia|]. destruct m; [lia|]. cbn [collect_while].
    rewrite peek_X. destruct (peek s) as [c|] eqn:Ep; [|split; auto].
    assert (Ef : f (if c =? 10 then 13 else c) = f c).
    { destruct (c =? 10) eqn:E; auto. apply N.eqb_eq in E. subst c. congruence. }
    rewrite Ef. destruct (f c) eqn:Efc; [|split; auto].
    assert (Ec : (c =? 10) = false). { destruct (c =? 10) eqn:E; auto. apply N.eqb_eq in E. subst c. congruence. }
    rewrite Ec. rewrite skip_X by auto. 
    pose proof (peek_advance _ _ H Ep) as Ea.
    apply IHn; [now apply no13_skip| |].
    - apply len_advance; auto. congruence.
    - apply len_advance_X; auto. congruence.
  Qed.

  Lemma until_escaped_X : forall q n m esc acc s,
    no13 s -> (List.length (s_chars s) < n)%nat -> (List.length (s_chars (X s)) < m)%nat ->
    until_escaped m q esc acc (X s) = xpair (until_escaped n q esc acc s)
    /\ match until_escaped n q esc acc s with SOk (_, s') => no13 s' | _ => True end.
  Proof.
    intros q. induction n; intros m esc acc s H Hn Hm; [lia|]. destruct m; [lia|]. cbn [until_escaped].
    rewrite advance_X by auto.
    pose proof (len_advance s n H) as L1. pose proof (len_advance_X s m H) as L2. pose proof (no13_snd s H) as N1.
    destruct (advance s) as [[c|] s1]; cbn [fst snd] in *; [|split; auto].
    specialize (L1 ltac:(discriminate) Hn). specialize (L2 ltac:(discriminate) Hm).
    destruct (c =? 92); [apply IHn; auto|]. destruct ((c =? q) && negb esc); [split; auto|]. apply IHn; auto.
  Qed.

  Lemma doc_comment_X : forall n m acc s,
    no13 s -> (List.length (s_chars s) < n)%nat -> (List.length (s_chars (X s)) < m)%nat ->
    doc_comment_loop m acc (X s) = xpair (doc_comment_loop n acc s)
    /\ match doc_comment_loop n acc s with SOk (_, s') => no13 s' | _ => True end.
  Proof.
    induction n; intros m acc s H Hn Hm; [lia|]. destruct m; [lia|]. cbn [doc_comment_loop].
    rewrite advance_X by auto.
    pose proof (len_advance s n H) as L1. pose proof (len_advance_X s m H) as L2. pose proof (no13_snd s H) as N1.
    destruct (advance s) as [[c|] s1]; cbn [fst snd] in *; [|split; auto].
    specialize (L1 ltac:(discriminate) Hn). specialize (L2 ltac:(discriminate) Hm).
    rewrite peek_is_X by reflexivity.
    destruct ((c =? 42) && peek_is s1 47); [|apply IHn; auto].
    rewrite skip_X by auto. split; auto. now apply no13_skip.
  Qed.

  Lemma line_comment_X : forall n m acc s,
    no13 s -> (List.length (s_chars s) < n)%nat -> (List.length (s_chars (X s)) < m)%nat ->
    line_comment_loop m acc (X s) = xres (line_comment_loop n acc s)
    /\ match line_comment_loop n acc s with SOk s' => no13 s' | _ => True end.
  Proof.
    induction n; intros m acc s H Hn Hm; [lia|]. destruct m; [lia|]. cbn [line_comment_loop].
    rewrite peek_X. destruct (peek s) as [c|] eqn:Ep; [|split; auto].
    pose proof (peek_advance _ _ H Ep) as Ea.
    pose proof (len_advance s n H ltac:(congruence) Hn) as L1.
    pose proof (len_advance_X s m H ltac:(congruence) Hm) as L2. pose proof (no13_snd s H) as N1.
    pose proof (peek_not13 _ _ H Ep) as H13.
    destruct (c =? 10) eqn:E10.
    { cbn [orb N.eqb Pos.eqb]. split; auto. }
    rewrite E10. assert (E13 : (c =? 13) = false) by now apply N.eqb_neq. rewrite E13. cbn [orb].
    rewrite skip_X, advance_X by auto.
    destruct (c =? 63) eqn:E63.
    - rewrite peek_is_X by reflexivity. destruct (peek_is (skip s) 62) eqn:E62.
      + rewrite skip_X by (now apply no13_skip). rewrite named_X, push_X, set_ctx_X. split; auto.
        unfold no13. cbn [s_chars set_ctx]. rewrite chars_push. cbn [push_named_token set_toks s_chars].
        now apply no13_skip, no13_skip.
      + apply IHn; auto.
    - destruct (advance s) as [[d|] s1]; cbn [fst snd] in *; [|split; auto]. apply IHn; auto.
  Qed.

  Lemma fuel_lt : forall s, (List.length (s_chars s) < fuel_of s)%nat.
  Proof. intros; unfold fuel_of; lia. Qed.

  Definition okX (r r' : sres Scn) : Prop :=
    r' = xres r /\ match r with SOk s => no13 s | _ => True end.

  Lemma okX_ok : forall s, no13 s -> okX (SOk s) (SOk (X s)).
  Proof. split; auto. Qed.

  Lemma no13_chars : forall s s', s_chars s = s_chars s' -> no13 s' -> no13 s.
  Proof. unfold no13. intros s s' ->. auto. Qed.

  Lemma quoted_X : forall s q k, no13 s ->
    okX (slet (str, s1) <- collect_until_escaped q s ;; SOk (push_named_token s1 k str))
        (slet (str, s1) <- collect_until_escaped q (X s) ;; SOk (push_named_token s1 k str)).
  Proof.
    intros s q k H. unfold collect_until_escaped.
    destruct (until_escaped_X q (fuel_of s) (fuel_of (X s)) false [] s H (fuel_lt _) (fuel_lt _)) as [E N1].
    rewrite E. destruct (until_escaped (fuel_of s) q false [] s) as [[a s1]|e| |]; split; auto.
  Qed.

  Lemma collect_number_X : forall s, no13 s -> collect_number (X s) = xpair (collect_number s)
     /\ match collect_number s with SOk (_, s') => no13 s' | _ => True end.
  Proof. intros. apply collect_while_X; auto using fuel_lt. Qed.

  Ltac num1 s H :=
    let E := fresh "E" in let N1 := fresh "N" in
    destruct (collect_number_X s H) as [E N1]; rewrite E; clear E;
    destruct (collect_number s) as [[? ?]|?| |]; cbn [sbind xpair]; try (now split).

  Lemma scan_number_X : forall c s, no13 s -> okX (scan_number c s) (scan_number c (X s)).
  Proof.
    intros c s H. unfold scan_number. rewrite !peek_is_X by reflexivity.
    destruct (peek_is s 120 && (c =? 48)).
    { unfold collect_hex_number. rewrite skip_X by auto. pose proof (no13_skip _ H) as H'.
      destruct (collect_while_X is_hex eq_refl eq_refl (fuel_of (skip s)) (fuel_of (X (skip s))) [] (skip s) H' (fuel_lt _) (fuel_lt _)) as [E N1].
      rewrite E. destruct (collect_while (fuel_of (skip s)) is_hex [] (skip s)) as [[a s1]|e| |]; split; auto. }
    destruct (peek_is s 98 && (c =? 48)).
    { unfold collect_binary_number. rewrite skip_X by auto. pose proof (no13_skip _ H) as H'.
      destruct (collect_while_X is_binary eq_refl eq_refl (fuel_of (skip s)) (fuel_of (X (skip s))) [] (skip s) H' (fuel_lt _) (fuel_lt _)) as [E N1].
      rewrite E. destruct (collect_while (fuel_of (skip s)) is_binary [] (skip s)) as [[a s1]|e| |]; split; auto. }
    num1 s H.
    assert (Htail : forall num ty s2, no13 s2 ->
      okX (if peek_is s2 101 || peek_is s2 69 then
             let s3 := skip s2 in let number := num ++ [101] in
             let '(number, s4) := if peek_is s3 45 then (number ++ [45], skip s3)
                else if peek_is s3 43 then (number ++ [43], skip s3) else (number, s3) in
             slet (dec, s5) <- collect_number s4 ;; SOk (push_named_token s5 TExponentialNumber (number ++ dec))
           else SOk (push_named_token s2 ty num))
          (if peek_is (X s2) 101 || peek_is (X s2) 69 then
             let s3 := skip (X s2) in let number := num ++ [101] in
             let '(number, s4) := if peek_is s3 45 then (number ++ [45], skip s3)
                else if peek_is s3 43 then (number ++ [43], skip s3) else (number, s3) in
             slet (dec, s5) <- collect_number s4 ;; SOk (push_named_token s5 TExponentialNumber (number ++ dec))
           else SOk (push_named_token (X s2) ty num))).
    { intros num ty s2 H2. rewrite !peek_is_X by reflexivity.
      destruct (peek_is s2 101 || peek_is s2 69); [|split; auto]. cbv zeta. rewrite skip_X by auto.
      rewrite !peek_is_X by reflexivity. pose proof (no13_skip _ H2) as H3. pose proof (no13_skip _ H3) as H4.
      destruct (peek_is (skip s2) 45).
      { rewrite skip_X by auto. num1 (skip (skip s2)) H4. }
      destruct (peek_is (skip s2) 43).
      { rewrite skip_X by auto. num1 (skip (skip s2)) H4. }
      num1 (skip s2) H3. }
    rewrite peek_is_X by reflexivity. destruct (peek_is s0 46).
    - rewrite skip_X by auto. pose proof (no13_skip _ N) as H'. num1 (skip s0) H'. now apply Htail.
    - cbn [sbind]. now apply Htail.
  Qed.

  Lemma ident_X : forall s, no13 s -> collect_identifier (X s) = xpair (collect_identifier s)
     /\ match collect_identifier s with SOk (_, s') => no13 s' | _ => True end.
  Proof. intros. apply collect_while_X; auto using fuel_lt. Qed.

  Lemma push_ok : forall s k, no13 s -> okX (SOk (push_token s k)) (SOk (push_token (X s) k)).
  Proof. intros. rewrite push_X. split; auto. unfold no13. now rewrite chars_push. Qed.
  Lemma adv_push_ok : forall s k, no13 s -> okX (SOk (adv_push s k)) (SOk (adv_push (X s) k)).
  Proof.
    intros. rewrite adv_push_X by auto. split; auto. unfold no13, adv_push. rewrite chars_push. now apply no13_skip.
  Qed.

  Lemma scan_word_X : forall c s, no13 s -> 
    okX (scan_word c s) (scan_word c (X s)).
  Proof.
    intros c s H. unfold scan_word. destruct (is_ident_char c); [|split; auto].
    destruct (ident_X s H) as [E N1]; rewrite E; clear E.
    destruct (collect_identifier s) as [[r s1]|?| |]; cbn [sbind xpair]; try (now split).
    destruct (map_keyword (c :: r)); [now apply push_ok|].
    destruct (str_eqb (c :: r) (lit "from")); [|split; auto].
    cbn [X s_toks]. destruct (s_toks s1) as [|t rest]; [split; auto|].
    destruct (tt_eqb (t_type t) TYield); [|split; auto].
    change (set_toks (X s1) rest) with (X (set_toks s1 rest)). now apply push_ok.
  Qed.

  Lemma close_parenthesis_X : forall s, no13 s -> okX (close_parenthesis s) (close_parenthesis (X s)).
  Proof.
    intros s H. unfold close_parenthesis. cbn [X s_toks].
    destruct (s_toks s) as [|prev [|pos rest]].
    - now apply push_ok.
    - destruct (map_cast _); now apply push_ok.
    - destruct (map_cast _); [|now apply push_ok]. destruct (tt_eqb _ _); [|now apply push_ok].
      change (set_toks (X s) rest) with (X (set_toks s rest)). rewrite push_X. cbn [X s_toks].
      assert (Hc : s_chars (push_token (set_toks s rest) t) = s_chars s).
      { rewrite chars_push. reflexivity. }
      destruct (s_toks (push_token (set_toks s rest) t)) as [|u v]; split; auto.
      unfold no13. cbn [set_toks s_chars]. now rewrite Hc.
  Qed.

  Ltac xops :=
    repeat match goal with
      | H : no13 ?s |- okX (SOk ?s) (SOk (X ?s)) => now apply okX_ok
      | H : no13 ?s |- okX (SOk (push_token ?s _)) (SOk (push_token (X ?s) _)) => now apply push_ok
      | H : no13 ?s |- okX (SOk (adv_push ?s _)) (SOk (adv_push (X ?s) _)) => now apply adv_push_ok
      | |- okX (if peek_is ?s ?x then _ else _) (if peek_is (X ?s) ?x then _ else _) =>
          rewrite (peek_is_X s x) by reflexivity; destruct (peek_is s x) eqn:?
      | H : no13 ?s |- context [skip (X ?s)] => rewrite (skip_X s H); 
          let H' := fresh "H" in pose proof (no13_skip _ H) as H'
      | |- okX (SOk (push_token (set_ctx ?s _) _)) _ => rewrite ?set_ctx_X; apply push_ok; assumption
      end.

  Lemma ws4_X : forall s, no13 s ->
    peek_is (X s) 32 || peek_is (X s) 10 || peek_is (X s) 9 || peek_is (X s) 13
    = peek_is s 32 || peek_is s 10 || peek_is s 9 || peek_is s 13.
  Proof.
    intros s H. unfold peek_is. rewrite peek_X. destruct (peek s) as [c|] eqn:E; auto.
    pose proof (peek_not13 _ _ H E) as H13. apply N.eqb_neq in H13.
    destruct (c =? 10) eqn:E10; [apply N.eqb_eq in E10; subst c; reflexivity|]. now rewrite E10, H13.
  Qed.

  Lemma scan_char_X : forall c s, no13 s -> ~ contains (lit "<<<") (c :: s_chars s) ->
    okX (scan_char c s) (scan_char c (X s)).
  Proof.
    intros c s H Hhd. unfold scan_char.
    destruct ((c =? 32) || (c =? 9) || (c =? 13) || (c =? 10)); [now apply okX_ok|].
    destruct (c =? 58) eqn:E; [xops|clear E].
    destruct (c =? 64) eqn:E; [xops|clear E].
    destruct (c =? 126) eqn:E; [xops|clear E].
    destruct (c =? 44) eqn:E; [xops|clear E].
    destruct (c =? 92) eqn:E; [xops|clear E].
    destruct (c =? 38) eqn:E; [xops|clear E].
    destruct (c =? 37) eqn:E; [xops|clear E].
    destruct (c =? 124) eqn:E; [xops|clear E].
    destruct (c =? 62) eqn:E; [xops|clear E].
    destruct (c =? 60) eqn:E.
    { apply N.eqb_eq in E. subst c. xops.
      - exfalso. apply Hhd. rewrite (chars_skip_is _ _ Heqb eq_refl), (chars_skip_is _ _ Heqb0 eq_refl).
        exists [], (s_chars (skip (skip s))). reflexivity.
      - rewrite ws4_X by auto.
        destruct (peek_is (skip s) 32 || peek_is (skip s) 10 || peek_is (skip s) 9 || peek_is (skip s) 13); xops. }
    clear E.
    destruct (c =? 63) eqn:E; [xops|clear E].
    { rewrite adv_push_X, set_ctx_X by auto. split; auto. unfold no13. cbn. unfold adv_push. rewrite chars_push. now apply no13_skip. }
    { rewrite push_X. apply push_ok. unfold no13. now rewrite chars_push. }
    destruct (c =? 33) eqn:E; [xops|clear E].
    destruct (c =? 46) eqn:E; [xops|clear E].
    { rewrite push_X. apply push_ok. unfold no13. now rewrite chars_push. }
    { rewrite peek_X. replace (match (match peek s with Some c => Some (if c =? 10 then 13 else c) | None => None end) with Some d => is_digit d | None => false end)
        with (match peek s with Some d => is_digit d | None => false end).
      2:{ destruct (peek s) as [d|]; auto. destruct (d =? 10) eqn:Ed; auto. apply N.eqb_eq in Ed. subst d. reflexivity. }
      destruct (match peek s with Some d => is_digit d | None => false end); [|xops].
      num1 s H. }
    destruct (c =? 94) eqn:E; [xops|clear E].
    destruct (c =? 43) eqn:E; [xops|clear E].
    destruct (c =? 45) eqn:E; [xops|clear E].
    destruct (c =? 42) eqn:E; [xops|clear E].
    destruct (c =? 35) eqn:E; [xops|clear E].
    { unfold consume_line_comment. apply line_comment_X; auto using fuel_lt. }
    destruct (c =? 47) eqn:E; [xops|clear E].
    { unfold consume_line_comment. apply line_comment_X; auto using fuel_lt. }
    { unfold collect_doc_comment_information.
      destruct (doc_comment_X (fuel_of (skip s)) (fuel_of (X (skip s))) [] (skip s) H0 (fuel_lt _) (fuel_lt _)) as [Ed Nd].
      rewrite Ed. destruct (doc_comment_loop (fuel_of (skip s)) [] (skip s)) as [[a s1]|e| |]; split; auto. }
    destruct (c =? 61) eqn:E; [xops|clear E].
    destruct (c =? 36) eqn:E; [|clear E].
    { destruct (ident_X s H) as [Ei N1]; rewrite Ei; clear Ei.
      destruct (collect_identifier s) as [[r s1]|?| |]; cbn [sbind xpair]; try (now split).
      destruct r; [now apply push_ok|split; auto]. }
    destruct (is_digit c) eqn:E; [now apply scan_number_X|clear E].
    destruct (c =? 40) eqn:E; [xops|clear E].
    destruct (c =? 41) eqn:E; [now apply close_parenthesis_X|clear E].
    destruct (c =? 123) eqn:E; [xops|clear E].
    destruct (c =? 125) eqn:E; [xops|clear E].
    destruct (c =? 91) eqn:E; [xops|clear E].
    destruct (c =? 93) eqn:E; [xops|clear E].
    destruct (c =? 59) eqn:E; [xops|clear E].
    destruct (c =? 39) eqn:E; [now apply quoted_X|clear E].
    destruct (c =? 96) eqn:E; [now apply quoted_X|clear E].
    destruct (c =? 34) eqn:E; [now apply quoted_X|clear E].
    now apply scan_word_X.
  Qed.

  Lemma contains_app_r : forall p a b, contains p b -> contains p (a ++ b).
  Proof. intros p a b (x & y & ->). exists (a ++ x), y. now rewrite <- app_assoc. Qed.

  Lemma scan_loop_X : forall src n m p lex s, At src p lex s -> no13 s -> ~ contains (lit "<<<") (s_chars s) ->
    (List.length (s_chars s) < n)%nat -> (List.length (s_chars (X s)) < m)%nat ->
    scan_loop m (X s) = xres (scan_loop n s).
  Proof.
    intros src. induction n; intros m p lex s HA H Hhd Hn Hm; [lia|]. destruct m; [lia|]. cbn [scan_loop]. cbv zeta.
    rewrite set_start_X. assert (H' : no13 (set_start s)) by exact H.
    rewrite advance_X by auto.
    pose proof (len_advance (set_start s) n H') as L1. pose proof (len_advance_X (set_start s) m H') as L2.
    pose proof (no13_snd _ H') as N1. pose proof (advance_chars _ H') as Hch.
    pose proof (At_advance_move _ _ _ (At_set_start _ _ _ _ HA)) as A.
    destruct (advance (set_start s)) as [[c|] s1]; cbn [fst snd] in *.
    - specialize (L1 ltac:(discriminate) Hn). specialize (L2 ltac:(discriminate) Hm).
      destruct A as (crs & A & _ & _). cbn [set_start s_chars] in Hch.
      assert (Hhd1 : ~ contains (lit "<<<") (s_chars s1)).
      { intros Hc. apply Hhd. rewrite Hch. now apply (contains_app_r _ [c]). }
      cbn [X s_ctx]. destruct (negb (is_in_script (s_ctx s1)) && negb (c =? 60)) eqn:Eo.
      + eapply IHn; eauto.
      + assert (Hc : is_in_script (s_ctx s1) = true \/ c = 60).
        { destruct (is_in_script (s_ctx s1)); auto. right. simpl in Eo. 
          destruct (c =? 60) eqn:E; [now apply N.eqb_eq in E|discriminate]. }
        pose proof (scan_char_spec _ _ _ _ A Hc) as P.
        assert (Hhd2 : ~ contains (lit "<<<") (c :: s_chars s1)) by (rewrite <- Hch; auto).
        destruct (scan_char_X c s1 N1 Hhd2) as [E N2]. 
        change (mkScn (s_col s1) (s_start s1) (s_line s1) (s_ctx s1) (s_toks s1) (crlf (s_chars s1))) with (X s1).
        rewrite E. destruct (scan_char c s1) as [s2|e| |]; cbn [sbind xres]; auto.
        destruct P as [more P].
        pose proof (at_src _ _ _ _ A) as S1. pose proof (at_src _ _ _ _ P) as S2. rewrite S1 in S2 at 1.
        apply app_inv_head in S2. cbn [app] in S2. injection S2 as S2.
        eapply IHn; eauto.
        * intros Hcon. apply Hhd1. rewrite S2. now apply contains_app_r.
        * rewrite S2, app_length in L1. lia.
        * cbn [X s_chars] in L2 |- *. rewrite S2 in L2. unfold crlf in *. rewrite flat_map_app, app_length in L2. lia.
    - rewrite push_X. reflexivity.
  Qed.

  Lemma scan_crlf : forall src, ~ In 13 src -> ~ contains (lit "<<<") src -> scan (crlf src) = scan src.
  Proof.
    intros src H Hhd. unfold scan, scan_state.
    change (scanner_new (crlf src)) with (X (scanner_new src)).
    erewrite (scan_loop_X src (fuel_of (scanner_new src)) (fuel_of (X (scanner_new src))) [] []); auto using fuel_lt.
    - destruct (scan_loop (fuel_of (scanner_new src)) (scanner_new src)) as [s|e| |]; reflexivity.
    - constructor; cbn; auto.
  Qed.
End Loops.
