(** C01-C09 and C39: properties of the tokeniser.  The specification used in
    the statements is SpecScanner.v (it does not mention the scanner). *)

From Verif Require Import Base Token TokenFacts Scanner SpecScanner ScannerFacts ScannerCrlf ScannerMore ScannerTags.

Definition php (s : string) : str := lit s.
Local Existing Instance ascii_runtime.

(** * C01  Tokenising always finishes *)

(** Neither a panic nor running out of fuel: a token list or an error. *)
Theorem C01_scan_total : forall (RT : Runtime) src,
  (exists ts, scan src = SOk ts) \/ (exists e, scan src = SErr e).
Proof. intros; apply scan_cases. Qed.

(** The main loop makes at most [length src + 1] rounds: any larger allowance
    gives the same answer. *)
Theorem C01_work_bounded : forall (RT : Runtime) src m,
  (List.length src < m)%nat -> scan_loop m (scanner_new src) = scan_state src.
Proof. intros; apply scan_fuel_irrelevant; auto. Qed.

Example C01_ex_ok : exists ts, scan (php "<?php $a = 'x';") = SOk ts /\ List.length ts = 6%nat.
Proof. eexists; split; [vm_compute; reflexivity|reflexivity]. Qed.
Example C01_ex_err : exists e, scan (php "<?php <<<X abc") = SErr e.
Proof. eexists; vm_compute; reflexivity. Qed.

(** * C02  Document order and true positions *)

Theorem C02_token_order : forall (RT : Runtime) src ts, scan src = SOk ts ->
  (forall i t, nth_error ts i = Some t -> t_offset t = Some (N.of_nat i))
  /\ (forall i j a b, (i <= j)%nat -> nth_error ts i = Some a -> nth_error ts j = Some b ->
        pos_le (token_pos a) (token_pos b))
  /\ (forall t, In t ts -> exists before after, src = before ++ after /\ token_pos t = pos_of before).
Proof.
  intros RT src ts H. apply scan_final in H as (s & _ & -> & HA & _).
  destruct (toks_ok_nth _ _ _ (at_toks _ _ _ _ HA)) as [H1 H2]. splits; auto.
  intros t Hin. apply in_rev in Hin. pose proof (toks_ok_forall _ _ _ (at_toks _ _ _ _ HA)) as F.
  rewrite Forall_forall in F. destruct (F _ Hin) as (b & lex & r & E1 & E2 & _). exists b, (lex ++ r). auto.
Qed.

Example C02_ex : exists ts, scan (php "<?php /* a */ (int) $b;") = SOk ts /\ (2 < List.length ts)%nat.
Proof. eexists; split; [vm_compute; reflexivity|cbn; lia]. Qed.

(** * C39  Every token stands for the text at its position *)

Theorem C39_tokens_true : forall (RT : Runtime) src ts, scan src = SOk ts -> Forall (token_true src) ts.
Proof.
  intros RT src ts H. apply scan_final in H as (s & _ & -> & HA & _).
  apply Forall_rev. eapply toks_ok_forall, (at_toks _ _ _ _ HA).
Qed.

(** * C03  The document range ends at the end of the text *)

Theorem C03_document_range : forall (RT : Runtime) src s, scan_state src = SOk s ->
  let r := document_range s in
  (end_line r, end_col r) = pos_of src /\ start_line r = 0 /\ start_col r = 0
  /\ (forall t, In t (s_toks s) -> t_type t = TEof -> token_pos t = pos_of src).
Proof.
  intros RT src s H. pose proof (scan_final src (rev (s_toks s))) as F. unfold scan in F. rewrite H in F.
  destruct (F eq_refl) as (s' & E & _ & HA & Hch). injection E as <-.
  cbv zeta. unfold document_range. cbn. splits; auto.
  - pose proof (at_pos _ _ _ _ HA) as P. now rewrite app_nil_r in P.
  - intros t Hin Ht. pose proof (toks_ok_forall _ _ _ (at_toks _ _ _ _ HA)) as G.
    rewrite Forall_forall in G. destruct (G _ Hin) as (b & lex & r & E1 & E2 & Hs).
    unfold spelled in Hs. rewrite Ht in Hs. destruct Hs as (_ & -> & Hcr).
    rewrite <- E2, E1. cbn. symmetry. now apply pos_of_crs.
Qed.

Example C03_ex : exists s, scan_state (php "<?php 1" ++ [13; 10] ++ php " 23 ") = SOk s
  /\ document_range s = mkRange 0 0 4 1 /\ (exists t, In t (s_toks s) /\ t_type t = TEof).
Proof. eexists; split; [vm_compute; reflexivity|]. split; [reflexivity|]. eexists; split; [left; reflexivity|reflexivity]. Qed.

(** * C04  Text outside PHP tags yields no tokens *)

Theorem C04_html_no_tokens_partial : forall (RT : Runtime) src,
  ~ contains (lit "<?") src -> ~ contains (lit "<<<") src -> scan src = SOk [].
Proof.
  intros RT src H1 H2. unfold scan, scan_state.
  destruct (html_loop (fuel_of (scanner_new src)) (scanner_new src) [] eq_refl eq_refl) as (s' & E & Ht); auto.
  rewrite E. cbn. now rewrite Ht.
Qed.

(** The same behind a closing tag: whatever has been scanned so far, HTML to
    the end of the file adds no token. *)
Theorem C04_html_tail_partial : forall (RT : Runtime) n s,
  s_ctx s = OutScript -> (List.length (s_chars s) < n)%nat ->
  ~ contains (lit "<?") (s_chars s) -> ~ contains (lit "<<<") (s_chars s) ->
  exists s', scan_loop n s = SOk s' /\ s_toks s' = s_toks s.
Proof. intros; eapply html_loop; auto. Qed.

(** Without the second hypothesis the claim is false: a heredoc opener in HTML
    produces tokens, or fails the whole file. *)
Theorem C04_html_no_tokens_refuted :
  (exists src ts, ~ contains (lit "<?") src /\ scan src = SOk ts /\ ts <> [])
  /\ (exists src e, ~ contains (lit "<?") src /\ scan src = SErr e).
Proof.
  assert (D : forall src, forallb (fun c => negb (c =? 63)) src = true -> ~ contains (lit "<?") src).
  { intros src H (a & b & ->). rewrite !forallb_app in H. cbn in H. now rewrite andb_false_r in H. }
  split.
  - exists (lit "<p> <<<x" ++ [10] ++ lit "x" ++ [10]). eexists. splits; [apply D; reflexivity|vm_compute; reflexivity|discriminate].
  - exists (lit "<p> a <<< b </p>"). eexists. split; [apply D; reflexivity|vm_compute; reflexivity].
Qed.

(** In every text that tokenises: in front of each token, except opening tags and
    the three tokens of a heredoc, there is an opening tag that has not been
    closed. *)
Definition open_before (ts : list Token) : Prop :=
  exists a o k b, ts = a ++ o :: b /\ t_type o = TScriptStart k /\ Forall (fun t => t_type t <> TScriptEnd) b.
Theorem C04_outside_partial : forall (RT : Runtime) src ts a t b,
  scan src = SOk ts -> ts = a ++ t :: b ->
  (forall k, t_type t <> TScriptStart k) -> t_type t <> THereDocStart -> t_type t <> THereDocEnd ->
  t_type t <> TEncapsedAndWhitespaceString ->
  open_before a.
Proof.
  intros RT src ts a t b h e n1 n2 n3 n4. apply scan_tagged in h.
  assert (e' : rev ts = rev b ++ t :: rev a) by (rewrite e, rev_app_distr; cbn [rev]; rewrite <- app_assoc; reflexivity).
  destruct (tags_ok_in _ h _ _ _ e') as [q|q].
  - exfalso. destruct (t_type t) eqn:et; try discriminate q; try congruence.
  - destruct (inside_some _ q) as (x & o & y & k & q1 & q2 & q3). exists (rev y), o, k, (rev x).
    assert (q4 : rev (rev a) = rev (x ++ o :: y)) by (rewrite q1; reflexivity).
    rewrite rev_involutive, rev_app_distr in q4. cbn [rev] in q4. rewrite <- app_assoc in q4.
    split; [exact q4|]. split; [exact q2|apply Forall_rev; exact q3].
Qed.
(** Two scripts with HTML between them *)
Example C04_outside_case : exists ts a t b, scan (php "<?php 1 ?> a < b <?php 2") = SOk ts /\ ts = a ++ t :: b /\
  t_type t = TLongNumber /\ t_label t = Some (lit "2") /\ List.length ts = 6%nat.
Proof.
  eexists. eexists [_; _; _; _], _, [_]. split; [vm_compute; reflexivity|]. split; [reflexivity|]. split; [reflexivity|]. split; reflexivity.
Qed.

Example C04_ex : scan (php "<html> a < b && $c </html>") = SOk [].
Proof. vm_compute. reflexivity. Qed.

(** * C05  Keywords whatever the letter case *)

Definition ascii_word (w : str) : Prop := forallb is_ascii w = true.
Definition same_but_case (a b : str) : Prop := map ascii_lower a = map ascii_lower b.

Theorem C05_keyword_case_partial : forall (RT : Runtime) w w',
  ascii_word w -> ascii_word w' -> same_but_case w w' ->
  ~ same_but_case w (lit "inf") -> ~ same_but_case w (lit "nan") ->
  map_keyword w = map_keyword w'.
Proof.
  intros RT w w' A A' S Hi Hn. unfold map_keyword, to_lowercase. rewrite A, A', <- S.
  assert (G : forall v, map ascii_lower v = map ascii_lower w ->
     str_eqb v (lit "INF") = false /\ str_eqb v (lit "NAN") = false).
  { intros v Hv. split; apply Bool.not_true_iff_false; intros E; apply str_eqb_eq in E; subst v.
    - apply Hi. unfold same_but_case. rewrite <- Hv. reflexivity.
    - apply Hn. unfold same_but_case. rewrite <- Hv. reflexivity. }
  destruct (G w eq_refl) as [-> ->]. destruct (G w' (eq_sym S)) as [-> ->]. reflexivity.
Qed.

(** Each listed keyword, in any letter case, is recognised as its own kind. *)
Lemma keyword_table_complete :
  forallb (fun kw => match assoc_str (lit kw) keyword_table with
                     | Some k => existsb (fun sp => str_eqb (lit sp) (lit kw)) (spellings k)
                     | None => false end) all_keywords = true.
Proof. vm_compute. reflexivity. Qed.

Theorem C05_keywords_recognised : forall (RT : Runtime) w kw,
  ascii_word w -> In kw all_keywords -> same_but_case w (lit kw) ->
  exists k, map_keyword w = Some k /\ In (lit kw) (map lit (spellings k)).
Proof.
  intros RT w kw A Hin S. pose proof keyword_table_complete as F. rewrite forallb_forall in F.
  specialize (F _ Hin). destruct (assoc_str (lit kw) keyword_table) as [k|] eqn:Ek; [|discriminate].
  assert (Hlow : map ascii_lower (lit kw) = lit kw).
  { assert (G : forallb (fun kw => str_eqb (map ascii_lower (lit kw)) (lit kw)) all_keywords = true) by (vm_compute; reflexivity).
    rewrite forallb_forall in G. apply str_eqb_eq. now apply G. }
  unfold same_but_case in S. rewrite Hlow in S.
  exists k. split.
  - unfold map_keyword, to_lowercase. rewrite A, S.
    assert (N1 : str_eqb w (lit "INF") = false).
    { apply Bool.not_true_iff_false; intros E; apply str_eqb_eq in E; subst w.
      rewrite <- S in Ek. vm_compute in Ek. discriminate. }
    assert (N2 : str_eqb w (lit "NAN") = false).
    { apply Bool.not_true_iff_false; intros E; apply str_eqb_eq in E; subst w.
      rewrite <- S in Ek. vm_compute in Ek. discriminate. }
    now rewrite N1, N2.
  - apply existsb_exists in F as (sp & Hsp & E). apply str_eqb_eq in E. rewrite <- E. now apply in_map.
Qed.

(** In the token list of a file: an identifier token never spells a keyword,
    and the text of a keyword token, lower-cased, is one of its spellings. *)
Theorem C05_tokens : forall (RT : Runtime) src ts t, scan src = SOk ts -> In t ts ->
  t_type t = TIdentifier ->
  exists w, t_label t = Some w /\ w <> [] /\ Forall ident_char w /\ ~ In (to_lowercase w) (map lit all_keywords).
Proof.
  intros RT src ts t H Hin Ht. apply C39_tokens_true in H. rewrite Forall_forall in H.
  destruct (H _ Hin) as (b & lex & r & _ & _ & Hs). unfold spelled in Hs. rewrite Ht in Hs.
  exists lex. tauto.
Qed.

Theorem C05_keyword_case_refuted :
  (exists w w', ascii_word w /\ ascii_word w' /\ same_but_case w w' /\ map_keyword w <> map_keyword w')
  /\ (exists a b ta tb, same_but_case a b /\ scan a = SOk ta /\ scan b = SOk tb
        /\ map t_type ta <> map t_type tb).
Proof.
  split.
  - exists (lit "INF"), (lit "inf"). splits; try reflexivity. vm_compute. discriminate.
  - exists (lit "<?php yield from $a;"), (lit "<?php yield FROM $a;"). do 2 eexists.
    splits; [reflexivity|vm_compute; reflexivity|vm_compute; reflexivity|vm_compute; discriminate].
Qed.

Example C05_ex : map_keyword (lit "FuNcTiOn") = Some TFunction /\ map_keyword (lit "Func") = None.
Proof. split; vm_compute; reflexivity. Qed.

(** * C06  String literals end at the first unescaped quote *)

Theorem C06_quoted : forall (RT : Runtime) n s q k body rest,
  quote_kind q k -> s_ctx s = InScript -> quoted_body q body -> ~ In 13 body ->
  s_chars s = q :: body ++ q :: rest ->
  exists s' lbs t, scan_loop (S n) s = scan_loop n s' /\ s_chars s' = rest /\ s_ctx s' = InScript
    /\ s_toks s' = t :: lbs ++ s_toks s /\ Forall (fun l => t_type l = TLinebreak) lbs
    /\ t_type t = k /\ t_label t = Some body /\ token_pos t = (s_line s, s_col s).
Proof. intros; apply (scan_quoted n s q k body rest); auto. Qed.

(** 'it\'s \\' followed by ; *)
Example C06_ex : quoted_body 39 (lit "it\'s \\") /\
  exists ts, scan (lit "<?php 'it\'s \\';") = SOk ts
    /\ map t_label ts = [None; Some (lit "it\'s \\"); None; None].
Proof. split; [repeat (try (apply QPlain; [discriminate|discriminate|]); try apply QEscape); apply QNil|].
  eexists; split; vm_compute; reflexivity. Qed.

(** * C07  Line ending style *)

Theorem C07_crlf_partial : forall (RT : Runtime) src,
  ~ In 13 src -> ~ contains (lit "<<<") src -> scan (crlf src) = scan src.
Proof. intros; apply scan_crlf; auto. Qed.

(** A heredoc makes the whole file fail as soon as it has CR LF line ends. *)
Theorem C07_crlf_refuted :
  exists src ts e, ~ In 13 src /\ scan src = SOk ts /\ scan (crlf src) = SErr e.
Proof.
  exists (lit "<?php $a = <<<X" ++ [10] ++ lit "abc" ++ [10] ++ lit "X;" ++ [10]). do 2 eexists.
  splits; [|vm_compute; reflexivity|vm_compute; reflexivity].
  intros H. assert (F : forallb (fun c => negb (c =? 13)) (lit "<?php $a = <<<X" ++ [10] ++ lit "abc" ++ [10] ++ lit "X;" ++ [10]) = true) by reflexivity.
  rewrite forallb_forall in F. specialize (F _ H). discriminate.
Qed.

Example C07_ex : exists ts, scan (crlf (lit "<?php // a" ++ [10] ++ lit "$b = 'x" ++ [10] ++ lit "y';")) = SOk ts
  /\ (6 < List.length ts)%nat.
Proof. eexists; split; [vm_compute; reflexivity|cbn; lia]. Qed.

(** * C08  Comments swallow nothing but themselves *)

(** [intro] is [//] or [#] and one more character of the comment's line. *)
Theorem C08_line_comment_partial : forall (RT : Runtime) n s body rest intro,
  s_ctx s = InScript -> ~ In 10 body -> ~ In 13 body -> ~ contains (lit "?>") body ->
  (intro = lit "//" \/ exists x, intro = [35; x] /\ x <> 91 /\ x <> 10 /\ x <> 13) ->
  s_chars s = intro ++ body ++ rest ->
  (rest = [] \/ (exists r, rest = 10 :: r \/ rest = 13 :: r) ->
    exists s' t, scan_loop (S n) s = scan_loop n s' /\ s_chars s' = rest /\ s_ctx s' = InScript
      /\ s_toks s' = t :: s_toks s /\ t_type t = TLineComment /\ t_label t = Some body
      /\ token_pos t = (s_line s, s_col s))
  /\ (forall r, rest = lit "?>" ++ r ->
    exists s' e t, scan_loop (S n) s = scan_loop n s' /\ s_chars s' = r /\ s_ctx s' = OutScript
      /\ s_toks s' = e :: t :: s_toks s /\ t_type e = TScriptEnd /\ t_type t = TLineComment /\ t_label t = Some body
      /\ token_pos t = (s_line s, s_col s)).
Proof. intros; apply scan_line_comment with (intro := intro); auto. Qed.

Theorem C08_block_comment : forall (RT : Runtime) n s body rest,
  s_ctx s = InScript -> ~ In 13 body -> ~ contains (lit "*/") body ->
  s_chars s = lit "/*" ++ body ++ lit "*/" ++ rest ->
  exists s' lbs t, scan_loop (S n) s = scan_loop n s' /\ s_chars s' = rest /\ s_ctx s' = InScript
    /\ s_toks s' = t :: lbs ++ s_toks s /\ Forall (fun l => t_type l = TLinebreak) lbs
    /\ t_type t = TMultilineComment /\ t_label t = Some body /\ token_pos t = (s_line s, s_col s).
Proof. intros; apply (scan_block_comment n s body rest); auto. Qed.

(** A number sign at the very end of its line swallows the whole next line. *)
Theorem C08_hash_line_refuted : forall line,
  ~ In 10 line -> ~ In 13 line -> ~ contains (lit "?>") line ->
  exists n s, s_ctx s = InScript /\ s_chars s = 35 :: 10 :: line /\
    exists s' t lb, scan_loop (S n) s = scan_loop n s' /\ s_chars s' = [] /\
      s_toks s' = t :: lb :: s_toks s /\ t_type t = TLineComment /\ t_label t = Some line /\ t_type lb = TLinebreak.
Proof.
  intros line H1 H2 H3. exists O, (mkScn 0 (0, 0) 0 InScript [] (35 :: 10 :: line)). splits; try reflexivity.
  set (s := mkScn 0 (0, 0) 0 InScript [] (35 :: 10 :: line)).
  destruct (scan_loop_char 0 s 35 (10 :: line) eq_refl eq_refl ltac:(lia) ltac:(lia)) as (s1 & E & A1 & A2 & A3 & A4).
  rewrite E.
  assert (P : peek_is s1 91 = false) by (unfold peek_is, peek; rewrite A1; reflexivity).
  unfold scan_char. cbn [N.eqb Pos.eqb orb]. rewrite P. unfold consume_line_comment.
  assert (K : s_chars (skip s1) = line /\ s_ctx (skip s1) = InScript
     /\ exists lb, s_toks (skip s1) = [lb] /\ t_type lb = TLinebreak).
  { unfold skip, advance. rewrite A1. cbn [advance_on N.eqb Pos.eqb snd s_chars s_ctx s_toks].
    splits; auto. unfold push_token. rewrite A2. cbn. rewrite A4. eexists; split; reflexivity. }
  destruct K as (K1 & K2 & lb & K3 & K4).
  assert (K1' : s_chars (skip s1) = line ++ []) by (now rewrite app_nil_r).
  destruct (line_comment_body line (fuel_of (skip s1)) [] (skip s1) [] H1 H2 H3 K1') as [I _].
  { unfold fuel_of. lia. } { discriminate. }
  destruct (I (or_introl eq_refl)) as (s2 & E2 & B1 & B2 & B3). rewrite E2. cbn [sbind].
  exists s2. eexists. exists lb. splits; [reflexivity|exact B1|rewrite B3, K3; reflexivity|reflexivity|reflexivity|exact K4].
Qed.

Example C08_ex_swallow : exists ts,
  scan (lit "<?php #" ++ [10] ++ lit "$secret = 1;" ++ [10] ++ lit "$b;") = SOk ts
  /\ ~ In (Some (lit "secret")) (map t_label ts) /\ In (Some (lit "b")) (map t_label ts).
Proof. eexists; split; [vm_compute; reflexivity|]. cbn. split; [|tauto].
  intros H; repeat (destruct H as [H|H]; [discriminate|]); exact H. Qed.
Example C08_ex : exists ts,
  scan (lit "<?php # one" ++ [10] ++ lit "$a; // two ?> html <?php $b;") = SOk ts
  /\ map t_type ts = [TScriptStart Regular; TLineComment; TLinebreak; TVariable; TSemicolon; TLineComment; TScriptEnd;
                      TScriptStart Regular; TVariable; TSemicolon; TEof].
Proof. eexists; split; vm_compute; reflexivity. Qed.

(** * C09  Tokens can be displayed and measured *)

Theorem C09_token_end_partial : forall (RT : Runtime) src ts t,
  scan src = SOk ts -> In t ts ->
  ~ (t_type t = THereDocEnd /\ t_label t = Some []) ->
  exists e, token_end t = Some e.
Proof.
  intros RT src ts t H Hin Hx. apply C39_tokens_true in H. rewrite Forall_forall in H.
  eapply token_true_end; eauto.
Qed.

(** A heredoc with an empty marker gives a token whose end cannot be computed. *)
Theorem C09_token_end_refuted : exists src ts t,
  scan src = SOk ts /\ In t ts /\ token_end t = None.
Proof.
  exists (lit "<?php <<<" ++ [10] ++ lit "x"). do 2 eexists.
  splits; [vm_compute; reflexivity|do 4 right; left; reflexivity|reflexivity].
Qed.

Example C09_ex : exists ts t, scan (lit "<?php $abc;") = SOk ts /\ In t ts /\ token_end t = Some (10, 0).
Proof. do 2 eexists. splits; [vm_compute; reflexivity|right; left; reflexivity|reflexivity]. Qed.

Print Assumptions C01_scan_total.
Print Assumptions C01_work_bounded.
Print Assumptions C02_token_order.
Print Assumptions C39_tokens_true.
Print Assumptions C03_document_range.
Print Assumptions C04_html_no_tokens_partial.
Print Assumptions C04_html_tail_partial.
Print Assumptions C04_outside_partial.
Print Assumptions C04_html_no_tokens_refuted.
Print Assumptions C05_keyword_case_partial.
Print Assumptions C05_keywords_recognised.
Print Assumptions C05_tokens.
Print Assumptions C05_keyword_case_refuted.
Print Assumptions C06_quoted.
Print Assumptions C07_crlf_partial.
Print Assumptions C07_crlf_refuted.
Print Assumptions C08_line_comment_partial.
Print Assumptions C08_block_comment.
Print Assumptions C08_hash_line_refuted.
Print Assumptions C09_token_end_partial.
Print Assumptions C09_token_end_refuted.
