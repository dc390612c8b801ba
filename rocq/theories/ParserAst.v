(** The invariant for the whole parser: [run] and [ast]. *)

From Verif Require Import Base Token TokenFacts Scanner SpecScanner ScannerMore ScannerHere Prop_Scanner.
From Verif Require Import Node DocBlock Parser DocFacts ParserSpec ParserBase ParserInv.

Section Whole.
Context `{RT : Runtime}.
Variable T : Token -> Prop.
Variable eof : N * N.
Variable W : Prop.
Hypothesis T_end : forall t, T t -> W \/ exists e, token_end t = Some e.
Hypothesis T_doc : forall t, T t -> t_type t = TMultilineComment -> W \/ t_label t <> None.

Local Notation VOK := (vok T eof).
Local Notation TT := (TT T eof W).

Theorem run_ok : forall n (E : Prop) (Pre : pst -> Prop),
  (forall bp, TT E Pre (r_expr (run n) bp) VOK anyR)
  /\ TT E Pre (r_call (run n)) VOK anyR
  /\ TT E Pre (r_stmt (run n)) VOK anyR
  /\ TT E Pre (r_block (run n)) VOK anyR.
Proof.
  induction n as [|n IH]; intros E Pre.
  { splits; [intros bp|..]; intros s _ _ _; exact I. }
  cbn [run r_expr r_call r_stmt r_block].
  assert (H1 : forall (E : Prop) (Pre : pst -> Prop) bp, TT E Pre (r_expr (run n) bp) VOK anyR) by (intros; apply IH).
  assert (H2 : forall (E : Prop) (Pre : pst -> Prop), TT E Pre (r_call (run n)) VOK anyR) by (intros; apply IH).
  assert (H3 : forall (E : Prop) (Pre : pst -> Prop), TT E Pre (r_stmt (run n)) VOK anyR) by (intros; apply IH).
  assert (H4 : forall (E : Prop) (Pre : pst -> Prop), TT E Pre (r_block (run n)) VOK anyR) by (intros; apply IH).
  clear IH. splits; intros.
  - now apply G_expression_body.
  - now apply G_call.
  - now apply G_statement_body.
  - now apply G_block_body.
Qed.

Lemma ast_loop_ok : forall n (E : Prop) (Pre : pst -> Prop), TT E Pre (ast_loop n) VOK anyR.
Proof.
  intros. unfold ast_loop. apply G_statements_loop; auto; intros; try apply run_ok.
  apply TT_ret; [intros; exact I|intros; exact I].
Qed.

End Whole.

(** The loop over the statements reports errors, it does not fail. *)
Definition nofail {A} (m : P A) : Prop := forall s e s', m s <> PFail e s'.
Lemma nofail_ret : forall A (a : A), nofail (ret a). Proof. intros A a s e s'; discriminate. Qed.
Lemma nofail_bind : forall A B (m : P A) (f : A -> P B), nofail m -> (forall a, nofail (f a)) -> nofail (bind m f).
Proof.
  intros A B m f Hm Hf s e s'. unfold bind. specialize (Hm s). destruct (m s); try discriminate; [apply Hf|].
  intros _. eapply Hm. reflexivity.
Qed.
Lemma nofail_ploop : forall A B n (body : A -> P (A + B)) a, (forall a, nofail (body a)) -> nofail (ploop n body a).
Proof.
  intros A B n body. induction n as [|n IH]; intros a Hb; cbn.
  - intros s e s'; discriminate.
  - apply nofail_bind; auto. intros [a'|b]; auto. apply nofail_ret.
Qed.
Lemma nofail_peek : nofail peek.
Proof. intros s e s'. unfold peek. destruct (peek_go _ _) as [[? ?] ?]. discriminate. Qed.
Lemma nofail_next : nofail next.
Proof. intros s e s'. unfold next. destruct (next_go _ _ _) as [[[[? ?] ?] ?]|]; discriminate. Qed.
Lemma nofail_one_of : forall l, nofail (next_token_one_of l).
Proof. intros l. unfold next_token_one_of. apply nofail_bind; [apply nofail_peek|]. intros [t|]; apply nofail_ret. Qed.
Lemma nofail_eff : nofail error_fast_forward.
Proof.
  intros s. revert s. unfold error_fast_forward, while_tokens. intros s. apply nofail_ploop. intros _.
  apply nofail_bind; [apply nofail_peek|]. intros [t|]; [|apply nofail_ret].
  apply nofail_bind; [apply nofail_one_of|]. intros []; [apply nofail_ret|].
  apply nofail_bind; [apply nofail_next|]. intros; apply nofail_ret.
Qed.
Lemma nofail_statements_loop `{RT : Runtime} : forall rec n stop, nofail stop -> nofail (statements_loop rec n stop).
Proof.
  intros rec n stop Hs. unfold statements_loop. apply nofail_ploop. intros l.
  apply nofail_bind; auto. intros []; [apply nofail_ret|].
  apply nofail_bind; [apply nofail_peek|]. intros [t|]; [|apply nofail_ret].
  apply nofail_bind. { intros s e s'. unfold pcatch. destruct (r_stmt rec s); discriminate. }
  intros [nw|er].
  - apply nofail_bind; [|intros; apply nofail_ret]. intros s e s'. unfold flush_docs. destruct (flush_go _); discriminate.
  - apply nofail_bind. { intros s e s'. discriminate. }
    intros _. apply nofail_bind; [apply nofail_eff|]. intros; apply nofail_ret.
Qed.

(** * [ast] *)

(** The position that the parser hands to placeholders at the end of the
    input: line and column of the last token, in this order. *)
Definition eof_of (ts : list Token) : N * N :=
  match last_opt ts with Some t => (t_line t, t_col t) | None => (0, 0) end.

Theorem ast_spec `{RT : Runtime} : forall (W : Prop) n ts,
  (forall t, In t ts -> W \/ exists e, token_end t = Some e) ->
  (forall t, In t ts -> t_type t = TMultilineComment -> W \/ t_label t <> None) ->
  heredoc_ok W ts ->
  match ast n ts with
  | POk (stmts, errs) _ =>
      Forall (Good (fun t => In t ts) (eof_of ts) (errs <> [])) stmts
      /\ Forall (err_ok (fun t => In t ts) (eof_of ts)) errs
  | PFail _ _ => False
  | PPanic => W
  | PFuel => True
  end.
Proof.
  intros W n ts H1 H2 H3. unfold ast. destruct ts as [|t0 r0] eqn:Ets; [auto|]. rewrite <- Ets in *. clear Ets t0 r0.
  pose proof (ast_loop_ok (fun t => In t ts) (eof_of ts) W H1 H2 n False any (parser_new ts)) as G.
  pose proof (nofail_statements_loop (run n) n (ret false) (nofail_ret _ _) (parser_new ts)) as NF. fold (ast_loop n) in NF.
  destruct (ast_loop n (parser_new ts)) as [st s|e s| |].
  - destruct G as ([_ _ _ G3 _ _] & _ & G & _); [|contradiction|exact I|].
    { constructor; cbn; auto. apply Forall_forall; auto. left; reflexivity. }
    split; [|apply Forall_rev; exact G3].
    eapply Forall_impl; [|exact G]. intros m Hm. eapply Good_mono; [|exact Hm].
    unfold er. intros He Hr. apply He. rewrite <- (rev_involutive (p_errs s)), Hr. reflexivity.
  - apply (NF e s). reflexivity.
  - apply G; [|contradiction|exact I]. constructor; cbn; auto. apply Forall_forall; auto. left; reflexivity.
  - exact I.
Qed.

(** for any list of tokens *)
Corollary ast_any `{RT : Runtime} : forall n ts stmts errs s, ast n ts = POk (stmts, errs) s ->
  Forall (Good (fun t => In t ts) (eof_of ts) (errs <> [])) stmts
  /\ Forall (err_ok (fun t => In t ts) (eof_of ts)) errs.
Proof.
  intros n ts stmts errs s H. pose proof (ast_spec True n ts) as G. rewrite H in G. apply G; auto.
  clear. induction ts; cbn; auto.
Qed.

(** * Tokens of the tokeniser *)

Lemma here_followed_ok : forall W ts, here_followed ts -> heredoc_ok W ts.
Proof.
  intros W. induction ts as [|t r IH]; cbn; auto. intros [H1 H2]. split; auto.
Qed.

(** A heredoc without a name: [<<<] at the end of a line *)
Definition nameless_heredoc (t : Token) : Prop := t_type t = THereDocEnd /\ t_label t = Some [].

Lemma scan_doc_label `{RT : Runtime} : forall src ts t, scan src = SOk ts -> In t ts ->
  t_type t = TMultilineComment -> t_label t <> None.
Proof.
  intros src ts t Hs Ht Hd. pose proof (C39_tokens_true _ src ts Hs) as F. rewrite Forall_forall in F.
  destruct (F t Ht) as (b & lex & r & _ & _ & Hsp). unfold spelled in Hsp. rewrite Hd in Hsp.
  destruct Hsp as [body [(_ & _ & ->)|(_ & _ & ->)]]; discriminate.
Qed.
Lemma scan_end `{RT : Runtime} : forall src ts t, scan src = SOk ts -> In t ts ->
  ~ nameless_heredoc t -> exists e, token_end t = Some e.
Proof.
  intros src ts t Hs Ht Hn. pose proof (C39_tokens_true _ src ts Hs) as F. rewrite Forall_forall in F.
  eapply token_true_end; eauto.
Qed.
Lemma scan_not_missing `{RT : Runtime} : forall src ts t, scan src = SOk ts -> In t ts -> t_type t <> TMissing.
Proof.
  intros src ts t Hs Ht Hm. pose proof (C39_tokens_true _ src ts Hs) as F. rewrite Forall_forall in F.
  destruct (F t Ht) as (b & lex & r & _ & _ & Hsp). unfold spelled in Hsp. rewrite Hm in Hsp.
  destruct Hsp as [_ Hin]. cbn in Hin. exact Hin.
Qed.

Theorem ast_scanned `{RT : Runtime} : forall n src ts, scan src = SOk ts ->
  match ast n ts with
  | PFail _ _ => False
  | PPanic => exists t, In t ts /\ nameless_heredoc t
  | _ => True
  end.
Proof.
  intros n src ts Hs. pose proof (ast_spec (exists t, In t ts /\ nameless_heredoc t) n ts) as G.
  destruct (ast n ts) as [[? ?] ?| | |]; auto; apply G.
  all: try (intros t Ht Hd; right; eapply scan_doc_label; eauto; fail).
  all: try (apply here_followed_ok; eapply scan_here_followed; eauto; fail).
  all: intros t Ht.
  all: assert (D : nameless_heredoc t \/ ~ nameless_heredoc t)
      by (unfold nameless_heredoc; destruct (t_type t); try (right; intros [? ?]; discriminate);
          destruct (t_label t) as [[|]|]; auto; right; intros [? ?]; discriminate).
  all: destruct D as [D|D]; [left; eauto|right; eapply scan_end; eauto].
Qed.
