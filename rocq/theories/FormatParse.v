(** Files of expression statements: how the parser (mod.rs:102-139, 321-471)
    reads them, and that the formatter gets a tree of SpecFormat.v. *)

From Verif Require Import Base Token Scanner Node DocBlock Parser ParserBase SpecCalm SpecExpr PrattFacts.

(** [$a = 1 + 2; ($b . "c");] and so on: chains of SpecExpr.v, each with its
    semicolon. *)
Definition program := list (chain * Token).
Definition program_tokens (p : program) : list Token :=
  flat_map (fun x => chain_tokens (fst x) ++ [snd x]) p.

Ltac by_type t := destruct (t_type t); try discriminate; try reflexivity.

Section File.
Context `{RT : Runtime}.

(** the first token of a chain *)
Lemma chain_first : forall c, written c -> exists t w,
  chain_tokens c = t :: w /\ plain t = true /\
  (literal (t_type t) = true \/ t_type t = TVariable \/ t_type t = TOpenParenthesis).
Proof.
  assert (O : forall o, written_operand o -> exists t w,
    operand_tokens o = t :: w /\ plain t = true /\
    (literal (t_type t) = true \/ t_type t = TVariable \/ t_type t = TOpenParenthesis)).
  { intros [t|t|a c b] H; cbn [operand_tokens written_operand] in *.
    - destruct H as [H _]. exists t, []. splits; auto. unfold plain, literal in *. by_type t.
    - destruct H as (H & _). exists t, []. splits; auto. unfold plain. now rewrite H.
    - destruct H as (H & _). exists a, (chain_tokens c ++ [b]). splits; auto. unfold plain. now rewrite H. }
  intros [o|o op c] H; cbn [written chain_tokens] in *; [auto|].
  destruct H as [H _]. destruct (O o H) as (t & w & -> & Hp & Ht). exists t, (w ++ op :: chain_tokens c). auto.
Qed.

Lemma parses_default : forall c semi, written c -> t_type semi = TSemicolon -> measured semi ->
  exists n, Groups codeL codeR c n /\
    forall r, parses (fun n => expression_or_label (run n) n) (chain_tokens c ++ [semi]) (NExpressionStatement n) r.
Proof.
  intros c semi Hw Hs Hm. destruct (chain_parsed c Hw) as (n & G & H). exists n. split; [exact G|]. intros r.
  destruct (chain_first c Hw) as (t & w & E & Hp & Ht).
  assert (He : ends_expression semi) by (unfold ends_expression; rewrite Hs; now left).
  unfold expression_or_label.
  assert (N1 : tt_eqb (t_type t) TStatic = false) by (unfold literal in Ht; destruct (t_type t); intuition discriminate).
  assert (N2 : tt_eqb (t_type t) TIdentifier = false) by (unfold literal in Ht; destruct (t_type t); intuition discriminate).
  eapply parses_bind0.
  { rewrite E. cbn [app]. apply (parses_ignore TStatic t _ Hp N1). }
  cbn beta iota. eapply parses_bind0; cbn beta.
  { eapply parses_bind0; [rewrite E; cbn [app]; apply (parses_ignore TIdentifier t _ Hp N2)|]. cbn beta iota. apply parses_ret. }
  cbn beta iota. eapply parses_bind; cbn beta.
  { unfold expression_statement. eapply parses_bind1; [|apply parses_ret].
    apply closes_end in He. apply H; [left; exact He|apply He|]. apply Forall_forall. intros; lia. }
  cbn beta. assert (Hps : plain semi = true) by (unfold plain; now rewrite Hs).
  eapply parses_bind0; [apply (parses_one_of _ semi r Hps)|]. cbn beta.
  rewrite (one_of_type _ _ _ Hs). change (existsb (fun x => tt_eqb x TSemicolon) [TScriptEnd]) with false. cbn iota.
  eapply parses_bind1; [|apply parses_ret]. apply parses_ff_after; [exact Hps|exact Hm|now rewrite Hs].
Qed.

Lemma parses_in_script : forall c semi, written c -> t_type semi = TSemicolon -> measured semi ->
  exists n, Groups codeL codeR c n /\
    forall r, parses (fun n => statement_in_script (run n) n) (chain_tokens c ++ [semi]) (NExpressionStatement n) r.
Proof.
  intros c semi Hw Hs Hm. destruct (parses_default c semi Hw Hs Hm) as (n & G & H). exists n. split; [exact G|]. intros r.
  destruct (chain_first c Hw) as (t & w & E & Hp & Ht). unfold statement_in_script.
  assert (Ha : Parser.one_of [TAttributeStart] t = false)
    by (unfold Parser.one_of; cbn [existsb]; unfold literal in Ht; destruct (t_type t); intuition discriminate).
  eapply parses_bind0.
  { unfold attributes_block. apply (parses_loop _ _ (fun n attributes => _)). apply loop_done.
    rewrite E. cbn [app]. eapply parses_bind0; [apply (parses_one_of _ t _ Hp)|]. cbn beta. rewrite Ha. apply parses_ret. }
  cbn beta. eapply parses_bind0; [rewrite E; cbn [app]; apply (parses_peek t _ Hp)|]. cbn beta iota.
  unfold literal in Ht. destruct (t_type t); try exact (H r); exfalso; intuition discriminate.
Qed.

(** A statement that is read in the script whatever follows. *)
Definition reads_stmt (w : list Token) (a : Node) : Prop :=
  (exists t v, w = t :: v /\ plain t = true) /\
  forall r, parses (fun n => statement_in_script (run n) n) w a r.

Definition loop_round (n : nat) (statements : list Node) : P (list Node + list Node) :=
    b <- ret false ;;
    if b then break statements
    else
      p <- peek ;;
      match p with
      | None => break statements
      | Some _ =>
          r <- pcatch (r_stmt (run n)) ;;
          match r with
          | inr error =>
              push_err error ;;;
              error_fast_forward ;;;
              continue statements
          | inl new_statement =>
              docs <- flush_docs ;;
              continue (statements ++ docs ++ [new_statement])
          end
      end.
Lemma ast_loop_eq : forall n, ast_loop n = ploop n (loop_round n) [].
Proof. reflexivity. Qed.

Lemma r_stmt_S : forall n, r_stmt (run (S n)) = statement_body (run n) n.
Proof. reflexivity. Qed.

(** in front of the tokens [w], with no comment on the way *)
Definition ready (s : pst) (w : list Token) : Prop :=
  shown (p_toks s) = w /\ Forall measured (p_toks s) /\ uncommented (p_toks s) /\ p_docs s = [].
Definition steps {A} (m : P A) (s : pst) (a : A) (ctx : pctx) (r : list Token) : Prop :=
  exists s', m s = POk a s' /\ ready s' r /\ p_errs s' = p_errs s /\ p_ctx s' = ctx.

Lemma leaves_steps : forall A (m : P A) s a r w, leaves m s a r -> ready s w -> steps m s a (p_ctx s) r.
Proof.
  intros A m s a r w (docs & toks & ep & E & Ht & Hm & Hd) (_ & _ & Hu & Hn).
  destruct (Hd Hu) as [-> Hu']. exists (upd s (p_docs s) toks ep). unfold ready. cbn. auto 8.
Qed.
Lemma steps_bind : forall A B (m : P A) (f : A -> P B) s a b c1 c2 mid r,
  steps m s a c1 mid -> (forall s', ready s' mid -> p_ctx s' = c1 -> steps (f a) s' b c2 r) ->
  steps (bind m f) s b c2 r.
Proof.
  intros A B m f s a b c1 c2 mid r (s1 & E1 & R1 & P1 & C1) H. destruct (H s1 R1 C1) as (s2 & E2 & R2 & P2 & C2).
  exists s2. unfold bind. rewrite E1. splits; auto. congruence.
Qed.
Lemma steps_peek : forall s t r, plain t = true -> ready s (t :: r) -> steps peek s (Some t) (p_ctx s) (t :: r).
Proof.
  intros s t r Hp R. eapply leaves_steps; [|exact R]. destruct R as (Ht & Hm & _).
  destruct (parses_peek t r Hp) as [k H]. apply (H k); auto.
Qed.

Lemma shown_measured : forall toks t r, shown toks = t :: r -> Forall measured toks -> measured t.
Proof.
  intros toks t r H Hm. rewrite Forall_forall in Hm. apply Hm.
  assert (I : In t (shown toks)) by (rewrite H; now left). apply filter_In in I. apply I.
Qed.

(** one statement in the script *)
Lemma stmt_script : forall w a r, reads_stmt w a -> exists k, forall n s, (k <= n)%nat ->
  ready s (w ++ r) -> p_ctx s = CtxScript -> steps (r_stmt (run n)) s a CtxScript r.
Proof.
  intros w a r [_ H]. destruct (H r) as [k Hk]. exists (S k). intros n s Hn R C.
  destruct n as [|n]; [lia|]. rewrite r_stmt_S. replace CtxScript with (p_ctx s). eapply leaves_steps; [|exact R].
  destruct R as (Ht & Hm & _). unfold statement_body, get_ctx, bind at 1, leaves. rewrite C.
  apply Hk; [lia|exact Ht|exact Hm].
Qed.
(** the first one, behind the opening tag *)
Lemma stmt_first : forall tag w a r, reads_stmt w a -> t_type tag = TScriptStart Regular -> exists k, forall n s,
  (k <= n)%nat -> ready s (tag :: w ++ r) -> p_ctx s = CtxOut -> steps (r_stmt (run n)) s a CtxScript r.
Proof.
  intros tag w a r [(t & v & -> & Hp) H] Htag. destruct (H r) as [k Hk]. exists (S k). intros n s Hn R C.
  destruct n as [|n]; [lia|]. rewrite r_stmt_S.
  assert (Hg : plain tag = true) by (unfold plain; now rewrite Htag).
  unfold statement_body. unfold get_ctx. unfold bind at 1. unfold steps. rewrite C. fold (@steps Node).
  eapply (steps_bind _ _ peek); [apply steps_peek; [exact Hg|exact R]|]. cbn beta iota. intros s1 R1 C1.
  rewrite Htag. cbn iota.
  eapply (steps_bind _ _ (set_ctx CtxScript) _ s1 tt _ CtxScript _ (tag :: (t :: v) ++ r)).
  { unfold set_ctx. eexists. split; [reflexivity|]. destruct R1 as (Q1 & Q2 & Q3 & Q4). unfold ready. cbn. auto 8. }
  cbn beta. intros s2 R2 C2.
  eapply (steps_bind _ _ next).
  { eapply leaves_steps; [|exact R2]. destruct R2 as (Q1 & Q2 & _).
    destruct (parses_next tag ((t :: v) ++ r) Hg (shown_measured _ _ _ Q1 Q2)) as [k' H']. apply (H' k'); auto. }
  cbn beta. intros s3 R3 C3.
  eapply (steps_bind _ _ peek); [apply steps_peek; [exact Hp|exact R3]|]. cbn beta iota. intros s4 R4 C4.
  replace CtxScript with (p_ctx s4) by congruence. eapply leaves_steps; [|exact R4].
  destruct R4 as (Q1 & Q2 & _). apply Hk; [lia|exact Q1|exact Q2].
Qed.

(** a round of the loop *)
Lemma round_steps : forall n acc s t v a ctx r, plain t = true -> ready s (t :: v) ->
  (forall s', ready s' (t :: v) -> p_ctx s' = p_ctx s -> steps (r_stmt (run n)) s' a ctx r) ->
  steps (loop_round n acc) s (inl (acc ++ [a])) ctx r.
Proof.
  intros n acc s t v a ctx r Hp R H. unfold loop_round.
  eapply (steps_bind _ _ (ret false) _ s false _ (p_ctx s) _ (t :: v)). { exists s. unfold ret. auto. }
  cbn beta iota. intros s1 R1 C1.
  eapply (steps_bind _ _ peek); [apply steps_peek; [exact Hp|exact R1]|]. cbn beta iota. intros s2 R2 C2.
  eapply (steps_bind _ _ (pcatch (r_stmt (run n))) _ s2 (inl a) _ ctx _ r).
  { destruct (H s2 R2) as (s3 & E & R3 & P3 & C3); [congruence|]. exists s3. unfold pcatch. rewrite E. auto. }
  cbn beta iota. intros s3 R3 C3.
  destruct R3 as (Q1 & Q2 & Q3 & Q4). unfold steps, bind, flush_docs. rewrite Q4. cbn [flush_go app].
  eexists. split; [reflexivity|]. unfold ready. cbn. auto 8.
Qed.

(** The end of the file. *)
Lemma round_end : forall n acc s eof, t_type eof = TEof -> ready s [eof] ->
  exists s', loop_round n acc s = POk (inr acc) s' /\ p_errs s' = p_errs s.
Proof.
  intros n acc s eof He (Ht & Hm & Hu & Hd). unfold loop_round. unfold bind at 1. unfold ret at 1. cbn iota.
  assert (G : forall toks docs, shown toks = [eof] -> exists toks' docs', peek_go toks docs = (None, toks', docs')).
  { induction toks as [|u toks IH]; intros docs E; [discriminate E|]. unfold shown in E, IH. cbn [filter peek_go] in *.
    unfold significant at 1 in E. destruct (t_type u) eqn:Eu; try (apply IH; exact E);
      try (injection E as <- E; rewrite He in Eu; discriminate Eu). eauto. }
  destruct (G (p_toks s) (p_docs s) Ht) as (toks' & docs' & E). unfold peek, bind. rewrite E. eexists. split; reflexivity.
Qed.

(** the statements of a script, one after the other *)
Lemma loop_all : forall l eof, Forall (fun x => reads_stmt (fst x) (snd x)) l -> t_type eof = TEof ->
  exists k, forall n m acc s, (k <= n)%nat -> (k <= m)%nat -> p_ctx s = CtxScript ->
  ready s (flat_map fst l ++ [eof]) ->
  exists s', ploop m (loop_round n) acc s = POk (acc ++ map snd l) s' /\ p_errs s' = p_errs s.
Proof.
  induction l as [|[w a] l IH]; intros eof Hl He.
  - exists 1%nat. intros n m acc s _ Hm C R. destruct m as [|m]; [lia|]. cbn [ploop map]. rewrite app_nil_r.
    destruct (round_end n acc s eof He R) as (s' & E & P). exists s'. unfold bind. rewrite E. auto.
  - pose proof (Forall_inv Hl) as H. cbn [fst snd] in H. destruct (IH eof (Forall_inv_tail Hl) He) as [k2 H2].
    destruct (stmt_script w a (flat_map fst l ++ [eof]) H) as [k1 H1].
    exists (S (Nat.max k1 k2)). intros n m acc s Hn Hm C R. destruct m as [|m]; [lia|]. cbn [ploop].
    cbn [flat_map fst] in R. rewrite <- app_assoc in R.
    pose proof H as [(t & v & Ew & Hp) _].
    destruct (round_steps n acc s t (v ++ flat_map fst l ++ [eof]) a CtxScript (flat_map fst l ++ [eof]) Hp) as (s1 & E & R1 & P1 & C1).
    { rewrite Ew in R. exact R. }
    { intros s' R' C'. apply H1; [lia| |congruence]. rewrite Ew. exact R'. }
    unfold bind. rewrite E. destruct (H2 n m (acc ++ [a]) s1) as (s2 & E2 & P2); [lia|lia|exact C1|exact R1|].
    exists s2. rewrite E2, <- app_assoc. cbn [map snd app]. split; [reflexivity|congruence].
Qed.

(** a whole file *)
Theorem file_parsed : forall ts tag l eof,
  filter significant ts = tag :: flat_map fst l ++ [eof] -> l <> [] ->
  t_type tag = TScriptStart Regular -> t_type eof = TEof -> Forall measured ts ->
  Forall (fun t => t_type t <> TMultilineComment) ts ->
  Forall (fun x => reads_stmt (fst x) (snd x)) l ->
  exists k, forall n, (k <= n)%nat -> exists s, ast n ts = POk (map snd l, []) s.
Proof.
  intros ts tag l eof Ht Hl Htag He Hm Hu Hr. destruct l as [|[w a] l]; [contradiction|].
  pose proof (Forall_inv Hr) as H. cbn [fst snd] in H.
  destruct (loop_all l eof (Forall_inv_tail Hr) He) as [k2 H2].
  destruct (stmt_first tag w a (flat_map fst l ++ [eof]) H Htag) as [k1 H1].
  exists (S (Nat.max k1 k2)). intros n Hn. unfold ast. destruct ts as [|u ts]; [discriminate Ht|].
  rewrite ast_loop_eq. destruct n as [|n]; [lia|]. cbn [ploop]. set (n' := S n) in *.
  assert (Hg : plain tag = true) by (unfold plain; now rewrite Htag).
  assert (R : ready (parser_new (u :: ts)) (tag :: w ++ flat_map fst l ++ [eof])).
  { unfold ready, parser_new. cbn [p_toks p_docs]. cbn [flat_map fst] in Ht. rewrite <- app_assoc in Ht. auto. }
  destruct (round_steps n' [] _ tag (w ++ flat_map fst l ++ [eof]) a CtxScript (flat_map fst l ++ [eof]) Hg R) as (s1 & E & R1 & P1 & C1).
  { intros s' R' C'. apply H1; [subst n'; lia|exact R'|]. rewrite C'. reflexivity. }
  unfold bind. rewrite E. destruct (H2 n' n ([] ++ [a]) s1) as (s2 & E2 & P2); [subst n'; lia|lia|exact C1|exact R1|].
  exists s2. rewrite E2, P2, P1. reflexivity.
Qed.

End File.
