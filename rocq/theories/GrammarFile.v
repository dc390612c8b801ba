(** Files of SpecGrammar.v, read by [ast] of Parser.v. *)

From Verif Require Import Base Token Node DocBlock Parser TokenFacts ParserBase SpecCalm SpecExpr SpecGrammar PrattFacts GrammarBase GrammarNames GrammarExpr GrammarClass GrammarPratt GrammarUse GrammarStmt.

Section File.
Context `{RT : Runtime}.

Definition outside (s : pst) (w : list Token) : Prop :=
  (exists e, shown (p_toks s) = w ++ e /\ (e = [] \/ exists t, e = [t] /\ t_type t = TEof)) /\
  Forall (fun t => plain t = true) w /\ Forall measured (p_toks s) /\ Forall told (p_toks s) /\
  Forall (fun t => t_label t <> None) (p_docs s) /\ p_ctx s = CtxOut.

Lemma peek_go_again : forall toks docs t toks' docs', peek_go toks docs = (Some t, toks', docs') -> peek_go toks' docs' = (Some t, toks', docs').
Proof.
  induction toks as [|u toks IH]; intros docs t toks' docs' H; [discriminate H|]. cbn [peek_go] in H.
  destruct (t_type u) eqn:E; try discriminate H; try (exact (IH _ _ _ _ H)); injection H as <- <- <-; cbn [peek_go]; rewrite E; reflexivity.
Qed.
Lemma peek_again : forall s t s', peek s = POk (Some t) s' -> peek s' = POk (Some t) s'.
Proof.
  intros s t s' H. unfold peek in *. destruct (peek_go (p_toks s) (p_docs s)) as [[o toks] docs] eqn:E. injection H as -> <-. cbn [p_toks p_docs].
  rewrite (peek_go_again _ _ _ _ _ E). reflexivity.
Qed.

Lemma loop_start : forall rec m, exists F, forall s t s1, peek s = POk (Some t) s1 ->
  statements_loop rec (S m) (ret false) s = F (pcatch (r_stmt rec) s1).
Proof.
  intros rec m. eexists. intros s t s1 H. unfold statements_loop. cbn [ploop]. unfold bind at 1 2 3. unfold ret at 1. cbn beta iota.
  rewrite H. cbn beta iota. unfold bind at 1. generalize (pcatch (r_stmt rec) s1). intros q. reflexivity.
Qed.

(** Behind the tag the file is read as if it were in the script all along. *)
Lemma tag_skipped : forall s t u w, outside s (t :: u :: w) -> one_of_kinds [TScriptStart Regular; TScriptStart Short] t ->
  exists s', at_ s' (u :: w) /\ p_errs s' = p_errs s /\
    forall n, statements_loop (run (S n)) (S n) (ret false) s = statements_loop (run (S n)) (S n) (ret false) s'.
Proof.
  intros s t u w ((e & Hw & He) & Hp & Hm & Ht & Hd & Hc) Hk.
  destruct (shown_peek _ (p_docs s) _ _ Hw Hp He Hm Ht Hd) as (toks & docs & e' & E & Hw' & He' & Hm' & Ht' & Hd').
  set (s1 := mkPst docs toks (p_errs s) (p_ctx s) (p_eof s) (p_eprev s)).
  assert (E1 : peek s = POk (Some t) s1) by (unfold peek; rewrite E; reflexivity).
  pose proof (peek_again _ _ _ E1) as E2.
  set (s2 := mkPst docs toks (p_errs s) CtxScript (p_eof s) (p_eprev s)).
  assert (A2 : at_ s2 ([t] ++ u :: w)) by (unfold at_; split; [exists e'; split; assumption|repeat split; assumption]).
  destruct (t_next t (u :: w) s2 A2) as (o & s3 & [k3 G3] & <- & A3 & R3). specialize (G3 k3 (Nat.le_refl _)).
  destruct (t_peek (u :: w) s3 A3) as (o & s4 & [k4 G4] & <- & A4 & R4). specialize (G4 k4 (Nat.le_refl _)).
  pose proof (peek_again _ _ _ G4) as E4.
  exists s4. split; [exact A4|]. split; [rewrite R4, R3; reflexivity|]. intros n.
  assert (C1 : p_ctx s1 = CtxOut) by exact Hc. assert (C4 : p_ctx s4 = CtxScript) by apply A4.
  assert (X : r_stmt (run (S n)) s1 = r_stmt (run (S n)) s4).
  { change (r_stmt (run (S n))) with (statement_body (run n) n).
    assert (Y : statement_body (run n) n s4 = statement_in_script (run n) n s4).
    { unfold statement_body. unfold bind at 1. unfold get_ctx. rewrite C4. reflexivity. }
    rewrite Y. unfold statement_body. unfold bind at 1. unfold get_ctx. rewrite C1. unfold bind at 1. rewrite E2. cbn beta iota.
    assert (Z : (set_ctx CtxScript;;; next;;; p <- peek;; match p with Some _ => statement_in_script (run n) n | None => ret NEmptyScript end) s1
      = statement_in_script (run n) n s4).
    { unfold bind at 1. change (set_ctx CtxScript s1) with (POk tt s2). cbn beta iota. unfold bind at 1. rewrite G3. cbn beta iota.
      unfold bind at 1. rewrite G4. reflexivity. }
    unfold one_of_kinds in Hk. cbn [In] in Hk. destruct Hk as [<-|[<-|[]]]; exact Z. }
  destruct (loop_start (run (S n)) n) as [F HF]. rewrite (HF _ _ _ E1), (HF _ _ _ E4). f_equal. unfold pcatch. now rewrite X.
Qed.

Lemma file_read : forall s w l, outside s w -> File w l -> p_errs s = [] ->
  exists k tree s', File w tree /\ p_errs s' = [] /\ forall n, (k <= n)%nat -> ast_loop n s = POk tree s'.
Proof.
  intros s w l Hs H He. destruct H as [t w l Ht Hn H]. destruct w as [|u w]; [contradiction|].
  destruct (tag_skipped s t u w Hs Ht) as (s1 & A & R & E).
  assert (X : takes (fun n => statements_loop (run n) n (ret false)) (u :: w) (Statements false (u :: w)) []).
  { eapply statements_read; [exact H| | |].
    - intros. now apply t_ret.
    - reflexivity.
    - intros T acc HT. eapply t_nil; [apply t_ret; reflexivity|]. cbn beta iota. eapply t_nil; [apply t_peek|]. cbn beta iota. done_. eauto. }
  destruct (X s1) as (tree & s' & [k G] & Ht' & _ & R'); [now rewrite app_nil_r|].
  exists (S k), tree, s'. split; [now constructor|]. split; [congruence|]. intros n Hn'. destruct n as [|n]; [lia|].
  unfold ast_loop. rewrite E. apply G. lia.
Qed.
End File.
