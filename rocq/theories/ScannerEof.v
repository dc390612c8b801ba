(** The end of the file is marked once. *)

From Verif Require Import Base Token TokenFacts Scanner.

Definition end_kind (k : TokenType) : bool := match k with TEof => true | _ => false end.

Section Eof.
Context {RT : Runtime}.

Definition unended (s : Scn) : Prop := Forall (fun t => end_kind (t_type t) = false) (s_toks s).
Definition steady (s s' : Scn) : Prop := unended s -> unended s'.

Lemma steady_refl : forall s, steady s s. Proof. intros s h. auto. Qed.
Lemma steady_trans : forall a b c, steady a b -> steady b c -> steady a c.
Proof. intros a b c h1 h2 h. auto. Qed.

Lemma steady_push : forall s k, end_kind k = false -> steady s (push_token s k).
Proof.
  intros s k hk h. unfold push_token. destruct (is_in_script (s_ctx s)); [|exact h]. constructor; [exact hk|exact h].
Qed.
Lemma steady_named : forall s k l, end_kind k = false -> steady s (push_named_token s k l).
Proof. intros s k l hk h. constructor; [exact hk|exact h]. Qed.

Lemma steady_advance_on : forall cs s, steady s (snd (advance_on cs s)).
Proof.
  induction cs as [|c r IH]; intros s; cbn [advance_on].
  - intros h. exact h.
  - destruct (c =? 10).
    + intros h. exact (steady_push s TLinebreak eq_refl h).
    + destruct (c =? 13); [apply IH|]. intros h. exact h.
Qed.
Lemma steady_skip : forall s, steady s (skip s).
Proof. intros s. apply steady_advance_on. Qed.
Lemma steady_advance : forall s o s1, advance s = (o, s1) -> steady s s1.
Proof. intros s o s1 h. pose proof (steady_skip s) as q. unfold skip in q. rewrite h in q. exact q. Qed.

Lemma steady_collect : forall n p acc s x s', collect_while n p acc s = SOk (x, s') -> steady s s'.
Proof.
  induction n as [|n IH]; intros p acc s x s' h; [discriminate h|]. cbn [collect_while] in h.
  destruct (peek s) as [c|]; [|injection h as <- <-; apply steady_refl].
  destruct (p c); [|injection h as <- <-; apply steady_refl].
  eapply steady_trans; [apply steady_skip|eapply IH; exact h].
Qed.
Lemma steady_until : forall n q e acc s x s', until_escaped n q e acc s = SOk (x, s') -> steady s s'.
Proof.
  induction n as [|n IH]; intros q e acc s x s' h; [discriminate h|]. cbn [until_escaped] in h.
  destruct (advance s) as [[c|] s1] eqn:ea; apply steady_advance in ea; [|injection h as <- <-; exact ea].
  destruct (c =? 92); [eapply steady_trans; [exact ea|eapply IH; exact h]|].
  destruct ((c =? q) && negb e); [injection h as <- <-; exact ea|eapply steady_trans; [exact ea|eapply IH; exact h]].
Qed.
Lemma steady_doc : forall n acc s x s', doc_comment_loop n acc s = SOk (x, s') -> steady s s'.
Proof.
  induction n as [|n IH]; intros acc s x s' h; [discriminate h|]. cbn [doc_comment_loop] in h.
  destruct (advance s) as [[c|] s1] eqn:ea; apply steady_advance in ea; [|injection h as <- <-; exact ea].
  destruct ((c =? 42) && peek_is s1 47); [injection h as <- <-|eapply steady_trans; [exact ea|eapply IH; exact h]].
  eapply steady_trans; [exact ea|apply steady_skip].
Qed.
Lemma steady_spaces : forall n s s', skip_spaces n s = SOk s' -> steady s s'.
Proof.
  induction n as [|n IH]; intros s s' h; [discriminate h|]. cbn [skip_spaces] in h.
  destruct (peek_is s 32); [eapply steady_trans; [apply steady_skip|eapply IH; exact h]|injection h as <-; apply steady_refl].
Qed.
Lemma steady_marker : forall m acc s p b s', match_marker m acc s = (p, b, s') -> steady s s'.
Proof.
  induction m as [|c m IH]; intros acc s p b s' h; cbn [match_marker] in h; [injection h as <- <- <-; apply steady_refl|].
  destruct (advance s) as [[d|] s1] eqn:ea; apply steady_advance in ea.
  - destruct (d =? c); [eapply steady_trans; [exact ea|eapply IH; exact h]|injection h as <- <- <-; exact ea].
  - eapply steady_trans; [exact ea|eapply IH; exact h].
Qed.
Lemma steady_heredoc : forall n m hd li pe s x y s', heredoc_loop n m hd li pe s = SOk (x, y, s') -> steady s s'.
Proof.
  induction n as [|n IH]; intros m hd li pe s x y s' h; [discriminate h|]. cbn [heredoc_loop] in h.
  destruct (peek s) as [c|]; [|injection h as <- <- <-; apply steady_refl].
  destruct (c =? 10); [eapply steady_trans; [apply steady_skip|eapply IH; exact h]|].
  destruct (negb pe || (c =? 32) || (c =? 9)); [eapply steady_trans; [apply steady_skip|eapply IH; exact h]|].
  destruct (match_marker m [] s) as [[p [|]] s1] eqn:em; apply steady_marker in em; [injection h as <- <- <-; exact em|].
  eapply steady_trans; [exact em|eapply IH; exact h].
Qed.

(** The context may change; the tokens stay well unended *)
Definition fine (s : Scn) (r : sres Scn) : Prop := forall s', r = SOk s' -> unended s -> unended s'.

Lemma steady_fine : forall s s', steady s s' -> fine s (SOk s').
Proof. intros s s' h x e t. injection e as <-. apply h. exact t. Qed.
Lemma fine_after : forall s s1 r, steady s s1 -> fine s1 r -> fine s r.
Proof. intros s s1 r h1 h2 s' e t. apply (h2 s' e). apply h1. exact t. Qed.

Lemma open_tag : forall s k, (exists o, k = TScriptStart o) -> fine s (SOk (push_token (set_ctx s InScript) k)).
Proof. intros s k (o & ->) s' e h. injection e as <-. constructor; [reflexivity|exact h]. Qed.
Lemma close_tag : forall s, fine s (SOk (set_ctx (push_token s TScriptEnd) OutScript)).
Proof. intros s s' e h. injection e as <-. exact (steady_push s TScriptEnd eq_refl h). Qed.

Lemma fine_line : forall n acc s, fine s (line_comment_loop n acc s).
Proof.
  induction n as [|n IH]; intros acc s s' e t; [discriminate e|]. cbn [line_comment_loop] in e.
  assert (N : forall s0, steady s s0 -> forall l, fine s (SOk (push_named_token s0 TLineComment l))).
  { intros s0 h l. eapply fine_after; [exact h|]. apply steady_fine. apply steady_named; reflexivity. }
  destruct (peek s) as [c|]; [|exact (N s (steady_refl s) _ s' e t)].
  destruct ((c =? 10) || (c =? 13)); [exact (N s (steady_refl s) _ s' e t)|].
  destruct (c =? 63).
  - destruct (peek_is (skip s) 62).
    + set (s2 := skip (skip s)) in *.
      assert (h2 : steady s s2) by (eapply steady_trans; apply steady_skip).
      assert (t2 := N s2 h2 (rev acc) _ eq_refl t). exact (close_tag _ _ e t2).
    + exact (IH _ _ _ e (steady_skip s t)).
  - destruct (advance s) as [[d|] s1] eqn:ea; [|discriminate e]. apply steady_advance in ea. exact (IH _ _ _ e (ea t)).
Qed.

Lemma fine_here : forall s, fine s (tokenize_here_doc s).
Proof.
  intros s s' e t. unfold tokenize_here_doc in e.
  destruct (skip_spaces _ s) as [s0| | |] eqn:e0; try discriminate e. apply steady_spaces in e0. cbn [sbind] in e.
  match type of e with sbind ?m _ = _ => destruct m as [[mk s1]| | |] eqn:e1; try discriminate e end. cbn [sbind] in e.
  assert (h1 : steady s0 s1).
  { destruct (peek_is s0 34); [eapply steady_trans; [apply steady_skip|eapply steady_until; exact e1]|].
    destruct (peek_is s0 39); [eapply steady_trans; [apply steady_skip|eapply steady_until; exact e1]|].
    eapply steady_collect; exact e1. }
  assert (h2 := steady_named s1 THereDocStart mk eq_refl).
  destruct (heredoc_loop _ _ _ _ _ _) as [[[hd li] s3]| | |] eqn:e3; try discriminate e. cbn [sbind] in e. apply steady_heredoc in e3.
  destruct (peek s3); [|discriminate e]. injection e as <-.
  apply (steady_trans _ _ _ e0 (steady_trans _ _ _ h1 (steady_trans _ _ _ h2 (steady_trans _ _ _ e3
    (steady_trans _ _ _ (steady_named s3 TEncapsedAndWhitespaceString hd eq_refl)
      (steady_named _ THereDocEnd li eq_refl)))))). exact t.
Qed.

Lemma tt_eqb_yield : forall k, tt_eqb k TYield = true -> end_kind k = false.
Proof. intros k h. apply tt_eqb_eq in h. subst k. reflexivity. Qed.

Lemma fine_close : forall s, fine s (close_parenthesis s).
Proof.
  intros s s' e t. unfold close_parenthesis in e.
  assert (N : SOk (push_token s TCloseParenthesis) = SOk s' -> unended s') by (intros q; exact (steady_fine _ _ (steady_push s TCloseParenthesis eq_refl) _ q t)).
  destruct (s_toks s) as [|prev rest] eqn:et; [auto|].
  destruct (map_cast (t_type prev)) as [k|] eqn:ek; [|auto].
  destruct rest as [|pos rest']; [auto|]. destruct (tt_eqb (t_type pos) TOpenParenthesis) eqn:ep; [|auto].
  assert (hk : end_kind k = false) by (destruct (t_type prev); try discriminate ek; injection ek as <-; reflexivity).
  unfold unended in t. rewrite et in t. apply Forall_inv_tail, Forall_inv_tail in t.
  unfold push_token in e. cbn [set_toks s_ctx] in e. destruct (s_ctx s) eqn:ec; cbn [is_in_script set_toks s_toks] in e.
  - injection e as <-. constructor; [exact hk|exact t].
  - destruct rest' as [|x r]; [discriminate e|]. injection e as <-. constructor; [exact (Forall_inv t)|exact (Forall_inv_tail t)].
Qed.

Lemma fine_word : forall c s, fine s (scan_word c s).
Proof.
  intros c s s' e t. unfold scan_word in e. destruct (is_ident_char c); [|discriminate e].
  destruct (collect_identifier s) as [[r s1]| | |] eqn:e1; try discriminate e. cbn [sbind] in e. apply steady_collect in e1.
  pose proof (e1 t) as t1.
  assert (N : forall k l, SOk (push_named_token s1 k l) = SOk s' -> end_kind k = false -> unended s')
    by (intros k l q hk; exact (steady_fine _ _ (steady_named s1 k l hk) _ q t1)).
  destruct (map_keyword (c :: r)) as [k|] eqn:ek.
  - refine (steady_fine _ _ (steady_push s1 k _) _ e t1).
    unfold map_keyword in ek. destruct (str_eqb _ _); [injection ek as <-; reflexivity|]. destruct (str_eqb _ _); [injection ek as <-; reflexivity|].
    assert (G : forall l, forallb (fun p : string * TokenType => negb (end_kind (snd p))) l = true ->
      forall w, assoc_str w l = Some k -> end_kind k = false).
    { induction l as [|[w0 k0] l IH]; intros hl w h; [discriminate h|]. cbn [assoc_str] in h. cbn [forallb snd] in hl.
      apply andb_prop in hl. destruct hl as [q1 q2]. destruct (str_eqb w (lit w0)); [injection h as <-; destruct (end_kind k0); [discriminate q1|reflexivity]|].
      apply (IH q2 _ h). }
    apply (G keyword_table (eq_refl true) _ ek).
  - destruct (str_eqb (c :: r) (lit "from")); [|exact (N _ _ e eq_refl)].
    destruct (s_toks s1) as [|y rest] eqn:et; [exact (N _ _ e eq_refl)|].
    destruct (tt_eqb (t_type y) TYield) eqn:ey; [|exact (N _ _ e eq_refl)].
    apply tt_eqb_yield in ey.
    refine (steady_fine (set_toks s1 rest) _ (steady_push _ TYieldFrom eq_refl) _ e _).
    unfold unended in t1. rewrite et in t1. exact (Forall_inv_tail t1).
Qed.

Lemma fine_number : forall c s, fine s (scan_number c s).
Proof.
  intros c s s' e t. unfold scan_number in e.
  assert (N : forall s0, steady s s0 -> forall k l, SOk (push_named_token s0 k l) = SOk s' -> end_kind k = false -> unended s').
  { intros s0 h k l q hk. refine (fine_after _ _ _ h (steady_fine _ _ (steady_named s0 k l hk)) _ q t). }
  destruct (peek_is s 120 && (c =? 48)).
  { destruct (collect_hex_number _) as [[ds s1]| | |] eqn:e1; try discriminate e. apply steady_collect in e1.
    exact (N s1 (steady_trans _ _ _ (steady_skip s) e1) _ _ e eq_refl). }
  destruct (peek_is s 98 && (c =? 48)).
  { destruct (collect_binary_number _) as [[ds s1]| | |] eqn:e1; try discriminate e. apply steady_collect in e1.
    exact (N s1 (steady_trans _ _ _ (steady_skip s) e1) _ _ e eq_refl). }
  destruct (collect_number s) as [[ds s1]| | |] eqn:e1; try discriminate e. apply steady_collect in e1. cbn [sbind] in e.
  match type of e with sbind ?m _ = _ => destruct m as [[[nu ty] s2]| | |] eqn:e2; try discriminate e end. cbn [sbind] in e.
  assert (h2 : steady s s2 /\ end_kind ty = false).
  { destruct (peek_is s1 46).
    - destruct (collect_number (skip s1)) as [[dec s3]| | |] eqn:e3; try discriminate e2. apply steady_collect in e3.
      injection e2 as _ <- <-. split; [|reflexivity]. exact (steady_trans _ _ _ e1 (steady_trans _ _ _ (steady_skip s1) e3)).
    - injection e2 as _ <- <-. split; [exact e1|reflexivity]. }
  destruct h2 as [h2 hk].
  destruct (peek_is s2 101 || peek_is s2 69); [|exact (N s2 h2 _ _ e hk)].
  match type of e with (let '(number, s4) := ?m in _) = _ => destruct m as [nu4 s4] eqn:e4 end.
  assert (h4 : steady s s4).
  { eapply steady_trans; [exact h2|]. eapply steady_trans; [apply steady_skip|].
    destruct (peek_is (skip s2) 45); [injection e4 as _ <-; apply steady_skip|].
    destruct (peek_is (skip s2) 43); [injection e4 as _ <-; apply steady_skip|injection e4 as _ <-; apply steady_refl]. }
  destruct (collect_number s4) as [[dec s5]| | |] eqn:e5; try discriminate e. apply steady_collect in e5.
  exact (N s5 (steady_trans _ _ _ h4 e5) _ _ e eq_refl).
Qed.

Ltac chain := first [ apply steady_refl | exact (steady_skip _) | assumption
  | (eapply steady_trans; [|apply steady_skip]; chain)
  | (eapply steady_trans; [|apply steady_push; reflexivity]; chain) ].

Lemma fine_char : forall c s, fine s (scan_char c s).
Proof.
  intros c s s' e t. unfold scan_char in e.
  assert (P : forall s0 k, SOk (push_token s0 k) = SOk s' -> end_kind k = false -> steady s s0 -> unended s').
  { intros s0 k q hk h. exact (fine_after _ _ _ h (steady_fine _ _ (steady_push s0 k hk)) _ q t). }
  assert (Q : forall s0, steady s s0 -> SOk s0 = SOk s' -> unended s').
  { intros s0 h q. exact (steady_fine _ _ h _ q t). }
  assert (F : forall s0 r, steady s s0 -> fine s0 r -> r = SOk s' -> unended s').
  { intros s0 r h1 h2 q. exact (fine_after _ _ _ h1 h2 _ q t). }
  assert (NM : c <> 60 -> forall s0, steady s s0 -> forall k l, SOk (push_named_token s0 k l) = SOk s' -> end_kind k = false -> unended s').
  { intros n s0 h k l q hk. refine (fine_after _ _ _ h (steady_fine _ _ (steady_named s0 k l hk)) _ q t). }
  unfold adv_push in e.
  destruct (c =? 60) eqn:c60.
  { apply N.eqb_eq in c60. subst c. cbn [orb] in e.
    repeat match type of e with (if (60 =? ?k) then _ else _) = _ => change (60 =? k) with false in e; cbv iota in e end.
    change ((60 =? 32) || (60 =? 9) || (60 =? 13) || (60 =? 10)) with false in e. cbv iota in e.
    repeat match type of e with (if (60 =? ?k) then _ else _) = _ => change (60 =? k) with false in e; cbv iota in e end.
    cbv zeta in e.
    destruct (peek_is s 60).
    { destruct (peek_is (skip s) 60); [refine (F _ _ _ (fine_here _) e); chain|].
      destruct (peek_is (skip s) 61); refine (P _ _ e eq_refl _); chain. }
    destruct (peek_is s 63).
    { destruct (peek_is (skip s) 32 || peek_is (skip s) 10 || peek_is (skip s) 9 || peek_is (skip s) 13);
        [refine (F (skip s) _ _ (open_tag _ _ (ex_intro _ _ eq_refl)) e); chain|].
      destruct (peek_is (skip s) 61); [refine (F (skip (skip s)) _ _ (open_tag _ _ (ex_intro _ _ eq_refl)) e); chain|].
      destruct (peek_is (skip s) 112); [|refine (Q _ _ e); chain].
      destruct (peek_is (skip (skip s)) 104); [|refine (Q _ _ e); chain].
      destruct (peek_is (skip (skip (skip s))) 112); [|refine (Q _ _ e); chain].
      refine (F (skip (skip (skip (skip s)))) _ _ (open_tag _ _ (ex_intro _ _ eq_refl)) e); chain. }
    destruct (peek_is s 61); [destruct (peek_is (skip s) 62); refine (P _ _ e eq_refl _); chain|].
    destruct (peek_is s 62); refine (P _ _ e eq_refl _); chain. }
  apply N.eqb_neq in c60. specialize (NM c60).
  assert (CL : forall n acc, line_comment_loop n acc (skip s) = SOk s' -> unended s').
  { intros n acc q. exact (F _ _ (steady_skip s) (fine_line n acc _) q). }
  repeat match type of e with
    | (if ?b then _ else _) = _ => destruct b
    | (let x := _ in _) = _ => cbv zeta in e
    end;
  first [ refine (P _ _ e eq_refl _); chain
        | refine (Q _ _ e); chain
        | exact (CL _ _ e)
        | refine (F _ _ (steady_skip s) (close_tag _) e)
        | refine (F _ _ (steady_refl s) (fine_close s) e)
        | refine (F _ _ (steady_refl s) (fine_number c s) e)
        | refine (F _ _ (steady_refl s) (fine_word c s) e)
        | idtac ].
  all: try (match type of e with sbind ?m _ = _ => destruct m as [[x s1]| | |] eqn:e1; try discriminate e end; cbn [sbind] in e;
    first [apply steady_collect in e1 | apply steady_until in e1]; first [exact (NM s1 e1 _ _ e eq_refl) | idtac]).
  - unfold collect_doc_comment_information in e. destruct (doc_comment_loop _ _ _) as [[x s1]| | |] eqn:e1; try discriminate e.
    apply steady_doc in e1. exact (NM s1 (steady_trans _ _ _ (steady_skip s) e1) _ _ e eq_refl).
  - destruct x; [refine (P _ _ e eq_refl e1)|exact (NM s1 e1 _ _ e eq_refl)].
Qed.

Lemma loop_eof : forall n s s', scan_loop n s = SOk s' -> unended s -> exists s1, unended s1 /\ s' = push_token s1 TEof.
Proof.
  induction n as [|n IH]; intros s s' e t; [discriminate e|]. cbn [scan_loop] in e. cbv zeta in e.
  assert (t0 : unended (set_start s)) by exact t.
  destruct (advance (set_start s)) as [[c|] s1] eqn:ea; apply steady_advance in ea; pose proof (ea t0) as t1.
  - destruct (negb (is_in_script (s_ctx s1)) && negb (c =? 60)); [exact (IH _ _ e t1)|].
    destruct (scan_char c s1) as [s2| | |] eqn:e2; try discriminate e. cbn [sbind] in e.
    exact (IH _ _ e (fine_char c s1 _ e2 t1)).
  - injection e as <-. exists s1. split; [exact t1|reflexivity].
Qed.

(** Only the last token can be an [Eof]. *)
Lemma scan_eof : forall src ts, scan src = SOk ts -> exists us e, ts = us ++ e /\ Forall (fun t => t_type t <> TEof) us /\
  (e = [] \/ exists t, e = [t] /\ t_type t = TEof).
Proof.
  intros src ts h. unfold scan in h. destruct (scan_state src) as [s| | |] eqn:e; try discriminate h. injection h as <-.
  destruct (loop_eof _ _ _ e) as (s1 & h1 & ->); [constructor|].
  assert (h2 : Forall (fun t => t_type t <> TEof) (rev (s_toks s1))).
  { apply Forall_rev. eapply Forall_impl; [|exact h1]. cbn. intros t q z. rewrite z in q. discriminate q. }
  unfold push_token. destruct (is_in_script (s_ctx s1)).
  - cbn [set_toks s_toks rev]. eexists _, _. split; [reflexivity|]. split; [exact h2|]. right. eexists. split; reflexivity.
  - exists (rev (s_toks s1)), []. rewrite app_nil_r. auto.
Qed.
End Eof.
