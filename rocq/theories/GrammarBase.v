(** Running the parser over a given list of tokens: the rules by which
    GrammarExpr.v and GrammarStmt.v follow the functions of Parser.v. *)

From Verif Require Import Base Token Node DocBlock Parser TokenFacts ParserBase DocFacts SpecCalm SpecExpr SpecGrammar PrattFacts.

(** * States and computations *)

(** a comment with a text, as the scanner makes them *)
Definition told (t : Token) : Prop := t_type t = TMultilineComment -> t_label t <> None.

(** In the script, in front of the tokens [w] and the end of the file, with
    comments and line breaks anywhere. *)
Definition at_ (s : pst) (w : list Token) : Prop :=
  (exists e, shown (p_toks s) = w ++ e /\ (e = [] \/ exists t, e = [t] /\ t_type t = TEof)) /\
  Forall (fun t => plain t = true) w /\ Forall measured (p_toks s) /\ Forall told (p_toks s) /\
  Forall (fun t => t_label t <> None) (p_docs s) /\ p_ctx s = CtxScript.

Definition goes {A} (m : nat -> P A) (s : pst) (a : A) (s' : pst) : Prop :=
  exists k, forall n, (k <= n)%nat -> m n s = POk a s'.
(** In front of [w ++ r] and with enough fuel, [m] reads [w], answers with
    something that is [T] and reports nothing. *)
Definition takes {A} (m : nat -> P A) (w : list Token) (T : A -> Prop) (r : list Token) : Prop :=
  forall s, at_ s (w ++ r) -> exists a s', goes m s a s' /\ T a /\ at_ s' r /\ p_errs s' = p_errs s.
Definition ltakes {A B} (body : nat -> A -> P (A + B)) (a : A) (w : list Token) (T : B -> Prop) (r : list Token) : Prop :=
  forall s, at_ s (w ++ r) -> exists b s',
    (exists k, forall n m, (k <= n)%nat -> (k <= m)%nat -> ploop m (body n) a s = POk b s') /\
    T b /\ at_ s' r /\ p_errs s' = p_errs s.

(** the next token is one of [l] *)
Definition look (l : list TokenType) (r : list Token) : bool :=
  match r with t :: _ => one_of l t | [] => false end.

(** * Rules *)

Lemma t_conseq : forall A (m : nat -> P A) w (T T' : A -> Prop) r,
  takes m w T r -> (forall a, T a -> T' a) -> takes m w T' r.
Proof. intros A m w T T' r H I s Hs. destruct (H s Hs) as (a & s' & G & Ha & R). exists a, s'. auto. Qed.

Lemma t_ret : forall A (a : A) (T : A -> Prop) r, T a -> takes (fun _ => ret a) [] T r.
Proof. intros A a T r H s Hs. exists a, s. splits; auto. exists 0%nat. reflexivity. Qed.

Lemma t_bind : forall A B (m : nat -> P A) (f : nat -> A -> P B) w1 w2 T1 T r,
  takes m w1 T1 (w2 ++ r) -> (forall a, T1 a -> takes (fun n => f n a) w2 T r) ->
  takes (fun n => bind (m n) (f n)) (w1 ++ w2) T r.
Proof.
  intros A B m f w1 w2 T1 T r H1 H2 s Hs. rewrite <- app_assoc in Hs.
  destruct (H1 s Hs) as (a & s1 & [k1 G1] & Ha & R1 & E1). destruct (H2 a Ha s1 R1) as (b & s2 & [k2 G2] & Hb & R2 & E2).
  exists b, s2. splits; auto; [|congruence]. exists (Nat.max k1 k2). intros n Hn. unfold bind. rewrite G1 by lia. apply G2. lia.
Qed.
Lemma t_tok : forall A B (m : nat -> P A) (f : nat -> A -> P B) t w a T r,
  takes m [t] (eq a) (w ++ r) -> takes (fun n => f n a) w T r -> takes (fun n => bind (m n) (f n)) (t :: w) T r.
Proof. intros A B m f t w a T r H1 H2. apply (t_bind _ _ m f [t] w (eq a)); [exact H1|]. intros ? <-. exact H2. Qed.
Lemma t_nil : forall A B (m : nat -> P A) (f : nat -> A -> P B) w a T r,
  takes m [] (eq a) (w ++ r) -> takes (fun n => f n a) w T r -> takes (fun n => bind (m n) (f n)) w T r.
Proof. intros A B m f w a T r H1 H2. apply (t_bind _ _ m f [] w (eq a)); [exact H1|]. intros ? <-. exact H2. Qed.
Lemma t_nil_any : forall A B (m : nat -> P A) (f : nat -> A -> P B) w T1 T r,
  takes m [] T1 (w ++ r) -> (forall a, T1 a -> takes (fun n => f n a) w T r) -> takes (fun n => bind (m n) (f n)) w T r.
Proof. intros A B m f w T1 T r H1 H2. apply (t_bind _ _ m f [] w T1); assumption. Qed.
(** all is read by the first part *)
Lemma t_all : forall A B (m : nat -> P A) (f : nat -> A -> P B) w T1 T r,
  takes m w T1 r -> (forall a, T1 a -> takes (fun n => f n a) [] T r) -> takes (fun n => bind (m n) (f n)) w T r.
Proof. intros A B m f w T1 T r H1 H2. rewrite <- (app_nil_r w). apply (t_bind _ _ m f w [] T1); assumption. Qed.

(** ** Loops *)

Lemma l_step : forall A B (body : nat -> A -> P (A + B)) a w1 w2 T1 T r,
  takes (fun n => body n a) w1 T1 (w2 ++ r) ->
  (forall x, T1 x -> match x with inl a' => ltakes body a' w2 T r | inr b => w2 = [] /\ T b end) ->
  ltakes body a (w1 ++ w2) T r.
Proof.
  intros A B body a w1 w2 T1 T r H1 H2 s Hs. rewrite <- app_assoc in Hs.
  destruct (H1 s Hs) as (x & s1 & [k1 G1] & Hx & R1 & E1). specialize (H2 x Hx). destruct x as [a'|b].
  - destruct (H2 s1 R1) as (b & s2 & [k2 G2] & Hb & R2 & E2). exists b, s2. splits; auto; [|congruence].
    exists (S (Nat.max k1 k2)). intros n m Hn Hm. destruct m as [|m]; [lia|]. cbn [ploop]. unfold bind.
    rewrite G1 by lia. apply G2; lia.
  - destruct H2 as [-> Hb]. exists b, s1. splits; auto. exists (S k1). intros n m Hn Hm. destruct m as [|m]; [lia|].
    cbn [ploop]. unfold bind. rewrite G1 by lia. reflexivity.
Qed.
Lemma l_break : forall A B (body : nat -> A -> P (A + B)) a w (T : B -> Prop) r,
  takes (fun n => body n a) w (fun x => exists b, x = inr b /\ T b) r -> ltakes body a w T r.
Proof.
  intros A B body a w T r H. rewrite <- (app_nil_r w). eapply l_step; [exact H|]. intros ? (b & -> & Hb). auto.
Qed.
Lemma l_more : forall A B (body : nat -> A -> P (A + B)) a w1 w2 (Q : A -> Prop) (T : B -> Prop) r,
  takes (fun n => body n a) w1 (fun x => exists a', x = inl a' /\ Q a') (w2 ++ r) ->
  (forall a', Q a' -> ltakes body a' w2 T r) -> ltakes body a (w1 ++ w2) T r.
Proof.
  intros A B body a w1 w2 Q T r H1 H2. eapply l_step; [exact H1|]. intros ? (a' & -> & Ha). auto.
Qed.
Lemma t_loop : forall A B (body : nat -> A -> P (A + B)) a w T r,
  ltakes body a w T r -> takes (fun n => ploop n (body n) a) w T r.
Proof.
  intros A B body a w T r H s Hs. destruct (H s Hs) as (b & s' & [k G] & R). exists b, s'. split; [|exact R].
  exists k. intros n Hn. apply G; lia.
Qed.
Lemma l_conseq : forall A B (body : nat -> A -> P (A + B)) a w (T T' : B -> Prop) r,
  ltakes body a w T r -> (forall b, T b -> T' b) -> ltakes body a w T' r.
Proof. intros A B body a w T T' r H I s Hs. destruct (H s Hs) as (b & s' & G & Hb & R). exists b, s'. auto. Qed.
Lemma t_continue : forall A B (a : A) (T : A + B -> Prop) r, T (inl a) -> takes (fun _ => continue a) [] T r.
Proof. intros. now apply t_ret. Qed.
Lemma t_break : forall A B (b : B) (T : A + B -> Prop) r, T (inr b) -> takes (fun _ => break b) [] T r.
Proof. intros. now apply t_ret. Qed.

(** ** Looking and reading *)

Lemma shown_peek : forall toks docs w e, shown toks = w ++ e -> Forall (fun t => plain t = true) w ->
  (e = [] \/ exists t, e = [t] /\ t_type t = TEof) ->
  Forall measured toks -> Forall told toks -> Forall (fun t => t_label t <> None) docs ->
  exists toks' docs' e', peek_go toks docs = (match w with t :: _ => Some t | [] => None end, toks', docs') /\
    shown toks' = w ++ e' /\ (e' = [] \/ exists t, e' = [t] /\ t_type t = TEof) /\
    Forall measured toks' /\ Forall told toks' /\ Forall (fun t => t_label t <> None) docs'.
Proof.
  induction toks as [|u toks IH]; intros docs w e Hw Hp He Hm Ht Hd.
  - cbn in Hw. symmetry in Hw. apply app_eq_nil in Hw as [-> ->]. exists [], docs, []. cbn. splits; auto.
  - pose proof (Forall_inv Ht) as Hu. pose proof (Forall_inv_tail Hm) as Hm'. pose proof (Forall_inv_tail Ht) as Ht'.
    unfold shown in Hw, IH. cbn [filter peek_go] in *. unfold significant at 1 in Hw. unfold told in Hu.
    destruct (t_type u) eqn:Eu;
      try (exact (IH docs w e Hw Hp He Hm' Ht' Hd)).
    all: try (apply (IH (u :: docs) w e Hw Hp He Hm' Ht'); constructor; [apply Hu; reflexivity|exact Hd]).
    all: try (destruct w as [|v w]; [destruct e as [|x e]; [discriminate Hw|]; injection Hw as -> Hw;
        destruct He as [He|(y & He & Hy)]; [discriminate He|]; injection He as -> ->; congruence|];
        injection Hw as -> Hw; exists (v :: toks), docs, e; unfold shown; cbn [filter]; unfold significant at 1; rewrite Eu;
        cbn [app]; rewrite Hw; splits; auto).
    destruct w as [|v w].
    + exists toks, docs, []. splits; auto. unfold shown. destruct e as [|x e]; [discriminate Hw|]. injection Hw as -> Hw.
      destruct He as [He|(y & He & Hy)]; [discriminate He|]. injection He as -> ->. rewrite Hw. reflexivity.
    + injection Hw as -> Hw. pose proof (Forall_inv Hp) as Hv. unfold plain in Hv. rewrite Eu in Hv. discriminate Hv.
Qed.

Lemma t_peek : forall r, takes (fun _ => peek) [] (eq (match r with t :: _ => Some t | [] => None end)) r.
Proof.
  intros r s ((e & Hw & He) & Hp & Hm & Ht & Hd & Hc). cbn [app] in *.
  destruct (shown_peek _ (p_docs s) _ _ Hw Hp He Hm Ht Hd) as (toks & docs & e' & E & Hw' & He' & Hm' & Ht' & Hd').
  eexists _, _. split; [exists 0%nat; intros; unfold peek; rewrite E; reflexivity|].
  split; [reflexivity|]. split; [|reflexivity]. unfold at_. cbn. splits; eauto.
Qed.

Lemma shown_next : forall toks docs ep t w e, shown toks = (t :: w) ++ e -> Forall (fun t => plain t = true) (t :: w) ->
  Forall measured toks -> Forall told toks -> Forall (fun t => t_label t <> None) docs ->
  exists toks' docs' ep', next_go toks docs ep = Some (Some t, toks', docs', ep') /\ shown toks' = w ++ e /\
    Forall measured toks' /\ Forall told toks' /\ Forall (fun t => t_label t <> None) docs'.
Proof.
  induction toks as [|u toks IH]; intros docs ep t w e Hw Hp Hm Ht Hd; [discriminate Hw|].
  pose proof (Forall_inv Ht) as Hu. pose proof (Forall_inv_tail Hm) as Hm'. pose proof (Forall_inv_tail Ht) as Ht'.
  destruct (Forall_inv Hm) as [[c l] Hend].
  unfold shown in Hw, IH. cbn [filter next_go] in *. unfold significant at 1 in Hw. unfold told in Hu.
  unfold token_range. rewrite Hend.
  destruct (t_type u) eqn:Eu; try (eapply IH; eassumption).
  all: try (eapply IH; [exact Hw|exact Hp|exact Hm'|exact Ht'|constructor; [apply Hu; reflexivity|exact Hd]]).
  all: cbn [app] in Hw; injection Hw as -> Hw; eexists toks, docs, _; splits; auto.
Qed.

(** reading a token, which is one that can be measured and is not hidden *)
Definition visible (t : Token) : Prop := plain t = true /\ measured t.
Lemma t_next_visible : forall t r, takes (fun _ => next) [t] (fun x => x = Some t /\ visible t) r.
Proof.
  intros t r s ((e & Hw & He) & Hp & Hm & Ht & Hd & Hc). cbn [app] in *.
  destruct (shown_next _ (p_docs s) (p_eprev s) _ _ _ Hw Hp Hm Ht Hd) as (toks & docs & ep & E & Hw' & Hm' & Ht' & Hd').
  eexists _, _. split; [exists 0%nat; intros; unfold next; rewrite E; reflexivity|]. split.
  - split; [reflexivity|]. split; [exact (Forall_inv Hp)|]. rewrite Forall_forall in Hm. apply Hm.
    assert (I : In t (shown (p_toks s))) by (rewrite Hw; now left). apply filter_In in I. apply I.
  - split; [|reflexivity]. unfold at_. cbn. splits; eauto. exact (Forall_inv_tail Hp).
Qed.
Lemma t_next : forall t r, takes (fun _ => next) [t] (eq (Some t)) r.
Proof. intros t r. eapply t_conseq; [apply t_next_visible|]. now intros ? [-> _]. Qed.
Lemma t_next_unwrap_visible : forall t r, takes (fun _ => next_unwrap) [t] (fun x => x = t /\ visible t) r.
Proof.
  intros t r. unfold next_unwrap. eapply t_all; [apply t_next_visible|]. cbn beta. intros ? [-> V]. now apply t_ret.
Qed.
Lemma t_next_unwrap : forall t r, takes (fun _ => next_unwrap) [t] (eq t) r.
Proof. intros t r. eapply t_conseq; [apply t_next_unwrap_visible|]. now intros ? [-> _]. Qed.

(** putting a token back *)
Lemma t_push : forall A (m : nat -> P A) t w T r, visible t -> takes m (t :: w) T r ->
  takes (fun n => bind (push_tok t) (fun _ => m n)) w T r.
Proof.
  intros A m t w T r [Hv Hm'] H s ((e & Hw & He) & Hp & Hm & Ht & Hd & Hc).
  destruct (H (mkPst (p_docs s) (t :: p_toks s) (p_errs s) (p_ctx s) (p_eof s) (p_eprev s))) as (a & s' & G & R).
  - unfold at_. cbn [p_toks p_docs p_ctx app]. splits; auto.
    + exists e. split; [|exact He]. unfold shown in *. cbn [filter]. unfold significant at 1. unfold plain in Hv.
      destruct (t_type t); try discriminate Hv; now rewrite Hw.
    + constructor; [|exact Ht]. unfold told. intros X. unfold plain in Hv. rewrite X in Hv. discriminate Hv.
  - exists a, s'. split; [exact G|exact R].
Qed.

Lemma t_one_of : forall l r, takes (fun _ => next_token_one_of l) [] (eq (look l r)) r.
Proof.
  intros l r. unfold next_token_one_of. eapply t_nil; [apply t_peek|]. cbn beta. destruct r; now apply t_ret.
Qed.

Lemma eqb_is : forall k t, is k t -> tt_eqb (t_type t) k = true.
Proof. intros k t H. unfold is in H. rewrite H. apply N.eqb_refl. Qed.
Lemma look_no : forall k t r, look [k] (t :: r) = false -> tt_eqb (t_type t) k = false.
Proof.
  intros k t r H. cbn [look] in H. unfold one_of in H. cbn [existsb] in H. rewrite orb_false_r in H.
  unfold tt_eqb in *. now rewrite N.eqb_sym.
Qed.

Lemma t_ignore_no : forall k r, look [k] r = false -> takes (fun _ => consume_or_ignore k) [] (eq None) r.
Proof.
  intros k r H. unfold consume_or_ignore. eapply t_nil; [apply t_peek|]. cbn beta. cbn [app]. destruct r as [|t r]; [now apply t_ret|].
  rewrite (look_no _ _ _ H). now apply t_ret.
Qed.
Lemma t_ignore_yes : forall k t r, is k t -> takes (fun _ => consume_or_ignore k) [t] (eq (Some t)) r.
Proof.
  intros k t r H. unfold consume_or_ignore. eapply t_nil; [apply t_peek|]. cbn beta. cbn [app]. rewrite (eqb_is _ _ H).
  eapply t_tok; [apply t_next_unwrap|]. now apply t_ret.
Qed.
Lemma t_ignore_yes_visible : forall k t r, is k t -> takes (fun _ => consume_or_ignore k) [t] (fun x => x = Some t /\ visible t) r.
Proof.
  intros k t r H. unfold consume_or_ignore. eapply t_nil; [apply t_peek|]. cbn beta. cbn [app]. rewrite (eqb_is _ _ H).
  eapply t_all; [apply t_next_unwrap_visible|]. cbn beta. intros ? [-> V]. now apply t_ret.
Qed.
Lemma t_maybe : forall k w o r, maybe k w o -> look [k] r = false -> takes (fun _ => consume_or_ignore k) w (eq o) r.
Proof.
  intros k w o r [[-> ->]|(t & -> & -> & H)] L; [now apply t_ignore_no|now apply t_ignore_yes].
Qed.
Lemma one_of_in : forall l t, one_of l t = true <-> In (tt_code (t_type t)) (map tt_code l).
Proof.
  intros l t. unfold one_of. rewrite existsb_exists, in_map_iff. unfold tt_eqb. split.
  - intros (x & Hx & E). apply N.eqb_eq in E. eauto.
  - intros (x & E & Hx). exists x. split; [exact Hx|]. now apply N.eqb_eq.
Qed.
Lemma one_of_kind : forall l t, one_of_kinds l t -> one_of l t = true.
Proof. intros l t H. apply one_of_in. now apply in_map. Qed.
Lemma t_choose_no : forall l r, look l r = false -> takes (fun _ => consume_one_of_or_ignore l) [] (eq None) r.
Proof.
  intros l r H. unfold consume_one_of_or_ignore. eapply t_nil; [apply t_peek|]. cbn beta. cbn [app]. destruct r as [|t r]; [now apply t_ret|].
  cbn [look] in H. rewrite H. now apply t_ret.
Qed.
Lemma t_choose_yes : forall l t r, one_of_kinds l t -> takes (fun _ => consume_one_of_or_ignore l) [t] (eq (Some t)) r.
Proof.
  intros l t r H. unfold consume_one_of_or_ignore. eapply t_nil; [apply t_peek|]. cbn beta. cbn [app]. rewrite (one_of_kind _ _ H).
  eapply t_tok; [apply t_next_unwrap|]. now apply t_ret.
Qed.
Lemma t_consume : forall k t r, is k t -> takes (fun _ => consume k) [t] (eq t) r.
Proof.
  intros k t r H. unfold consume. eapply t_nil; [apply t_peek|]. cbn beta. cbn [app]. rewrite (eqb_is _ _ H). apply t_next_unwrap.
Qed.
Lemma t_consume_one_of : forall l t r, one_of_kinds l t -> takes (fun _ => consume_one_of l) [t] (eq t) r.
Proof.
  intros l t r H. unfold consume_one_of. eapply t_tok; [apply t_next|]. cbn beta iota. rewrite (one_of_kind _ _ H). now apply t_ret.
Qed.
Lemma t_after : forall k l t r, is k t -> takes (fun _ => consume_or_ff_after k l) [t] (eq tt) r.
Proof.
  intros k l t r H. unfold consume_or_ff_after. eapply t_nil; [apply t_peek|]. cbn beta. cbn [app]. rewrite (eqb_is _ _ H).
  eapply t_tok; [apply t_next|]. now apply t_ret.
Qed.
Lemma t_before : forall k l t r, is k t -> takes (fun _ => consume_or_ff_before k l) [t] (eq t) r.
Proof.
  intros k l t r H. unfold consume_or_ff_before. eapply t_nil; [apply t_peek|]. cbn beta. cbn [app]. rewrite (eqb_is _ _ H).
  apply t_next_unwrap.
Qed.
Lemma t_end_of_statement : forall t r, is TSemicolon t -> takes (fun _ => consume_end_of_statement) [t] (eq tt) r.
Proof.
  intros t r H. unfold consume_end_of_statement. eapply t_nil; [apply t_peek|]. cbn beta. cbn [app]. rewrite (eqb_is _ _ H).
  eapply t_tok; [apply t_next|]. now apply t_ret.
Qed.

Lemma word_identifier : forall t, word t -> is_identifier t = true.
Proof.
  intros t H. unfold word, one_of_kinds, words in H. unfold is_identifier. cbn [In] in H.
  repeat (destruct H as [H|H]; [rewrite <- H; reflexivity|]). destruct H.
Qed.
Lemma t_identifier_visible : forall t r, word t -> takes (fun _ => consume_identifier) [t] (fun x => x = t /\ visible t) r.
Proof.
  intros t r H. unfold consume_identifier. eapply t_nil; [apply t_peek|]. cbn beta. cbn [app].
  rewrite (word_identifier t H). apply t_next_unwrap_visible.
Qed.
Lemma t_identifier : forall t r, word t -> takes (fun _ => consume_identifier) [t] (eq t) r.
Proof. intros t r H. eapply t_conseq; [apply t_identifier_visible; exact H|]. now intros ? [-> _]. Qed.
Lemma t_next_is_identifier : forall t r, takes (fun _ => next_is_identifier) [] (eq (is_identifier t)) (t :: r).
Proof. intros t r. unfold next_is_identifier. eapply t_nil; [apply t_peek|]. cbn beta iota. now apply t_ret. Qed.
Lemma t_next_is_member : forall t r, takes (fun _ => next_is_member) [] (eq (is_member_token t)) (t :: r).
Proof. intros t r. unfold next_is_member. eapply t_nil; [apply t_peek|]. cbn beta iota. now apply t_ret. Qed.
Lemma t_member : forall t r, word t -> takes (fun _ => consume_member) [t] (eq t) r.
Proof.
  intros t r H. unfold consume_member. eapply t_tok; [apply t_next|]. cbn beta iota. unfold is_member_token.
  rewrite (word_identifier t H). cbn [orb]. now apply t_ret.
Qed.

Lemma t_catch : forall A (m : nat -> P A) w T r, takes m w T r ->
  takes (fun n => pcatch (m n)) w (fun x => exists a, x = inl a /\ T a) r.
Proof.
  intros A m w T r H s Hs. destruct (H s Hs) as (a & s' & [k G] & Ha & R). exists (inl a), s'. splits; eauto; try apply R.
  exists k. intros n Hn. unfold pcatch. now rewrite G.
Qed.

Section Docs.
Context `{RT : Runtime}.

Lemma t_doc : forall r, takes (fun _ => consume_optional_doc_comment) [] (fun _ => True) r.
Proof.
  intros r s Hs. destruct Hs as (Hw & Hp & Hm & Ht & Hd & Hc). unfold goes, consume_optional_doc_comment.
  destruct (p_docs s) as [|c docs] eqn:Ed.
  - exists None, s. splits; auto; [now exists 0%nat|]. unfold at_. rewrite Ed. splits; auto.
  - pose proof (Forall_inv Hd) as Hl. cbn beta in Hl.
    destruct (docblock_scan_some c Hl) as (a1 & a2 & a3 & a4 & a5 & a6 & En & _).
    eexists _, _. split; [exists 0%nat; intros; rewrite En; reflexivity|]. splits; auto. unfold at_. cbn. splits; auto.
    exact (Forall_inv_tail Hd).
Qed.

(** the [@var] part of a comment *)
Definition var_part (n : Node) : Prop := exists name ty text, n = NDocCommentVar name ty text.

Lemma scan_vars : forall fuel s a b, d_scan fuel s a = Some b -> Forall var_part (a_vars a) -> Forall var_part (a_vars b).
Proof.
  induction fuel as [|fuel IH]; intros s a b H Ha; [discriminate H|]. cbn [d_scan] in H.
  destruct (d_advance s) as [[c|] s1]; [|injection H as <-; exact Ha].
  destruct (c =? 64).
  - destruct (d_collect_identifier false s1) as [dir s2].
    destruct (str_eqb dir (lit "param")).
    { destruct (d_named _) as [[[[trs nm] de] s4]|]; [|discriminate H]. eapply IH; [exact H|exact Ha]. }
    destruct (str_eqb dir (lit "return")).
    { destruct (d_type_refs _ _ _ _) as [[trs s4]|]; [|discriminate H].
      destruct (d_rest_of_line _) as [de s5]. eapply IH; [exact H|exact Ha]. }
    destruct (str_eqb dir (lit "var")).
    { destruct (d_named _) as [[[[trs nm] de] s4]|]; [|discriminate H]. eapply IH; [exact H|]. cbn [a_vars].
      apply Forall_app. split; [exact Ha|]. constructor; [|constructor]. now eexists _, _, _. }
    destruct (str_eqb dir (lit "deprecated")); [eapply IH; [exact H|exact Ha]|].
    destruct (str_eqb dir (lit "property")).
    { destruct (d_named _) as [[[[trs nm] de] s4]|]; [|discriminate H]. eapply IH; [exact H|exact Ha]. }
    eapply IH; [exact H|exact Ha].
  - destruct (c =? 42); (eapply IH; [exact H|exact Ha]).
Qed.
Lemma flush_vars : forall docs, Forall (fun t => t_label t <> None) docs ->
  exists l, flush_go docs = Some l /\ Forall var_part l.
Proof.
  induction docs as [|c docs IH]; intros H; [exists []; cbn; auto|].
  destruct (IH (Forall_inv_tail H)) as (l & E & Hl). cbn [flush_go]. rewrite E.
  pose proof (Forall_inv H) as Hc. cbn beta in Hc.
  destruct (docblock_scan_some c Hc) as (a1 & a2 & a3 & a4 & a5 & a6 & En & _). rewrite En. eexists. split; [reflexivity|].
  apply Forall_app. split; [|exact Hl]. unfold docblock_scan in En. destruct (t_label c) as [x|]; [|discriminate En].
  destruct (d_scan _ _ _) as [a|] eqn:Es; [|discriminate En]. injection En as _ _ _ _ <- _. eapply scan_vars; [exact Es|constructor].
Qed.
Lemma t_flush : forall r, takes (fun _ => flush_docs) [] (Forall var_part) r.
Proof.
  intros r s Hs. destruct Hs as (Hw & Hp & Hm & Ht & Hd & Hc). unfold goes, flush_docs.
  destruct (flush_vars (p_docs s) Hd) as (l & E & Hl). eexists _, _. split; [exists 0%nat; intros; rewrite E; reflexivity|].
  splits; auto. unfold at_. cbn. splits; auto.
Qed.

Lemma t_expr : forall bp w T r, takes (fun n => expression_body (run n) n bp) w T r -> takes (fun n => r_expr (run n) bp) w T r.
Proof.
  intros bp w T r H s Hs. destruct (H s Hs) as (a & s' & [k G] & R). exists a, s'. split; [|exact R]. exists (S k).
  intros n Hn. destruct n as [|n]; [lia|]. cbn [run r_expr]. apply G. lia.
Qed.
Lemma t_call : forall w T r, takes (fun n => call (run n) n) w T r -> takes (fun n => r_call (run n)) w T r.
Proof.
  intros w T r H s Hs. destruct (H s Hs) as (a & s' & [k G] & R). exists a, s'. split; [|exact R]. exists (S k).
  intros n Hn. destruct n as [|n]; [lia|]. cbn [run r_call]. apply G. lia.
Qed.
Lemma t_block : forall w T r, takes (fun n => block_body (run n) n) w T r -> takes (fun n => r_block (run n)) w T r.
Proof.
  intros w T r H s Hs. destruct (H s Hs) as (a & s' & [k G] & R). exists a, s'. split; [|exact R]. exists (S k).
  intros n Hn. destruct n as [|n]; [lia|]. cbn [run r_block]. apply G. lia.
Qed.
Lemma t_stmt : forall w T r, takes (fun n => statement_in_script (run n) n) w T r -> takes (fun n => r_stmt (run n)) w T r.
Proof.
  intros w T r H s Hs. destruct (H s Hs) as (a & s' & [k G] & R). exists a, s'. split; [|exact R]. exists (S k).
  intros n Hn. destruct n as [|n]; [lia|]. cbn [run r_stmt]. unfold statement_body, get_ctx, bind.
  destruct Hs as (_ & _ & _ & _ & _ & ->). apply G. lia.
Qed.
Lemma t_script : forall r, takes (fun _ => set_ctx CtxScript) [] (eq tt) r.
Proof.
  intros r s (Hw & Hp & Hm & Ht & Hd & Hc). eexists _, _. split; [exists 0%nat; intros; reflexivity|]. splits; auto.
  unfold at_. cbn. splits; auto.
Qed.
End Docs.

(** * Tactics *)

(** what the next token is, where its kind is known *)
Ltac known := repeat match goal with H : is _ _ |- _ => unfold is in H end.
Ltac lk :=
  cbn [app look]; try reflexivity;
  match goal with
  | |- look _ (_ ++ _) = _ => fail 1
  | H : is _ ?t |- one_of _ ?t = _ => unfold is in H; unfold one_of; cbn [existsb]; rewrite H; reflexivity
  | H : t_type ?t = _ |- one_of _ ?t = _ => unfold one_of; cbn [existsb]; rewrite H; reflexivity
  end.
