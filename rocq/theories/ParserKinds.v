(** What kinds of nodes the parts of a tree are that the parser builds, whether
    the text is correct or not. *)

From Verif Require Import Base Token Scanner ScannerEof Node NodeFacts DocBlock Parser TokenFacts SpecNames.
From Verif Require PrattFacts.

(** The parts of one node *)
Definition is_ref (n : Node) : Prop := exists t, n = NTypeRef t.
Definition is_type (n : Node) : Prop :=
  match n with NDataType _ _ | NReturnType _ (NDataType _ _) => True | _ => False end.
Definition is_doc (n : Node) : Prop := match n with NDocComment _ _ _ _ _ _ _ => True | _ => False end.
Definition if_some {A} (Q : A -> Prop) (o : option A) : Prop := match o with Some a => Q a | None => True end.

(** The operators: which may come behind a node without being part of it, and
    how tight the operator of the right side of another one is. *)
Notation lb := PrattFacts.lb.
Notation rb := PrattFacts.rb.
Definition weak (bp : N) (t : Token) : Prop :=
  match postfix_binding_power (t_type t) with
  | Some l => l < bp
  | None => match infix_binding_power (t_type t) with Some (l, _) => l < bp | None => True end
  end.
Definition behind (l : Node) (t : Token) : Prop :=
  match l with
  | NBinary _ p _ => weak (rb p) t
  | NTernary _ _ _ _ _ => weak 81 t
  | NUnary _ u => forall q, prefix_binding_power (t_type u) = Some q -> weak q t
  | _ => True
  end.
Definition above (bp : N) (r : Node) : Prop :=
  match r with
  | NBinary _ p _ => bp <= lb p
  | NTernary _ _ _ _ _ => bp <= 80
  | NPostUnary _ _ => bp <= 180
  | _ => True
  end.
Definition atomic (n : Node) : Prop :=
  match n with NBinary _ _ _ | NTernary _ _ _ _ _ | NUnary _ _ | NPostUnary _ _ => False | _ => True end.

Definition proper (n : Node) : Prop :=
  match n with
  | NBinary l op r =>
      (exists lp rp, infix_binding_power (t_type op) = Some (lp, rp) /\ postfix_binding_power (t_type op) = None) /\
      behind l op /\ above (rb op) r
  | NTernary c q _ _ f => t_type q = TQuestionMark /\ behind c q /\ above 81 f
  | NPostUnary e t => postfix_binding_power (t_type t) <> None /\ behind e t
  | NUnary e u => exists q, prefix_binding_power (t_type u) = Some q /\ above q e
  | NDocComment _ returns _ _ params vars props =>
      Forall (fun m => exists t d, m = NDocCommentReturn t d) returns /\
      Forall (fun m => exists k t d, m = NDocCommentParam k t d) params /\
      Forall (fun m => exists k t d, m = NDocCommentVar k t d) vars /\
      Forall (fun m => exists k t d, m = NDocCommentProperty k t d) props
  | NDocCommentProperty name _ _ => t_label name <> None
  | NDataType _ l => Forall is_ref l
  | NReturnType _ t => exists k l, t = NDataType k l
  | NNamespaceStatement _ t => is_ref t
  | NNamespaceBlock _ o _ => if_some is_ref o
  | NClassStatement _ _ _ _ impl ext _ doc _ => if_some (Forall is_ref) impl /\ if_some is_ref ext /\ if_some is_doc doc
  | NInterface _ _ ext _ doc => if_some (Forall is_ref) ext /\ if_some is_doc doc
  | NTraitStatement _ _ _ doc => if_some is_doc doc
  | NClassConstantDefinitionStatement _ l doc vis _ =>
      Forall (fun c => exists k v, c = NClassConstant vis k v) l /\ if_some is_doc doc
  | NPropertyDefinitionStatement l doc _ ty _ _ _ =>
      Forall (fun c => exists k v, c = NProperty k v) l /\ if_some is_doc doc /\ if_some is_type ty
  | NMethodDefinitionStatement _ _ _ _ _ _ f _ doc _ =>
      (exists op args cp ret body d, f = NFunctionDefinitionStatement op args cp ret body d) /\ if_some is_doc doc
  | NNamedFunctionDefinitionStatement _ _ _ f _ => exists op args cp ret body d, f = NFunctionDefinitionStatement op args cp ret body d
  | NFunctionDefinitionStatement _ _ _ ret _ doc => if_some is_type ret /\ if_some is_doc doc
  | NFunctionArgument ty _ _ _ _ _ doc _ =>
      if_some is_type ty /\ if_some (fun n => exists k t d, n = NDocCommentParam k t d) doc
  | _ => True
  end.
Definition Deep (n : Node) : Prop := forall m, node_in m n -> proper m.

Section Kinds.
Context `{RT : Runtime}.

Lemma mkDeep : forall n, proper n -> Forall Deep (subnodes n) -> Deep n.
Proof.
  intros n h f m hm. inversion hm; subst; [exact h|]. rewrite Forall_forall in f. eapply f; eassumption.
Qed.
Lemma Deep_proper : forall n, Deep n -> proper n.
Proof. intros n h. apply h. constructor. Qed.
Lemma Deep_sub : forall n m, Deep n -> In m (subnodes n) -> Deep m.
Proof. intros n m h hm k hk. apply h. eapply in_sub; eassumption. Qed.

(** * Values *)
Class Kinded (A : Type) := kd : A -> Prop.
Local Instance kd_any A : Kinded A | 20 := fun _ => True.
Local Instance kd_node : Kinded Node | 1 := Deep.
Local Instance kd_toks : Kinded (list Token) | 0 := fun _ => True.
Local Instance kd_list A (K : Kinded A) : Kinded (list A) | 1 := Forall kd.
Local Instance kd_opt A (K : Kinded A) : Kinded (option A) | 1 := if_some kd.
Local Instance kd_pair A B (K : Kinded A) (L : Kinded B) : Kinded (A * B) | 1 := fun p => kd (fst p) /\ kd (snd p).
Local Instance kd_sum A B (K : Kinded A) (L : Kinded B) : Kinded (A + B) | 1 :=
  fun x => match x with inl a => kd a | inr b => kd b end.

(** The end of the file is the last token. *)
Fixpoint last_end (l : list Token) : Prop :=
  match l with [] => True | t :: r => (t_type t = TEof -> r = []) /\ last_end r end.
Definition ended (s : pst) : Prop := last_end (p_toks s).

Inductive ans {A} (m : P A) (Q : A -> Prop) : Prop :=
  Ans : (forall s, ended s -> match m s with POk a s' => ended s' /\ Q a | PFail _ s' => ended s' | _ => True end) -> ans m Q.
Lemma an : forall A (m : P A) (Q : A -> Prop) s a s', ans m Q -> ended s -> m s = POk a s' -> ended s' /\ Q a.
Proof. intros A m Q s a s' [h] hs e. specialize (h s hs). rewrite e in h. exact h. Qed.
Lemma a_weak : forall A (m : P A) (Q R : A -> Prop), ans m Q -> (forall a, Q a -> R a) -> ans m R.
Proof. intros A m Q R [h] w. constructor. intros s hs. specialize (h s hs). destruct (m s); auto. destruct h; auto. Qed.
Lemma a_ret : forall A (a : A) (Q : A -> Prop), Q a -> ans (ret a) Q.
Proof. intros A a Q h. constructor. intros s hs. split; assumption. Qed.
Lemma a_fail : forall A e (Q : A -> Prop), ans (fail e) Q.
Proof. intros A e Q. constructor. intros s hs. exact hs. Qed.
Lemma a_panic : forall A (Q : A -> Prop), ans panic Q.
Proof. intros A Q. constructor. intros s hs. exact I. Qed.
Lemma a_bind : forall A B (m : P A) (f : A -> P B) (Q : A -> Prop) (R : B -> Prop),
  ans m Q -> (forall a, Q a -> ans (f a) R) -> ans (bind m f) R.
Proof.
  intros A B m f Q R [h] k. constructor. intros s hs. unfold bind. specialize (h s hs). destruct (m s) as [a s1|er s1| |]; auto.
  destruct h as [h1 h2]. destruct (k a h2) as [g]. exact (g s1 h1).
Qed.
Lemma a_loop : forall A B (body : A -> P (A + B)) (I : A -> Prop) (Q : B -> Prop),
  (forall a, I a -> ans (body a) (fun x => match x with inl a => I a | inr b => Q b end)) ->
  forall n a, I a -> ans (ploop n body a) Q.
Proof.
  intros A B body I Q h. induction n as [|n IH]; intros a ha; cbn [ploop]; [constructor; intros s hs; exact Logic.I|].
  eapply a_bind; [apply h; exact ha|]. cbv beta. intros [a'|b] hx; [apply IH; exact hx|apply a_ret; exact hx].
Qed.
Lemma a_catch : forall A (m : P A) (Q : A -> Prop), ans m Q -> ans (pcatch m) (fun x => match x with inl a => Q a | inr _ => True end).
Proof.
  intros A m Q [h]. constructor. intros s hs. unfold pcatch. specialize (h s hs). destruct (m s) as [a s1|er s1| |]; auto.
Qed.

(** * Primitives *)
Notation keeps m := (ans m (fun _ => True)).

Lemma peek_go_end : forall toks docs o toks' docs', peek_go toks docs = (o, toks', docs') -> last_end toks ->
  last_end toks' /\ peek_go toks' docs' = (o, toks', docs') /\
  (forall t, o = Some t -> t_type t <> TEof /\ forall ep x, next_go toks' docs' ep = Some x -> fst (fst (fst x)) = Some t).
Proof.
  induction toks as [|u toks IH]; intros docs o toks' docs' H he.
  { injection H as <- <- <-. split; [exact I|split; [reflexivity|discriminate]]. }
  cbn [peek_go] in H. cbn [last_end] in he. destruct he as [h1 h2].
  destruct (t_type u) eqn:E;
    try (exact (IH _ _ _ _ H h2));
    try (injection H as <- <- <-; rewrite (h1 eq_refl) in *; split; [exact I|split; [reflexivity|discriminate]]);
    (injection H as <- <- <-; split; [cbn [last_end]; rewrite E; split; [discriminate|exact h2]|split; [cbn [peek_go]; rewrite E; reflexivity|]];
     intros t q; injection q as <-; split; [rewrite E; discriminate|]; intros ep x e; cbn [next_go] in e;
     destruct (token_range u); [|discriminate e]; rewrite E in e; injection e as <-; reflexivity).
Qed.
Lemma peek_spec : forall s, ended s -> exists o s1, peek s = POk o s1 /\ ended s1 /\ peek s1 = POk o s1 /\
  (forall t, o = Some t -> t_type t <> TEof /\ forall u s2, next_unwrap s1 = POk u s2 -> u = t).
Proof.
  intros s hs. unfold peek at 1. destruct (peek_go (p_toks s) (p_docs s)) as [[o toks] docs] eqn:E.
  destruct (peek_go_end _ _ _ _ _ E hs) as (h1 & h2 & h3). eexists _, _. split; [reflexivity|]. split; [exact h1|]. split.
  - unfold peek. cbn [p_toks p_docs p_errs p_ctx p_eof p_eprev]. rewrite h2. reflexivity.
  - intros t q. destruct (h3 t q) as [g1 g2]. split; [exact g1|]. intros u s2 e.
    unfold next_unwrap, bind, next in e. cbn [p_toks p_docs p_eprev] in e. destruct (next_go _ _ _) as [[[[t' toks'] docs'] ep']|] eqn:en; [|discriminate e].
    apply g2 in en. cbn [fst] in en. subst t'. injection e as -> _. reflexivity.
Qed.
Lemma p_peek : ans peek (fun o => if_some (fun t => t_type t <> TEof) o).
Proof.
  constructor. intros s hs. destruct (peek_spec s hs) as (o & s1 & -> & h1 & _ & h2). split; [exact h1|]. destruct o as [t|]; [|exact I].
  apply (h2 t eq_refl).
Qed.
Lemma p_next : keeps next.
Proof.
  constructor. intros s hs. unfold next. destruct (next_go _ _ _) as [[[[t toks] docs] ep]|] eqn:E; [|exact I]. split; [|exact I].
  unfold ended in *. cbn [p_toks]. revert E hs. generalize (p_docs s), (p_eprev s). induction (p_toks s) as [|u l IH]; intros d e E hs; cbn [next_go] in E.
  { injection E as _ <- _ _. exact I. }
  destruct hs as [h1 h2]. destruct (token_range u); [|discriminate E].
  destruct (t_type u); try (injection E as _ <- _ _; exact h2); eapply IH; eassumption.
Qed.
Lemma p_unwrap : keeps next_unwrap.
Proof. eapply a_bind; [apply p_next|]. intros [t|] _; [apply a_ret; exact I|apply a_panic]. Qed.
Lemma p_err : forall e, keeps (push_err e).
Proof. intros e. constructor. intros s hs. split; [exact hs|exact I]. Qed.
Lemma p_set : forall e, keeps (set_ctx e).
Proof. intros e. constructor. intros s hs. split; [exact hs|exact I]. Qed.
Lemma p_eprev : keeps get_eprev.
Proof. constructor. intros s hs. split; [exact hs|exact I]. Qed.
Lemma p_eof : keeps get_eof.
Proof. constructor. intros s hs. split; [exact hs|exact I]. Qed.
Lemma p_ctx : keeps get_ctx.
Proof. constructor. intros s hs. split; [exact hs|exact I]. Qed.
Lemma p_push : forall t, t_type t <> TEof -> keeps (push_tok t).
Proof. intros t h. constructor. intros s hs. split; [|exact I]. cbn. split; [intros q; contradiction|exact hs]. Qed.
Lemma p_while : forall body, keeps body -> keeps (while_tokens body).
Proof.
  intros body h. constructor. intros s hs. unfold while_tokens.
  assert (G : ans (ploop (S (List.length (p_toks s))) (fun _ => body) tt) (fun _ => True)).
  { apply a_loop with (I := fun _ => True); [|exact I]. intros _ _. eapply a_weak; [exact h|]. intros [a|b] _; exact I. }
  destruct G as [G]. exact (G s hs).
Qed.
Create HintDb prims.
Local Hint Extern 1 (t_type _ <> TEof) => solve [cbn [if_some] in *; first [assumption|congruence]] : prims.
Local Hint Resolve p_peek p_next p_unwrap p_err p_set p_eprev p_eof p_ctx p_push p_while : prims.
Ltac pp :=
  repeat first
  [ progress cbv beta zeta
  | lazymatch goal with
    | |- ans (bind _ _) _ => eapply a_bind; [solve [eauto 2 with prims] | cbv beta; intros]
    | |- ans (ret _) _ => apply a_ret; exact I
    | |- ans (continue _) _ => apply a_ret; exact I
    | |- ans (break _) _ => apply a_ret; exact I
    | |- ans (fail _) _ => apply a_fail
    | |- ans panic _ => apply a_panic
    | |- ans (match ?x with _ => _ end) _ => destruct x
    | |- ans (while_tokens _) _ => apply p_while
    | |- ans _ _ => eapply a_weak; [solve [eauto 2 with prims] | intros; exact I]
    end ].
Lemma p_one_of : forall l, keeps (next_token_one_of l).
Proof. intros. unfold next_token_one_of. pp. Qed.
Lemma p_operator : keeps next_is_operator.
Proof. unfold next_is_operator. pp. Qed.
Local Hint Resolve p_one_of p_operator : prims.
Lemma p_ff : keeps error_fast_forward.
Proof. unfold error_fast_forward. pp. Qed.
Local Hint Resolve p_ff : prims.
Lemma p_eos : keeps consume_end_of_statement.
Proof. unfold consume_end_of_statement. pp. Qed.
Lemma p_after : forall t l, keeps (consume_or_ff_after t l).
Proof. intros. unfold consume_or_ff_after. pp. Qed.
Lemma p_before : forall t l, keeps (consume_or_ff_before t l).
Proof. intros. unfold consume_or_ff_before. pp. eapply a_bind; [apply p_while; pp|intros; pp]. Qed.
Lemma p_consume : forall t, keeps (consume t).
Proof. intros. unfold consume. pp. Qed.
Lemma p_member : keeps consume_member.
Proof. unfold consume_member. pp. Qed.
Lemma p_is_member : keeps next_is_member.
Proof. unfold next_is_member. pp. Qed.
Lemma p_is_identifier : keeps next_is_identifier.
Proof. unfold next_is_identifier. pp. Qed.
Lemma p_consume_one : forall l, keeps (consume_one_of l).
Proof. intros. unfold consume_one_of. pp. Qed.
Lemma p_one_or : forall l, keeps (consume_one_of_or_ignore l).
Proof. intros. unfold consume_one_of_or_ignore. pp. Qed.
Lemma p_ignore : forall k, ans (consume_or_ignore k) (fun o => if_some (fun t => t_type t = k) o).
Proof.
  intros k. constructor. intros s hs. unfold consume_or_ignore. destruct (peek_spec s hs) as (o & s1 & e & h1 & _ & h2). unfold bind at 1. rewrite e.
  destruct o as [t|]; [|split; [exact h1|exact I]]. destruct (tt_eqb (t_type t) k) eqn:ek; [|split; [exact h1|exact I]].
  destruct p_unwrap as [hu]. specialize (hu s1 h1). unfold bind. destruct (next_unwrap s1) as [u s2| | |] eqn:en; auto. split; [apply hu|].
  rewrite (proj2 (h2 t eq_refl) u s2 eq_refl). apply tt_eqb_eq. exact ek.
Qed.
Lemma p_identifier : ans consume_identifier (fun t => t_type t <> TEof).
Proof.
  constructor. intros s hs. unfold consume_identifier. destruct (peek_spec s hs) as (o & s1 & e & h1 & _ & h2). unfold bind at 1. rewrite e.
  destruct o as [t|]; [|split; [exact h1|discriminate]]. destruct (is_identifier t) eqn:ek; [|split; [exact h1|discriminate]].
  destruct p_unwrap as [hu]. specialize (hu s1 h1). destruct (next_unwrap s1) as [u s2| | |] eqn:en; auto. split; [apply hu|].
  rewrite (proj2 (h2 t eq_refl) u s2 eq_refl). apply (h2 t eq_refl).
Qed.
Local Hint Resolve p_eos p_after p_before p_consume p_member p_is_member p_is_identifier p_consume_one p_one_or p_ignore p_identifier : prims.

(** * Comments *)
Lemma d_scan_kinds : forall fuel s a r, d_scan fuel s a = Some r ->
  proper (NDocComment (mkToken 0 0 TVariable None None) (a_returns a) [] false (a_params a) (a_vars a) (a_properties a)) ->
  Forall Deep (a_properties a) ->
  proper (NDocComment (mkToken 0 0 TVariable None None) (a_returns r) [] false (a_params r) (a_vars r) (a_properties r)) /\
  Forall Deep (a_properties r).
Proof.
  induction fuel as [|fuel IH]; intros s a r e h hp; cbn [d_scan] in e; [discriminate e|].
  assert (NM : forall s' x s'', d_named s' = Some (x, s'') -> t_label (snd (fst x)) <> None).
  { intros s' x s'' en. unfold d_named in en. destruct (d_type_refs _ _ _ _) as [[trs s1]|]; [|discriminate en].
    destruct (match d_peek _ with Some _ => _ | None => _ end) as [name s2]. destruct (d_rest_of_line s2) as [descr s3].
    injection en as <- _. cbn. discriminate. }
  destruct (d_advance s) as [[c|] s1]; [|injection e as <-; auto].
  destruct (c =? 64).
  - destruct (d_collect_identifier false s1) as [directive s2]. destruct h as (h1 & h2 & h3 & h4).
    destruct (str_eqb directive (lit "param")).
    { destruct (d_named _) as [[[[trs name] descr] s3]|]; [|discriminate e]. eapply IH; [exact e| |exact hp]. cbn.
      repeat split; auto. apply Forall_app. split; [exact h2|]. repeat constructor. eexists _, _, _. reflexivity. }
    destruct (str_eqb directive (lit "return")).
    { destruct (d_type_refs _ _ _ _) as [[trs s3]|]; [|discriminate e]. destruct (d_rest_of_line _) as [descr s4].
      eapply IH; [exact e| |exact hp]. cbn. repeat split; auto. apply Forall_app. split; [exact h1|]. repeat constructor. eexists _, _. reflexivity. }
    destruct (str_eqb directive (lit "var")).
    { destruct (d_named _) as [[[[trs name] descr] s3]|]; [|discriminate e]. eapply IH; [exact e| |exact hp]. cbn.
      repeat split; auto. apply Forall_app. split; [exact h3|]. repeat constructor. eexists _, _, _. reflexivity. }
    destruct (str_eqb directive (lit "deprecated")).
    { eapply IH; [exact e| |exact hp]. cbn. auto. }
    destruct (str_eqb directive (lit "property")).
    { destruct (d_named _) as [[[[trs name] descr] s3]|] eqn:en; [|discriminate e]. apply NM in en. eapply IH; [exact e| |].
      - cbn. repeat split; auto. apply Forall_app. split; [exact h4|]. repeat constructor. eexists _, _, _. reflexivity.
      - cbn. apply Forall_app. split; [exact hp|]. repeat constructor. apply mkDeep; [exact en|constructor]. }
    eapply IH; [exact e| |exact hp]. cbn. auto.
  - destruct (c =? 42); (eapply IH; [exact e|exact h|exact hp]).
Qed.
Lemma docblock_kinds : forall c n, docblock_scan c = Some n -> Deep n /\ is_doc n /\
  (forall a b d x l v q, n = NDocComment a b d x l v q -> Forall Deep v).
Proof.
  intros c n e. unfold docblock_scan in e. destruct (t_label c) as [l|]; [|discriminate e].
  destruct (d_scan _ _ _) as [r|] eqn:er; [|discriminate e]. injection e as <-.
  destruct (d_scan_kinds _ _ _ _ er) as [(h1 & h2 & h3 & h4) hp].
  { cbn. repeat split; constructor. }
  { constructor. }
  assert (D : forall l, (forall m, In m l -> subnodes m = [] /\ proper m) -> Forall Deep l).
  { intros k hk. apply Forall_forall. intros m hm. destruct (hk m hm) as [q1 q2]. apply mkDeep; [exact q2|rewrite q1; constructor]. }
  assert (hv : Forall Deep (a_vars r)).
  { apply D. intros m hm. rewrite Forall_forall in h3. destruct (h3 m hm) as (? & ? & ? & ->). split; [reflexivity|exact I]. }
  split; [|split; [exact I|]].
  - apply mkDeep; [cbn; auto|]. cbn [subnodes]. rewrite !Forall_app. repeat split; auto.
    + apply D. intros m hm. rewrite Forall_forall in h1. destruct (h1 m hm) as (? & ? & ->). split; [reflexivity|exact I].
    + apply D. intros m hm. rewrite Forall_forall in h2. destruct (h2 m hm) as (? & ? & ? & ->). split; [reflexivity|exact I].
  - intros ? ? ? ? ? ? ? q. injection q as _ _ _ _ _ <- _. exact hv.
Qed.
Lemma a_doc : ans consume_optional_doc_comment (fun o => kd o /\ if_some is_doc o).
Proof.
  constructor. intros s hs. unfold consume_optional_doc_comment. destruct (p_docs s) as [|c docs]; [split; [exact hs|split; exact I]|].
  destruct (docblock_scan c) as [n|] eqn:ed; [|exact I]. split; [exact hs|]. apply docblock_kinds in ed as (h1 & h2 & _). split; assumption.
Qed.
Lemma a_flush : ans flush_docs (fun l => kd l).
Proof.
  constructor. intros s hs. unfold flush_docs. destruct (flush_go (p_docs s)) as [l|] eqn:ef; [|exact I]. split; [exact hs|]. clear hs.
  revert l ef. induction (p_docs s) as [|c docs IH]; intros l ef; cbn [flush_go] in ef; [injection ef as <-; constructor|].
  destruct (docblock_scan c) as [n|] eqn:ed; [|discriminate ef]. destruct (flush_go docs) as [r|]; [|discriminate ef]. injection ef as <-.
  apply docblock_kinds in ed as (_ & _ & hv). apply Forall_app. split; [|apply IH; reflexivity].
  destruct n; try constructor. eapply hv. reflexivity.
Qed.
Lemma param_kinds : forall o name, if_some Deep o ->
  if_some Deep (param_comment_for o name) /\ if_some (fun n => exists k t d, n = NDocCommentParam k t d) (param_comment_for o name).
Proof.
  intros [n|] name h; [|split; exact I]. destruct n; cbn [param_comment_for]; try (split; exact I).
  destruct (find _ params) as [m|] eqn:ef; [|split; exact I]. apply find_some in ef as [hm ht]. split.
  - eapply Deep_sub; [exact h|]. cbn [subnodes]. rewrite !in_app_iff. auto.
  - destruct m; try discriminate ht. eexists _, _, _. reflexivity.
Qed.

(** * The grammar *)

Definition refs (l : list Node) : Prop := Forall Deep l /\ Forall is_ref l.
Lemma ref_deep : forall t, Deep (NTypeRef t).
Proof. intros t. apply mkDeep; [exact I|constructor]. Qed.
Lemma opt_deep : forall o : option Node, if_some Deep o -> Forall Deep (opt_list o).
Proof. intros [n|] h; repeat constructor. exact h. Qed.
Lemma opts_deep : forall o : option (list Node), if_some (Forall Deep) o -> Forall Deep (opt_nodes o).
Proof. intros [n|] h; [exact h|constructor]. Qed.
Lemma cases_deep : forall l : list (option Node), Forall (if_some Deep) l -> Forall Deep (flat_map opt_list l).
Proof. intros l h. induction h as [|o l ho hl IH]; [constructor|]. cbn. apply Forall_app. split; [apply opt_deep; exact ho|exact IH]. Qed.
Lemma traits_deep : forall l, Forall Deep l -> Forall Deep (map (fun t => NUseTrait t) l).
Proof. intros l h. induction h; constructor; auto. apply mkDeep; [exact I|]. repeat constructor. assumption. Qed.
Lemma refs_deep : forall l, refs l -> Forall Deep l.
Proof. intros l [h _]. exact h. Qed.
Lemma refs_ref : forall l, refs l -> Forall is_ref l.
Proof. intros l [_ h]. exact h. Qed.

Ltac kv :=
  cbv zeta; cbv [kd kd_node kd_list kd_opt kd_pair kd_sum kd_any kd_toks refs] in *; cbn [if_some fst snd] in *;
  repeat match goal with h : _ /\ _ |- _ => destruct h | h : exists _, _ |- _ => destruct h end; subst;
  lazymatch goal with
  | |- True => exact I
  | |- _ /\ _ => split; kv
  | |- Forall _ [] => constructor
  | |- Forall _ (_ :: _) => constructor; kv
  | |- Forall _ (_ ++ _) => apply Forall_app; split; kv
  | |- Forall Deep (opt_list _) => apply opt_deep; kv
  | |- Forall Deep (opt_nodes _) => apply opts_deep; kv
  | |- Forall Deep (flat_map opt_list _) => apply cases_deep; kv
  | |- Forall Deep (map (fun t => NUseTrait t) _) => apply traits_deep; kv
  | |- is_ref (NTypeRef _) => eexists; reflexivity
  | |- is_type _ => first [assumption | exact I]
  | |- is_doc _ => first [assumption | exact I]
  | |- if_some _ None => exact I
  | |- if_some _ (param_comment_for _ _) => apply param_kinds; kv
  | |- exists _, _ => repeat eexists; reflexivity
  | |- Deep ?x => first [assumption | apply mkDeep; [cbn [proper if_some]; kv | cbn [subnodes]; kv]]
  | |- _ => first [assumption | auto]
  end.

Ltac kprim :=
  lazymatch goal with
  | |- ans (bind _ _) _ => fail
  | |- ans (ploop _ _ _) _ => fail
  | |- ans (match _ with _ => _ end) _ => fail
  | |- ans (ret _) _ => fail
  | |- _ => first [ solve [eauto 2 with kinds nocore] | solve [eauto 2 with prims nocore] ]
  end.
Ltac kstep :=
  cbv zeta; cbv beta;
  lazymatch goal with
  | |- ans (bind (pcatch _) _) _ =>
      eapply a_bind; [apply a_catch; solve [kprim] | let x := fresh "x" in let h := fresh "h" in intros [x|x] h; cbv beta iota in h]
  | |- ans (bind ?m _) _ =>
      first [ eapply a_bind; [solve [kprim] | let x := fresh "x" in let h := fresh "h" in intros x h; cbv beta in h]
            | apply a_bind with (Q := kd); [| let x := fresh "x" in let h := fresh "h" in intros x h] ]
  | |- ans (ret _) _ => apply a_ret
  | |- ans (continue _) _ => apply a_ret
  | |- ans (break _) _ => apply a_ret
  | |- ans (fail _) _ => apply a_fail
  | |- ans panic _ => apply a_panic
  | |- ans (ploop _ _ _) _ => apply a_loop with (I := kd); [let x := fresh "x" in let h := fresh "h" in intros x h |]
  | |- ans (pcatch _) _ => eapply a_weak; [apply a_catch; solve [kprim] | let x := fresh "x" in intros [x|x]; cbv beta iota; intros]
  | |- ans (match ?x with _ => _ end) _ => destruct x
  | |- ans _ _ => eapply a_weak; [solve [kprim] | cbv beta; intros]
  end.
Ltac kgo := repeat kstep; try solve [kv].

Section Grammar.
Variable rec : Rec.
Variable n : nat.
Hypothesis k_expr : forall b, ans (r_expr rec b) Deep.
Hypothesis k_call : ans (r_call rec) Deep.
Definition settled (b : N) (s : pst) : Prop := forall t s2, peek s = POk (Some t) s2 -> weak b t.
Hypothesis k_settles : forall b s a s', ended s -> r_expr rec b s = POk a s' -> above b a /\ settled b s'.
Hypothesis k_atomic : forall s a s', r_call rec s = POk a s' -> atomic a.
Hypothesis k_stmt : ans (r_stmt rec) Deep.
Hypothesis k_block : ans (r_block rec) Deep.
Local Hint Resolve k_expr k_call k_stmt k_block a_doc a_flush : kinds.
Local Hint Extern 3 (Forall Deep _) => solve [kv] : kinds.
Local Hint Extern 3 (Deep _) => solve [kv] : kinds.
Local Hint Extern 3 (if_some _ _) => solve [kv] : kinds.

Lemma p_modifiers : keeps (modifiers n).
Proof. unfold modifiers. apply a_loop with (I := fun _ => True); [|exact I]. intros [[[a b] c] d] _. kgo. Qed.
Lemma p_namespace : keeps (non_empty_namespace_ref n).
Proof. unfold non_empty_namespace_ref. kgo. Qed.
Local Hint Resolve p_modifiers p_namespace : prims.
Lemma k_type_ref : ans (non_empty_type_ref n) (fun m => Deep m /\ is_ref m).
Proof. unfold non_empty_type_ref. kgo. Qed.
Local Hint Resolve k_type_ref : kinds.
Lemma k_type_refs : ans (type_ref_list n) refs.
Proof. unfold type_ref_list. kstep. apply a_loop with (I := refs); [intros l hl|]; kgo. Qed.
Local Hint Resolve k_type_refs : kinds.
Lemma k_type_opt : ans (type_ref n) (if_some (fun m => Deep m /\ is_ref m)).
Proof. unfold type_ref. kgo. Qed.
Local Hint Resolve k_type_opt : kinds.
Lemma k_union : ans (non_empty_type_ref_union n) refs.
Proof. unfold non_empty_type_ref_union. kstep. apply a_loop with (I := refs); [intros l hl|]; kgo. Qed.
Local Hint Resolve k_union : kinds.
Lemma k_union_opt : ans (type_ref_union n) (if_some refs).
Proof.
  unfold type_ref_union. kstep. destruct x as [t|]; [|kgo]. eapply a_bind with (Q := refs); [|intros; kgo].
  apply a_loop with (I := refs); [intros l hl|]; kgo.
Qed.
Local Hint Resolve k_union_opt : kinds.
Lemma k_data_type : ans (data_type n) (fun m => Deep m /\ exists k l, m = NDataType k l).
Proof. unfold data_type. kgo. Qed.
Local Hint Resolve k_data_type : kinds.
Lemma fold_deep : forall links root, Deep root -> Deep (fold_left (fun root link => NAliasedVariable link root) links root).
Proof. induction links as [|l links IH]; intros root h; [exact h|]. cbn [fold_left]. apply IH. apply mkDeep; [exact I|]. repeat constructor. exact h. Qed.

Lemma k_variable : ans (variable rec n) Deep.
Proof. unfold variable. kgo. apply fold_deep. kv. Qed.
Local Hint Resolve k_variable : kinds.

Lemma k_globals : ans (global_variables rec n) Deep.
Proof. unfold global_variables. kgo. Qed.
Local Hint Resolve k_globals : kinds.

Lemma k_statics : forall t, ans (static_variables rec n t) Deep.
Proof. intros. unfold static_variables. kgo. Qed.
Local Hint Resolve k_statics : kinds.

Lemma k_const_item : ans (const_item rec) Deep.
Proof. unfold const_item. kgo. Qed.
Local Hint Resolve k_const_item : kinds.

Lemma k_const : ans (const_statement rec n) Deep.
Proof. unfold const_statement. kgo. Qed.
Local Hint Resolve k_const : kinds.

Lemma k_lexical : ans (lexical_variable ) Deep.
Proof. unfold lexical_variable. kgo. Qed.
Local Hint Resolve k_lexical : kinds.

Lemma k_lexicals : ans (non_empty_lexical_variables_list n) kd.
Proof. unfold non_empty_lexical_variables_list. kgo. Qed.
Local Hint Resolve k_lexicals : kinds.

Lemma k_attribute : ans (attribute rec n) Deep.
Proof. unfold attribute. kgo. Qed.
Local Hint Resolve k_attribute : kinds.

Lemma k_attributes : ans (attributes_block rec n) (Forall Deep).
Proof. unfold attributes_block. kgo. Qed.
Local Hint Resolve k_attributes : kinds.

Lemma k_pair : ans (array_pair rec) Deep.
Proof. unfold array_pair. kgo. Qed.
Local Hint Resolve k_pair : kinds.

Lemma k_array : ans (array rec n) Deep.
Proof. unfold array. kgo. Qed.
Local Hint Resolve k_array : kinds.

Lemma k_old_array : ans (old_array rec n) Deep.
Proof. unfold old_array. kgo. Qed.
Local Hint Resolve k_old_array : kinds.

Lemma k_arg_type : ans (argument_type n) (fun o => if_some Deep o /\ if_some is_type o).
Proof. unfold argument_type. kgo. Qed.
Local Hint Resolve k_arg_type : kinds.

Lemma k_args : forall doc (hd : if_some Deep doc), ans (argument_list rec n doc) (if_some (Forall Deep)).
Proof. intros. unfold argument_list. kgo. Qed.
Local Hint Resolve k_args : kinds.

Lemma k_return_type : ans (return_type n) (fun o => if_some Deep o /\ if_some is_type o).
Proof. unfold return_type. kgo. Qed.
Local Hint Resolve k_return_type : kinds.

Lemma k_fun : forall doc (hd : if_some Deep doc) (hk : if_some is_doc doc), ans (anonymous_function_statement rec n doc) (fun m => Deep m /\ exists op args cp ret body d, m = NFunctionDefinitionStatement op args cp ret body d).
Proof. intros. unfold anonymous_function_statement. kgo. Qed.
Local Hint Resolve k_fun : kinds.

Lemma k_named : forall doc attrs (hd : if_some Deep doc) (hk : if_some is_doc doc) (ha : Forall Deep attrs), ans (named_function rec n doc attrs) Deep.
Proof. intros. unfold named_function. kgo. Qed.
Local Hint Resolve k_named : kinds.

Lemma k_arrow : forall st attrs (ha : Forall Deep attrs), ans (arrow_function rec n st attrs) Deep.
Proof. intros. unfold arrow_function. kgo. Qed.
Local Hint Resolve k_arrow : kinds.

Lemma k_anon : forall st attrs (ha : Forall Deep attrs), ans (anonymous_function rec n st attrs) Deep.
Proof. intros. unfold anonymous_function. kgo. Qed.
Local Hint Resolve k_anon : kinds.

Lemma k_ploop : forall l (hl : Forall Deep l), ans (parameters_loop rec n l) (Forall Deep).
Proof. intros. unfold parameters_loop. kgo. Qed.
Local Hint Resolve k_ploop : kinds.

Lemma k_params1 : ans (non_empty_parameter_list rec n) (Forall Deep).
Proof. unfold non_empty_parameter_list. kgo. Qed.
Local Hint Resolve k_params1 : kinds.

Lemma k_params : ans (parameter_list rec n) (Forall Deep).
Proof. unfold parameter_list. kgo. Qed.
Local Hint Resolve k_params : kinds.

Lemma k_return : ans (return_statement rec) Deep.
Proof. unfold return_statement. kgo. Qed.
Local Hint Resolve k_return : kinds.

Lemma k_finish : forall e (he : Deep e), ans (finish_call rec n e) Deep.
Proof. intros. unfold finish_call. kgo. Qed.
Local Hint Resolve k_finish : kinds.

Lemma k_init : forall e (he : Deep e), ans (init_call rec n e) Deep.
Proof. intros. unfold init_call. kgo. Qed.
Local Hint Resolve k_init : kinds.

Lemma k_list : ans (list_ rec n) Deep.
Proof. unfold list_. kgo. Qed.
Local Hint Resolve k_list : kinds.

Lemma k_declare : ans (declare_statement ) Deep.
Proof. unfold declare_statement. kgo. Qed.
Local Hint Resolve k_declare : kinds.

Lemma k_unset : ans (unset_statement rec n) Deep.
Proof. unfold unset_statement. kgo. Qed.
Local Hint Resolve k_unset : kinds.

Lemma k_die : ans (die_statement rec) Deep.
Proof. unfold die_statement. kgo. Qed.
Local Hint Resolve k_die : kinds.

Lemma k_define : ans (define_statement rec) Deep.
Proof. unfold define_statement. kgo. Qed.
Local Hint Resolve k_define : kinds.

Lemma k_commas : ans (comma_expressions rec n) (Forall Deep).
Proof. unfold comma_expressions. kgo. Qed.
Local Hint Resolve k_commas : kinds.

Lemma k_echo : ans (echo_statement rec n) Deep.
Proof. unfold echo_statement. kgo. Qed.
Local Hint Resolve k_echo : kinds.

Lemma k_short_echo : ans (short_tag_echo_statement rec n) Deep.
Proof. unfold short_tag_echo_statement. kgo. Qed.
Local Hint Resolve k_short_echo : kinds.

Lemma k_print : ans (print_statement rec) Deep.
Proof. unfold print_statement. kgo. Qed.
Local Hint Resolve k_print : kinds.

Lemma k_goto : ans (goto_statement ) Deep.
Proof. unfold goto_statement. kgo. Qed.
Local Hint Resolve k_goto : kinds.

Lemma k_idents : ans (identifier_list n) refs.
Proof. unfold identifier_list. apply a_loop with (I := refs); [intros l hl|]; kgo. Qed.
Local Hint Resolve k_idents : kinds.

Lemma k_alterations : forall l (hl : Forall Deep l), ans (trait_usage_alteration_group n l) Deep.
Proof. intros. unfold trait_usage_alteration_group. kgo. Qed.
Local Hint Resolve k_alterations : kinds.

Lemma k_usages : ans (trait_usages n) (Forall Deep).
Proof. unfold trait_usages. kgo. Qed.
Local Hint Resolve k_usages : kinds.

Lemma k_use_trait : ans (use_trait_statement n) Deep.
Proof. unfold use_trait_statement. kgo. Qed.
Local Hint Resolve k_use_trait : kinds.

Lemma k_member : ans (class_block_statement rec n) Deep.
Proof.
  unfold class_block_statement. kstep. destruct x; [kgo|]. kstep. kstep.
  apply a_bind with (Q := fun o => if_some Deep o /\ if_some is_doc o).
  { destruct x; [apply a_ret; kv|kgo]. }
  intros doc [hd hk]. kstep. destruct x1 as [[[ab fi] vis] st]. kstep. destruct x1 as [token|].
  - apply a_bind with (Q := fun l => Forall Deep l /\ Forall (fun c => exists k v, c = NClassConstant vis k v) l).
    { apply a_loop with (I := fun l => Forall Deep l /\ Forall (fun c => exists k v, c = NClassConstant vis k v) l); [intros l hl|]; kgo. }
    intros l hl. kgo.
  - kstep. destruct x1 as [token|]; [kgo|].
    kstep. apply a_bind with (Q := fun o => if_some Deep o /\ if_some is_type o).
    { destruct x1; kgo. }
    intros ty hty. apply a_bind with (Q := fun l => Forall Deep l /\ Forall (fun c => exists k v, c = NProperty k v) l).
    { apply a_loop with (I := fun l => Forall Deep l /\ Forall (fun c => exists k v, c = NProperty k v) l); [intros l hl|]; kgo. }
    intros l hl. kgo.
Qed.
Local Hint Resolve k_member : kinds.

Lemma k_class_block : ans (class_block rec n) Deep.
Proof. unfold class_block. kgo. Qed.
Local Hint Resolve k_class_block : kinds.

Lemma k_class : forall ab fi attrs (ha : Forall Deep attrs), ans (class_statement rec n ab fi attrs) Deep.
Proof.
  intros. unfold class_statement. do 4 kstep.
  apply a_bind with (Q := if_some (fun m => Deep m /\ is_ref m)); [kgo|]. intros ext hext. kstep.
  apply a_bind with (Q := if_some refs); [kgo|]. intros impl himpl. destruct ext, impl; kgo.
Qed.
Local Hint Resolve k_class : kinds.

Lemma k_abstract : forall attrs (ha : Forall Deep attrs), ans (abstract_class_statement rec n attrs) Deep.
Proof. intros. unfold abstract_class_statement. kgo. Qed.
Local Hint Resolve k_abstract : kinds.

Lemma k_final : forall attrs (ha : Forall Deep attrs), ans (final_class_statement rec n attrs) Deep.
Proof. intros. unfold final_class_statement. kgo. Qed.
Local Hint Resolve k_final : kinds.

Lemma k_anon_class : forall attrs (ha : Forall Deep attrs), ans (anonymous_class rec n attrs) Deep.
Proof. intros. unfold anonymous_class. kgo. Qed.
Local Hint Resolve k_anon_class : kinds.

Lemma k_interface : ans (interface rec n) Deep.
Proof.
  unfold interface. do 4 kstep.
  apply a_bind with (Q := if_some refs); [kgo|]. intros ext hext. destruct ext; kgo.
Qed.
Local Hint Resolve k_interface : kinds.

Lemma k_trait : ans (trait_statement rec n) Deep.
Proof. unfold trait_statement. kgo. Qed.
Local Hint Resolve k_trait : kinds.

Lemma k_match : ans (match_body rec n) (Forall Deep).
Proof. unfold match_body. kgo. Qed.
Local Hint Resolve k_match : kinds.

Lemma k_primary : ans (primary rec n) Deep.
Proof. unfold primary. kgo. Qed.
Local Hint Resolve k_primary : kinds.

Lemma k_callx : ans (call rec n) Deep.
Proof. unfold call. kgo. Qed.
Local Hint Resolve k_callx : kinds.

(** ** What the operands are *)
Inductive gives {A} (m : P A) (Q : A -> Prop) : Prop := Res : (forall s a s', m s = POk a s' -> Q a) -> gives m Q.
Lemma r_any : forall A (m : P A), gives m (fun _ => True).
Proof. intros A m. constructor. auto. Qed.
Lemma r_ret : forall A (a : A) (Q : A -> Prop), Q a -> gives (ret a) Q.
Proof. intros A a Q h. constructor. intros s b s' e. injection e as <- _. exact h. Qed.
Lemma r_fail : forall A e (Q : A -> Prop), gives (fail e) Q.
Proof. intros A e Q. constructor. intros s b s' h. discriminate h. Qed.
Lemma r_panic : forall A (Q : A -> Prop), gives panic Q.
Proof. intros A Q. constructor. intros s b s' h. discriminate h. Qed.
Lemma r_bind : forall A B (m : P A) (f : A -> P B) (Q : A -> Prop) (R : B -> Prop),
  gives m Q -> (forall a, Q a -> gives (f a) R) -> gives (bind m f) R.
Proof.
  intros A B m f Q R [h] k. constructor. intros s b s' e. unfold bind in e. destruct (m s) as [a s1| | |] eqn:em; try discriminate e.
  destruct (k a (h _ _ _ em)) as [g]. exact (g _ _ _ e).
Qed.
Lemma r_loop : forall A B (body : A -> P (A + B)) (I : A -> Prop) (Q : B -> Prop),
  (forall a, I a -> gives (body a) (fun x => match x with inl a => I a | inr b => Q b end)) ->
  forall k a, I a -> gives (ploop k body a) Q.
Proof.
  intros A B body I Q h. induction k as [|k IH]; intros a ha; cbn [ploop]; [constructor; intros s b s' e; discriminate e|].
  eapply r_bind; [apply h; exact ha|]. cbv beta. intros [a'|b] hx; [apply IH; exact hx|apply r_ret; exact hx].
Qed.
Ltac at_ :=
  repeat first
  [ progress cbv beta zeta
  | lazymatch goal with
    | |- gives (bind _ _) _ => eapply r_bind; [apply r_any|intros ? _]
    | |- gives (ret _) _ => apply r_ret; exact I
    | |- gives (continue _) _ => apply r_ret; first [exact I|assumption]
    | |- gives (break _) _ => apply r_ret; first [exact I|assumption]
    | |- gives (fail _) _ => apply r_fail
    | |- gives panic _ => apply r_panic
    | |- gives (match ?x with _ => _ end) _ => destruct x
    end ].
Lemma fold_atomic : forall links root, atomic root -> atomic (fold_left (fun root link => NAliasedVariable link root) links root).
Proof. induction links as [|l links IH]; intros root h; [exact h|]. cbn. apply IH. exact I. Qed.
Lemma primary_atomic : gives (primary rec n) atomic.
Proof.
  unfold primary, variable, old_array, list_, array, arrow_function, anonymous_function, anonymous_class, non_empty_type_ref. at_.
  apply r_loop with (I := fun _ => True); [|exact I]. intros l _. at_. apply r_ret. apply fold_atomic. exact I.
Qed.
Lemma call_atomic : gives (call rec n) atomic.
Proof.
  unfold call, init_call. eapply r_bind; [apply primary_atomic|]. intros e he. apply r_loop with (I := atomic); [|exact he]. clear e he. intros e he.
  eapply r_bind; [apply r_any|]. intros [|] _; [|at_].
  eapply r_bind with (Q := atomic); [unfold finish_call; at_|]. intros x hx. apply r_ret. exact hx.
Qed.

Definition done (b : N) (r : Parser.res Node) : Prop :=
  match r with POk a s' => ended s' /\ Deep a /\ above b a /\ settled b s' | PFail _ s' => ended s' | _ => True end.
Lemma settles_at : forall b s, peek s = POk None s -> settled b s.
Proof. intros b s e t s2 e'. rewrite e in e'. discriminate e'. Qed.
Lemma expr_done : forall b s, ended s -> done b (r_expr rec b s).
Proof.
  intros b s hs. destruct (k_expr b) as [h]. specialize (h s hs). unfold done. destruct (r_expr rec b s) as [a s1|er s1| |] eqn:e; auto.
  destruct h as [h1 h2]. destruct (k_settles _ _ _ _ hs e). auto.
Qed.
Lemma loop_done : forall b lhs s, ended s -> Deep lhs -> above b lhs -> (forall t s2, peek s = POk (Some t) s2 -> behind lhs t) ->
  done b (operator_loop rec n b lhs s).
Proof.
  intros b. unfold operator_loop. generalize n as k. induction k as [|k IH]; intros lhs s hs hd ha hb; [exact I|]. cbn [ploop].
  destruct (peek_spec s hs) as (o & s1 & e & h1 & h2 & h3). unfold bind at 1. unfold bind at 1. unfold next_is_operator at 1, bind at 1. rewrite e.
  destruct o as [t|]; [|cbn; split; [exact h1|]; split; [exact hd|]; split; [exact ha|apply settles_at; exact h2]].
  destruct (h3 t eq_refl) as [h4 h5]. clear h3.
  assert (W : weak b t -> settled b s1). { intros w u s2 e2. rewrite h2 in e2. injection e2 as <- _. exact w. }
  unfold ret at 1. destruct (is_some (infix_binding_power (t_type t)) || is_some (prefix_binding_power (t_type t))) eqn:eo; cbn [negb].
  2: { cbn. split; [exact h1|]. split; [exact hd|]. split; [exact ha|]. apply W. unfold weak. destruct (t_type t); cbn in *; try exact I; discriminate eo. }
  unfold bind at 1. rewrite h2.
  destruct (postfix_binding_power (t_type t)) as [l|] eqn:ep.
  - destruct (l <? b) eqn:el.
    + cbn. split; [exact h1|]. split; [exact hd|]. split; [exact ha|]. apply W. unfold weak. rewrite ep. apply N.ltb_lt. exact el.
    + apply N.ltb_ge in el. unfold bind at 1. destruct p_unwrap as [hu]. specialize (hu s1 h1). destruct (next_unwrap s1) as [u s2|er s2| |] eqn:eu; auto.
      rewrite (h5 u s2 eq_refl). cbn [continue ret]. unfold continue, ret. apply IH; [apply hu| | |].
      * apply mkDeep; [|repeat constructor; exact hd]. cbn [proper]. split; [rewrite ep; discriminate|]. eapply hb; exact e.
      * cbn. assert (l = 180) by (destruct (t_type t); try discriminate ep; injection ep as <-; reflexivity). lia.
      * intros; exact I.
  - destruct (infix_binding_power (t_type t)) as [[l r]|] eqn:ei.
    2: { cbn. split; [exact h1|]. split; [exact hd|]. split; [exact ha|]. apply W. unfold weak. rewrite ep, ei. exact I. }
    destruct (l <? b) eqn:el.
    { cbn. split; [exact h1|]. split; [exact hd|]. split; [exact ha|]. apply W. unfold weak. rewrite ep, ei. apply N.ltb_lt. exact el. }
    apply N.ltb_ge in el. unfold bind at 1. destruct p_unwrap as [hu]. specialize (hu s1 h1). destruct (next_unwrap s1) as [u s2|er s2| |] eqn:eu; auto.
    rewrite (h5 u s2 eq_refl). destruct hu as [hu _]. destruct (tt_eqb (t_type t) TQuestionMark) eqn:eq.
    + apply tt_eqb_eq in eq. rewrite eq in ei. injection ei as <- <-.
      assert (F : forall m s3 colon, if_some Deep m -> ended s3 ->
        match r_expr rec 81 s3 with
        | POk rhs s4 => ended s4 /\ Deep (NTernary lhs t m colon rhs) /\ above b (NTernary lhs t m colon rhs) /\
                        (forall v s5, peek s4 = POk (Some v) s5 -> behind (NTernary lhs t m colon rhs) v)
        | PFail _ s4 => ended s4 | _ => True
        end).
      { intros m s3 colon hm hs3. pose proof (expr_done 81 s3 hs3) as d. destruct (r_expr rec 81 s3) as [f s4|er s4| |]; auto.
        destruct d as (d1 & d2 & d3 & d4). split; [exact d1|]. split; [|split].
        - apply mkDeep; [cbn [proper]; split; [exact eq|split; [eapply hb; exact e|exact d3]]|]. cbn [subnodes]. kv.
        - cbn. exact el.
        - intros v s5 e5. cbn [behind]. eapply d4. exact e5. }
      unfold bind at 1. destruct (p_ignore TColon) as [hc]. specialize (hc s2 hu). destruct (consume_or_ignore TColon s2) as [[colon|] s3|er s3| |]; auto.
      * specialize (F None s3 colon I (proj1 hc)). unfold bind at 1. destruct (r_expr rec 81 s3) as [f s4|er s4| |]; auto.
        destruct F as (f1 & f2 & f3 & f4). unfold continue, ret. apply IH; assumption.
      * unfold bind at 1. pose proof (expr_done 0 s3 (proj1 hc)) as dm. destruct (r_expr rec 0 s3) as [m s4|er s4| |]; auto.
        unfold bind at 1. destruct (p_consume TColon) as [hk]. specialize (hk s4 (proj1 dm)). destruct (consume TColon s4) as [colon s5|er s5| |]; auto.
        specialize (F (Some m) s5 colon (proj1 (proj2 dm)) (proj1 hk)). unfold bind at 1. destruct (r_expr rec 81 s5) as [f s6|er s6| |]; auto.
        destruct F as (f1 & f2 & f3 & f4). unfold continue, ret. apply IH; assumption.
    + unfold bind at 1. pose proof (expr_done r s2 hu) as d. destruct (r_expr rec r s2) as [f s4|er s4| |]; auto.
      destruct d as (d1 & d2 & d3 & d4). unfold continue, ret.
      assert (rb t = r /\ lb t = l) as [er el']. { unfold PrattFacts.rb, PrattFacts.lb. rewrite ei. auto. }
      apply IH; [exact d1| | |].
      * apply mkDeep; [|repeat constructor; assumption]. cbn [proper]. split; [exists l, r; auto|]. split; [eapply hb; exact e|rewrite er; exact d3].
      * cbn. rewrite el'. exact el.
      * intros v s5 e5. cbn [behind]. rewrite er. eapply d4. exact e5.
Qed.
Lemma body_done : forall b s, ended s -> done b (expression_body rec n b s).
Proof.
  intros b s hs. unfold expression_body. destruct (peek_spec s hs) as (o & s1 & e & h1 & h2 & h3). unfold bind at 1. rewrite e.
  destruct o as [t|]; [|exact h1]. destruct (h3 t eq_refl) as [h4 h5]. clear h3.
  destruct (prefix_binding_power (t_type t)) as [q|] eqn:ep.
  - unfold bind at 1. unfold bind at 1. destruct p_unwrap as [hu]. specialize (hu s1 h1). destruct (next_unwrap s1) as [u s2|er s2| |] eqn:eu; auto.
    rewrite (h5 u s2 eq_refl). destruct hu as [hu _]. unfold bind at 1. pose proof (expr_done q s2 hu) as d. destruct (r_expr rec q s2) as [f s4|er s4| |]; auto.
    destruct d as (d1 & d2 & d3 & d4). unfold ret. apply loop_done; [exact d1| | |].
    + apply mkDeep; [|repeat constructor; exact d2]. cbn [proper]. exists q. split; [exact ep|exact d3].
    + exact I.
    + intros v s5 e5. cbn [behind]. intros q' eq. rewrite ep in eq. injection eq as <-. eapply d4. exact e5.
  - unfold bind at 1. destruct k_call as [hc]. specialize (hc s1 h1). destruct (r_call rec s1) as [f s4|er s4| |] eqn:ec; auto.
    apply k_atomic in ec. apply loop_done; [apply hc|apply hc| |]; destruct f; try exact I; try contradiction ec; intros; exact I.
Qed.
Lemma k_expr_body : forall b, ans (expression_body rec n b) Deep.
Proof.
  intros b. constructor. intros s hs. pose proof (body_done b s hs) as d. unfold done in d. destruct (expression_body rec n b s); auto. destruct d as (d1 & d2 & _). auto.
Qed.
Local Hint Resolve k_expr_body : kinds.

Lemma k_expr_stmt : ans (expression_statement rec) Deep.
Proof. unfold expression_statement. kgo. Qed.
Local Hint Resolve k_expr_stmt : kinds.

Lemma k_loop : forall stop, keeps stop -> ans (statements_loop rec n stop) (Forall Deep).
Proof. intros. unfold statements_loop. kgo. Qed.
Lemma k_stmts : forall l, ans (statements_loop rec n (next_token_one_of l)) (Forall Deep).
Proof. intros. apply k_loop, p_one_of. Qed.
Local Hint Resolve k_stmts : kinds.

Lemma k_blockx : ans (block_body rec n) Deep.
Proof. unfold block_body. kgo. Qed.
Local Hint Resolve k_blockx : kinds.

Lemma k_alt : forall t, ans (alternative_block rec n t) Deep.
Proof. intros. unfold alternative_block. kgo. Qed.
Local Hint Resolve k_alt : kinds.

Lemma k_alt_or : forall t, ans (alternative_block_or_statement rec n t) Deep.
Proof. intros. unfold alternative_block_or_statement. kgo. Qed.
Local Hint Resolve k_alt_or : kinds.

Lemma k_html : ans (inline_html rec n) Deep.
Proof. unfold inline_html. kgo. Qed.
Local Hint Resolve k_html : kinds.

Lemma k_if_stmts : ans (if_statements rec n) (Forall Deep).
Proof. unfold if_statements. kgo. Qed.
Local Hint Resolve k_if_stmts : kinds.

Lemma k_if : ans (if_statement rec n) Deep.
Proof. unfold if_statement. kgo. Qed.
Local Hint Resolve k_if : kinds.

Lemma k_cases : ans (case_list rec n) (Forall (if_some Deep)).
Proof. unfold case_list. kgo. Qed.
Local Hint Resolve k_cases : kinds.

Lemma k_switch_body : ans (switch_body rec n) Deep.
Proof. unfold switch_body. kgo. Qed.
Local Hint Resolve k_switch_body : kinds.

Lemma k_switch : ans (switch_statement rec n) Deep.
Proof. unfold switch_statement. kgo. Qed.
Local Hint Resolve k_switch : kinds.

Lemma k_for_part : forall t, ans (for_part rec n t) (Forall Deep).
Proof. intros. unfold for_part. kgo. Qed.
Local Hint Resolve k_for_part : kinds.

Lemma k_for : ans (for_statement rec n) Deep.
Proof. unfold for_statement. kgo. Qed.
Local Hint Resolve k_for : kinds.

Lemma k_while : ans (while_statement rec n) Deep.
Proof. unfold while_statement. kgo. Qed.
Local Hint Resolve k_while : kinds.

Lemma k_foreach : ans (foreach_statement rec n) Deep.
Proof. unfold foreach_statement. kgo. Qed.
Local Hint Resolve k_foreach : kinds.

Lemma k_do : ans (do_while_statement rec) Deep.
Proof. unfold do_while_statement. kgo. Qed.
Local Hint Resolve k_do : kinds.

Lemma k_catch : ans (catch_block rec n) Deep.
Proof. unfold catch_block. kgo. Qed.
Local Hint Resolve k_catch : kinds.

Lemma k_try : ans (try_catch_statement rec n) Deep.
Proof. unfold try_catch_statement. kgo. Qed.
Local Hint Resolve k_try : kinds.

Lemma k_throw : ans (throw_statement rec) Deep.
Proof. unfold throw_statement. kgo. Qed.
Local Hint Resolve k_throw : kinds.

Lemma k_namespace : ans (namespace_statement rec n) Deep.
Proof. unfold namespace_statement. do 2 kstep. destruct x0; kgo. Qed.
Local Hint Resolve k_namespace : kinds.

Lemma k_import : ans (symbol_import n) Deep.
Proof. unfold symbol_import. kgo. Qed.
Local Hint Resolve k_import : kinds.

Lemma k_imports : ans (symbol_imports n) (Forall Deep).
Proof. unfold symbol_imports. kgo. Qed.
Local Hint Resolve k_imports : kinds.

Lemma k_use_fn : forall t, ans (use_function_statement n t) Deep.
Proof. intros. unfold use_function_statement. kgo. Qed.
Local Hint Resolve k_use_fn : kinds.

Lemma k_use_const : forall t, ans (use_const_statement n t) Deep.
Proof. intros. unfold use_const_statement. kgo. Qed.
Local Hint Resolve k_use_const : kinds.

Lemma k_use : forall t, ans (use_statement n t) Deep.
Proof. intros. unfold use_statement. kgo. Qed.
Local Hint Resolve k_use : kinds.

Lemma k_expr_label : ans (expression_or_label rec n) Deep.
Proof. unfold expression_or_label. kgo. Qed.
Local Hint Resolve k_expr_label : kinds.

Lemma k_script : ans (statement_in_script rec n) Deep.
Proof. unfold statement_in_script. kgo. Qed.
Local Hint Resolve k_script : kinds.

Lemma k_stmt_body : ans (statement_body rec n) Deep.
Proof. unfold statement_body. kgo. Qed.
Local Hint Resolve k_stmt_body : kinds.

End Grammar.

Theorem run_kinds : forall n, (forall b, ans (r_expr (run n) b) Deep) /\ ans (r_call (run n)) Deep /\
  (forall b s a s', ended s -> r_expr (run n) b s = POk a s' -> above b a /\ settled b s') /\
  (forall s a s', r_call (run n) s = POk a s' -> atomic a) /\
  ans (r_stmt (run n)) Deep /\ ans (r_block (run n)) Deep.
Proof.
  induction n as [|n (h1 & h2 & h5 & h6 & h3 & h4)]; cbn [run r_expr r_call r_stmt r_block].
  - split; [|split; [|split; [|split; [|split]]]]; try (intros; discriminate); intros; constructor; intros; exact I.
  - split; [intros b; apply k_expr_body; assumption|]. split; [apply k_callx; assumption|]. split; [|split; [|split; [apply k_stmt_body; assumption|apply k_blockx; assumption]]].
    + intros b s a s' hs e. pose proof (body_done (run n) n h1 h2 h5 h6 b s hs) as d. unfold done in d. rewrite e in d. apply d.
    + intros s a s' e. destruct (call_atomic (run n) n) as [g]. eapply g. exact e.
Qed.
Theorem ast_kinds : forall n tokens l errs s, last_end tokens -> ast n tokens = POk (l, errs) s -> Forall Deep l.
Proof.
  intros n tokens l errs s he e. unfold ast in e. destruct tokens as [|t ts]; [injection e as <- _ _; constructor|].
  destruct (ast_loop n (parser_new (t :: ts))) as [l' s'| | |] eqn:el; try discriminate e. injection e as <- _ _.
  destruct (run_kinds n) as (h1 & h2 & h5 & h6 & h3 & h4). eapply an; [apply k_loop; [exact h3|apply a_ret; exact I]| |exact el]. exact he.
Qed.
Lemma last_end_app : forall us e, Forall (fun t => t_type t <> TEof) us -> (e = [] \/ exists t, e = [t] /\ t_type t = TEof) -> last_end (us ++ e).
Proof.
  intros us e h he. induction h as [|t us ht hu IH].
  - destruct he as [->|(t & -> & _)]; cbn; auto.
  - cbn. split; [intros q; contradiction|exact IH].
Qed.
(** The trees of every text are of these kinds. *)
Theorem syntax_kinds : forall fuel text nodes, syntax fuel text = Some nodes -> Forall Deep nodes.
Proof.
  intros fuel text nodes e. unfold syntax in e. destruct (scan_state text) as [t| | |] eqn:es; try discriminate.
  destruct (ast fuel (rev (s_toks t))) as [[l er] p|r p| |] eqn:ea; try discriminate. injection e as <-. eapply ast_kinds; [|exact ea].
  destruct (scan_eof text (rev (s_toks t))) as (us & en & -> & h1 & h2); [unfold scan; rewrite es; reflexivity|]. apply last_end_app; assumption.
Qed.

End Kinds.
