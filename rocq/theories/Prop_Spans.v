(** Property C67: the range of an expression spans what is written for it. *)

From Verif Require Import Base Token Scanner Node SpecExpr SpecGrammar SpecScanner Prop_Scanner.

Local Open Scope string_scope.
Local Open Scope N_scope.
Local Open Scope list_scope.

(** * Specification *)

(** What a range may leave out in front of an expression: parentheses around it,
    the start of a heredoc, and the keyword of a function that returns a
    reference. *)
Definition in_front : Token -> Prop := one_of_kinds [TOpenParenthesis; THereDocStart; TFn; TFunction].
(** What a range may leave out behind an expression: parentheses around it, the
    brace of [->{...}], and the end of a heredoc. *)
Definition behind : Token -> Prop := one_of_kinds [TCloseParenthesis; TCloseCurly; THereDocEnd].

(** Parentheses, keywords and braces are left out only where the expression
    starts or ends with something in parentheses, with such a function, or with
    such a member: a call ends with its own parenthesis. *)
Fixpoint opens (n : Node) : bool :=
  match n with
  | NGrouping _ => true
  | NFunction None (Some _) _ _ _ _ _ _ _ _ | NArrowFunction None (Some _) _ _ _ _ _ _ _ _ => true
  | NPostUnary e _ | NBinary e _ _ | NTernary e _ _ _ _ | NCall e _ _ _ | NMember e _ _ _ _
  | NStaticMember e _ _ _ _ | NField e _ _ _ => opens e
  | _ => false
  end.
Fixpoint closes (n : Node) : bool :=
  match n with
  | NGrouping _ | NMember _ _ (Some _) _ _ => true
  | NUnary e _ | NBinary _ _ e | NTernary _ _ _ _ e | NFileInclude _ e | NYield _ (Some (NArrayElement _ _ e))
  | NYieldFrom _ e | NArrowFunction _ _ _ _ _ _ _ _ e _ => closes e
  | _ => false
  end.

(** The same for statements *)
Definition opens_statement (n : Node) : bool :=
  match n with
  | NExpressionStatement e => opens e
  | NNamedFunctionDefinitionStatement _ (Some _) _ _ _ => true
  | _ => false
  end.
Definition closes_statement (n : Node) : bool :=
  match n with
  | NExpressionStatement e | NPrintStatement _ [e] | NReturnStatement _ (Some e) | NThrowStatement _ e
  | NTokenStatement _ (Some e) => closes e
  | _ => false
  end.
(** The kinds of statements that are covered: those without lists and without
    statements as bodies, functions with a body, and classes without a comment *)
Definition covered (n : Node) : Prop :=
  match n with
  | NExpressionStatement _ | NLabelStatement _ _ | NPrintStatement _ _ | NReturnStatement _ _ | NThrowStatement _ _
  | NGotoStatement _ _ | NTokenStatement _ _ | NUnsetStatement _ _ _ _ | NDieStatement _ _ _ _ | NDefineStatement _ _ _ _ _ _
  | NDeclareStatement _ _ _ _ _ _ | NBlock _ _ _ | NDoWhileStatement _ _ _ _ _ _ | NSwitchCase _ _ _ _ _
  | NClassStatement _ _ _ _ _ _ _ None _ | NTraitStatement _ _ _ _ | NInterface _ _ _ _ _
  | NNamedFunctionDefinitionStatement _ _ _ (NFunctionDefinitionStatement _ _ _ _ (Some _) _) _
  | NNamespaceStatement _ _ | NNamespaceBlock _ _ _ => True
  | _ => False
  end.

(** The range starts where the first other token does.  This is not said of
    [match] and of attributes. *)
Definition begins (o : bool) (w : list Token) (r : NodeRange) : Prop :=
  exists f a u, w = f ++ a :: u /\ Forall in_front f /\ (o = false -> Forall (is THereDocStart) f) /\
    (one_of_kinds [TMatch; TAttributeStart] a \/ (start_line r = t_line a /\ start_col r = t_col a)).
(** The range ends where the last other token does. *)
Definition finishes (o : bool) (w : list Token) (r : NodeRange) : Prop :=
  exists u b k, w = u ++ b :: k /\ Forall behind k /\ (o = false -> Forall (is THereDocEnd) k) /\
    token_end b = Some (end_col r, end_line r).

(** The semicolon is not part of the range of a statement. *)
Definition statement_finishes (o : bool) (w : list Token) (r : NodeRange) : Prop :=
  finishes o w r \/ exists v s, w = v ++ [s] /\ is TSemicolon s /\ finishes o v r.

(** * Proofs *)

Definition sized (w : list Token) : Prop := Forall (fun t => exists e, token_end t = Some e) w.
Definition spans (w : list Token) (n : Node) : Prop :=
  sized w -> exists r, node_range n = Some r /\ begins (opens n) w r /\ finishes (closes n) w r.

Lemma begins_app : forall o w v r s, begins o w r -> start_line s = start_line r -> start_col s = start_col r -> begins o (w ++ v) s.
Proof.
  intros o w v r s (f & a & u & -> & hf & ho & h) e1 e2. exists f, a, (u ++ v). rewrite <- app_assoc. split; [reflexivity|].
  split; [exact hf|]. split; [exact ho|]. rewrite e1, e2. exact h.
Qed.
Lemma begins_tok : forall o t w r, start_line r = t_line t -> start_col r = t_col t -> begins o (t :: w) r.
Proof. intros o t w r e1 e2. exists [], t, w. split; [reflexivity|]. split; [constructor|]. split; [constructor|]. right. auto. Qed.
Lemma begins_skip : forall o t w r, in_front t -> begins o w r -> begins true (t :: w) r.
Proof. intros o t w r h (f & a & u & -> & hf & _ & k). exists (t :: f), a, u. split; [reflexivity|]. split; [constructor; auto|]. split; [discriminate|exact k]. Qed.
Lemma begins_other : forall o t w r, one_of_kinds [TMatch; TAttributeStart] t -> begins o (t :: w) r.
Proof. intros o t w r h. exists [], t, w. split; [reflexivity|]. split; [constructor|]. split; [constructor|]. left. exact h. Qed.
Lemma finishes_app : forall o v w r s, finishes o w r -> end_line s = end_line r -> end_col s = end_col r -> finishes o (v ++ w) s.
Proof.
  intros o v w r s (u & b & k & -> & hf & ho & h) e1 e2. exists (v ++ u), b, k. rewrite <- app_assoc. split; [reflexivity|].
  split; [exact hf|]. split; [exact ho|]. rewrite e1, e2. exact h.
Qed.
Lemma finishes_cons : forall o t w r s, finishes o w r -> end_line s = end_line r -> end_col s = end_col r -> finishes o (t :: w) s.
Proof. intros o t. exact (finishes_app o [t]). Qed.
Lemma finishes_tok : forall o w t c l r, token_end t = Some (c, l) -> end_line r = l -> end_col r = c -> finishes o (w ++ [t]) r.
Proof. intros o w t c l r e <- <-. exists w, t, []. split; [reflexivity|]. split; [constructor|]. split; [constructor|exact e]. Qed.
Lemma finishes_skip : forall o w t r, behind t -> finishes o w r -> finishes true (w ++ [t]) r.
Proof.
  intros o w t r h (u & b & k & -> & hf & _ & e). exists u, b, (k ++ [t]). rewrite <- app_assoc. split; [reflexivity|].
  split; [apply Forall_app; split; [exact hf|constructor; [exact h|constructor]]|]. split; [discriminate|exact e].
Qed.

Lemma sized_tok : forall t, sized [t] -> exists c l, token_end t = Some (c, l).
Proof. intros t h. inversion h as [|? ? [[c l] e] _]; subst. eauto. Qed.
Lemma sized_app : forall v w, sized (v ++ w) <-> sized v /\ sized w.
Proof. intros. apply Forall_app. Qed.
Lemma sized_cons : forall t w, sized (t :: w) <-> sized [t] /\ sized w.
Proof. intros t w. exact (sized_app [t] w). Qed.

Lemma first_last : forall (t : Token) w, exists u b, t :: w = u ++ [b] /\ last_opt (t :: w) = Some b.
Proof.
  intros t w. destruct (@exists_last _ (t :: w)) as (u & b & e); [discriminate|]. exists u, b. split; [exact e|].
  unfold last_opt. rewrite e, rev_app_distr. reflexivity.
Qed.
Lemma spans_named : forall t w, spans (t :: w) (named (t :: w)).
Proof.
  intros t w h. destruct (first_last t w) as (u & b & e & el). unfold named, tref_one. cbn [node_range]. unfold tref_range. cbn [kind first_opt obind].
  rewrite el. cbn [obind].
  assert (ht : sized [t]) by (apply sized_cons in h; tauto). assert (hb : sized [b]) by (rewrite e, sized_app in h; tauto).
  apply sized_tok in ht as (c & l & et). apply sized_tok in hb as (c' & l' & eb). unfold token_range. rewrite et, eb. cbn [obind].
  eexists. split; [reflexivity|]. split; [apply begins_tok; reflexivity|]. rewrite e. eapply finishes_tok; [exact eb| |]; reflexivity.
Qed.

Local Ltac sizes := repeat match goal with
  | h : sized (_ ++ _) |- _ => apply sized_app in h as [? ?]
  | h : sized (?t :: ?w) |- _ => lazymatch w with [] => apply sized_tok in h as (? & ? & ?) | _ => apply sized_cons in h as [? ?] end
  end.
Local Ltac parts := repeat match goal with
  | IH : spans ?w _, h : sized ?w |- _ => destruct (IH h) as (? & ? & ? & ?); clear IH end.
Local Ltac ranges := cbn [node_range opens closes]; unfold rng_tok_node, rng_node_node, rng_tok_tok, rng_node_tok, token_range;
  repeat match goal with e : _ = Some _ |- context [_] => rewrite e end; cbn [obind fst snd]; eexists; split; [reflexivity|].
Local Ltac front := first [apply begins_tok; reflexivity | eapply begins_app; [eassumption|reflexivity|reflexivity] ].
Local Ltac back := repeat first
  [ eassumption
  | eapply finishes_tok; [eassumption|reflexivity|reflexivity]
  | eapply (finishes_tok _ []); [eassumption|reflexivity|reflexivity]
  | eapply finishes_cons; [|reflexivity|reflexivity]
  | eapply finishes_app; [|reflexivity|reflexivity] ].

Lemma variable_plain : forall w v, Variable_ w v -> closes v = false.
Proof. intros w v []; reflexivity. Qed.
Lemma spans_variable : forall w v, Variable_ w v -> spans w v.
Proof.
  induction 1 as [t _ _|t w v _ _ k IH]; intros h; sizes; parts; ranges; (split; [front|]).
  - back.
  - rewrite (variable_plain _ _ k) in *. back.
Qed.

Scheme Expr_spans := Minimality for Expr Sort Prop with Operand_spans := Minimality for Operand Sort Prop.

Lemma kinds : forall k l t, is k t -> In k l -> one_of_kinds l t.
Proof. intros k l t e h. unfold one_of_kinds. rewrite e. exact h. Qed.
Lemma block_spans : forall w n, Block w n -> sized w -> exists r, node_range n = Some r /\ finishes false w r.
Proof. intros w n [a v l b _ _ _] h. sizes. ranges. back. Qed.
Lemma class_spans : forall w n, ClassBody w n -> sized w -> exists r, node_range n = Some r /\ finishes false w r.
Proof. intros w n [a v l b _ _ _] h. sizes. ranges. back. Qed.
Lemma attributes_begin : forall o wa l v r, Attributes wa l -> begins o v r -> begins o (wa ++ v) r.
Proof.
  intros o wa l v r [|a w l1 b v1 l2 h _ _ _] k; [exact k|]. cbn [app]. apply begins_other. eapply kinds; [exact h|simpl; tauto].
Qed.

Lemma function_begins : forall wa at_ ws s t wr r v R,
  Attributes wa at_ -> maybe TStatic ws s -> one_of_kinds [TFn; TFunction] t -> maybe TBinaryAnd wr r ->
  start_line R = t_line (match s, r with Some x, _ => x | None, Some x => x | None, None => t end) ->
  start_col R = t_col (match s, r with Some x, _ => x | None, Some x => x | None, None => t end) ->
  begins (match s, r with None, Some _ => true | _, _ => false end) (wa ++ ws ++ t :: wr ++ v) R.
Proof.
  intros wa at_ ws s t wr r v R ha hs ht hr e1 e2. eapply attributes_begin; [exact ha|].
  destruct hs as [[-> ->]|(x & -> & -> & _)]; [|apply begins_tok; assumption]. cbn [app].
  destruct hr as [[-> ->]|(x & -> & -> & _)]; [apply begins_tok; assumption|]. apply (begins_skip false); [|apply begins_tok; assumption].
  unfold in_front, one_of_kinds in *. simpl in *. tauto.
Qed.

Lemma expr_spans : forall w n, Expr w n -> spans w n.
Proof.
  apply (Expr_spans spans spans).
  all: try (intros; assumption).
  all: try (intros; intro; sizes; parts; ranges; split; [front|back]; fail).
  - intros wa at_ ws s t wr r a wp p b wt ty ar w e ha hs ht hr _ _ _ _ _ _ IH h.
    assert (hw : sized w) by (sizes; assumption). destruct (IH hw) as (R & e1 & _ & e3).
    cbn [node_range]. rewrite e1. unfold rng_tok_node. cbn [obind].
    eexists (mkRange (t_col (match s, r with Some x, _ => x | None, Some x => x | None, None => t end))
      (t_line (match s, r with Some x, _ => x | None, Some x => x | None, None => t end)) (end_col R) (end_line R)).
    split; [destruct s, r; reflexivity|]. split; [|back].
    eapply function_begins; eauto. eapply kinds; [exact ht|simpl; tauto].
  - exact spans_variable.
  - intros t w _ _. apply spans_named.
  - intros a t b ha hb h. sizes. ranges. split.
    + exists [a], t, [b]. split; [reflexivity|]. split; [constructor; [eapply kinds; [exact ha|simpl; tauto]|constructor]|].
      split; [intros _; constructor; [exact ha|constructor]|]. right. split; reflexivity.
    + exists [a], t, [b]. split; [reflexivity|]. split; [constructor; [eapply kinds; [exact hb|simpl; tauto]|constructor]|].
      split; [intros _; constructor; [exact hb|constructor]|]. eassumption.
  - intros a w e b ha _ IH hb h. sizes. parts. ranges. split.
    + eapply begins_skip; [eapply kinds; [exact ha|simpl; tauto]|]. eapply begins_app; [eassumption|reflexivity|reflexivity].
    + eapply finishes_cons; [|reflexivity|reflexivity]. eapply finishes_skip; [eapply kinds; [exact hb|simpl; tauto]|eassumption].
  - intros w o ar v n _ IH _ hv h. pose proof (variable_plain _ _ hv) as hc. apply spans_variable in hv. sizes. parts. rewrite hc in *. ranges. split; [front|back].
  - intros w o ar a v e b _ IH _ _ _ IH2 hb h. sizes. parts. ranges. split; [front|].
    eapply finishes_app; [|reflexivity|reflexivity]. do 2 (eapply finishes_cons; [|reflexivity|reflexivity]).
    eapply finishes_skip; [eapply kinds; [exact hb|simpl; tauto]|]. eassumption.
  - intros w o pn v n _ IH _ hv h. pose proof (variable_plain _ _ hv) as hc. apply spans_variable in hv. sizes. parts. rewrite hc in *. ranges. split; [front|back].
  - intros t a w e b c v l d ht _ _ _ _ _ _ _ h. sizes. ranges. split; [|back].
    apply begins_other. eapply kinds; [exact ht|simpl; tauto].
  - intros wa at_ ws s t wr r a wp p b wu u wt ty wb body ha hs ht hr _ _ _ _ _ hb h.
    assert (hw : sized wb) by (sizes; assumption). destruct (block_spans _ _ hb hw) as (R & e1 & e3).
    cbn [node_range]. rewrite e1. unfold rng_tok_node. cbn [obind].
    eexists (mkRange (t_col (match s, r with Some x, _ => x | None, Some x => x | None, None => t end))
      (t_line (match s, r with Some x, _ => x | None, Some x => x | None, None => t end)) (end_col R) (end_line R)).
    split; [destruct s, r; reflexivity|]. split; [|back].
    eapply function_begins; eauto. eapply kinds; [exact ht|simpl; tauto].
  - intros wa at_ t wp p we ex wi im wb body ha _ _ _ _ hb h.
    assert (hw : sized wb) by (sizes; assumption). destruct (class_spans _ _ hb hw) as (R & e1 & e3).
    cbn [node_range]. rewrite e1. unfold rng_tok_node. cbn [obind]. eexists. split; [reflexivity|]. split; [|back].
    eapply attributes_begin; [exact ha|]. front.
Qed.

(** For every expression of the grammar, wherever its tokens stand in a text. *)
Theorem C67_spans_partial : forall (RT : Runtime) src ts w n,
  scan src = SOk ts -> incl w ts -> (forall t, In t w -> ~ (t_type t = THereDocEnd /\ t_label t = Some [])) ->
  Expr w n -> exists r, node_range n = Some r /\ begins (opens n) w r /\ finishes (closes n) w r.
Proof.
  intros RT src ts w n e hi hn h. apply expr_spans; [exact h|]. apply Forall_forall. intros t ht.
  eapply C09_token_end_partial; eauto.
Qed.

(** ** Statements *)
Local Ltac blocks := repeat match goal with
  | k : Block ?w ?n, h : sized ?w |- _ => destruct (block_spans _ _ k h) as (? & ? & ?); clear k
  | k : ClassBody ?w ?n, h : sized ?w |- _ => destruct (class_spans _ _ k h) as (? & ? & ?); clear k end.
Lemma path_spans : forall w, Path w -> spans w (named w).
Proof. intros w []; apply spans_named. Qed.
Lemma semicolon_behind : forall o t w s r, is TSemicolon s -> finishes o (t :: w) r -> statement_finishes o (t :: w ++ [s]) r.
Proof. intros o t w s r hs h. right. exists (t :: w), s. auto. Qed.

Lemma statement_spans : forall x w n, Statement x w n -> covered n -> sized w ->
  exists r, node_range n = Some r /\ begins (opens_statement n) w r /\ statement_finishes (closes_statement n) w r.
Proof.
  intros x w n h. destruct h; intros hc hz; try (elim hc; fail);
    repeat match goal with k : Expr _ _ |- _ => apply expr_spans in k end.
  all: try (sizes; parts; ranges; (split; [front|]); left; back; fail).
  all: try (sizes; parts; ranges; (split; [front|]); apply semicolon_behind; [assumption|]; cbn [closes_statement]; back; fail).
  all: try (sizes; blocks; ranges; (split; [front|]); left; cbn [closes_statement]; back; fail).
  - sizes. parts. ranges. cbn [opens_statement closes_statement]. split; [front|]. right. eexists _, _. split; [reflexivity|]. split; assumption.
  - sizes. parts. cbn [node_range map]. unfold rng_last, last_opt. cbn [rev app obind]. unfold rng_tok_node.
    match goal with e : node_range _ = Some _ |- _ => rewrite e end. cbn [obind]. eexists. split; [reflexivity|]. split; [front|].
    apply semicolon_behind; [assumption|]. cbn [closes_statement]. back.
  - sizes. ranges. split; [front|]. apply (semicolon_behind _ t []); [assumption|]. back.
  - sizes. ranges. split; [front|]. apply (semicolon_behind _ t [i]); [assumption|]. back.
  - sizes. ranges. split; [front|]. apply (semicolon_behind _ t []); [assumption|]. back.
  - match goal with k : Block _ _ |- _ => destruct k as [a v l b _ _ _] end. sizes. ranges. split; [front|]. left. back.
  - sizes. ranges. split; [front|]. right. exists (t :: wb ++ u :: a :: w ++ [b]), s. split.
    { cbn [app]. rewrite <- app_assoc. cbn [app]. rewrite <- app_assoc. reflexivity. }
    split; [assumption|]. back.
  - match goal with k : Signature _ _ |- _ => destruct k as [a wp p b wt ty wb body doc _ _ _ _ kb|] end; [|elim hc].
    assert (hw : sized wb) by (sizes; assumption). destruct (block_spans _ _ kb hw) as (R & e1 & e3).
    cbn [node_range]. rewrite e1. unfold rng_tok_node. cbn [obind end_col end_line].
    exists (mkRange (t_col (match r with Some y => y | None => t end)) (t_line (match r with Some y => y | None => t end)) (end_col R) (end_line R)).
    split; [destruct r; reflexivity|]. split; [|left; back].
    eapply attributes_begin; [eassumption|].
    match goal with k : maybe _ _ r |- _ => destruct k as [[-> ->]|(y & -> & -> & _)] end; [front|]. cbn [app opens_statement].
    apply (begins_skip false); [eapply kinds; [eassumption|simpl; tauto]|front].
  - destruct doc; [elim hc|]. sizes. blocks. cbn [node_range].
    match goal with e : node_range body = Some ?R |- _ => rewrite e; unfold rng_tok_node; cbn [obind];
      exists (mkRange (t_col (match ab, fi with Some y, _ => y | None, Some y => y | None, None => t end))
        (t_line (match ab, fi with Some y, _ => y | None, Some y => y | None, None => t end)) (end_col R) (end_line R)) end.
    split; [destruct ab, fi; reflexivity|]. split; [|left; back].
    eapply attributes_begin; [eassumption|].
    match goal with k : _ \/ _ |- _ => destruct k as [[[[-> ->]|(y & -> & -> & _)] ->]|[[[-> ->]|(y & -> & -> & _)] ->]] end; front.
  - match goal with k : Path _ |- _ => apply path_spans in k end. sizes. parts. cbn [node_range] in *. ranges. split; [front|]. apply semicolon_behind; [assumption|]. back.
Qed.
Theorem C67_statements_partial : forall (RT : Runtime) src ts x w n,
  scan src = SOk ts -> incl w ts -> (forall t, In t w -> ~ (t_type t = THereDocEnd /\ t_label t = Some [])) ->
  Statement x w n -> covered n ->
  exists r, node_range n = Some r /\ begins (opens_statement n) w r /\ statement_finishes (closes_statement n) w r.
Proof.
  intros RT src ts x w n e hi hn h hc. eapply statement_spans; [exact h|exact hc|]. apply Forall_forall. intros t ht.
  eapply C09_token_end_partial; eauto.
Qed.

(** The range goes from the first to the last token unless the expression starts
    or ends with something that is left out. *)
Theorem C67_exact_partial : forall (RT : Runtime) src ts w n a u v b,
  scan src = SOk ts -> incl w ts -> (forall t, In t w -> ~ (t_type t = THereDocEnd /\ t_label t = Some [])) ->
  Expr w n -> opens n = false -> closes n = false ->
  w = a :: u -> ~ one_of_kinds [TMatch; TAttributeStart; THereDocStart] a -> w = v ++ [b] -> ~ is THereDocEnd b ->
  exists r, node_range n = Some r /\ start_line r = t_line a /\ start_col r = t_col a /\
    token_end b = Some (end_col r, end_line r).
Proof.
  intros RT src ts w n a u v b e hi hn h ho hc e1 ha e2 hb.
  destruct (C67_spans_partial _ _ _ _ _ e hi hn h) as (r & er & (f & x & y & f1 & _ & f2 & f3) & (g & z & k & g1 & _ & g2 & g3)).
  exists r. split; [exact er|]. specialize (f2 ho). specialize (g2 hc).
  assert (hx : x = a).
  { destruct f as [|c f]; rewrite e1 in f1; cbn [app] in f1; injection f1 as -> _; [reflexivity|]. inversion f2 as [|? ? hh _]; subst.
    elim ha. eapply kinds; [exact hh|simpl; tauto]. }
  subst x. assert (hz : z = b).
  { destruct (@exists_last _ (z :: k)) as (k' & c & ek); [discriminate|]. rewrite ek, e2, app_assoc in g1. apply app_inj_tail in g1 as [_ <-].
    destruct k as [|d k]; [destruct k'; [injection ek as ->; reflexivity|destruct k'; discriminate ek]|].
    elim hb. destruct k' as [|z' k']; [discriminate ek|]. injection ek as _ ek. rewrite ek in g2. apply Forall_app in g2 as [_ g2].
    inversion g2; assumption. }
  subst z. split; [|split; [|exact g3]]; destruct f3 as [f3|[f3 f4]]; auto; elim ha; unfold one_of_kinds in *; simpl in *; tauto.
Qed.

(** * Refutation and examples *)

Local Existing Instance ascii_runtime.
Definition tokens (src : str) : list Token := match scan src with SOk ts => ts | _ => [] end.
Definition within_tag (src : str) : list Token := filter (fun t => match t_type t with TScriptStart _ | TSemicolon | TEof => false | _ => true end) (tokens src).

(** The range starts with the first token and ends with the last one. *)
Definition exact (w : list Token) (n : Node) : Prop :=
  exists r a b, node_range n = Some r /\ hd_error w = Some a /\ hd_error (rev w) = Some b /\
    start_line r = t_line a /\ start_col r = t_col a /\ token_end b = Some (end_col r, end_line r).
(** [src] is the text of an expression with another range. *)
Definition off (src : str) : Prop :=
  exists w n, scan src = SOk (tokens src) /\ incl w (tokens src) /\ Expr w n /\ ~ exact w n.

Lemma off_start : forall w n a r, hd_error w = Some a -> node_range n = Some r -> start_col r <> t_col a -> ~ exact w n.
Proof. intros w n a r e1 e2 h (r' & a' & b & f1 & f2 & _ & _ & f3 & _). rewrite e1 in f2. rewrite e2 in f1. injection f1 as <-. injection f2 as <-. auto. Qed.
Lemma off_end : forall w n b r, hd_error (rev w) = Some b -> node_range n = Some r ->
  token_end b <> Some (end_col r, end_line r) -> ~ exact w n.
Proof. intros w n b r e1 e2 h (r' & a' & b' & f1 & _ & f2 & _ & _ & f3). rewrite e1 in f2. rewrite e2 in f1. injection f1 as <-. injection f2 as <-. auto. Qed.
Lemma tag_incl : forall src, incl (within_tag src) (tokens src).
Proof. intros src t h. apply filter_In in h. tauto. Qed.

Definition src_match : str := lit "<?php match ($a) {};".
Definition src_group : str := lit "<?php ($a);".
Definition src_brace : str := lit "<?php $a->{$b};".
Definition src_byref : str := lit "<?php function &() {};".

Local Ltac tok := lazymatch goal with |- is _ _ => reflexivity | |- one_of_kinds _ _ => unfold one_of_kinds; simpl; tauto
  | |- word _ => unfold word, one_of_kinds; simpl; tauto end.
Local Ltac concrete src := exists (within_tag src); let w := eval vm_compute in (within_tag src) in
  assert (ew : within_tag src = w) by (vm_compute; reflexivity).
Local Ltac var := apply E_operand, O_variable, V_named; [reflexivity|discriminate].

(** A [match] starts with its brace, a function that returns a reference with
    the [&], parentheses are left out, and so is the brace of [->{...}]. *)
Theorem C67_refuted : off src_match /\ off src_group /\ off src_brace /\ off src_byref.
Proof.
  repeat split.
  - concrete src_match. eexists. split; [vm_compute; reflexivity|]. split; [apply tag_incl|]. rewrite ew; clear ew. split.
    + apply E_operand. eapply (O_match _ _ [_] _ _ _ [] [] _); try tok; [var|constructor].
    + eapply off_start; [reflexivity|vm_compute; reflexivity|vm_compute; discriminate].
  - concrete src_group. eexists. split; [vm_compute; reflexivity|]. split; [apply tag_incl|]. rewrite ew; clear ew. split.
    + apply E_operand. eapply (O_group _ [_]); try tok. var.
    + eapply off_start; [reflexivity|vm_compute; reflexivity|vm_compute; discriminate].
  - concrete src_brace. eexists. split; [vm_compute; reflexivity|]. split; [apply tag_incl|]. rewrite ew; clear ew. split.
    + apply E_operand. eapply (O_member_braced [_] _ _ _ [_]); try tok; [|var]. apply O_variable, V_named; [reflexivity|discriminate].
    + eapply off_end; [reflexivity|vm_compute; reflexivity|vm_compute; discriminate].
  - concrete src_byref. eexists. split; [vm_compute; reflexivity|]. split; [apply tag_incl|]. rewrite ew; clear ew. split.
    + apply E_operand. eapply (O_closure [] [] [] None _ [_] (Some _) _ [] None _ [] None [] None [_; _]); try tok; try (constructor; fail).
      * left. split; reflexivity.
      * right. eexists. split; [reflexivity|]. split; reflexivity.
      * eapply (Bl _ [] []); [tok| |tok]. constructor.
    + eapply off_start; [reflexivity|vm_compute; reflexivity|vm_compute; discriminate].
Qed.

Definition src_sum : str := lit "<?php $a + f(1);".
Example C67_case : exists w n, scan src_sum = SOk (tokens src_sum) /\ incl w (tokens src_sum) /\
  (forall t, In t w -> ~ (t_type t = THereDocEnd /\ t_label t = Some [])) /\ Expr w n /\ opens n = false /\ closes n = false /\
  node_range n = Some (mkRange 6 0 15 0).
Proof.
  concrete src_sum. eexists. split; [vm_compute; reflexivity|]. split; [apply tag_incl|]. rewrite ew; clear ew. split; [|split].
  - intros t h [k _]. simpl in h. intuition (subst; discriminate).
  - eapply (E_binary [_] _ _ (_ :: _ :: _ :: _ :: [])); [var| |]; [eexists; eexists; reflexivity|]. apply E_operand.
    eapply (O_call [_] _ _ [_]); try tok.
    + apply (O_name _ []); [tok|]. apply Q_relative, Path_one. tok.
    + apply Ars_one, Ar_value; [|exact I]. apply E_operand, O_literal. reflexivity.
  - repeat split; vm_compute; reflexivity.
Qed.

Definition src_class : str := lit "<?php final class A { }".
Example C67_statement_case : exists w x n, scan src_class = SOk (tokens src_class) /\ incl w (tokens src_class) /\
  (forall t, In t w -> ~ (t_type t = THereDocEnd /\ t_label t = Some [])) /\ Statement x w n /\ covered n /\
  node_range n = Some (mkRange 6 0 23 0).
Proof.
  concrete src_class. eexists _, _. split; [vm_compute; reflexivity|]. split; [apply tag_incl|]. rewrite ew; clear ew. split; [|split].
  - intros t h [k _]. simpl in h. intuition (subst; discriminate).
  - eapply (S_class [] [] [_] None (Some _) _ _ [] None [] None [_; _] _ None); try tok; try (constructor; fail).
    + right. split; [|reflexivity]. right. eexists. split; [reflexivity|]. split; reflexivity.
    + eapply (CB _ [] []); [tok| |tok]. constructor.
  - split; vm_compute; [exact I|reflexivity].
Qed.

Print Assumptions C67_spans_partial.
Print Assumptions C67_exact_partial.
Print Assumptions C67_refuted.
Print Assumptions C67_statements_partial.
