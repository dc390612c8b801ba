(** C15, C16, C17 and C40 for every text and every operand: how operators are
    grouped in all the trees that the parser makes, whether the text is correct
    or not and whatever the operands are.  What PHP says is in SpecExpr.v. *)

From Verif Require Import Base Token Scanner Node NodeFacts DocBlock Parser SpecExpr SpecNames PrattFacts ParserKinds.
From Verif Require Prop_Expr TokenFacts.

(** * Specification *)

(** [n] is a part of a tree that the parser makes from some text. *)
Definition parsed `{RT : Runtime} (n : Node) : Prop :=
  exists fuel text nodes root, syntax fuel text = Some nodes /\ In root nodes /\ node_in n root.

(** The infix operators of an expression, without those inside of its operands.
    Operands are all nodes but applications of infix operators, among them
    expressions in parentheses. *)
Fixpoint operators (n : Node) : list Token :=
  match n with
  | NBinary l op r => operators l ++ op :: operators r
  | _ => []
  end.

(** [.] does not meet [+], [-], [<<] and [>>] *)
Definition concat_alone (ops : list Token) : Prop :=
  (forall t, In t ops -> t_type t <> TConcat) \/
  (forall t, In t ops -> ~ In (t_type t) [TPlus; TMinus; TLeftShift; TRightShift]).

Definition sign (u : Token) : Prop := t_type u = TPlus \/ t_type u = TMinus.
Definition arithmetic (op : Token) : Prop := In (t_type op) [TPlus; TMinus; TMultiplication; TDivision; TModulo].
(** casts, [!], [~] and [@] *)
Definition tight (u : Token) : Prop :=
  In (t_type u) [TNegation; TBitwiseNegation; TSilencer; TBoolCast; TIntCast; TStringCast; TArrayCast;
                 TObjectCast; TDoubleCast; TUnsetCast].

(** * Proofs *)

Section Trees.
Context `{RT : Runtime}.

Lemma parsed_proper : forall n, parsed n -> proper n.
Proof.
  intros n (fuel & text & nodes & root & h & hr & hn). apply syntax_kinds in h. rewrite Forall_forall in h. exact (h root hr n hn).
Qed.
Lemma node_in_trans : forall a b c : Node, node_in a b -> node_in b c -> node_in a c.
Proof. intros a b c h k. induction k; [exact h|]. eapply in_sub; [eassumption|]. apply IHk. exact h. Qed.
Lemma parsed_part : forall n m, parsed n -> In m (subnodes n) -> parsed m.
Proof.
  intros n m (fuel & text & nodes & root & h & hr & hn) hm. exists fuel, text, nodes, root. split; [exact h|]. split; [exact hr|].
  eapply node_in_trans; [|exact hn]. eapply in_sub; [exact hm|apply in_self].
Qed.

Lemma weak_infix : forall p q, infix_operator q -> weak (rb p) q -> codeL p q.
Proof.
  intros p q (r & a & hq) h. unfold codeL, lb. unfold weak in h. destruct (t_type q); try discriminate hq; exact h.
Qed.
Lemma left_code : forall a p b q c, parsed (NBinary (NBinary a p b) q c) -> infix_operator q -> codeL p q.
Proof. intros a p b q c h hq. apply parsed_proper in h as (_ & h & _). apply weak_infix; assumption. Qed.
Lemma right_code : forall a p b q c, parsed (NBinary a p (NBinary b q c)) -> codeR p q.
Proof. intros a p b q c h. apply parsed_proper in h as (_ & _ & h). exact h. Qed.

Lemma alone_apart : forall ops p q, concat_alone ops -> In p ops -> In q ops -> Prop_Expr.apart (t_type p) (t_type q) = true.
Proof.
  intros ops p q [h|h] hp hq; pose proof (h p hp) as h1; pose proof (h q hq) as h2; unfold Prop_Expr.apart;
    destruct (t_type p), (t_type q); try reflexivity; cbn [In] in *; exfalso; auto 8.
Qed.
Lemma alone_part : forall ops ops', (forall t, In t ops' -> In t ops) -> concat_alone ops -> concat_alone ops'.
Proof. intros ops ops' h [k|k]; [left|right]; auto. Qed.

Lemma operators_cases : forall n p, In p (operators n) ->
  exists l q r, n = NBinary l q r /\ (p = q \/ In p (operators l ++ operators r)).
Proof.
  intros n p h. destruct n; cbn [operators] in h; try contradiction. eexists _, _, _. split; [reflexivity|].
  rewrite in_app_iff in *. cbn [In] in h. intuition congruence.
Qed.

(** * C15 *)

(** In all trees, the operator that is applied last is one of the loosest of all
    the operators of the expression.  As this also holds of the two sides, the
    expression is grouped by precedence. *)
Theorem C15_trees_partial : forall l op r, parsed (NBinary l op r) ->
  (forall p, In p (operators (NBinary l op r)) -> infix_operator p) -> concat_alone (operators (NBinary l op r)) ->
  forall p, In p (operators l ++ operators r) -> row op <= row p.
Proof.
  assert (G : forall k l op r, (List.length (operators (NBinary l op r)) <= k)%nat -> parsed (NBinary l op r) ->
    (forall p, In p (operators (NBinary l op r)) -> infix_operator p) -> concat_alone (operators (NBinary l op r)) ->
    forall p, In p (operators l ++ operators r) -> row op <= row p).
  2: { intros l op r. eapply G. apply le_n. }
  induction k as [|k IH]; intros l op r hk h hi hc p hp; cbn [operators] in *; rewrite app_length in hk; cbn [List.length] in hk; [lia|].
  assert (ho : In op (operators l ++ op :: operators r)) by (rewrite in_app_iff; right; left; reflexivity).
  apply in_app_iff in hp as [hp|hp]; destruct (operators_cases _ _ hp) as (a & q & b & -> & hq).
  - assert (hs : forall t, In t (operators (NBinary a q b)) -> In t (operators (NBinary a q b) ++ op :: operators r)) by (intros; rewrite in_app_iff; auto).
    assert (hq' : In q (operators (NBinary a q b))) by (cbn [operators]; rewrite in_app_iff; right; left; reflexivity).
    assert (row op <= row q).
    { destruct (Prop_Expr.table_use q op) as (u1 & _); [auto|auto|eapply alone_apart; eauto|]. apply u1. eapply left_code; eauto. }
    destruct hq as [->|hq]; [assumption|]. transitivity (row q); [assumption|].
    eapply (IH a q b); [cbn [operators] in *; rewrite ?app_length in *; cbn [List.length] in *; lia| | | |exact hq].
    + eapply parsed_part; [exact h|left; reflexivity].
    + auto.
    + eapply alone_part; [exact hs|exact hc].
  - assert (hs : forall t, In t (operators (NBinary a q b)) -> In t (operators l ++ op :: operators (NBinary a q b))) by (intros; rewrite in_app_iff; cbn [In]; auto).
    assert (hq' : In q (operators (NBinary a q b))) by (cbn [operators]; rewrite in_app_iff; right; left; reflexivity).
    assert (row op <= row q).
    { destruct (Prop_Expr.table_use q op) as (_ & u2 & _); [auto|auto|eapply alone_apart; eauto|]. apply u2. eapply right_code; eauto. }
    destruct hq as [->|hq]; [assumption|]. transitivity (row q); [assumption|].
    eapply (IH a q b); [cbn [operators] in *; rewrite ?app_length in *; cbn [List.length] in *; lia| | | |exact hq].
    + eapply parsed_part; [exact h|right; left; reflexivity].
    + auto.
    + eapply alone_part; [exact hs|exact hc].
Qed.

(** [a p b q c] is never grouped around the looser operator, whatever the three
    operands are. *)
Theorem C15_trees_pair_partial : forall a p b q c, infix_operator p -> infix_operator q -> concat_alone [p; q] ->
  (row p < row q -> ~ parsed (NBinary (NBinary a p b) q c)) /\ (row q < row p -> ~ parsed (NBinary a p (NBinary b q c))).
Proof.
  intros a p b q c hp hq hc. split; intros hr h.
  - apply left_code in h; [|exact hq]. destruct (Prop_Expr.table_use p q) as (u1 & _); [assumption|assumption| |apply u1 in h; lia].
    eapply alone_apart; [exact hc|left; reflexivity|right; left; reflexivity].
  - apply right_code in h. destruct (Prop_Expr.table_use q p) as (_ & u2 & _); [assumption|assumption| |apply u2 in h; lia].
    eapply alone_apart; [exact hc|right; left; reflexivity|left; reflexivity].
Qed.

(** The ternary operator is between [??] and the assignments.  One in the last
    part of another one is never read as such: [a ? b : c ? d : e] is grouped to
    the left, which PHP 8 does not allow. *)
Theorem C15_trees_ternary_partial : forall c q m colon f, parsed (NTernary c q m colon f) ->
  (forall a p b, c = NBinary a p b -> infix_operator p -> row p >= 5) /\
  (forall a p b, f = NBinary a p b -> infix_operator p -> row p >= 5) /\
  (forall c' q' m' colon' f', f <> NTernary c' q' m' colon' f').
Proof.
  intros c q m colon f h. apply parsed_proper in h as (hq & hc & hf). split; [|split].
  - intros a p b -> (r & s & hp). cbn [behind] in hc. unfold weak in hc. rewrite hq in hc. cbn in hc. unfold rb in hc. unfold row.
    destruct (t_type p); try discriminate hp; cbn in *; lia.
  - intros a p b -> (r & s & hp). cbn [above] in hf. unfold lb in hf. unfold row. destruct (t_type p); try discriminate hp; cbn in *; lia.
  - intros c' q' m' colon' f' ->. cbn in hf. lia.
Qed.
Theorem C15_trees_side_partial : forall l op r, parsed (NBinary l op r) -> infix_operator op ->
  (forall c q m colon f, l = NTernary c q m colon f -> row op <= 3) /\
  (forall c q m colon f, r = NTernary c q m colon f -> row op <= 3).
Proof.
  intros l op r h (k & s & ho). apply parsed_proper in h as (_ & hl & hr). split; intros c q m colon f ->.
  - cbn [behind] in hl. unfold weak in hl. unfold row. destruct (t_type op); try discriminate ho; cbn in *; lia.
  - cbn [above] in hr. unfold rb in hr. unfold row. destruct (t_type op); try discriminate ho; cbn in *; lia.
Qed.

(** * C16 *)

(** No text has a tree in which a chain of left-associative operators is grouped
    to the left, or one of right-associative operators to the right, whatever the
    operands are. *)
Theorem C16_trees_left_refuted : forall a p b q c, infix_operator p -> infix_operator q -> row p = row q ->
  associates p = ALeft -> ~ parsed (NBinary (NBinary a p b) q c).
Proof. intros a p b q c hp hq hr ha h. apply left_code in h; [|exact hq]. apply (Prop_Expr.assoc_use p q) in ha; tauto. Qed.
Theorem C16_trees_right_refuted : forall a p b q c, infix_operator p -> infix_operator q -> row p = row q ->
  associates p = ARight -> ~ parsed (NBinary a p (NBinary b q c)).
Proof.
  intros a p b q c hp hq hr ha h. apply right_code in h. symmetry in hr.
  assert (hb : associates q = ARight). { apply (Prop_Expr.assoc_use p q); congruence. }
  apply (Prop_Expr.assoc_use q p) in hb; tauto.
Qed.

(** * C17 *)

(** In no text is [-a + b] read as [(-a) + b]. *)
Theorem C17_trees_refuted : forall e u op r, sign u -> arithmetic op -> ~ parsed (NBinary (NUnary e u) op r).
Proof.
  intros e u op r hu ho h. apply parsed_proper in h as (_ & h & _). cbn [behind] in h.
  specialize (h 140). destruct hu as [hu|hu]; rewrite hu in h; specialize (h eq_refl); unfold weak in h;
    cbn [arithmetic In] in ho; decompose [or] ho; try contradiction; match goal with q : _ = t_type op |- _ => rewrite <- q in h end; cbn in h; lia.
Qed.
(** The infix operators in the operand of a sign are those of arithmetic, [.],
    [instanceof] and [**]; the last one is never applied to a signed operand. *)
Theorem C17_trees_partial : forall u, sign u ->
  (forall a op b, parsed (NUnary (NBinary a op b) u) -> In (t_type op) [TPlus; TMinus; TMultiplication; TDivision; TModulo; TConcat; TInstanceOf; TPower]) /\
  (forall e op r, t_type op = TPower -> ~ parsed (NBinary (NUnary e u) op r)).
Proof.
  intros u hu. assert (hq : prefix_binding_power (t_type u) = Some 140) by (destruct hu as [->| ->]; reflexivity). split.
  - intros a op b h. pose proof h as h'. apply parsed_proper in h as (q & e & h). rewrite hq in e. injection e as <-.
    cbn [above] in h. unfold lb in h. destruct (t_type op); cbn in h; try lia; cbn; auto 10.
  - intros e op r ho h. apply parsed_proper in h as (_ & h & _). cbn [behind] in h. specialize (h 140 hq). unfold weak in h. rewrite ho in h. cbn in h. lia.
Qed.

(** * C40 *)

(** The only infix operator that is applied before a cast, [!], [~] or [@] is
    [**], and that one always is. *)
Theorem C40_trees_partial : forall u, tight u ->
  (forall a op b, parsed (NUnary (NBinary a op b) u) -> t_type op = TPower) /\
  (forall c q m colon f, ~ parsed (NUnary (NTernary c q m colon f) u)) /\
  (forall e op r, t_type op = TPower -> ~ parsed (NBinary (NUnary e u) op r)).
Proof.
  intros u hu. assert (hq : prefix_binding_power (t_type u) = Some 181).
  { unfold tight in hu. cbn [In] in hu. repeat (destruct hu as [<-|hu]; [reflexivity|]). destruct hu. }
  split; [|split].
  - intros a op b h. apply parsed_proper in h as (q & e & h). rewrite hq in e. injection e as <-.
    cbn [above] in h. unfold lb in h. destruct (t_type op); cbn in h; try lia. reflexivity.
  - intros c q m colon f h. apply parsed_proper in h as (k & e & h). rewrite hq in e. injection e as <-. cbn in h. lia.
  - intros e op r ho h. apply parsed_proper in h as (_ & h & _). cbn [behind] in h. specialize (h 181 hq). unfold weak in h. rewrite ho in h. cbn in h. lia.
Qed.
(** [!$a instanceof B] is never read as [!($a instanceof B)]. *)
Theorem C40_trees_refuted_negation : forall u a op b, t_type u = TNegation -> t_type op = TInstanceOf -> ~ parsed (NUnary (NBinary a op b) u).
Proof.
  intros u a op b hu ho h. apply C40_trees_partial in h; [rewrite ho in h; discriminate h|]. unfold tight. rewrite hu. left. reflexivity.
Qed.
End Trees.

(** * The hypotheses can be met *)

Local Existing Instance ascii_runtime.
Local Open Scope string_scope.
Local Open Scope N_scope.
Local Open Scope list_scope.

(** the expression of the last statement of a text *)
Definition last_expression (text : string) : option Node :=
  match syntax 60 (lit text) with
  | Some nodes => match rev nodes with NExpressionStatement e :: _ => Some e | _ => None end
  | None => None
  end.
Lemma last_parsed : forall text e, last_expression text = Some e -> parsed e.
Proof.
  intros text e h. unfold last_expression in h. destruct (syntax 60 (lit text)) as [nodes|] eqn:en; [|discriminate h].
  destruct (rev nodes) as [|n r] eqn:er; [discriminate h|]. exists 60%nat, (lit text), nodes, n.
  split; [exact en|]. split; [apply in_rev; rewrite er; left; reflexivity|]. destruct n; try discriminate h. injection h as <-.
  eapply in_sub; [left; reflexivity|apply in_self].
Qed.

(** Operands that are calls, members, array elements, casts and closures, in a
    text with an error before. *)
Example C15_trees_case : exists l op r,
  last_expression "<?php $x) ; f($a, 1) + $b->c() * $d[1] === (int) $e && function () { return 1 + 2; } ?? A::$z;" = Some (NBinary l op r)
  /\ map t_type (operators (NBinary l op r)) = [TPlus; TMultiplication; TIsIdentical; TLogicAnd; TCoalesce]
  /\ (forall p, In p (operators (NBinary l op r)) -> infix_operator p) /\ concat_alone (operators (NBinary l op r))
  /\ t_type op = TCoalesce /\ operators l ++ operators r <> [].
Proof.
  eexists _, _, _. split; [vm_compute; reflexivity|]. split; [reflexivity|]. split.
  - intros p h. cbn in h. decompose [or] h; subst; try contradiction; eexists _, _; reflexivity.
  - split; [|split; [reflexivity|discriminate]]. left. intros t h. cbn in h. decompose [or] h; subst; try contradiction; discriminate.
Qed.
(** Both groupings of two operators occur, each for the operators of the other
    order, and both groupings of the chains. *)
Example C15_trees_pair_case : exists a p b q c a' p' b' q' c',
  last_expression "<?php f($a) * $b->c + $d[1];" = Some (NBinary (NBinary a p b) q c) /\ row q < row p /\
  last_expression "<?php f($a) + $b->c * $d[1];" = Some (NBinary a' p' (NBinary b' q' c')) /\ row p' < row q' /\
  concat_alone [p; q] /\ infix_operator p /\ infix_operator q.
Proof.
  do 10 eexists. split; [vm_compute; reflexivity|]. split; [reflexivity|]. split; [vm_compute; reflexivity|]. split; [reflexivity|].
  split; [|split; eexists _, _; reflexivity]. left. intros t [<-|[<-|[]]]; discriminate.
Qed.
Example C15_trees_ternary_case : exists a p b q m colon f q2 m2 colon2 f2,
  last_expression "<?php $a ?? f() ? $b : $c->d ?: 3;" = Some (NTernary (NTernary (NBinary a p b) q m colon f) q2 m2 colon2 f2) /\ infix_operator p.
Proof. do 11 eexists. split; [vm_compute; reflexivity|eexists _, _; reflexivity]. Qed.
Example C15_trees_side_case : exists c q m colon f op r c' q' m' colon' f' op' l,
  last_expression "<?php f() ? 1 : 2 xor $a;" = Some (NBinary (NTernary c q m colon f) op r) /\ infix_operator op /\
  last_expression "<?php $a->b += f() ? 1 : 2;" = Some (NBinary l op' (NTernary c' q' m' colon' f')) /\ infix_operator op'.
Proof. do 14 eexists. split; [vm_compute; reflexivity|]. split; [eexists _, _; reflexivity|]. split; [vm_compute; reflexivity|eexists _, _; reflexivity]. Qed.
Example C16_trees_case : exists a p b q c a' p' b' q' c',
  last_expression "<?php f() - $a->b - $c;" = Some (NBinary a p (NBinary b q c)) /\ row p = row q /\ associates p = ALeft /\
  last_expression "<?php $a->b = $c[1] = f();" = Some (NBinary (NBinary a' p' b') q' c') /\ row p' = row q' /\ associates p' = ARight.
Proof. do 10 eexists. split; [vm_compute; reflexivity|]. split; [reflexivity|]. split; [reflexivity|]. split; [vm_compute; reflexivity|split; reflexivity]. Qed.
Example C17_trees_case : exists a op b u a' op' b' u' c,
  last_expression "<?php -f() + $b->c;" = Some (NUnary (NBinary a op b) u) /\ sign u /\ arithmetic op /\
  last_expression "<?php -$a[1] < 2;" = Some (NBinary (NUnary a' u') op' b') /\ sign u' /\
  last_expression "<?php -2 ** f();" = Some (NUnary c u').
Proof.
  do 9 eexists. split; [vm_compute; reflexivity|]. split; [right; reflexivity|]. split; [left; reflexivity|].
  split; [vm_compute; reflexivity|]. split; [right; reflexivity|vm_compute; reflexivity].
Qed.
Example C40_trees_case : exists a op b u a' op' b' u',
  last_expression "<?php (int) f() ** 2;" = Some (NUnary (NBinary a op b) u) /\ tight u /\ t_type op = TPower /\
  last_expression "<?php !$a->b instanceof C;" = Some (NBinary (NUnary a' u') op' b') /\ t_type u' = TNegation /\ t_type op' = TInstanceOf.
Proof.
  do 8 eexists. split; [vm_compute; reflexivity|]. split; [cbn; auto 10|]. split; [reflexivity|]. split; [vm_compute; reflexivity|split; reflexivity].
Qed.

Print Assumptions C15_trees_partial.
Print Assumptions C15_trees_pair_partial.
Print Assumptions C15_trees_ternary_partial.
Print Assumptions C15_trees_side_partial.
Print Assumptions C16_trees_left_refuted.
Print Assumptions C16_trees_right_refuted.
Print Assumptions C17_trees_refuted.
Print Assumptions C17_trees_partial.
Print Assumptions C40_trees_partial.
Print Assumptions C40_trees_refuted_negation.
