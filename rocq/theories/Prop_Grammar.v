(** C46: the parser reads every file of the grammar of SpecGrammar.v without
    an error, and its tree is one of the trees the grammar gives.
    C47: which modifiers of a method are in its node.

    The grammar is written over tokens.  [in_grammar] drops what it does not
    mention: comments, line breaks and the end of the file. *)

From Verif Require Import Base Token TokenFacts Scanner Node DocBlock Parser ParserBase ParserAst.
From Verif Require Import SpecCalm SpecExpr SpecGrammar PrattFacts GrammarBase GrammarClass GrammarStmt ScannerEof GrammarFile.

Local Open Scope string_scope.
Local Open Scope N_scope.
Local Open Scope list_scope.

Definition in_grammar (t : Token) : bool :=
  match t_type t with TMultilineComment | TLineComment | TLinebreak | TEof => false | _ => true end.

(** [text] is a PHP file by the grammar and [tree] one of its trees. *)
Definition php_file `{RT : Runtime} (text : str) (tree : list Node) : Prop :=
  exists ts, scan text = SOk ts /\ File (filter in_grammar ts) tree.

(** Whatever depth of recursion and number of rounds from [fuel] on is allowed,
    reading [ts] ends with the tree and the errors. *)
Definition read_as `{RT : Runtime} (ts : list Token) (tree : list Node) (errors : list perr) : Prop :=
  exists fuel s, forall n, (fuel <= n)%nat -> ast n ts = POk (tree, errors) s.

Section Grammar.
Context `{RT : Runtime}.

Lemma in_grammar_plain : forall t, in_grammar t = plain t.
Proof. reflexivity. Qed.

Lemma shown_plain : forall us e, Forall (fun t => t_type t <> TEof) us -> (e = [] \/ exists t, e = [t] /\ t_type t = TEof) ->
  shown (us ++ e) = filter in_grammar (us ++ e) ++ e.
Proof.
  intros us e Hu He. unfold shown. rewrite !filter_app.
  assert (E : filter significant us = filter in_grammar us).
  { induction us as [|u us IH]; [reflexivity|]. inversion Hu as [|? ? Hu1 Hu2]; subst. cbn [filter]. rewrite IH by exact Hu2.
    unfold significant, in_grammar. destruct (t_type u); try reflexivity. contradiction. }
  rewrite E. destruct He as [->|[t [-> Ht]]]; [now rewrite !app_nil_r|]. cbn [filter]. unfold significant, in_grammar. rewrite Ht.
  now rewrite app_nil_r.
Qed.

(** ** C46, partial: the grammar is not all of PHP, and cannot be, see the
    refutations below; a heredoc without a name is excluded (the parser
    crashes on those, C10). *)
Theorem C46_no_false_errors_partial : forall text ts tree,
  scan text = SOk ts ->
  ~ (exists t, In t ts /\ t_type t = THereDocEnd /\ t_label t = Some []) ->
  File (filter in_grammar ts) tree ->
  exists tree', read_as ts tree' [] /\ File (filter in_grammar ts) tree'.
Proof.
  intros text ts tree Hs Hn Hf.
  assert (O : outside (parser_new ts) (filter in_grammar ts)).
  { destruct (scan_eof _ _ Hs) as (us & e & Ets & Hu & He).
    unfold outside, parser_new. cbn [p_toks p_docs p_ctx].
    split; [exists e; split; [rewrite Ets; now apply shown_plain|exact He]|]. split.
    { apply Forall_forall. intros t Ht. apply filter_In in Ht. now rewrite <- in_grammar_plain. }
    split.
    { apply Forall_forall. intros t Ht. apply (scan_end text ts t Hs Ht). intros [D1 D2]. apply Hn. now exists t. }
    split.
    { apply Forall_forall. intros t Ht D. eapply scan_doc_label; eauto. }
    split; [constructor|reflexivity]. }
  destruct (file_read _ _ _ O Hf eq_refl) as (k & tree' & s' & Hf' & Hs' & H).
  exists tree'. split; [|exact Hf']. exists k, s'. intros n Hk. unfold ast.
  destruct ts as [|t ts]; [cbn in Hf; inversion Hf|]. rewrite (H n Hk), Hs'. reflexivity.
Qed.
End Grammar.

(** * C47 *)

(** The modifiers in the node of a method *)
Definition tokens_of (o : option Token) : list Token := match o with Some t => [t] | None => [] end.
Definition modifiers_of (n : Node) : list Token :=
  match n with
  | NMethodDefinitionStatement _ fi _ _ vis ab _ st _ _ => tokens_of ab ++ tokens_of fi ++ tokens_of vis ++ tokens_of st
  | _ => []
  end.

Section Methods.
Context `{RT : Runtime}.

(** In front of [wm function & i w] the parser reads a method ([goes]: with
    enough fuel).  Partial: only if the modifiers are in the usual order they
    are all in the node. *)
Theorem C47_usual_order_partial : forall s wm ab fi vis st t wr r i w n rest,
  at_ s ((wm ++ t :: wr ++ i :: w) ++ rest) ->
  is TFunction t -> maybe TBinaryAnd wr r -> word i -> Signature w n ->
  Usual wm ab fi vis st ->
  exists doc n' s', Signature w n' /\ at_ s' rest /\ p_errs s' = p_errs s /\
    goes (fun n => class_block_statement (run n) n) s (NMethodDefinitionStatement t fi r i vis ab n' st doc []) s'.
Proof.
  intros s wm ab fi vis st t wr r i w n rest Hs Ht Hr Hi Hsg U.
  assert (Hm : Forall (one_of_kinds modifier_kinds) wm).
  { clear - U. destruct U as (w1 & w2 & w3 & w4 & -> & U1 & U2 & U3 & U4). apply Forall_forall. intros x Hx. unfold one_of_kinds.
    repeat (apply in_app_or in Hx as [Hx|Hx]); [destruct U1 as [[-> _]|(y & -> & _ & K)]|destruct U2 as [[-> _]|(y & -> & _ & K)]
      |destruct U3 as [[-> _]|(y & -> & _ & K)]|destruct U4 as [[-> _]|(y & -> & _ & K)]]; cbn in Hx; try contradiction Hx; destruct Hx as [<-|[]]; unfold one_of_kinds in K; cbn in *; tauto. }
  destruct (all_read (S (List.length w))) as (HF & HB & _).
  destruct (v_method _ (GrammarPratt.HE _ HF) HB wm t wr r i w n rest (Nat.lt_succ_diag_r _) Hm Ht Hr Hi Hsg s Hs)
    as (x & s' & G & (ab' & fi' & vis' & st' & doc & n' & [_ K] & Hn & ->) & A & E).
  specialize (K (ab, fi, vis, st) U). injection K as -> -> -> ->. exists doc, n', s'. auto.
Qed.

(** In any other order some are lost. *)
Theorem C47_refuted : forall s wm t wr r i w n rest,
  at_ s ((wm ++ t :: wr ++ i :: w) ++ rest) ->
  is TFunction t -> maybe TBinaryAnd wr r -> word i -> Signature w n ->
  Forall (one_of_kinds modifier_kinds) wm -> (forall ab fi vis st, ~ Usual wm ab fi vis st) ->
  exists x s', at_ s' rest /\ p_errs s' = p_errs s /\ goes (fun n => class_block_statement (run n) n) s x s' /\
    (List.length (modifiers_of x) < List.length wm)%nat.
Proof.
  intros s wm t wr r i w n rest Hs Ht Hr Hi Hsg Hm U.
  destruct (all_read (S (List.length w))) as (HF & HB & _).
  destruct (v_method _ (GrammarPratt.HE _ HF) HB wm t wr r i w n rest (Nat.lt_succ_diag_r _) Hm Ht Hr Hi Hsg s Hs)
    as (x & s' & G & (ab & fi & vis & st & doc & n' & [(v & u & Ewm & V) _] & Hn & ->) & A & E).
  eexists _, s'. split; [exact A|]. split; [exact E|]. split; [exact G|]. cbn [modifiers_of].
  assert (L : List.length (tokens_of ab ++ tokens_of fi ++ tokens_of vis ++ tokens_of st) = List.length u).
  { clear - V. destruct V as (w1 & w2 & w3 & w4 & -> & U1 & U2 & U3 & U4).
    assert (M : forall l y o, maybe_of l y o -> tokens_of o = y) by (intros l y o [[-> ->]|(z & -> & -> & _)]; reflexivity).
    rewrite (M _ _ _ U1), (M _ _ _ U2), (M _ _ _ U3), (M _ _ _ U4). reflexivity. }
  rewrite L, Ewm, app_length. destruct v as [|y v]; [|cbn; lia]. subst wm. exfalso. exact (U _ _ _ _ V).
Qed.
End Methods.

(** * What is missing *)

Local Existing Instance ascii_runtime | 9.

(** The parser reports an error for [text]. *)
Definition rejected (text : str) : Prop :=
  exists ts tree errors s, scan text = SOk ts /\ ast 100 ts = POk (tree, errors) s /\ errors <> [].
Definition rejects (text : str) : bool :=
  match scan text with
  | SOk ts => match ast 100 ts with POk (_, _ :: _) _ => true | _ => false end
  | _ => false
  end.
Lemma rejects_rejected : forall text, rejects text = true -> rejected text.
Proof.
  intros text H. unfold rejects in H. unfold rejected. destruct (scan text) as [ts| | |] eqn:E; try discriminate H.
  destruct (ast 100 ts) as [[tree errors] s| | |] eqn:E2; try discriminate H. destruct errors as [|x errors]; [discriminate H|].
  exists ts, tree, (x :: errors), s. split; [reflexivity|]. split; [exact E2|discriminate].
Qed.

(** Valid PHP the parser complains about. *)
Definition valid_files : list str :=
  [ lit "<?php class A { function __construct(private int $b) {} }";  (* constructor promotion *)
    lit "<?php function f($a,) {}";                                   (* a comma behind the last parameter *)
    lit "<?php try { f(); } catch (E) {}";                            (* an exception nobody needs *)
    lit "<?php $a = $b ?? throw new C;";                              (* throw in an expression *)
    lit "<?php function f() { $x = (yield); }";                       (* yield without a value *)
    lit "<?php if ($a) unset($b); else f();";                         (* a semicolon behind unset and before else *)
    lit "<?php do unset($a); while ($b);";
    lit "<?php $x = [1 => &$a->b];";                                  (* a reference to something else than a variable *)
    lit "<?php $a or print $b;";                                      (* print in an expression *)
    lit "<?php die;";                                                 (* die without parentheses *)
    lit "<?php $a = 1_000;";                                          (* underscores in a number *)
    lit "<?php namespace\f();";                                       (* a name relative to the namespace *)
    lit "<?php foreach ($a as $b): ?> <?php endforeach ?>";           (* a statement ended by the closing tag *)
    lit "<?php function f() { return 1 ?> a <?php }" ].
Theorem C46_refuted : Forall rejected valid_files.
Proof. repeat (constructor; [apply rejects_rejected; vm_compute; reflexivity|]). constructor. Qed.

(** * An example *)

Definition example_text : str := lit "<?php
namespace A;
/** A class */
class B extends C {
    private $x = [1, 2];
    // a method
    public function f(int $a): ?D { if ($a) { return $this->x; } else echo $a + 1; }
}".
Definition example_tokens : list Token := Eval vm_compute in match scan example_text with SOk ts => ts | _ => [] end.
Definition example_part (i j : nat) : list Token := firstn (j - i) (skipn i (filter in_grammar example_tokens)).


(** The parts are given by the numbers of their tokens. *)
Local Notation part i j := (ltac:(let r := eval vm_compute in (example_part i j) in exact r)) (only parsing).
Local Ltac kind := vm_compute; tauto.

(** one modifier, the visibility *)
Lemma one_visibility : forall t, one_of_kinds visibility_kinds t -> Modifiers [t] None None (Some t) None.
Proof.
  intros t Ht. assert (U : Usual [t] None None (Some t) None).
  { exists [], [], [t], []. split; [reflexivity|]. split; [now left|]. split; [now left|]. split; [right; eauto|now left]. }
  split; [constructor; [|constructor]|].
  { unfold one_of_kinds in *. cbn in *. tauto. }
  split; [exists [], [t]; auto|]. intros ab fi vis st (w1 & w2 & w3 & w4 & E & U1 & U2 & U3 & U4).
  destruct U1 as [[-> ->]|(x1 & -> & -> & K1)]; destruct U2 as [[-> ->]|(x2 & -> & -> & K2)];
    destruct U3 as [[-> ->]|(x3 & -> & -> & K3)]; destruct U4 as [[-> ->]|(x4 & -> & -> & K4)]; cbn in E; try discriminate E;
    injection E as <-; try reflexivity; unfold one_of_kinds in *; cbn in *; intuition congruence.
Qed.
Local Ltac one_modifier := apply one_visibility; kind.

Local Ltac var := apply E_operand, O_variable, V_named; [kind|discriminate].
Local Ltac num := apply E_operand, O_literal; kind.
Local Ltac name := apply Q_relative, Path_one; kind.

Example example_file : exists tree, File (filter in_grammar example_tokens) tree.
Proof.
  eexists. replace (filter in_grammar example_tokens) with (part 0 48) by (vm_compute; reflexivity).
  eapply (F_script _ (part 1 48)); [kind|discriminate|].
  eapply (Ss_more _ Closed (part 1 4) _ (part 4 48)); [|discriminate|reflexivity|].
  { eapply (S_namespace _ (part 2 3)); [kind|apply Path_one; kind|kind]. }
  eapply (Ss_more _ Closed (part 4 48) _ []); [|discriminate|reflexivity|apply Ss_none].
  eapply (S_class [] _ [] _ _ _ _ (part 6 8) _ [] _ (part 8 48)); [apply At_none|left; split; [left; split; reflexivity|reflexivity]
    |kind|kind|eapply (Ex_some _ (part 7 8)); [kind|name]|apply NC_none|].
  eapply (CB _ (part 9 47)); [kind| |kind].
  eapply (Ms_more (part 9 18) _ (part 18 47)).
  { eapply (M_properties [] _ (part 9 10) None None (Some _) None [] _ (part 10 17));
      [apply At_none|one_modifier|discriminate|apply OT_none|apply Pt_none| |kind].
    eapply (Py_one _ (part 11 17)); [kind|]. eapply (In_some _ (part 12 17)); [kind|].
    eapply E_operand. eapply (O_array _ (part 13 16)); [kind| |kind].
    eapply (El_more (part 13 14) _ _ (part 15 16)); [apply Pr_value; num|kind|apply El_one, Pr_value; num]. }
  eapply (Ms_more (part 18 47) _ []); [|apply Ms_none].
  eapply (M_method [] _ (part 18 19) None None (Some _) None _ [] _ _ (part 21 47));
    [apply At_none|one_modifier|kind|left; split; reflexivity|kind|].
  eapply (Si_body _ (part 22 24) _ _ (part 25 28) _ (part 28 47)); [kind| |kind| |].
  { apply Ps_some, Pl_one. eapply (Pa [] _ (part 22 23) _ [] _ [] _ _ []); [apply At_none| |left; split; reflexivity|left; split; reflexivity|kind|apply In_none].
    apply OT_some. eapply (Ty [] None (part 22 23)); [left; split; reflexivity|apply U_one; name]. }
  { eapply (R_some _ (part 26 28)); [kind|]. eapply (Ty (part 26 27) _ (part 27 28)); [right; eexists; split; [reflexivity|split; [reflexivity|kind]]|].
    apply U_one; name. }
  eapply (Bl _ (part 29 46)); [kind| |kind].
  eapply (Ss_more _ Closed (part 29 46) _ []); [|discriminate|reflexivity|apply Ss_none].
  eapply (S_if _ _ (part 31 32) _ _ Closed (part 33 40) _ _ (part 40 46)); [kind|kind|var|kind| |].
  - apply S_block. eapply (Bl _ (part 34 39)); [kind| |kind].
    eapply (Ss_more _ Closed (part 34 39) _ []); [|discriminate|reflexivity|apply Ss_none].
    eapply (S_return_value _ (part 35 38)); [kind| |kind]. eapply E_operand.
    eapply (O_member (part 35 36)); [apply O_variable, V_named; [kind|discriminate]|kind|kind].
  - eapply (If_else Closed _ (part 41 46)); [kind|]. eapply (S_echo _ (part 42 45)); [kind| |kind]. apply Co_one.
    eapply (E_binary (part 42 43) _ _ (part 44 45)); [var|eexists _, _; reflexivity|num].
  Unshelve. all: exact None.
Qed.

Example C46_applies : exists tree, read_as example_tokens tree [] /\ File (filter in_grammar example_tokens) tree.
Proof.
  destruct example_file as [tree H]. eapply (C46_no_false_errors_partial example_text); [vm_compute; reflexivity| |exact H].
  intros (t & Ht & Hk & _). revert t Ht Hk. apply (Forall_forall (fun t => t_type t = THereDocEnd -> False)). vm_compute. repeat (constructor; [discriminate|]). constructor.
Qed.

(** [static public function f() {}] in a class: the method is not static. *)
Definition lost_text : str := lit "<?php class A { static public function f() {} }".
Definition modifier_types (text : str) : list (list TokenType) :=
  match scan text with
  | SOk ts =>
      match ast 100 ts with
      | POk ([NClassStatement _ _ _ _ _ _ (NBlock _ l _) _ _], []) _ => map (fun n => map t_type (modifiers_of n)) l
      | _ => []
      end
  | _ => []
  end.
Example C47_lost : modifier_types lost_text = [[TPublic]] /\
  modifier_types (lit "<?php class A { abstract public static function f(); }") = [[TAbstract; TPublic; TStatic]] /\
  modifier_types (lit "<?php class A { public abstract static function f(); }") = [[TAbstract; TStatic]].
Proof. repeat split; vm_compute; reflexivity. Qed.

(** The hypotheses of both theorems are met in front of such methods. *)
Definition method_tokens (text : str) : list Token :=
  match scan text with SOk ts => skipn 4 (filter in_grammar ts) | _ => [] end.
Definition method_state (text : str) : pst := mkPst [] (method_tokens text) [] CtxScript (0, 0) range_empty.
Definition lost_tokens : list Token := Eval vm_compute in method_tokens lost_text.
Lemma lost_state : method_state lost_text = mkPst [] lost_tokens [] CtxScript (0, 0) range_empty.
Proof. vm_compute. reflexivity. Qed.
Lemma empty_signature : forall a b c d, is TOpenParenthesis a -> is TCloseParenthesis b -> is TOpenCurly c -> is TCloseCurly d ->
  exists n, Signature [a; b; c; d] n.
Proof.
  intros a b c d Ha Hb Hc Hd. eexists. eapply (Si_body a [] None b [] None [c; d]); [exact Ha|apply Ps_none|exact Hb|apply R_none|].
  eapply (Bl c [] [] d); [exact Hc|apply Ss_none|exact Hd].
  Unshelve. exact None.
Qed.
Lemma not_usual : forall s p, is TStatic s -> is TPublic p -> forall ab fi vis st, ~ Usual [s; p] ab fi vis st.
Proof.
  intros s p Hs Hp ab fi vis st (w1 & w2 & w3 & w4 & E & U1 & U2 & U3 & U4). unfold is in *.
  destruct U1 as [[-> ->]|(x1 & -> & -> & K1)]; destruct U2 as [[-> ->]|(x2 & -> & -> & K2)];
    destruct U3 as [[-> ->]|(x3 & -> & -> & K3)]; destruct U4 as [[-> ->]|(x4 & -> & -> & K4)]; cbn in E; try discriminate E;
    injection E as <- <-; unfold one_of_kinds in *; cbn in *; intuition congruence.
Qed.
Example C47_refuted_applies : exists x s', goes (fun n => class_block_statement (run n) n) (method_state lost_text) x s' /\
  (List.length (modifiers_of x) < 2)%nat.
Proof.
  rewrite lost_state. unfold lost_tokens.
  match goal with |- exists x s', goes _ (mkPst _ [?m1; ?m2; ?t; ?i; ?a; ?b; ?c; ?d; ?z] _ _ _ _) _ _ /\ _ =>
    destruct (empty_signature a b c d eq_refl eq_refl eq_refl eq_refl) as [n Hn];
    destruct (C47_refuted (mkPst [] [m1; m2; t; i; a; b; c; d; z] [] CtxScript (0, 0) range_empty) [m1; m2] t [] None i [a; b; c; d] n [z])
      as (x & s' & _ & _ & G & L)
  end.
  - split; [exists []; split; [reflexivity|now left]|]. split; [repeat constructor|]. split; [repeat (constructor; [eexists; reflexivity|]); constructor|].
    split; [repeat (constructor; [discriminate|]); constructor|]. split; [constructor|reflexivity].
  - reflexivity.
  - now left.
  - vm_compute. tauto.
  - exact Hn.
  - repeat constructor; vm_compute; tauto.
  - now apply not_usual.
  - exists x, s'. split; [exact G|exact L].
Qed.
(** [abstract], [public] and [static] of a method are in the usual order. *)
Example usual_applies : forall a p s, is TAbstract a -> is TPublic p -> is TStatic s -> Usual [a; p; s] (Some a) None (Some p) (Some s).
Proof.
  intros a p s Ha Hp Hs. unfold is in *. exists [a], [], [p], [s]. split; [reflexivity|].
  split; [right; exists a; rewrite Ha || idtac; repeat split; unfold one_of_kinds; rewrite Ha; now left|]. split; [now left|].
  split; [right; exists p; repeat split; unfold one_of_kinds; rewrite Hp; now left|right; exists s; repeat split; unfold one_of_kinds; rewrite Hs; now left].
Qed.

Print Assumptions C46_no_false_errors_partial.
Print Assumptions C46_refuted.
Print Assumptions C47_usual_order_partial.
Print Assumptions C47_refuted.
