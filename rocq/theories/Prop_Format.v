(** C38: formatting keeps the tokens of a file (formatting.rs:12-53 with
    formatter/mod.rs).

    Full statement: for a file that parses without errors, formatting answers
    with a text that has the tokens of the file, comments included.  The
    refutations at the end show what is lost.  The two theorems before them say
    where it holds: for every tree of SpecFormat.v, and, from the source on, for
    every file of expression statements. *)

From Coq Require Import String.
From Verif Require Import Base Token Scanner SpecScanner Node Parser SpecCalm SpecExpr PrattFacts Respell Prop_Scanner ScannerFacts
  Formatter SpecFormat FormatFacts FormatTree FormatParse.

Open Scope string_scope.
Open Scope N_scope.
Open Scope list_scope.

(** * The text of a tree *)

Section Text.
Context `{RT : Runtime}.
Variable ts : list Token.
Hypothesis scanned : exists src, scan src = SOk ts.

Lemma drop_blank : forall w v, blank w -> drop_white (w ++ v) = drop_white v.
Proof.
  induction w as [|c w IH]; intros v h; [reflexivity|]. pose proof (h c (or_introl eq_refl)) as hc. cbn [app drop_white].
  replace (is_whitespace c) with true; [apply IH; intros x hx; apply h; now right|]. destruct hc as [->| ->]; reflexivity.
Qed.

Lemma format_file_spells : forall l ks, stmts ts l ks ->
  exists t, format_file l 0 0 = Some t /\ spells t ks.
Proof.
  intros l ks h. destruct (trees ts scanned) as (_ & _ & _ & _ & _ & _ & _ & _ & _ & _ & _ & _ & _ & _ & H).
  destruct (H l ks h 0 0 0) as (body & tr & e & hb & hs & hh). unfold format_file, format. rewrite e. cbn [obind].
  exists (body ++ newline). split.
  - f_equal. f_equal. unfold trim_end. rewrite rev_app_distr, drop_blank by (intros x hx; apply hb; apply in_rev; exact hx).
    destruct hs as [-> |(b & c & -> & hc)]; [reflexivity|].
    rewrite rev_app_distr. cbn [rev app drop_white]. rewrite hc. cbn [rev]. now rewrite rev_involutive.
  - rewrite <- (app_nil_r ks). apply hh. apply (S_white 10 [] []); [now right|apply S_end].
Qed.
End Text.

(** * Trees of SpecFormat.v *)

(** A file whose tree is one of those of SpecFormat.v is formatted, and the text
    has the tokens of the tree. *)
Theorem C38_trees_partial : forall (RT : Runtime) n src ts l s ks,
  scan src = SOk ts -> ast n ts = POk (l, []) s -> stmts ts l ks ->
  exists r text ts',
    format_source n src = Reformatted r text /\
    scan text = SOk ts' /\ code ts' = (TScriptStart Regular, None) :: ks ++ [(TEof, None)].
Proof.
  intros RT n src ts l s ks hs ha ht.
  destruct (format_file_spells ts (ex_intro _ src hs) l ks ht) as (t & e & h).
  destruct (spells_scan t ks h) as (ts' & hs' & hc).
  unfold format_source. unfold scan in hs. destruct (scan_state src) as [st|x| |]; cbn in hs; try discriminate hs.
  injection hs as <-. rewrite ha, e. eauto 8.
Qed.

(** A file with errors is left alone, ... *)
Theorem C38_errors : forall (RT : Runtime) n src ts l e es s,
  scan src = SOk ts -> ast n ts = POk (l, e :: es) s -> format_source n src = Unformatted.
Proof.
  intros RT n src ts l e es s hs ha. unfold format_source. unfold scan in hs.
  destruct (scan_state src) as [st|x| |]; cbn in hs; try discriminate hs. injection hs as <-. now rewrite ha.
Qed.
(** ... so an edit means that there were none; and the edit replaces all of the text. *)
Theorem C38_whole : forall (RT : Runtime) n src r text, format_source n src = Reformatted r text ->
  (exists ts l s, scan src = SOk ts /\ ast n ts = POk (l, []) s) /\
  start_line r = 0 /\ start_col r = 0 /\ (end_line r, end_col r) = pos_of src.
Proof.
  intros RT n src r text h. unfold format_source in h. unfold scan.
  destruct (scan_state src) as [st|x| |] eqn:es; try discriminate h. destruct (C03_document_range RT src st es) as (h1 & h2 & h3 & _).
  destruct (ast n (rev (s_toks st))) as [[l [|e errs]] s|? ?| |] eqn:ea; try discriminate h.
  destruct (format_file l 0 0); [|discriminate h]. injection h as <- <-. splits; auto. exists (rev (s_toks st)), l, s. auto.
Qed.

(** * Files of expression statements *)

Definition plain_program (p : program) : Prop :=
  Forall (fun x => written (fst x) /\ Forall complete (chain_tokens (fst x)) /\ t_type (snd x) = TSemicolon) p.

Section Programs.
Context `{RT : Runtime}.
Variable ts : list Token.
Hypothesis scanned : exists src, scan src = SOk ts.

Lemma infix_fixed : forall t, infix_operator t -> fixed_kind (t_type t) = true.
Proof. intros t (r & a & H). unfold php_row in H. destruct (t_type t); try discriminate H; reflexivity. Qed.

Lemma key_sym : forall t k, In t ts -> t_type t = k -> fixed_kind k = true -> key_of t = sym k.
Proof. intros t k hi hk hf. apply (fixed_token ts scanned t k hi hk hf). Qed.

Lemma key_eof : forall t, In t ts -> t_type t = TEof -> key_of t = (TEof, None).
Proof.
  intros t hi e. destruct (in_true ts scanned t hi) as (src & b & lex & r & _ & _ & hs). unfold spelled in hs. rewrite e in hs.
  destruct hs as (hl & _). unfold key_of. now rewrite e, hl.
Qed.

Lemma chain_expr : forall L R,
  (forall c n, Groups L R c n -> written c -> (forall t, In t (chain_tokens c) -> In t ts /\ complete t) ->
     expr ts n (map key_of (chain_tokens c))) /\
  (forall o n, GroupsO L R o n -> written_operand o -> (forall t, In t (operand_tokens o) -> In t ts /\ complete t) ->
     expr ts n (map key_of (operand_tokens o))).
Proof.
  intros L R.
  assert (H : forall c n (g : Groups L R c n), written c ->
    (forall t, In t (chain_tokens c) -> In t ts /\ complete t) -> expr ts n (map key_of (chain_tokens c))).
  2: split; [exact H|].
  - fix IH 3. intros c n g. destruct g as [o n g|c op d l r g1 g2 _ _]; intros hw hi.
    + cbn [written chain_tokens] in *. destruct g as [t|t|a c b n g]; cbn [written_operand operand_tokens map] in *.
      * destruct (hi t (or_introl eq_refl)). apply E_literal; tauto.
      * destruct (hi t (or_introl eq_refl)). apply E_variable. unfold tok. tauto.
      * destruct hw as (ha & hb & _ & _ & hw). rewrite map_app. cbn [map].
        rewrite (key_sym a TOpenParenthesis), (key_sym b TCloseParenthesis); auto;
          try (apply hi; first [now left|right; apply in_or_app; right; now left]).
        apply E_group. apply (IH c n g hw). intros t ht. apply hi. right. apply in_or_app. now left.
    + apply join_written in hw as (h1 & ho & _ & h2). rewrite join_tokens in hi |- *. rewrite map_app. cbn [map].
      assert (hin : In op ts) by (apply hi; apply in_or_app; right; now left).
      rewrite (key_sym op (t_type op) hin eq_refl (infix_fixed op ho)).
      apply E_binary; auto.
      * apply (IH c l g1 h1). intros t ht. apply hi. apply in_or_app. now left.
      * apply (IH d r g2 h2). intros t ht. apply hi. apply in_or_app. right. now right.
  - intros o n g hw hi. exact (H (One o) n (G_one _ _ _ _ g) hw hi).
Qed.
End Programs.

Lemma chain_kinds : forall c, written c -> Forall (fun t => t_type t <> THereDocEnd) (chain_tokens c).
Proof.
  fix IH 1. 
  assert (op_plain : forall t, infix_operator t -> t_type t <> THereDocEnd).
  { intros t (r & a & H) E. rewrite E in H. discriminate H. }
  assert (O : forall o, written_operand o -> Forall (fun t => t_type t <> THereDocEnd) (operand_tokens o)).
  { intros [t|t|a c b] H; cbn [written_operand operand_tokens] in *.
    - constructor; [|constructor]. intros E. destruct H as [H _]. rewrite E in H. discriminate H.
    - constructor; [|constructor]. intros E. destruct H as [H _]. congruence.
    - destruct H as (Ha & Hb & _ & _ & H). constructor; [congruence|]. apply Forall_app. split; [apply IH; exact H|].
      constructor; [congruence|constructor]. }
  intros [o|o op c] H; cbn [written chain_tokens] in *; [auto|].
  destruct H as (H1 & H2 & _ & H3). apply Forall_app. split; [auto|]. constructor; auto.
Qed.

(** What is in a file of expression statements: the opening tag, the program and
    the end of the file, with line breaks and, possibly, line comments in any
    place. *)
Definition is_program (ts : list Token) (p : program) : Prop :=
  exists tag eof, filter significant ts = tag :: program_tokens p ++ [eof]
    /\ t_type tag = TScriptStart Regular /\ t_type eof = TEof /\ p <> [] /\ plain_program p
    /\ Forall (fun t => t_type t <> TMultilineComment) ts.

Section Whole.
Context `{RT : Runtime}.

Lemma program_reads : forall p, plain_program p -> Forall (fun x => measured (snd x)) p ->
  exists l, map fst l = map (fun x => chain_tokens (fst x) ++ [snd x]) p /\
    Forall (fun x => reads_stmt (fst x) (snd x)) l /\
    Forall2 (fun x y => exists n, snd x = NExpressionStatement n /\ Groups codeL codeR (fst y) n) l p.
Proof.
  induction p as [|(c & semi) p IH]; intros hp hm.
  - exists []. splits; constructor.
  - destruct (IH (Forall_inv_tail hp) (Forall_inv_tail hm)) as (l & e & hr & h2).
    pose proof (Forall_inv hp) as (hw & _ & hs). pose proof (Forall_inv hm) as hsm. cbn [fst snd] in *.
    destruct (parses_in_script c semi hw hs hsm) as (n & G & H).
    exists ((chain_tokens c ++ [semi], NExpressionStatement n) :: l). cbn [map fst snd]. splits.
    + now rewrite e.
    + constructor; [|exact hr]. cbn [fst snd]. split; [|exact H].
      destruct (chain_first c hw) as (t & w & -> & hpl & _). exists t, (w ++ [semi]). auto.
    + constructor; [|exact h2]. exists n. auto.
Qed.

Lemma program_tree : forall ts, (exists src, scan src = SOk ts) ->
  forall p l, Forall2 (fun (x : list Token * Node) y => exists n, snd x = NExpressionStatement n /\ Groups codeL codeR (fst y) n) l p ->
  plain_program p -> (forall t, In t (program_tokens p) -> In t ts) ->
  stmts ts (map snd l) (map key_of (program_tokens p)).
Proof.
  intros ts hs p l h. induction h as [|x (c & semi) l p (n & e & G) _ IH]; intros hp hi; cbn [map program_tokens flat_map].
  - apply S_none.
  - pose proof (Forall_inv hp) as (hw & hc & ht). cbn [fst snd] in *. rewrite map_app.
    apply S_more; [|apply IH; [exact (Forall_inv_tail hp)|]].
    + rewrite e, map_app. cbn [map]. rewrite (key_sym ts hs semi TSemicolon); auto.
      * apply S_expr. apply (chain_expr ts hs codeL codeR); auto. intros t hin. rewrite Forall_forall in hc. split; [|auto].
        apply hi. cbn [program_tokens flat_map fst snd]. apply in_or_app. left. apply in_or_app. now left.
      * apply hi. cbn [program_tokens flat_map fst snd]. apply in_or_app. left. apply in_or_app. right. now left.
    + intros t hin. apply hi. cbn [program_tokens flat_map fst snd]. apply in_or_app. now right.
Qed.
End Whole.

(** Such a file is formatted; the text has all the tokens that are neither line
    breaks nor comments, in the same order. *)
Theorem C38_expressions_partial : forall (RT : Runtime) src ts p,
  scan src = SOk ts -> is_program ts p ->
  exists k, forall n, (k <= n)%nat -> exists r text ts',
    format_source n src = Reformatted r text /\
    scan text = SOk ts' /\ code ts' = map key_of (filter significant ts).
Proof.
  intros RT src ts p hs (tag & eof & hf & htag & heof & hne & hp & hc).
  assert (hsc : exists src, scan src = SOk ts) by eauto.
  assert (hin : forall t, In t (filter significant ts) -> In t ts) by (intros t h; apply filter_In in h; tauto).
  assert (kinds : forall t, In t (program_tokens p) -> t_type t <> THereDocEnd).
  { intros t ht. apply in_flat_map in ht as ((c & semi) & hx & ht). unfold plain_program in hp. rewrite Forall_forall in hp.
    destruct (hp _ hx) as (hw & _ & hsemi). cbn [fst snd] in *. apply in_app_or in ht as [ht|[<-|[]]]; [|congruence].
    pose proof (chain_kinds c hw) as F. rewrite Forall_forall in F. apply F. exact ht. }
  assert (hm : Forall measured ts).
  { apply Forall_forall. intros t ht. apply (measure ts hsc t ht). intros e.
    assert (In t (filter significant ts)) as hx by (apply filter_In; split; [exact ht|unfold significant; now rewrite e]).
    rewrite hf in hx. destruct hx as [<-|hx]; [congruence|]. apply in_app_or in hx as [hx|[<-|[]]]; [|congruence].
    exact (kinds t hx e). }
  assert (hpin : forall t, In t (program_tokens p) -> In t ts).
  { intros t ht. apply hin. rewrite hf. right. apply in_or_app. now left. }
  destruct (program_reads p hp) as (l & e & hr & h2).
  { apply Forall_forall. intros (c & semi) hx. cbn [snd]. rewrite Forall_forall in hm. apply hm. apply hpin.
    apply in_flat_map. exists (c, semi). split; [exact hx|]. apply in_or_app. right. now left. }
  assert (el : flat_map fst l = program_tokens p).
  { unfold program_tokens. rewrite !flat_map_concat_map, e. reflexivity. }
  destruct (file_parsed ts tag l eof) as (k & hk); auto.
  { now rewrite el. }
  { intros ->. inversion h2. subst. contradiction. }
  exists k. intros n hn. destruct (hk n hn) as (s & ha).
  destruct (C38_trees_partial RT n src ts (map snd l) s _ hs ha (program_tree ts hsc p l h2 hp hpin)) as (r & text & ts' & h1 & h3 & h4).
  exists r, text, ts'. splits; auto. rewrite h4, hf. cbn [map]. rewrite map_app. cbn [map].
  rewrite (key_sym ts hsc tag (TScriptStart Regular)), (key_eof ts hsc eof); auto;
    apply hin; rewrite hf; first [now left|right; apply in_or_app; right; now left].
Qed.

(** Without comments nothing is lost. *)
Theorem C38_uncommented_partial : forall (RT : Runtime) src ts p,
  scan src = SOk ts -> is_program ts p -> (forall t, In t ts -> t_type t <> TLineComment) ->
  exists k, forall n, (k <= n)%nat -> exists r text ts',
    format_source n src = Reformatted r text /\ scan text = SOk ts' /\ code ts' = code ts.
Proof.
  intros RT src ts p hs hp hl. destruct (C38_expressions_partial RT src ts p hs hp) as (k & H). exists k. intros n hn.
  destruct (H n hn) as (r & text & ts' & h1 & h2 & h3). exists r, text, ts'. splits; auto. rewrite h3. unfold code. f_equal.
  destruct hp as (_ & _ & _ & _ & _ & _ & _ & hc). rewrite Forall_forall in hc.
  apply filter_ext_in. intros t ht. unfold significant. pose proof (hl t ht) as e1. pose proof (hc t ht) as e2.
  destruct (t_type t) eqn:Et; try reflexivity; try contradiction; match goal with |- context [TScriptStart ?x] => destruct x; reflexivity end.
Qed.

(** Every line comment is lost. *)
Theorem C38_refuted_comments : forall (RT : Runtime) src ts p,
  scan src = SOk ts -> is_program ts p -> (exists t, In t ts /\ t_type t = TLineComment) ->
  exists k, forall n, (k <= n)%nat -> exists r text ts',
    format_source n src = Reformatted r text /\ scan text = SOk ts' /\
    (forall t, In t ts' -> t_type t <> TLineComment) /\ code ts' <> code ts.
Proof.
  intros RT src ts p hs hp (t & ht & e). destruct (C38_expressions_partial RT src ts p hs hp) as (k & H). exists k. intros n hn.
  destruct (H n hn) as (r & text & ts' & h1 & h2 & h3). exists r, text, ts'.
  assert (hno : forall u, In u ts' -> t_type u <> TLineComment).
  { intros u hu eu. assert (hk : In (key_of u) (code ts')).
    { unfold code. apply in_map. apply filter_In. split; [exact hu|]. rewrite eu. reflexivity. }
    rewrite h3 in hk. apply in_map_iff in hk as (v & ev & hv). apply filter_In in hv as [_ hv].
    unfold key_of in ev. injection ev as ev _. unfold significant in hv. rewrite ev, eu in hv. discriminate hv. }
  splits; auto. intros ec.
  assert (hk : In (key_of t) (code ts)).
  { unfold code. apply in_map. apply filter_In. split; [exact ht|]. rewrite e. reflexivity. }
  rewrite <- ec in hk. unfold code in hk. apply in_map_iff in hk as (v & ev & hv). apply filter_In in hv as [hv _].
  apply (hno v hv). unfold key_of in ev. injection ev as ev _. congruence.
Qed.

(** * What is lost *)

Local Existing Instance ascii_runtime | 9.

(** a file that parses without errors and whose tokens formatting changes *)
Definition loses (src : str) : Prop :=
  exists n ts l s r text ts', scan src = SOk ts /\ ast n ts = POk (l, []) s /\
    format_source n src = Reformatted r text /\ scan text = SOk ts' /\ code ts' <> code ts.
(** one that formatting aborts the server for *)
Definition aborts (src : str) : Prop :=
  exists n ts l s, scan src = SOk ts /\ ast n ts = POk (l, []) s /\ format_source n src = FormatPanic.

Lemma loses_intro : forall src,
  match scan src with
  | SOk ts =>
      match ast 60 ts, format_source 60 src with
      | POk (_, []) _, Reformatted _ text =>
          match scan text with SOk ts' => code ts' <> code ts | _ => False end
      | _, _ => False
      end
  | _ => False
  end -> loses src.
Proof.
  intros src h. destruct (scan src) as [ts| | |] eqn:e1; try contradiction.
  destruct (ast 60 ts) as [[l [|]] s| | |] eqn:e2; try contradiction.
  destruct (format_source 60 src) as [|r text| |] eqn:e3; try contradiction.
  destruct (scan text) as [ts'| | |] eqn:e4; try contradiction.
  exists 60%nat, ts, l, s, r, text, ts'. auto 8.
Qed.
Lemma aborts_intro : forall src,
  match scan src with
  | SOk ts =>
      match ast 60 ts, format_source 60 src with
      | POk (_, []) _, FormatPanic => True
      | _, _ => False
      end
  | _ => False
  end -> aborts src.
Proof.
  intros src h. destruct (scan src) as [ts| | |] eqn:e1; try contradiction.
  destruct (ast 60 ts) as [[l [|]] s| | |] eqn:e2; try contradiction.
  destruct (format_source 60 src) as [|r text| |] eqn:e3; try contradiction.
  exists 60%nat, ts, l, s. auto.
Qed.

(** Comments, imported variables of closures, types of properties, names of
    constants, values of static variables, commas between global variables, the
    number behind [break], holes in lists, a second property, [&] of functions,
    the order of [&] and [...], visibilities, imports of functions. *)
Theorem C38_refuted : Forall (fun s => loses (lit s))
  ["<?php /* a */ $a;";
   "<?php $f = function() use ($a) { return 1; };";
   "<?php $f = static function() { };";
   "<?php class A { private int $a = 1; }";
   "<?php const A = 1;";
   "<?php static $a = 1;";
   "<?php global $a, $b;";
   "<?php break 2;";
   "<?php list($a, , $b) = $c;";
   "<?php [1, 2,];";
   "<?php class A { public $a, $b; }";
   "<?php function &f() { }";
   "<?php function f(&...$c) { }";
   "<?php class A { static public function f() { } }";
   "<?php $a = NAN;";
   "<?= $a ?>";
   "<?php use function x\y;";
   "<?php ;"].
Proof. repeat (constructor; [apply loses_intro; vm_compute; discriminate|]). constructor. Qed.

(** Statements without a case in the formatter abort the server. *)
Theorem C38_refuted_abort : Forall (fun s => aborts (lit s))
  ["<?php";
   "<?php throw $a;";
   "<?php goto a;";
   "<?php if ($a): $b; endif;";
   "<?php trait A { }";
   "<?php match($a) { 1 => 2 };";
   "<?php { $a; }";
   "<?php while ($a) $b;";
   "<?php if ($a) { } else if ($b) { }";
   "<?php die(1);";
   "<?php define('a', 1);";
   "<?php declare(strict_types=1);";
   "<?php unset($a);"].
Proof. repeat (constructor; [apply aborts_intro; vm_compute; exact I|]). constructor. Qed.

(** HTML in front of the script has no token; it is lost. *)
Theorem C38_refuted_html : exists r, format_source 60 (lit "<b><?php $a;") = Reformatted r (lit "<?php" ++ [10] ++ lit "$a;" ++ [10]).
Proof. eexists. vm_compute. reflexivity. Qed.

(** * Cases *)

(** a class and a function, for [C38_trees_partial] *)
Definition sample : str := lit "<?php
abstract class A extends B implements C, D {
  const E = 'x';
  private static $f = [1, 'a' => 2];
  public function g(?int $h, $i = 3): A|null { return $this->f[$h] ?? new B($i, 4); }
}
if ($a && !$b) { echo $a, A::g(1); } else { foreach ($c as $d => $e) { $x = fn($y) => $y * 2; } }
".

Lemma at_offset : forall ts t i, t_offset t = Some i -> nth_error ts (N.to_nat i) = Some t -> In t ts.
Proof. intros ts t i _ h. eapply nth_error_In. exact h. Qed.
Ltac here := first [eapply at_offset; [reflexivity|vm_compute; reflexivity]|solve [vm_compute; repeat (first [left; reflexivity|right])]].
Ltac build :=
  match goal with
  | |- In _ _ => here
  | |- tok _ _ _ => split; [here|reflexivity]
  | |- SpecFormat.one_of _ _ _ => split; [here|here]
  | |- name _ _ => first [left; split; [here|reflexivity] | right; split; [here|here]]
  | |- type_name _ _ => first [left; left; split; [here|reflexivity] | right; split; [here|here] | left; right; split; [here|here]]
  | |- _ <> _ => vm_compute; discriminate
  | |- infix_operator _ => eexists _, _; reflexivity
  | |- literal _ = true => reflexivity
  | |- complete _ => first [exact I|eexists; split; [reflexivity|split; [|intros hx; vm_compute in hx; intuition discriminate]]]
  | |- forall s' l', _ => intros s' l' e; vm_compute in e; first [discriminate e|injection e as <- <-; vm_compute; discriminate]
  | |- stmts _ [] _ => apply S_none
  | |- param _ (NFunctionArgument ?ty ?v None None None None None []) _ => eapply (A_plain _ ty _ v None)
  | |- param _ (NFunctionArgument ?ty ?v (Some ?t) (Some ?e) None None None []) _ => eapply (A_plain _ ty _ v (Some (t, e)))
  | |- expr _ (NLiteral _) _ => first [eapply E_literal; [|reflexivity|]|eapply E_name]
  | _ => econstructor
  end.
Definition sample_tokens : list Token := Eval vm_compute in match scan sample with SOk ts => ts | _ => [] end.
Definition sample_tree : list Node := Eval vm_compute in match ast 40 sample_tokens with POk (l, _) _ => l | _ => [] end.
Lemma sample_stmts : exists ks, stmts sample_tokens sample_tree ks /\ code sample_tokens = (TScriptStart Regular, None) :: ks ++ [(TEof, None)].
Proof.
  unfold sample_tree. eexists. split; [repeat build|vm_compute; reflexivity].
Qed.
Example C38_trees_ex : exists ts l s ks, scan sample = SOk ts /\ ast 40 ts = POk (l, []) s /\ stmts ts l ks /\
  code ts = (TScriptStart Regular, None) :: ks ++ [(TEof, None)].
Proof.
  destruct sample_stmts as (ks & h).
  assert (e : exists s, ast 40 sample_tokens = POk (sample_tree, []) s) by (eexists; vm_compute; reflexivity).
  destruct e as (s & e). exists sample_tokens, sample_tree, s, ks. split; [vm_compute; reflexivity|]. split; [exact e|exact h].
Qed.

(** a program with line breaks, for [C38_expressions_partial] *)
Definition lines : str := lit "<?php
$a = 1 + $b * ('x' . 2);
$c
  ??= $a === 3;".
Definition lines_tokens : list Token := Eval vm_compute in match scan lines with SOk ts => ts | _ => [] end.
Definition lines_program : program := Eval vm_compute in
  let t i := nth i (filter significant lines_tokens) (token_new TEof 0 0 0) in
  [ (More (Var (t 1%nat)) (t 2%nat) (More (Lit (t 3%nat)) (t 4%nat) (More (Var (t 5%nat)) (t 6%nat)
      (One (Paren (t 7%nat) (More (Lit (t 8%nat)) (t 9%nat) (One (Lit (t 10%nat)))) (t 11%nat))))), t 12%nat);
    (More (Var (t 13%nat)) (t 14%nat) (More (Var (t 15%nat)) (t 16%nat) (One (Lit (t 17%nat)))), t 18%nat)].
Ltac settle :=
  repeat match goal with
  | |- _ /\ _ => split
  | |- Forall _ _ => constructor
  | |- _ <> _ => discriminate
  | |- complete _ => first [exact I|eexists; split; [reflexivity|split; [|intros hx; vm_compute in hx; intuition discriminate]]]
  | |- quoted_body _ _ => constructor
  | |- infix_operator _ => eexists _, _; reflexivity
  | |- measured _ => eexists; vm_compute; reflexivity
  | |- _ = _ => reflexivity
  end.
Example C38_expressions_ex : scan lines = SOk lines_tokens /\ is_program lines_tokens lines_program /\
  (forall t, In t lines_tokens -> t_type t <> TLineComment).
Proof.
  split; [vm_compute; reflexivity|]. split.
  - eexists _, _. split; [reflexivity|]. unfold lines_program, plain_program, lines_tokens. cbn [written written_operand chain_tokens operand_tokens app].
    settle; cbn [fst snd written written_operand chain_tokens operand_tokens app]; settle.
  - apply Forall_forall. unfold lines_tokens. settle.
Qed.

Example C38_errors_ex : exists ts l e s, scan (lit "<?php $a = ;") = SOk ts /\ ast 40 ts = POk (l, [e]) s.
Proof. eexists _, _, _, _. split; [vm_compute; reflexivity|]. vm_compute. reflexivity. Qed.

Print Assumptions C38_errors.
Print Assumptions C38_whole.
Print Assumptions C38_trees_partial.
Print Assumptions C38_expressions_partial.
Print Assumptions C38_uncommented_partial.
Print Assumptions C38_refuted_comments.
Print Assumptions C38_refuted.
Print Assumptions C38_refuted_abort.
Print Assumptions C38_refuted_html.
