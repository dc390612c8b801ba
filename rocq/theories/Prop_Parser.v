(** C10, C12, C13, C14, C18: what the parser makes of any list of tokens.

    [ast fuel ts] is [Parser::ast]; [fuel] bounds the depth of the recursion
    and the rounds of each loop.  The theorems hold for every [fuel]. *)

From Verif Require Import Base Token TokenFacts Scanner SpecScanner Node DocBlock Parser.
From Verif Require Import DocFacts ParserSpec ParserAst NodeFacts.

Local Open Scope string_scope.

(** * Vocabulary *)

(** A placeholder for something that is missing in the file *)
Definition is_placeholder (t : Token) : Prop := t_type t = TMissing /\ t_label t = None.

(** A node that holds nothing but text of a doc comment *)
Definition doc_leaf (n : Node) : Prop :=
  match n with
  | NDocCommentParam _ _ _ | NDocCommentProperty _ _ _ | NDocCommentVar _ _ _ | NDocCommentReturn _ _ => True
  | _ => False
  end.

(** [n] was read from the text of the comment [c]. *)
Definition read_from_comment `{RT : Runtime} (c : Token) (n : Node) : Prop :=
  exists rt de dep ps vs prs,
    docblock_scan c = Some (NDocComment c rt de dep ps vs prs) /\ In n (rt ++ ps ++ vs ++ prs).

(** The token of an error report *)
Definition error_token (e : perr) : option Token :=
  match e with
  | EWrongToken _ t | EMissingIdentifier t | EUnexpectedToken t | ERValueInWriteContext t => Some t
  | EIllegalOffset _ | EEof => None
  end.

(** [pos] = (column, line) is where some token of the file ends. *)
Definition behind_a_token (ts : list Token) (t : Token) : Prop :=
  exists u, In u ts /\ token_end u = Some (t_col t, t_line t).

Section Parser.
Context `{RT : Runtime}.

(** * C10 *)

(** Partial: files with a heredoc that has no name are excluded; the parser
    does crash on them, see [C10_refuted]. *)
Theorem C10_no_panic_partial : forall src ts fuel,
  scan src = SOk ts ->
  ~ (exists t, In t ts /\ t_type t = THereDocEnd /\ t_label t = Some []) ->
  ast fuel ts <> PPanic.
Proof.
  intros src ts fuel Hs Hn Hp. pose proof (ast_scanned fuel src ts Hs) as G. rewrite Hp in G. auto.
Qed.

(** The result of [ast] is never an [Err]: errors are collected. *)
Theorem C10_always_a_tree : forall src ts fuel,
  scan src = SOk ts ->
  forall e s, ast fuel ts <> PFail e s.
Proof.
  intros src ts fuel Hs e s Hp. pose proof (ast_scanned fuel src ts Hs) as G. rewrite Hp in G. auto.
Qed.

(** * C12 *)

Theorem C12_tree_tokens : forall fuel ts stmts errs s,
  ast fuel ts = POk (stmts, errs) s ->
  forall root, In root stmts ->
  (forall t, token_in t root -> In t ts \/ is_placeholder t)
  /\ (forall n, node_in n root -> doc_leaf n ->
        exists c, In c ts /\ t_type c = TMultilineComment /\ read_from_comment c n).
Proof.
  intros fuel ts stmts errs s Ha root Hr. destruct (ast_any fuel ts stmts errs s Ha) as [G _].
  rewrite Forall_forall in G. specialize (G root Hr). split.
  - intros t (m & Hm & Ht). pose proof (Good_in _ _ _ _ _ G Hm) as Gm. inversion Gm as [? [Hk _] _]; subst.
    rewrite Forall_forall in Hk. destruct (Hk t Ht) as [H|[_ H]]; auto. right. split; apply H.
  - intros n Hn Hd. pose proof (Good_in _ _ _ _ _ G Hn) as Gm. inversion Gm as [? [_ [Hk _]] _]; subst.
    assert (Hp : doc_part (fun t => In t ts) n) by (destruct n; try contradiction; apply Hk).
    destruct Hp as (c & d & H1 & H2 & H3 & H4). exists c. split; [|split]; auto.
    assert (Hl : t_label c <> None) by (unfold docblock_scan in H3; destruct (t_label c); discriminate).
    destruct (docblock_scan_some c Hl) as (rt & de & dep & ps & vs & prs & E1 & _).
    rewrite E1 in H3. injection H3 as <-. exists rt, de, dep, ps, vs, prs. auto.
Qed.

(** * C13 *)

Theorem C13_no_silent_placeholder : forall fuel src ts stmts s,
  scan src = SOk ts -> ast fuel ts = POk (stmts, []) s ->
  forall root, In root stmts ->
  (forall t, token_in t root -> t_type t <> TMissing /\ In t ts)
  /\ (forall t, ~ node_in (NMissing t) root).
Proof.
  intros fuel src ts stmts s Hs Ha root Hr. destruct (ast_any fuel ts stmts [] s Ha) as [G _].
  rewrite Forall_forall in G. specialize (G root Hr). split.
  - intros t (m & Hm & Ht). pose proof (Good_in _ _ _ _ _ G Hm) as Gm. inversion Gm as [? [Hk _] _]; subst.
    rewrite Forall_forall in Hk. destruct (Hk t Ht) as [H|[H _]]; [|contradiction].
    split; auto. eapply scan_not_missing; eauto.
  - intros t Hn. pose proof (Good_in _ _ _ _ _ G Hn) as Gm. inversion Gm as [? [_ [_ Hk]] _]; subst.
    apply (Hk t eq_refl). reflexivity.
Qed.

(** * C14 *)

(** The claim *)
Definition error_in_file (ts : list Token) (e : perr) : Prop :=
  match error_token e with
  | Some t => In t ts \/ (is_placeholder t /\ exists last, last_opt ts = Some last
                          /\ (t_col t, t_line t) = (t_col last, t_line last))
  | None => True
  end.

(** Partial: an error carries a token of the file, or a placeholder behind a
    token of the file, at the very start, or - the fault of [C14_refuted] -
    at the end of the file with line and column exchanged. *)
Theorem C14_error_positions_partial : forall fuel ts stmts errs s,
  ast fuel ts = POk (stmts, errs) s ->
  forall e t, In e errs -> error_token e = Some t ->
  In t ts
  \/ (is_placeholder t
      /\ (behind_a_token ts t
          \/ (t_col t, t_line t) = (0, 0)
          \/ exists last, last_opt ts = Some last /\ (t_col t, t_line t) = (t_line last, t_col last))).
Proof.
  intros fuel ts stmts errs s Ha e t He Ht. destruct (ast_any fuel ts stmts errs s Ha) as [_ G].
  rewrite Forall_forall in G. specialize (G e He).
  assert (Hk : err_tok (fun t => In t ts) (eof_of ts) t).
  { destruct e; cbn in Ht; try discriminate; injection Ht as <-; try exact G. contradiction. }
  destruct Hk as [Hk|(H1 & H2 & H3)]; auto. right. split; [split; auto|].
  destruct H3 as [H3|[H3|H3]]; auto. unfold eof_of in H3. destruct (last_opt ts) eqn:El; eauto.
Qed.

(** * C18 *)

(** Partial: trees in which a [static] statement has no initialised variable,
    a [case] has no statement or a [use] in a class has no name are excluded;
    on those the computation does panic, see [C18_refuted_static] and the
    others.  So are files with a nameless heredoc. *)
Theorem C18_ranges_partial : forall fuel src ts stmts errs s,
  scan src = SOk ts ->
  ~ (exists t, In t ts /\ t_type t = THereDocEnd /\ t_label t = Some []) ->
  ast fuel ts = POk (stmts, errs) s ->
  forall root n, In root stmts -> node_in n root ->
  (forall m, node_in m n -> ~ hollow m) ->
  exists r, node_range n = Some r.
Proof.
  intros fuel src ts stmts errs s Hs Hn Ha root n Hr Hi Hh. destruct (ast_any fuel ts stmts errs s Ha) as [G _].
  rewrite Forall_forall in G. specialize (G root Hr). pose proof (Good_in _ _ _ _ _ G Hi) as Gm.
  pose proof (range_defined (fun t => In t ts) (eof_of ts)) as R.
  specialize (R ltac:(intros t Ht; eapply scan_end; eauto; intros K; apply Hn; exists t; exact (conj Ht K)) _ n Gm Hh).
  unfold has in R. destruct (node_range n) as [r|]; eauto. contradiction.
Qed.

End Parser.

(** * Executions: refutations, and cases that meet the hypotheses *)

Local Existing Instance ascii_runtime.

Definition parse (fuel : nat) (src : list N) : option (list Token * res (list Node * list perr)) :=
  match scan src with SOk ts => Some (ts, ast fuel ts) | _ => None end.

Lemma parse_panics : forall fuel src,
  match parse fuel src with Some (_, PPanic) => true | _ => false end = true ->
  exists ts, scan src = SOk ts /\ ast fuel ts = PPanic.
Proof.
  intros fuel src. unfold parse. destruct (scan src) as [ts| | |]; try discriminate.
  destruct (ast fuel ts) eqn:E; try discriminate. eauto.
Qed.
Definition parses (fuel : nat) (src : list N) (f : list Token -> list Node -> list perr -> bool) : bool :=
  match parse fuel src with Some (ts, POk (st, e) _) => f ts st e | _ => false end.
Lemma parses_ok : forall fuel src f, parses fuel src f = true ->
  exists ts stmts errs s, scan src = SOk ts /\ ast fuel ts = POk (stmts, errs) s /\ f ts stmts errs = true.
Proof.
  intros fuel src f. unfold parses, parse. destruct (scan src) as [ts| | |]; try discriminate.
  destruct (ast fuel ts) as [[st e] s| | |] eqn:E; try discriminate. intros H. exists ts, st, e, s. auto.
Qed.

Definition unranged (stmts : list Node) : bool :=
  existsb (fun n => negb (is_some (node_range n))) (flat_map (all_nodes 20) stmts).
Lemma unranged_ok : forall stmts, unranged stmts = true ->
  exists root n, In root stmts /\ node_in n root /\ node_range n = None.
Proof.
  intros stmts H. apply existsb_exists in H as (n & Hn & Hr). apply in_flat_map in Hn as (root & H1 & H2).
  exists root, n. split; [|split]; auto.
  - eapply all_nodes_in; eauto.
  - destruct (node_range n); [discriminate|reflexivity].
Qed.

(** a user starts to write a heredoc *)
Definition src_nameless : list N := lit "<?php
$a = <<<
x

;".
Theorem C10_refuted : exists src ts fuel, scan src = SOk ts /\ ast fuel ts = PPanic.
Proof.
  exists src_nameless. destruct (parse_panics 40 src_nameless) as (ts & H); [vm_compute; reflexivity|]. eauto.
Qed.

(** [class] at the end of line 1, column 5: the error points to line 5. *)
Definition src_class : list N := lit "<?php
class".
Definition misplaced (ts : list Token) (_ : list Node) (errs : list perr) : bool :=
  existsb (fun e => match error_token e with
                    | Some t => negb (existsb (fun u => (t_line t <=? t_line u)%N) ts)
                    | None => false
                    end) errs.
Theorem C14_refuted : exists src ts fuel stmts errs s e,
  scan src = SOk ts /\ ast fuel ts = POk (stmts, errs) s /\ In e errs /\ ~ error_in_file ts e
  (* it is not even on a line of the file *)
  /\ exists t, error_token e = Some t /\ forall u, In u ts -> (t_line u < t_line t)%N.
Proof.
  destruct (parses_ok 40 src_class misplaced) as (ts & st & er & s & H1 & H2 & H3); [vm_compute; reflexivity|].
  apply existsb_exists in H3 as (e & He & Hm).
  exists src_class, ts, 40%nat, st, er, s, e. split; [|split; [|split]]; auto.
  destruct (error_token e) as [t|] eqn:Et; [|discriminate].
  assert (L : forall u, In u ts -> (t_line u < t_line t)%N).
  { intros u Hu. destruct (N.leb_spec (t_line t) (t_line u)) as [Hle|Hlt]; auto. exfalso.
    assert (existsb (fun u => (t_line t <=? t_line u)%N) ts = true)
      by (apply existsb_exists; exists u; split; auto; now apply N.leb_le).
    rewrite H in Hm. discriminate. }
  split; eauto. unfold error_in_file. rewrite Et. intros [Hin|(_ & last & Hl & Hp)].
  - specialize (L t Hin). lia.
  - injection Hp as Hc Hln. assert (Hin : In last ts).
    { unfold last_opt in Hl. destruct (rev ts) eqn:Er; [discriminate|]. injection Hl as ->.
      apply in_rev. rewrite Er. left; reflexivity. }
    specialize (L last Hin). lia.
Qed.

Definition src_static : list N := lit "<?php static $a;".
Definition src_switch : list N := lit "<?php switch ($a) { case 1: }".
Definition src_use : list N := lit "<?php class A { use ; }".

Theorem C18_refuted_static : exists ts fuel stmts s,
  scan src_static = SOk ts /\ ast fuel ts = POk (stmts, []) s
  /\ exists root n, In root stmts /\ node_in n root /\ node_range n = None.
Proof.
  destruct (parses_ok 40 src_static (fun _ st e => unranged st && match e with [] => true | _ => false end))
    as (ts & st & er & s & H1 & H2 & H3); [vm_compute; reflexivity|].
  apply andb_true_iff in H3 as [H3 H4]. destruct er; [|discriminate].
  exists ts, 40%nat, st, s. split; [|split]; auto. now apply unranged_ok.
Qed.
Theorem C18_refuted_switch : exists ts fuel stmts s,
  scan src_switch = SOk ts /\ ast fuel ts = POk (stmts, []) s
  /\ exists root n, In root stmts /\ node_in n root /\ node_range n = None.
Proof.
  destruct (parses_ok 40 src_switch (fun _ st e => unranged st && match e with [] => true | _ => false end))
    as (ts & st & er & s & H1 & H2 & H3); [vm_compute; reflexivity|].
  apply andb_true_iff in H3 as [H3 H4]. destruct er; [|discriminate].
  exists ts, 40%nat, st, s. split; [|split]; auto. now apply unranged_ok.
Qed.
Theorem C18_refuted_use : exists ts fuel stmts errs s,
  scan src_use = SOk ts /\ ast fuel ts = POk (stmts, errs) s
  /\ exists root n, In root stmts /\ node_in n root /\ node_range n = None.
Proof.
  destruct (parses_ok 40 src_use (fun _ st e => unranged st))
    as (ts & st & er & s & H1 & H2 & H3); [vm_compute; reflexivity|].
  exists ts, 40%nat, st, er, s. split; [|split]; auto. now apply unranged_ok.
Qed.

(** A program that meets the hypotheses of the theorems above: it parses
    without an error, has no nameless heredoc, no hollow node and a doc
    comment with parts. *)
Definition src_good : list N := lit "<?php
namespace App;

use Foo\Bar as Baz;

/**
 * @property string $name the name
 */
class A extends B implements C {
    private ?int $x = 1 + 2 * 3;

    /** @param string $n */
    public function f($n, ...$rest): string {
        foreach ($rest as $k => $v) { echo $v, <<<X
text
X; }
        if ($n instanceof Baz) { return $this->x ?? [1, 'a' => 2]; } else { return $n . 'b'; }
    }
}
".
Definition hollowb (n : Node) : bool :=
  match n with NStaticVariablesStatement _ [] | NSwitchBranch _ [] | NUseTraitStatement _ [] => true | _ => false end.
Definition doc_leafb (n : Node) : bool :=
  match n with
  | NDocCommentParam _ _ _ | NDocCommentProperty _ _ _ | NDocCommentVar _ _ _ | NDocCommentReturn _ _ => true
  | _ => false
  end.
Definition witness (ts : list Token) (stmts : list Node) (errs : list perr) : bool :=
  let nodes := flat_map (all_nodes 30) stmts in
  match errs with [] => true | _ => false end
  && negb (existsb (fun t => tt_eqb (t_type t) THereDocEnd && match t_label t with Some [] => true | _ => false end) ts)
  && negb (existsb hollowb nodes)
  && existsb doc_leafb nodes
  && (60 <? List.length nodes)%nat.
Example C12_C13_C18_hypotheses : parses 60 src_good witness = true.
Proof. vm_compute. reflexivity. Qed.
(** ... and one with errors and placeholders *)
Example C14_hypotheses :
  parses 60 (lit "<?php class A { function (; public $x } if ($a {")
    (fun ts stmts errs => (3 <? List.length errs)%nat
       && existsb (fun n => existsb (fun t => tt_eqb (t_type t) TMissing) (own_toks n)) (flat_map (all_nodes 30) stmts)) = true.
Proof. vm_compute. reflexivity. Qed.

Print Assumptions C10_no_panic_partial.
Print Assumptions C10_always_a_tree.
Print Assumptions C10_refuted.
Print Assumptions C12_tree_tokens.
Print Assumptions C13_no_silent_placeholder.
Print Assumptions C14_error_positions_partial.
Print Assumptions C14_refuted.
Print Assumptions C18_ranges_partial.
Print Assumptions C18_refuted_static.
Print Assumptions C18_refuted_switch.
Print Assumptions C18_refuted_use.
