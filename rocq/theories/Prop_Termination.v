(** C11: the parser finishes. False as it stands: six programs on which the
    model never finishes, whatever the fuel. A valid program is among them.
    True for every token list that avoids these constructs ([calm], see
    SpecCalm.v), with fuel linear in the number of tokens. *)

From Verif Require Import Base Token Scanner Node DocBlock Parser ParserFuel ParserHang TokenFacts SpecCalm ParserTerm ParserTermG.
From Coq Require Import String List NArith. Import ListNotations.
Local Open Scope string_scope.
Local Existing Instance ascii_runtime.

(** The scanner accepts the text and the parser finds no answer, however many
    steps it is given. *)
Definition hangs (x : string) : Prop :=
  exists ts, scan (lit x) = SOk ts /\ forall fuel, ast fuel ts = PFuel.

(** More fuel never changes an answer: [PFuel] for every fuel is divergence. *)
Theorem C11_fuel_is_time : forall fuel fuel' ts,
  (fuel <= fuel')%nat -> ast fuel ts <> PFuel -> ast fuel' ts = ast fuel ts.
Proof. intros n n' ts H Hf. destruct (ast_mono n n' ts H); congruence. Qed.


(** a [global] statement the user has not finished *)
Theorem C11_refuted_global : hangs "<?php global $a".
Proof.
  eexists. split; [vm_compute; reflexivity|]. run_first 20%nat. run_statement. run_script.
  unfold global_variables. run_ok. run_ok. run_ok. run_down. apply stuck_global. reflexivity.
Qed.

(** a trait use the user has not finished *)
Theorem C11_refuted_trait_use : hangs "<?php class A { use B {".
Proof.
  eexists. split; [vm_compute; reflexivity|]. run_first 20%nat. run_statement. run_script.
  unfold class_statement. run_ok. run_ok. run_ok. run_ok. run_ok. run_ok. run_ok. run_down.
  unfold class_block. run_ok. run_down. rewrite ploop_S. run_down. run_ok. run_down. apply pcatch_fuel.
  unfold class_block_statement. run_ok.
  unfold use_trait_statement. run_ok. run_down. unfold trait_usages. run_down. rewrite ploop_S. run_down.
  run_ok. run_ok. run_ok. run_down. 
  unfold trait_usage_alteration_group. run_ok. run_down. rewrite ploop_S. run_ok.
  refine (ploop_stuck _ _ at_end _ _ _ _ _ _); [|reflexivity].
  clear. intros vars s Hs. at_end s Hs.
  do 2 eexists. split; [lazy -[app N.add N.sub]; reflexivity|]. reflexivity.
Qed.

(** a closure the user has not finished *)
Theorem C11_refuted_closure_use : hangs "<?php $x = function() use ($a".
Proof.
  eexists. split; [vm_compute; reflexivity|]. run_first 20%nat. run_statement. run_script.
  unfold expression_or_label. run_ok. run_ok. run_down. unfold expression_statement. run_down.
  rewrite r_expr_S. unfold expression_body. run_ok. run_ok. unfold operator_loop. rewrite ploop_S. run_down.
  run_ok. run_ok. 
  match goal with |- (if ?b then _ else _) _ = _ => change b with false; cbv iota end.
  run_ok. match goal with |- (if ?b then _ else _) _ = _ => change b with false; cbv iota end.
  run_down. rewrite r_expr_S. unfold expression_body. run_ok. run_down. 
  rewrite r_call_S. unfold call. run_down. unfold primary. do 15 run_ok.
  unfold anonymous_function. do 6 run_ok. run_down. run_ok. run_down.
  unfold non_empty_lexical_variables_list. run_ok. run_ok. run_ok. run_down. rewrite ploop_S. run_ok. apply stuck_lexical. reflexivity.
Qed.

(** an echo tag with an expression that does not start *)
Theorem C11_refuted_echo_tag : hangs "<?= );".
Proof.
  eexists. split; [vm_compute; reflexivity|]. run_first 20%nat. run_ok. apply stuck_out.
  - intros s H. exists s. split; [reflexivity|exact H].
  - split; [reflexivity|]. do 2 eexists. split; reflexivity.
Qed.

(** a [do] whose body is closed by [?>] *)
Theorem C11_refuted_do_while : hangs "<?php do foo() ?> <?php while (1);".
Proof.
  eexists. split; [vm_compute; reflexivity|]. run_first 20%nat. run_ok. apply stuck_out.
  - intros s H. exists s. split; [reflexivity|exact H].
  - split; [reflexivity|]. do 2 eexists. split; reflexivity.
Qed.

(** a valid program: a closure inside an echo tag *)
Theorem C11_refuted_valid_program : hangs "<?= f(function() { return 1; }) ?>".
Proof.
  eexists. split; [vm_compute; reflexivity|]. run_first 30%nat. run_statement. run_ok. run_ok. run_down. apply pcatch_fuel.
  unfold short_tag_echo_statement. run_ok. run_down. unfold comma_expressions. run_down.
  rewrite r_expr_S. unfold expression_body. run_ok. run_down. rewrite r_call_S. unfold call. run_ok. unfold init_call. rewrite ploop_S. run_down.
  run_ok. run_down. unfold finish_call. run_ok. run_down. rewrite ploop_S. run_down. run_ok. run_ok. run_down. run_ok. run_ok. run_ok.
  rewrite r_expr_S. unfold expression_body. run_ok. run_down. 
  rewrite r_call_S. unfold call. run_down. unfold primary. do 15 run_ok.
  unfold anonymous_function. do 8 run_ok. run_down. rewrite r_block_S. unfold block_body. run_ok. run_down.
  rewrite statements_rounds, ploop_S. run_ok.
  apply stuck_out.
  - apply stop_not_semicolon. reflexivity.
  - split; [reflexivity|]. do 2 eexists. split; reflexivity.
Qed.

(** * Where it finishes *)

(** Any token list, broken or not, that starts with [<?php] or [<?] and is
    calm: the parser has an answer (a tree with errors, or a panic), the same
    for every fuel from [6 * length + 4] on. What is missing from the full
    claim are the constructs that [calm] excludes. *)
Theorem C11_finishes_partial : forall `{RT : Runtime} (ts : list Token),
  starts_with [TScriptStart Regular; TScriptStart Short] (filter significant ts) ->
  calm false (filter significant ts) ->
  exists answer, answer <> PFuel /\
    forall fuel, (6 * List.length ts + 4 <= fuel)%nat -> ast fuel ts = answer.
Proof.
  intros RT ts Hs Hc. exists (ast (6 * List.length ts + 4) ts). split.
  - apply ast_finishes; auto.
  - intros fuel Hf. destruct (ast_mono _ _ ts Hf) as [H|H]; [|auto].
    exfalso. revert H. apply ast_finishes; auto.
Qed.

(** a program with every guarded construct, unfinished at its end *)
Definition calm_program : string :=
  "<?php namespace A; use B\C; final class D { use T, U; function f() { global $x, $y; do { $x = 1; } while ($y);
   return function($a) use (&$x, $y) { return $a; }; } } if ($z): ?> text <?php else: foo(); endif; $x = [1, ".

(** a checker for [calm] *)
Definition is_type (ty : TokenType) (t : Token) : bool := tt_eqb (t_type t) ty.
Fixpoint global_listb (l : list Token) : bool :=
  match l with
  | v :: x :: r =>
      is_type TVariable v && match t_label v with Some _ => true | None => false end
      && (is_type TSemicolon x || (is_type TComma x && global_listb r))
  | _ => false
  end.
Fixpoint closure_listb (fuel : nat) (l : list Token) : bool :=
  match fuel with
  | O => false
  | S fuel =>
      let rest l := match l with
                    | c :: r => is_type TCloseParenthesis c || (is_type TComma c && closure_listb fuel r)
                    | [] => false
                    end in
      match l with
      | a :: ((v :: r2) as r) =>
          (is_type TBinaryAnd a && is_type TVariable v && rest r2) || (is_type TVariable a && rest r)
      | _ => false
      end
  end.
Definition startsb (types : list TokenType) (l : list Token) : bool :=
  match l with t :: _ => existsb (fun ty => is_type ty t) types | [] => false end.
Fixpoint calmb (in_class : bool) (l : list Token) : bool :=
  match l with
  | [] => true
  | t :: r =>
      match t_type t with
      | TEof => match r with [] => true | _ => false end
      | TScriptStart EchoTag => false
      | TScriptEnd => match r with [] => true | _ => startsb [TScriptStart Regular; TScriptStart Short; TEof] r end
      | TDo => startsb [TOpenCurly] r
      | TGlobal => global_listb r
      | TCloseParenthesis =>
          match r with
          | u :: op :: r' => negb (is_type TUse u) || (is_type TOpenParenthesis op && closure_listb (S (List.length r')) r')
          | [u] => negb (is_type TUse u)
          | [] => true
          end
      | TUse => negb in_class || negb (startsb [TOpenCurly] (drop_names r))
      | _ => true
      end
      && calmb (in_class || class_keyword t) r
  end%bool.

Lemma is_type_iff : forall ty t, is_type ty t = true <-> t_type t = ty.
Proof. intros ty t. unfold is_type. destruct (tt_eqb_spec (t_type t) ty); intuition congruence. Qed.
Lemma startsb_iff : forall types l, startsb types l = true <-> starts_with types l.
Proof.
  intros types [|t l]; cbn; [intuition congruence|]. rewrite existsb_exists. split.
  - intros (ty & H1 & H2). apply is_type_iff in H2. congruence.
  - intros H. exists (t_type t). rewrite is_type_iff. auto.
Qed.
Lemma global_listb_ok : forall m l, (List.length l <= m)%nat -> global_listb l = true -> global_list l.
Proof.
  induction m as [|m IH]; intros [|v [|x r]] Hl H; cbn in H, Hl; try discriminate; try lia.
  rewrite !Bool.andb_true_iff, Bool.orb_true_iff, Bool.andb_true_iff, !is_type_iff in H.
  destruct H as [[H1 H2] H3]. assert (t_label v <> None) by (destruct (t_label v); congruence).
  destruct H3 as [H3|[H3 H4]]; [apply gl_last; auto|apply gl_more; auto; apply IH; auto; lia].
Qed.
Lemma closure_listb_ok : forall m l, closure_listb m l = true -> closure_list l.
Proof.
  induction m as [|m IH]; intros l H; [discriminate|]. destruct l as [|a [|v r]]; try discriminate. cbn [closure_listb] in H.
  assert (Hr : forall l, match l with
                    | c :: r => is_type TCloseParenthesis c || (is_type TComma c && closure_listb m r)
                    | [] => false
                    end%bool = true -> closure_rest l).
  { intros [|c l] Hc; [discriminate|]. rewrite Bool.orb_true_iff, Bool.andb_true_iff, !is_type_iff in Hc.
    destruct Hc as [Hc|[Hc Hd]]; [apply cr_close; auto|apply cr_more; auto]. }
  rewrite Bool.orb_true_iff, !Bool.andb_true_iff in H. destruct H as [[[H1 H2] H3]|[H1 H2]].
  - apply is_type_iff in H1, H2. apply cl_ref; auto.
  - apply is_type_iff in H1. apply cl_var; auto.
Qed.
Lemma calmb_ok : forall l b, calmb b l = true -> calm b l.
Proof.
  induction l as [|t r IH]; intros b H; [exact I|]. cbn [calmb] in H. apply andb_prop in H. destruct H as [H Hr].
  split; [|auto]. destruct (t_type t) eqn:Et; auto.
  - destruct r; [auto|discriminate].
  - destruct r as [|u [|op r']]; auto.
    + rewrite Bool.negb_true_iff in H. intros X. apply is_type_iff in X. congruence.
    + rewrite Bool.orb_true_iff, Bool.andb_true_iff, Bool.negb_true_iff in H. intros X. apply is_type_iff in X.
      destruct H as [H|[H1 H2]]; [congruence|]. split; [apply is_type_iff; auto|eapply closure_listb_ok; eauto].
  - destruct r as [|u r]; [auto|right; apply startsb_iff; auto].
  - destruct k; auto. discriminate.
  - apply startsb_iff; auto.
  - intros ->. cbn in H. rewrite Bool.negb_true_iff in H. intros X. apply startsb_iff in X. congruence.
  - eapply global_listb_ok; eauto.
Qed.

Example calm_program_is_calm : exists ts, scan (lit calm_program) = SOk ts /\
  starts_with [TScriptStart Regular; TScriptStart Short] (filter significant ts) /\
  calm false (filter significant ts).
Proof.
  eexists. split; [vm_compute; reflexivity|]. split; [left; reflexivity|].
  apply calmb_ok. vm_compute. reflexivity.
Qed.

Print Assumptions C11_refuted_global.
Print Assumptions C11_refuted_trait_use.
Print Assumptions C11_refuted_closure_use.
Print Assumptions C11_refuted_echo_tag.
Print Assumptions C11_refuted_do_while.
Print Assumptions C11_refuted_valid_program.
Print Assumptions C11_fuel_is_time.
Print Assumptions C11_finishes_partial.
