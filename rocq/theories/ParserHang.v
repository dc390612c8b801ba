(** Loops of the parser that never end: whatever the fuel, it is used up. *)

From Verif Require Import Base Token Node DocBlock Parser ParserFuel.

Lemma bind_fuel : forall A B (m : P A) (f : A -> P B) s, m s = PFuel -> bind m f s = PFuel.
Proof. intros A B m f s H. unfold bind. rewrite H. reflexivity. Qed.
Lemma pcatch_fuel : forall A (m : P A) s, m s = PFuel -> pcatch m s = PFuel.
Proof. intros A m s H. unfold pcatch. rewrite H. reflexivity. Qed.
Lemma ploop_S : forall A B n (body : A -> P (A + B)) a,
  ploop (S n) body a = (x <- body a ;; match x with inl a' => ploop n body a' | inr b => ret b end).
Proof. reflexivity. Qed.

(** A loop whose rounds lead from stuck states to stuck states *)
Lemma ploop_stuck : forall A B (Stuck : pst -> Prop) (body : A -> P (A + B)),
  (forall a s, Stuck s -> exists a' s', body a s = POk (inl a') s' /\ Stuck s') ->
  forall k a s, Stuck s -> ploop k body a s = PFuel.
Proof.
  intros A B Stuck body Hb. induction k as [|k IH]; intros a s Hs; [reflexivity|].
  rewrite ploop_S. unfold bind. destruct (Hb a s Hs) as (a' & s' & E & Hs'). rewrite E. apply IH, Hs'.
Qed.

Definition at_end (s : pst) : Prop := p_toks s = [].

Ltac at_end s H := destruct s as [docs toks errs ctx eof ep]; unfold at_end in H; cbn [p_toks] in H; subst toks.

(** variables.rs:67-77 at the end of the file *)
Lemma stuck_global : forall r n k vars s, at_end s ->
  ploop k (fun vars =>
            b <- next_token_one_of [TSemicolon] ;;
            if b then break vars
            else
              v <- variable r (S n) ;;
              let vars := vars ++ [v] in
              b <- next_token_one_of [TSemicolon] ;;
              if b then break vars
              else (consume_or_ff_after TComma [TSemicolon] ;;; continue vars)) vars s = PFuel.
Proof.
  intros r n. apply ploop_stuck with (Stuck := at_end). intros vars s Hs. at_end s Hs.
  do 2 eexists. split; [lazy -[app N.add N.sub]; reflexivity|]. reflexivity.
Qed.

(** variables.rs:136-146 at the end of the file *)
Lemma stuck_lexical : forall k args s, at_end s ->
  ploop k (fun arguments =>
      b <- next_token_one_of [TCloseParenthesis] ;;
      if b then break arguments
      else
        v <- lexical_variable ;;
        let arguments := arguments ++ [v] in
        b <- next_token_one_of [TCloseParenthesis] ;;
        if b then break arguments
        else (consume_or_ff_after TComma [TSemicolon] ;;; continue arguments)) args s = PFuel.
Proof.
  apply ploop_stuck with (Stuck := at_end). intros vars s Hs. at_end s Hs.
  do 2 eexists. split; [lazy -[app N.add N.sub]; reflexivity|]. reflexivity.
Qed.

(** A semicolon outside of the script: [statement] refuses it (mod.rs:347-355)
    and [error_fast_forward] does not skip it (mod.rs:146). *)
Definition at_semicolon_out (s : pst) : Prop :=
  p_ctx s = CtxOut /\ exists t r, p_toks s = t :: r /\ t_type t = TSemicolon.

Section Runs.
Context `{RT : Runtime}.

Definition statements_round (r : Rec) (stop : P bool) (statements : list Node) : P (list Node + list Node) :=
    b <- stop ;;
    if b then break statements
    else
      p <- peek ;;
      match p with
      | None => break statements
      | Some _ =>
          r <- pcatch (r_stmt r) ;;
          match r with
          | inr error =>
              push_err error ;;;
              error_fast_forward ;;;
              continue statements
          | inl new_statement =>
              docs <- flush_docs ;;
              continue (statements ++ docs ++ [new_statement])
          end
      end.
Lemma statements_rounds : forall r n stop, statements_loop r n stop = ploop n (statements_round r stop) [].
Proof. reflexivity. Qed.

Lemma stuck_out : forall n stop,
  (forall s, at_semicolon_out s -> exists s', stop s = POk false s' /\ at_semicolon_out s') ->
  forall k l s, at_semicolon_out s -> ploop k (statements_round (run (S n)) stop) l s = PFuel.
Proof.
  intros n stop Hstop. apply ploop_stuck with (Stuck := at_semicolon_out). intros l s Hs.
  destruct (Hstop s Hs) as (s1 & E1 & H1). unfold statements_round, bind at 1. rewrite E1. clear s Hs E1.
  destruct s1 as [docs toks errs ctx eof ep]. destruct H1 as (Hc & t & r & Ht & Hty).
  cbn [p_ctx p_toks] in Hc, Ht. subst ctx toks.
  destruct t as [co li ty la of]. cbn [t_type] in Hty. subst ty.
  do 2 eexists. split; [lazy -[app N.add N.sub]; reflexivity|]. split; [reflexivity|].
  do 2 eexists. split; reflexivity.
Qed.

Lemma r_stmt_S : forall n, r_stmt (run (S n)) = statement_body (run n) n.
Proof. reflexivity. Qed.
Lemma r_expr_S : forall n, r_expr (run (S n)) = expression_body (run n) n.
Proof. reflexivity. Qed.
Lemma r_call_S : forall n, r_call (run (S n)) = call (run n) n.
Proof. reflexivity. Qed.
Lemma r_block_S : forall n, r_block (run (S n)) = block_body (run n) n.
Proof. reflexivity. Qed.

(** It is enough to look at large amounts of fuel. *)
Lemma hang_from : forall ts k,
  (forall m, ast_loop (k + m)%nat (parser_new ts) = PFuel) -> ts <> [] ->
  forall fuel, ast fuel ts = PFuel.
Proof.
  intros ts k H Hne fuel. destruct (ast_mono fuel (k + fuel)%nat ts) as [E|E]; [lia|exact E|].
  rewrite E. unfold ast. destruct ts; [congruence|]. rewrite H. reflexivity.
Qed.
End Runs.

Lemma stop_not_semicolon : forall types, existsb (fun tt => tt_eqb tt TSemicolon) types = false ->
  forall s, at_semicolon_out s ->
  exists s', next_token_one_of types s = POk false s' /\ at_semicolon_out s'.
Proof.
  intros types Hty [docs toks errs ctx eof ep] (Hc & t & r & Ht & Hs).
  cbn [p_ctx p_toks] in Hc, Ht. subst ctx toks. destruct t as [co li ty la]. cbn [t_type] in Hs. subst ty.
  eexists. split; [cbn; unfold ret; unfold one_of; cbn [t_type]; rewrite Hty; reflexivity|].
  split; [reflexivity|]. do 2 eexists. split; reflexivity.
Qed.

(** Steps of a run: [run_ok] executes the first action, [run_down] goes into
    it. *)
Ltac run_ok :=
  lazymatch goal with
  | |- bind ?m ?f ?s = PFuel =>
      let r := eval lazy in (m s) in
      lazymatch r with
      | POk ?a ?s' =>
          change (f a s' = PFuel);
          cbv beta iota delta [t_type t_label prefix_binding_power postfix_binding_power infix_binding_power negb]
      end
  end.
Ltac run_down := apply bind_fuel.
Ltac run_first k :=
  apply (hang_from _ k); [|discriminate]; intro m; cbn [Nat.add];
  unfold ast_loop; rewrite statements_rounds, ploop_S.
Ltac run_statement :=
  run_down; unfold statements_round; run_ok; run_ok; run_down; apply pcatch_fuel;
  rewrite r_stmt_S; unfold statement_body.
Ltac run_script := do 5 run_ok; unfold statement_in_script; run_ok; run_ok.
