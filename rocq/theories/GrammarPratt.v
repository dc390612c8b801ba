(** Operands and expressions of SpecGrammar.v, read by [call] and
    [expression_body] of Parser.v. *)

From Verif Require Import Base Token Node DocBlock Parser TokenFacts ParserBase SpecCalm SpecExpr SpecGrammar PrattFacts GrammarBase GrammarNames GrammarExpr GrammarClass.

Ltac len ::= cbn [List.length] in *; do 7 (rewrite ?app_length in *; cbn [List.length] in *); lia.

(** * Expressions as a sequence of operands and operators *)

Definition include_kinds : list TokenType := [TRequire; TRequireOnce; TInclude; TIncludeOnce].

Inductive Flat : list Token -> Prop :=
| Fl_operand : forall w n v, Operand w n -> Tail v -> Flat (w ++ v)
| Fl_exit : forall t v, is TExit t -> Tail v -> Flat (t :: v)
| Fl_prefix : forall t w, prefix_operator t -> Flat w -> Flat (t :: w)
| Fl_include : forall t w, one_of_kinds include_kinds t -> Flat w -> Flat (t :: w)
| Fl_yield : forall t w, is TYield t -> Flat w -> Flat (t :: w)
| Fl_yield_pair : forall t w1 a w2, is TYield t -> Flat w1 -> no_yield w1 -> is TDoubleArrow a -> Flat w2 -> no_reference w2 ->
    Flat (t :: w1 ++ a :: w2)
| Fl_yield_from : forall t w, is TYieldFrom t -> Flat w -> Flat (t :: w)
| Fl_arrow : forall wa ats ws s t wr r a wp p b wt ty ar w,
    Attributes wa ats -> maybe TStatic ws s -> is TFn t -> maybe TBinaryAnd wr r -> is TOpenParenthesis a ->
    Params wp p -> is TCloseParenthesis b -> Returns wt ty -> is TDoubleArrow ar -> Flat w ->
    Flat (wa ++ ws ++ t :: wr ++ a :: wp ++ b :: wt ++ ar :: w)
with Tail : list Token -> Prop :=
| Tl_end : Tail []
| Tl_post : forall t v, postfix_operator t -> Tail v -> Tail (t :: v)
| Tl_infix : forall op w, infix_operator op -> Flat w -> Tail (op :: w)
| Tl_ternary : forall q w2 c w3, is TQuestionMark q -> Flat w2 -> is TColon c -> Flat w3 -> Tail (q :: w2 ++ c :: w3)
| Tl_elvis : forall q c w, is TQuestionMark q -> is TColon c -> Flat w -> Tail (q :: c :: w).

Scheme Flat_mut := Induction for Flat Sort Prop with Tail_mut := Induction for Tail Sort Prop.

Lemma flat_head : forall w, Flat w -> headed expr_heads w.
Proof.
  intros w H. induction H; try hd.
  - apply headed_app. eapply headed_more; [eapply operand_head; eassumption|]. intros x Hx. apply in_or_app. now left.
  - apply headed_cons. unfold prefix_operator, one_of_kinds in H. apply in_or_app. right. cbn [In] in *. tauto.
  - apply headed_cons. unfold one_of_kinds, include_kinds in H. apply in_or_app. right. cbn [In] in *. tauto.
  - destruct (attributes_head _ _ H) as [->|h]; [|apply headed_app; eapply headed_more; [exact h|intros x [<-|[]]; cbn; tauto]].
    cbn [app]. destruct (maybe_head _ _ _ H0) as [->|h]; [|apply headed_app; eapply headed_more; [exact h|intros x [<-|[]]; cbn; tauto]].
    cbn [app]. hd.
Qed.

Lemma flat_tail : forall w, Flat w -> forall v, Tail v -> Flat (w ++ v).
Proof.
  apply (Flat_mut (fun w _ => forall v, Tail v -> Flat (w ++ v)) (fun w _ => forall v, Tail v -> Tail (w ++ v))).
  - intros w n v Ho Ht IH u Hu. rewrite <- app_assoc. eapply Fl_operand; [exact Ho|now apply IH].
  - intros t v Ht Hv IH u Hu. apply Fl_exit; [exact Ht|now apply IH].
  - intros t w Ht Hw IH u Hu. apply Fl_prefix; [exact Ht|now apply IH].
  - intros t w Ht Hw IH u Hu. apply Fl_include; [exact Ht|now apply IH].
  - intros t w Ht Hw IH u Hu. apply Fl_yield; [exact Ht|now apply IH].
  - intros t w1 a w2 Ht H1 IH1 Hy Ha H2 IH2 Hr u Hu. cbn [app]. rewrite <- app_assoc. cbn [app].
    apply Fl_yield_pair; try assumption; [now apply IH2|]. destruct (flat_head _ H2) as (x & y & -> & _).
    intros x' y' E. cbn [app] in E. injection E as <- <-. apply (Hr x y eq_refl).
  - intros t w Ht Hw IH u Hu. apply Fl_yield_from; [exact Ht|now apply IH].
  - intros. replace ((wa ++ ws ++ t :: wr ++ a :: wp ++ b :: wt ++ ar :: w) ++ v)
      with (wa ++ ws ++ t :: wr ++ a :: wp ++ b :: wt ++ ar :: (w ++ v)) by (repeat (rewrite <- app_assoc; cbn [app]); reflexivity).
    eapply Fl_arrow; try eassumption. now apply H.
  - intros u Hu. exact Hu.
  - intros t v Ht Hv IH u Hu. apply Tl_post; [exact Ht|now apply IH].
  - intros op w Ho Hw IH u Hu. apply Tl_infix; [exact Ho|now apply IH].
  - intros q w2 c w3 Hq H2 IH2 Hc H3 IH3 u Hu. cbn [app]. rewrite <- app_assoc. cbn [app]. apply Tl_ternary; try assumption. now apply IH3.
  - intros q c w Hq Hc Hw IH u Hu. apply Tl_elvis; try assumption. now apply IH.
Qed.

Lemma expr_flat : forall w e, Expr w e -> Flat w.
Proof.
  intros w e H. induction H.
  - rewrite <- (app_nil_r w). eapply Fl_operand; [eassumption|constructor].
  - now apply Fl_prefix.
  - apply flat_tail; [assumption|]. apply Tl_post; [assumption|constructor].
  - apply flat_tail; [assumption|]. now apply Tl_infix.
  - apply flat_tail; [assumption|]. now apply Tl_ternary.
  - apply flat_tail; [assumption|]. now apply Tl_elvis.
  - now apply Fl_include.
  - now apply Fl_yield.
  - now apply Fl_yield_pair.
  - now apply Fl_yield_from.
  - eapply Fl_arrow; eassumption.
  - apply Fl_exit; [assumption|constructor].
Qed.

(** * Tokens after an operand *)

Definition halting : list TokenType :=
  [TOpenParenthesis; TObjectOperator; TNullsafeObjectOperator; TPaamayimNekudayim; TOpenBrackets; TOpenCurly;
   TFunction; TFn; TNamespaceSeparator].
Lemma ends_halts : forall t r, ends_expression t -> look halting (t :: r) = false.
Proof.
  intros t r H. unfold ends_expression in H. cbn [look]. unfold one_of. cbn [In] in H.
  repeat (destruct H as [H|H]; [rewrite <- H; reflexivity|]). destruct H.
Qed.
Lemma infix_halts : forall t r, infix_operator t -> look halting (t :: r) = false.
Proof.
  intros t r (x & y & H). cbn [look]. unfold one_of. unfold php_row in H. destruct (t_type t); try discriminate H; reflexivity.
Qed.
Lemma tail_halts : forall v t r, Tail v -> ends_expression t -> look halting (v ++ t :: r) = false.
Proof.
  intros v t r Hv Ht. destruct Hv; cbn [app].
  - now apply ends_halts.
  - unfold postfix_operator, one_of_kinds in H. cbn [In] in H. cbn [look]. unfold one_of. destruct H as [<-|[<-|[]]]; reflexivity.
  - now apply infix_halts.
  - lk.
  - lk.
Qed.

Lemma prefix_none : forall t, In (t_type t) (operand_heads ++ include_kinds ++ [TYield; TYieldFrom; TFn]) ->
  prefix_binding_power (t_type t) = None.
Proof.
  intros t H. cbn [In app operand_heads include_kinds] in H.
  repeat (destruct H as [H|H]; [rewrite <- H; reflexivity|]). destruct H.
Qed.
Lemma prefix_some : forall t, prefix_operator t -> exists p, prefix_binding_power (t_type t) = Some p.
Proof.
  intros t H. unfold prefix_operator, one_of_kinds in H. cbn [In] in H.
  repeat (destruct H as [H|H]; [rewrite <- H; eexists; reflexivity|]). destruct H.
Qed.

Lemma t_assoc : forall A B C (m : nat -> P A) (f : nat -> A -> P B) (g : nat -> B -> P C) w T r,
  takes (fun n => bind (bind (m n) (f n)) (g n)) w T r -> takes (fun n => bind (m n) (fun x => bind (f n x) (g n))) w T r.
Proof.
  intros A B C m f g w T r H s Hs. destruct (H s Hs) as (c & s' & [k G] & R). exists c, s'. split; [|exact R].
  exists k. intros n Hn. rewrite <- (G n Hn). unfold bind. destruct (m n s); reflexivity.
Qed.

(** none of the kinds tried matches the first token *)
Ltac nos h := repeat (eapply t_nil; [first [apply t_one_of_no; eapply look_headed; [exact h|reflexivity]
  | apply t_ignore_no; eapply look_headed; [exact h|reflexivity] | apply t_choose_no; eapply look_headed; [exact h|reflexivity]]|]; cbn beta iota).

Section Operands.
Context `{RT : Runtime}.

(** one round of [init_call] *)
Definition init_round (n : nat) (expr : Node) : P (Node + Node) :=
    b <- next_token_one_of [TOpenParenthesis] ;;
    if b then (e <- finish_call (run n) n expr ;; continue e)
    else
    os <- consume_one_of_or_ignore [TObjectOperator; TNullsafeObjectOperator] ;;
    match os with
    | Some os =>
        oc <- consume_or_ignore TOpenCurly ;;
        match oc with
        | Some _ =>
            member <- r_expr (run n) 0 ;;
            cc <- consume TCloseCurly ;;
            continue (NMember expr os oc member (Some cc))
        | None =>
            v <- next_token_one_of [TVariable] ;;
            if v then
              member <- variable (run n) n ;;
              continue (NMember expr os None member None)
            else
              r <- pcatch consume_identifier ;;
              match r with
              | inl identifier =>
                  continue (NMember expr os None (NLiteral identifier) None)
              | inr _ =>
                  push_err (EMissingIdentifier os) ;;;
                  continue (NMember expr os None (NMissing os) None)
              end
        end
    | None =>
    pn <- consume_or_ignore TPaamayimNekudayim ;;
    match pn with
    | Some pn =>
        v <- next_token_one_of [TVariable] ;;
        if v then
          member <- variable (run n) n ;;
          continue (NStaticMember expr pn None member None)
        else
        c <- next_token_one_of [TOpenCurly] ;;
        if c then
          oc <- consume TOpenCurly ;;
          member <- variable (run n) n ;;
          cc <- consume TCloseCurly ;;
          continue (NStaticMember expr pn (Some oc) member (Some cc))
        else
        m <- next_is_member ;;
        if m then
          member <- consume_member ;;
          continue (NStaticMember expr pn None (NLiteral member) None)
        else
          push_err (EMissingIdentifier pn) ;;;
          continue (NStaticMember expr pn None (NMissing pn) None)
    | None =>
    ob <- consume_or_ignore TOpenBrackets ;;
    match ob with
    | Some ob =>
        cb <- consume_or_ignore TCloseBrackets ;;
        match cb with
        | Some cb => continue (NField expr ob None cb)
        | None =>
            index <- r_expr (run n) 0 ;;
            cb <- consume TCloseBrackets ;;
            continue (NField expr ob (Some index) cb)
        end
    | None =>
    oc <- consume_or_ignore TOpenCurly ;;
    match oc with
    | Some oc =>
        index <- r_expr (run n) 0 ;;
        cb <- consume TCloseCurly ;;
        continue (NField expr oc (Some index) cb)
    | None => break expr
    end end end end.
Lemma init_call_eq : forall n e, init_call (run n) n e = ploop n (init_round n) e.
Proof. reflexivity. Qed.

Lemma t_init : forall e v T r, ltakes init_round e v T r -> takes (fun n => init_call (run n) n e) v T r.
Proof. intros e v T r H. apply (t_loop _ _ init_round). exact H. Qed.

Lemma init_done : forall e (T : Node -> Prop) r, look halting r = false -> T e -> ltakes init_round e [] T r.
Proof.
  intros e T r Hr He. apply l_break. unfold init_round. unfold halting in Hr.
  do 6 (match goal with H : look (_ :: _ :: _) _ = false |- _ => let X := fresh "L" in destruct (look_cons _ _ _ H) as [X ?]; clear H end).
  eapply t_nil; [apply t_one_of_no; assumption|]. cbn beta iota.
  eapply t_nil; [apply t_choose_no|].
  { destruct r as [|u r]; [reflexivity|]. cbn [app look] in *. unfold one_of in *. cbn [existsb] in *. repeat rewrite orb_false_r in *.
    match goal with A : tt_eqb TObjectOperator _ = false, B : tt_eqb TNullsafeObjectOperator _ = false |- _ => now rewrite A, B end. }
  cbn beta iota. eapply t_nil; [apply t_ignore_no; assumption|]. cbn beta iota.
  eapply t_nil; [apply t_ignore_no; assumption|]. cbn beta iota.
  eapply t_nil; [apply t_ignore_no; assumption|]. cbn beta iota. done_. eauto.
Qed.

Variable k : nat.
Hypothesis HE : forall w e t r, (List.length w < k)%nat -> Expr w e -> ends_expression t -> (is TDoubleArrow t -> no_yield w) ->
  takes (fun n => r_expr (run n) 0) w (Expr w) (t :: r).
Hypothesis HB : forall w b r, (List.length w < k)%nat -> Block w b -> takes (fun n => r_block (run n)) w (Block w) r.

Ltac ex := first [eapply t_bind; [eapply HE; [len|eassumption|ends|arrow]|] | eapply t_all; [eapply HE; [len|eassumption|ends|arrow]|]];
  cbn beta; let e := fresh "e'" in let H := fresh "He'" in intros e H.
Ltac noat := eapply t_nil; [eapply v_no_attributes; look_|]; cbn beta iota.
Ltac walk := repeat first [no | noat].

(** * Operands *)

Definition follow : list TokenType := [TFunction; TFn; TNamespaceSeparator].

Lemma base : forall w v T r, takes (fun n => primary (run n) n) w (Operand w) (v ++ r) ->
  (forall n', Operand w n' -> ltakes init_round n' v T r) -> takes (fun n => call (run n) n) (w ++ v) T r.
Proof.
  intros w v T r H HK. unfold call. eapply t_bind; [exact H|]. cbn beta. intros n' Hn'. apply t_init. now apply HK.
Qed.

Lemma v_closure : forall s t wr r a wp p b wu u wt ty wb body ats rr,
  is TFunction t -> maybe TBinaryAnd wr r -> is TOpenParenthesis a ->
  Params wp p -> is TCloseParenthesis b -> Uses wu u -> Returns wt ty -> Block wb body ->
  (List.length (t :: wr ++ a :: wp ++ b :: wu ++ wt ++ wb) <= k)%nat ->
  takes (fun n => anonymous_function (run n) n s ats) (t :: wr ++ a :: wp ++ b :: wu ++ wt ++ wb)
    (fun x => exists p' u' body', x = NFunction s r t a p' b u' ty body' ats /\ Params wp p' /\ Uses wu u' /\ Block wb body') rr.
Proof.
  intros s t wr r a wp p b wu u wt ty wb body ats rr Ht Hr Ha Hp Hb Hu Hty Hbl Hk. unfold anonymous_function. tk.
  eapply t_bind; [apply t_maybe; [exact Hr|lk]|]. cbn beta. intros ? <-. tk.
  eapply t_bind; [eapply (v_params k HE); [exact Hp|len|exact Hb]|]. cbn beta. intros p' Hp'. tk.
  destruct (block_head _ _ Hbl) as (oc & v & Ev & Hoc).
  apply t_assoc. eapply t_bind; [eapply v_uses; [exact Hu|]|].
  { destruct (returns_head _ _ Hty) as [->|h]; [subst wb; cbn [app]; lk|]. rewrite <- app_assoc. eapply look_headed; [exact h|reflexivity]. }
  cbn beta. intros u' Hu'. eapply t_bind; [eapply r_returns; [exact Hty|subst wb; cbn [app]; lk]|]. cbn beta. intros ? <-.
  eapply t_all; [eapply HB; [len|exact Hbl]|]. cbn beta. intros body' Hbody'. done_. eauto 10.
Qed.

Lemma v_operand : forall w n, Operand w n -> (List.length w <= k)%nat -> forall v T r,
  (forall n', Operand w n' -> ltakes init_round n' v T r) -> look follow (v ++ r) = false ->
  takes (fun n => call (run n) n) (w ++ v) T r.
Proof.
  intros w n H. induction H; intros Hk v0 T rr HK Hf.
  - (* literal *)
    apply base; [|exact HK]. unfold primary. eapply t_nil; [apply t_one_of_yes|].
    { cbn [app look]. unfold one_of. unfold literal in H. destruct (t_type t); try discriminate H; reflexivity. }
    cbn beta iota. tk. done_. now constructor.
  - (* variable *)
    apply base; [|exact HK]. destruct (variable_first _ _ H) as (t & x & -> & Ht). unfold primary. no. yes.
    eapply t_conseq; [apply r_variable; exact H|]. intros ? <-. now constructor.
  - (* braced variable *)
    apply base; [|exact HK]. unfold primary. no. yes. unfold variable. tk. rewrite H0. tk. ex. tk. done_. now constructor.
  - (* name *)
    destruct (look_cons _ _ _ Hf) as [_ F2]. destruct (look_cons _ _ _ F2) as [_ F3].
    apply base; [|exact HK]. unfold primary. no. no. eapply t_nil; [apply t_one_of_yes|].
    { unfold one_of_kinds in H. cbn [app look]. unfold one_of. cbn [In existsb] in *. destruct H as [<-|[<-|[]]]; reflexivity. }
    cbn beta iota. eapply t_conseq; [apply r_type_ref; [exact H0|exact F3]|]. intros ? <-. now constructor.
  - (* self, parent, static *)
    destruct (look_cons _ _ _ Hf) as [F1 F2]. destruct (look_cons _ _ _ F2) as [F2' F3].
    apply base; [|exact HK]. unfold primary. destruct (tt_eqb (t_type t) TStatic) eqn:Es.
    + apply tt_eqb_eq in Es. assert (Hs : is TStatic t) by exact Es. walk. tk.
      eapply t_nil; [apply t_one_of|]. cbn beta. destruct (look [TPaamayimNekudayim] _); [done_; now constructor|].
      eapply t_nil; [apply t_one_of_no; exact F1|]. cbn beta iota. eapply t_nil; [apply t_one_of_no; exact F2'|]. cbn beta iota.
      done_. now constructor.
    + assert (H' : one_of_kinds [TTypeSelf; TParent] t).
      { unfold one_of_kinds in *. cbn [In] in *. destruct H as [H|[H|[H|[]]]]; auto. exfalso. rewrite <- H in Es. discriminate Es. }
      clear H Es. walk. tk. eapply t_nil; [apply t_one_of|]. cbn beta. 
      assert (H : one_of_kinds [TTypeSelf; TParent; TStatic] t) by (unfold one_of_kinds in *; cbn [In] in *; tauto).
      destruct (look [TPaamayimNekudayim] _); done_; now apply O_self.
  - (* heredoc *)
    apply base; [|exact HK]. unfold primary. walk. yes. tk. tk. tk. done_. now constructor.
  - (* group *)
    apply base; [|exact HK]. unfold primary. walk. yes. tk. ex. tk. done_. now constructor.
  - (* array *)
    apply base; [|exact HK]. unfold primary. walk. yes. unfold array. tk.
    eapply t_bind; [eapply (v_elements k HE TCloseBrackets); [now left|exact H0|len|exact H1]|]. cbn beta. intros l' Hl'. tk. done_. now constructor.
  - (* old array *)
    apply base; [|exact HK]. unfold primary. walk. yes. unfold old_array. tk. tk.
    eapply t_bind; [eapply (v_items k HE); [exact H1|len|exact H2]|]. cbn beta. intros l' Hl'. tk. done_. now constructor.
  - (* list *)
    apply base; [|exact HK]. unfold primary. walk. yes. unfold list_. tk. tk.
    eapply t_bind; [eapply (v_elements k HE TCloseParenthesis); [now right|exact H1|len|exact H2]|]. cbn beta. intros l' Hl'. tk. done_. now constructor.
  - (* isset *)
    apply base; [|exact HK]. unfold primary. walk. tk. tk.
    eapply t_bind; [eapply (v_values_some k HE); [exact H1|exact H2|len|exact H3]|]. cbn beta. intros l' [Hl' Hn]. tk. done_. now constructor.
  - (* empty *)
    apply base; [|exact HK]. unfold primary. walk. tk. tk.
    eapply t_bind; [eapply (v_values_some k HE); [exact H1|exact H2|len|exact H3]|]. cbn beta. intros l' [Hl' Hn]. tk. done_. now constructor.
  - (* exit *)
    apply base; [|exact HK]. unfold primary. walk. tk. tk.
    eapply t_bind; [eapply (v_values k HE); [exact H1|len|exact H2]|]. cbn beta. intros l' Hl'. tk. done_. now constructor.
  - (* call *)
    rewrite <- app_assoc. apply IHOperand; [len| |look_]. intros n' Hn'.
    eapply (l_more _ _ _ _ _ _ (Operand (w ++ a :: v ++ [b]))).
    + unfold init_round. yes. eapply t_all; [eapply (v_args k HE); [exact H1|len|exact H0|exact H2]|]. cbn beta. intros ? (l' & -> & Hl').
      done_. eexists. split; [reflexivity|]. now constructor.
    + exact HK.
  - (* member *)
    rewrite <- app_assoc. apply IHOperand; [len| |look_]. intros n' Hn'.
    eapply (l_more _ _ _ _ _ _ (Operand (w ++ [ar; i]))); [|exact HK].
    unfold init_round. no. tk. no. no. eapply t_all; [apply t_catch; apply t_identifier; exact H1|]. cbn beta. intros ? (x & -> & <-). cbn beta iota.
    done_. eexists. split; [reflexivity|]. now constructor.
  - (* member variable *)
    rewrite <- app_assoc. apply IHOperand; [len| |look_]. intros n' Hn'.
    eapply (l_more _ _ _ _ _ _ (Operand (w ++ ar :: v))); [|exact HK].
    destruct (variable_first _ _ H1) as (t & x & -> & Ht).
    unfold init_round. no. tk. no. yes. eapply t_all; [apply r_variable; exact H1|]. cbn beta. intros ? <-.
    done_. eexists. split; [reflexivity|]. now constructor.
  - (* member in braces *)
    rewrite <- app_assoc. apply IHOperand; [len| |look_]. intros n' Hn'.
    eapply (l_more _ _ _ _ _ _ (Operand (w ++ ar :: a :: v ++ [b]))); [|exact HK].
    unfold init_round. no. tk. tk. ex. tk. done_. eexists. split; [reflexivity|]. now constructor.
  - (* static member *)
    rewrite <- app_assoc. apply IHOperand; [len| |look_]. intros n' Hn'.
    eapply (l_more _ _ _ _ _ _ (Operand (w ++ [pn; i]))); [|exact HK].
    unfold init_round. no. no. tk. no. no. eapply t_nil; [apply t_next_is_member|]. cbn beta. unfold is_member_token.
    rewrite (word_identifier i H1). cbn [orb]. tk. done_. eexists. split; [reflexivity|]. now constructor.
  - (* static variable *)
    rewrite <- app_assoc. apply IHOperand; [len| |look_]. intros n' Hn'.
    eapply (l_more _ _ _ _ _ _ (Operand (w ++ pn :: v))); [|exact HK].
    destruct (variable_first _ _ H1) as (t & x & -> & Ht).
    unfold init_round. no. no. tk. yes. eapply t_all; [apply r_variable; exact H1|]. cbn beta. intros ? <-.
    done_. eexists. split; [reflexivity|]. now constructor.
  - (* static variable in braces *)
    rewrite <- app_assoc. apply IHOperand; [len| |look_]. intros n' Hn'.
    eapply (l_more _ _ _ _ _ _ (Operand (w ++ pn :: a :: v ++ [b]))); [|exact HK].
    unfold init_round. no. no. tk. no. yes. tk. eapply t_bind; [apply r_variable; exact H2|]. cbn beta. intros ? <-. tk.
    done_. eexists. split; [reflexivity|]. now constructor.
  - (* index *)
    rewrite <- app_assoc. apply IHOperand; [len| |look_]. intros n' Hn'.
    eapply (l_more _ _ _ _ _ _ (Operand (w ++ a :: v ++ [b]))); [|exact HK].
    unfold init_round. no. no. no. tk. no. ex. tk. done_. eexists. split; [reflexivity|]. now constructor.
  - (* push *)
    rewrite <- app_assoc. apply IHOperand; [len| |look_]. intros n' Hn'.
    eapply (l_more _ _ _ _ _ _ (Operand (w ++ [a; b]))); [|exact HK].
    unfold init_round. no. no. no. tk. tk. done_. eexists. split; [reflexivity|]. now constructor.
  - (* match *)
    apply base; [|exact HK]. unfold primary. walk. tk. tk. ex. tk. tk.
    eapply t_bind; [eapply (v_arms k HE); [exact H4|len|exact H5]|]. cbn beta. intros l' Hl'. tk. done_. now constructor.
  - (* closure *)
    apply base; [|exact HK].
    assert (h : headed [TAttributeStart; TStatic; TFunction] (wa ++ ws ++ t :: wr ++ a :: wp ++ b :: wu ++ wt ++ wb)).
    { destruct (attributes_head _ _ H) as [->|h]; [|apply headed_app; eapply headed_more; [exact h|intros x [<-|[]]; cbn; tauto]].
      cbn [app]. destruct (maybe_head _ _ _ H0) as [->|h]; [|apply headed_app; eapply headed_more; [exact h|intros x [<-|[]]; cbn; tauto]].
      cbn [app]. hd. }
    unfold primary. nos h. eapply t_bind; [eapply (v_attributes k HE); [exact H|len|]|].
    { destruct H0 as [[-> ->]|(x & -> & -> & Hx)]; lk. }
    cbn beta. intros ats Hats. destruct H0 as [[-> ->]|(x & -> & -> & Hx)]; cbn [app].
    + no. yes. eapply t_conseq; [eapply v_closure; [eassumption..|len]|]. cbn beta. intros ? (p' & u' & body' & -> & ? & ? & ?).
      apply (O_closure wa ats [] None); try assumption. now left.
    + no. no. tk. no. yes. eapply t_conseq; [eapply v_closure; [eassumption..|len]|]. cbn beta. intros ? (p' & u' & body' & -> & ? & ? & ?).
      apply (O_closure wa ats [x] (Some x)); try assumption. right. eauto.
  - (* class *)
    apply base; [|exact HK].
    assert (h : headed [TAttributeStart; TClass] (wa ++ t :: wp ++ we ++ wi ++ wb)).
    { destruct (attributes_head _ _ H) as [->|h]; [|apply headed_app; eapply headed_more; [exact h|intros x [<-|[]]; cbn; tauto]].
      cbn [app]. hd. }
    unfold primary. nos h. eapply t_bind; [eapply (v_attributes k HE); [exact H|len|lk]|].
    cbn beta. intros ats Hats. walk. yes.
    eapply t_conseq; [eapply (v_anonymous_class k HE HB); [eassumption..|len]|]. cbn beta. intros ? (p' & body' & -> & ? & ?).
    now constructor.
Qed.
End Operands.

(** * Operators *)

Definition stop (bp : N) (v : list Token) : Prop :=
  match v with
  | [] => True
  | t :: _ => match postfix_binding_power (t_type t) with
              | Some l => l < bp
              | None => lb t < bp
              end
  end.
Lemma stop_zero : forall v, stop 0 v -> v = [].
Proof. intros [|t v] H; [reflexivity|]. cbn [stop] in H. destruct (postfix_binding_power (t_type t)); lia. Qed.

Section Pratt.
Context `{RT : Runtime}.

(** An expression is read up to an operator that binds less. *)
Definition reads_flat (w : list Token) : Prop := forall bp, exists w1 w2,
  w = w1 ++ w2 /\ Tail w2 /\ stop bp w2 /\
  forall t r, ends_expression t -> (is TDoubleArrow t -> no_yield w) ->
    takes (fun n => r_expr (run n) bp) w1 (Expr w1) (w2 ++ t :: r).

Lemma flat_reads : forall w, reads_flat w -> forall t r, ends_expression t -> (is TDoubleArrow t -> no_yield w) ->
  takes (fun n => r_expr (run n) 0) w (Expr w) (t :: r).
Proof.
  intros w H t r Ht Hy. destruct (H 0) as (w1 & w2 & -> & _ & Hs & G). apply stop_zero in Hs as ->.
  rewrite app_nil_r in *. exact (G t r Ht Hy).
Qed.

Lemma t_is_operator : forall r, takes (fun _ => next_is_operator) []
  (eq (match r with t :: _ => is_some (infix_binding_power (t_type t)) || is_some (prefix_binding_power (t_type t)) | [] => false end)) r.
Proof.
  intros r. unfold next_is_operator. eapply t_nil; [apply t_peek|]. cbn beta. cbn [app]. destruct r; apply t_ret; reflexivity.
Qed.

Lemma t_operators : forall bp e v T r, ltakes (loop_body bp) e v T r -> takes (fun n => operator_loop (run n) n bp e) v T r.
Proof. intros bp e v T r H. exact (t_loop _ _ (loop_body bp) e v T r H). Qed.

Lemma round_end : forall bp e t r (T : Node -> Prop), ends_expression t -> T e -> ltakes (loop_body bp) e [] T (t :: r).
Proof.
  intros bp e t r T Ht He. destruct (closes_end t Ht) as (_ & Hi & Hx). apply l_break. unfold loop_body.
  eapply t_nil; [apply t_is_operator|]. cbn beta. cbn [app]. rewrite Hi, Hx. cbn [is_some orb negb]. apply t_break. eauto.
Qed.

Lemma round_stop : forall bp e v t r (T : Node -> Prop), Tail v -> stop bp v -> ends_expression t -> T e ->
  ltakes (loop_body bp) e [] T (v ++ t :: r).
Proof.
  intros bp e v t r T Hv Hs Ht He. destruct Hv; cbn [app]; [now apply round_end|..]; apply l_break; unfold loop_body;
    (eapply t_nil; [apply t_is_operator|]); cbn beta; cbn [app stop] in *.
  - unfold postfix_operator, one_of_kinds in H. cbn [In] in H.
    assert (E : postfix_binding_power (t_type t0) = Some 180) by (destruct H as [<-|[<-|[]]]; reflexivity).
    assert (E' : is_some (infix_binding_power (t_type t0)) || is_some (prefix_binding_power (t_type t0)) = true)
      by (destruct H as [<-|[<-|[]]]; reflexivity).
    rewrite E'. cbn [negb]. eapply t_nil; [apply t_peek|]. cbn beta. cbn [app]. rewrite E in *.
    destruct (N.ltb_spec 180 bp); [|lia]. apply t_break. eauto.
  - rewrite (infix_power op H). cbn [is_some orb negb]. eapply t_nil; [apply t_peek|]. cbn beta. cbn [app].
    rewrite (infix_not_postfix op H), (infix_power op H) in *. destruct (N.ltb_spec (lb op) bp); [|lia]. apply t_break. eauto.
  - unfold lb in Hs. unfold is in H. rewrite H in *. cbn [is_some orb negb infix_binding_power postfix_binding_power] in *.
    eapply t_nil; [apply t_peek|]. cbn beta. cbn [app]. rewrite H. cbn [infix_binding_power postfix_binding_power].
    destruct (N.ltb_spec 80 bp); [|lia]. apply t_break. eauto.
  - unfold lb in Hs. unfold is in H. rewrite H in *. cbn [is_some orb negb infix_binding_power postfix_binding_power] in *.
    eapply t_nil; [apply t_peek|]. cbn beta. cbn [app]. rewrite H. cbn [infix_binding_power postfix_binding_power].
    destruct (N.ltb_spec 80 bp); [|lia]. apply t_break. eauto.
Qed.

Variable k : nat.
Hypothesis HF : forall w, (List.length w < k)%nat -> Flat w -> reads_flat w.
Hypothesis HB : forall w b r, (List.length w < k)%nat -> Block w b -> takes (fun n => r_block (run n)) w (Block w) r.

Lemma HE : forall w e t r, (List.length w < k)%nat -> Expr w e -> ends_expression t -> (is TDoubleArrow t -> no_yield w) ->
  takes (fun n => r_expr (run n) 0) w (Expr w) (t :: r).
Proof. intros w e t r Hk H Ht Hy. apply flat_reads; auto. apply HF; [exact Hk|]. eapply expr_flat. exact H. Qed.
Lemma HX : forall w t r, (List.length w < k)%nat -> Flat w -> ends_expression t -> (is TDoubleArrow t -> no_yield w) ->
  takes (fun n => r_expr (run n) 0) w (Expr w) (t :: r).
Proof. intros w t r Hk H Ht Hy. apply flat_reads; auto. Qed.

Definition reads_tail (bp : N) (v : list Token) : Prop := exists v1 v2,
  v = v1 ++ v2 /\ Tail v2 /\ stop bp v2 /\
  forall w e t r, Expr w e -> ends_expression t -> (is TDoubleArrow t -> no_yield v) ->
    ltakes (loop_body bp) e v1 (Expr (w ++ v1)) (v2 ++ t :: r).

Lemma no_yield_app : forall a b, no_yield (a ++ b) -> no_yield a /\ no_yield b.
Proof. intros a b H. unfold no_yield in *. now apply Forall_app. Qed.
Lemma no_yield_cons : forall a b, no_yield (a :: b) -> no_yield b.
Proof. intros a b H. unfold no_yield in *. now inversion H. Qed.

Ltac yields := let X := fresh in intros X; match goal with H : is TDoubleArrow ?t -> _, X : is TDoubleArrow ?t |- _ => specialize (H X) end;
  repeat match goal with
         | H : no_yield (_ :: _) |- _ => apply no_yield_cons in H
         | H : no_yield (_ ++ _) |- _ => apply no_yield_app in H as [? ?]
         end; unfold no_yield in *; repeat (apply Forall_app; split); assumption.

Lemma v_tail : forall m v, (List.length v <= m)%nat -> (List.length v < k)%nat -> Tail v -> forall bp, reads_tail bp v.
Proof.
  induction m as [|m IH]; intros v Hm Hk Hv bp.
  - destruct v as [|x v]; [|cbn in Hm; lia]. exists [], []. splits; [reflexivity|constructor|exact I|].
    intros w e t r He Ht _. rewrite app_nil_r. now apply round_end.
  - assert (Hstop : stop bp v -> reads_tail bp v).
    { intros Hs. exists [], v. splits; [reflexivity|exact Hv|exact Hs|]. intros w e t r He Ht _. rewrite app_nil_r. now apply round_stop. }
    destruct Hv as [|t0 v Hp Hv|op w Hop Hw|q w2 c w3 Hq H2 Hc H3|q c w Hq Hc Hw].
    + apply Hstop. exact I.
    + unfold postfix_operator, one_of_kinds in Hp. cbn [In] in Hp.
      assert (E : postfix_binding_power (t_type t0) = Some 180) by (destruct Hp as [<-|[<-|[]]]; reflexivity).
      assert (E' : is_some (infix_binding_power (t_type t0)) || is_some (prefix_binding_power (t_type t0)) = true)
        by (destruct Hp as [<-|[<-|[]]]; reflexivity).
      destruct (N.ltb_spec 180 bp) as [Hl|Hl]; [apply Hstop; cbn [stop]; now rewrite E|].
      destruct (IH v ltac:(len) ltac:(len) Hv bp) as (v1 & v2 & -> & Hv2 & Hs & G).
      exists (t0 :: v1), v2. splits; [reflexivity|exact Hv2|exact Hs|]. intros w e t r He Ht Hy.
      change (t0 :: v1) with ([t0] ++ v1). eapply (l_more _ _ _ _ _ _ (Expr (w ++ [t0]))).
      * unfold loop_body. eapply t_nil; [apply t_is_operator|]. cbn beta. cbn [app]. rewrite E'. cbn [negb].
        eapply t_nil; [apply t_peek|]. cbn beta. cbn [app]. rewrite E. destruct (N.ltb_spec 180 bp); [lia|]. tk. done_.
        eexists. split; [reflexivity|]. apply E_postfix; [exact He|exact Hp].
      * intros e' He'. rewrite app_assoc. eapply G; [exact He'|exact Ht|]. yields.
    + destruct (N.ltb_spec (lb op) bp) as [Hl|Hl]; [apply Hstop; cbn [stop]; now rewrite (infix_not_postfix op Hop)|].
      destruct (HF w ltac:(len) Hw (rb op)) as (u1 & u2 & -> & Hu2 & Hs2 & Gu).
      destruct (IH u2 ltac:(len) ltac:(len) Hu2 bp) as (v1 & v2 & -> & Hv2 & Hs & G).
      exists (op :: u1 ++ v1), v2. splits; [cbn [app]; now rewrite app_assoc|exact Hv2|exact Hs|]. intros w e t r He Ht Hy.
      change (op :: u1 ++ v1) with ((op :: u1) ++ v1). eapply (l_more _ _ _ _ _ _ (Expr (w ++ op :: u1))).
      * unfold loop_body. eapply t_nil; [apply t_is_operator|]. cbn beta. cbn [app].
        rewrite (infix_power op Hop). cbn [is_some orb negb].
        eapply t_nil; [apply t_peek|]. cbn beta. cbn [app]. rewrite (infix_not_postfix op Hop), (infix_power op Hop).
        destruct (N.ltb_spec (lb op) bp); [lia|]. tk. rewrite (infix_not_question op Hop).
        eapply t_all; [rewrite app_assoc; apply Gu; [exact Ht|]|].
        { yields. }
        cbn beta. intros e' He'. done_. eexists. split; [reflexivity|]. now apply E_binary.
      * intros e' He'. rewrite app_assoc. eapply G; [exact He'|exact Ht|]. yields.
    + destruct (N.ltb_spec 80 bp) as [Hl|Hl].
      { apply Hstop. cbn [stop]. unfold lb. unfold is in Hq. now rewrite Hq. }
      destruct (HF w3 ltac:(len) H3 81) as (u1 & u2 & -> & Hu2 & Hs2 & Gu).
      destruct (IH u2 ltac:(len) ltac:(len) Hu2 bp) as (v1 & v2 & -> & Hv2 & Hs & G).
      exists (q :: w2 ++ c :: u1 ++ v1), v2. splits; [cbn [app]; repeat (rewrite <- app_assoc; cbn [app]); reflexivity|exact Hv2|exact Hs|].
      intros w e t r He Ht Hy.
      replace (q :: w2 ++ c :: u1 ++ v1) with ((q :: w2 ++ c :: u1) ++ v1) by (cbn [app]; repeat (rewrite <- app_assoc; cbn [app]); reflexivity).
      eapply (l_more _ _ _ _ _ _ (Expr (w ++ q :: w2 ++ c :: u1))).
      * unfold loop_body. eapply t_nil; [apply t_is_operator|]. cbn beta. cbn [app]. unfold is in Hq.
        rewrite Hq. cbn [is_some orb negb infix_binding_power].
        eapply t_nil; [apply t_peek|]. cbn beta. cbn [app]. rewrite Hq. cbn [infix_binding_power postfix_binding_power].
        destruct (N.ltb_spec 80 bp); [lia|]. tk. rewrite Hq. cbn [tt_eqb].
        eapply t_nil; [apply t_ignore_no; rewrite <- app_assoc; eapply look_headed; [eapply flat_head; exact H2|reflexivity]|]. cbn beta iota.
        eapply t_bind; [apply HX; [len|exact H2|ends|arrow]|]. cbn beta. intros e2 He2. tk.
        eapply t_all; [rewrite app_assoc; apply Gu; [exact Ht|]|].
        { yields. }
        cbn beta. intros e' He'. done_. eexists. split; [reflexivity|]. now apply E_ternary.
      * intros e' He'. rewrite app_assoc. eapply G; [exact He'|exact Ht|]. yields.
    + destruct (N.ltb_spec 80 bp) as [Hl|Hl].
      { apply Hstop. cbn [stop]. unfold lb. unfold is in Hq. now rewrite Hq. }
      destruct (HF w ltac:(len) Hw 81) as (u1 & u2 & -> & Hu2 & Hs2 & Gu).
      destruct (IH u2 ltac:(len) ltac:(len) Hu2 bp) as (v1 & v2 & -> & Hv2 & Hs & G).
      exists (q :: c :: u1 ++ v1), v2. splits; [cbn [app]; repeat (rewrite <- app_assoc; cbn [app]); reflexivity|exact Hv2|exact Hs|].
      intros w e t r He Ht Hy. change (q :: c :: u1 ++ v1) with ((q :: c :: u1) ++ v1).
      eapply (l_more _ _ _ _ _ _ (Expr (w ++ q :: c :: u1))).
      * unfold loop_body. eapply t_nil; [apply t_is_operator|]. cbn beta. cbn [app]. unfold is in Hq.
        rewrite Hq. cbn [is_some orb negb infix_binding_power].
        eapply t_nil; [apply t_peek|]. cbn beta. cbn [app]. rewrite Hq. cbn [infix_binding_power postfix_binding_power].
        destruct (N.ltb_spec 80 bp); [lia|]. tk. rewrite Hq. cbn [tt_eqb]. tk.
        eapply t_all; [rewrite app_assoc; apply Gu; [exact Ht|]|].
        { yields. }
        cbn beta. intros e' He'. done_. eexists. split; [reflexivity|]. now apply E_elvis.
      * intros e' He'. rewrite app_assoc. eapply G; [exact He'|exact Ht|]. yields.
Qed.

Lemma with_tail : forall w v, headed (operand_heads ++ include_kinds ++ [TYield; TYieldFrom; TFn]) w ->
  Tail v -> (List.length v < k)%nat ->
  (forall t r, ends_expression t -> (is TDoubleArrow t -> no_yield (w ++ v)) -> takes (fun n => call (run n) n) w (Expr w) (v ++ t :: r)) ->
  reads_flat (w ++ v).
Proof.
  intros w v (x & y & -> & Hx) Hv Hk Hc bp.
  destruct (v_tail _ v (le_n _) Hk Hv bp) as (v1 & v2 & -> & Hv2 & Hs & G).
  exists ((x :: y) ++ v1), v2. splits; [now rewrite app_assoc|exact Hv2|exact Hs|]. intros t r Ht Hy. apply t_expr. unfold expression_body.
  eapply t_nil; [apply t_peek|]. cbn beta. cbn [app]. rewrite (prefix_none x Hx). change (x :: y ++ v1) with ((x :: y) ++ v1).
  eapply t_bind; [apply t_call; rewrite app_assoc; apply Hc; [exact Ht|exact Hy]|]. cbn beta. intros e He. apply t_operators.
  eapply G; [exact He|exact Ht|]. yields.
Qed.

Lemma greedy : forall w, headed (operand_heads ++ include_kinds ++ [TYield; TYieldFrom; TFn]) w -> (0 < k)%nat ->
  (forall t r, ends_expression t -> (is TDoubleArrow t -> no_yield w) -> takes (fun n => primary (run n) n) w (Expr w) (t :: r)) ->
  reads_flat w.
Proof.
  intros w Hh Hk Hp. rewrite <- (app_nil_r w). apply with_tail; [exact Hh|constructor|exact Hk|]. rewrite app_nil_r. cbn [app].
  intros t r Ht Hy. unfold call. eapply t_all; [apply Hp; assumption|]. cbn beta. intros e He. apply t_init, init_done; [now apply ends_halts|exact He].
Qed.

Ltac noat := eapply t_nil; [eapply v_no_attributes; look_|]; cbn beta iota.
Ltac walk := repeat first [no | noat].

Lemma v_flat : forall w, (List.length w <= k)%nat -> Flat w -> reads_flat w.
Proof.
  intros w Hk H. destruct H as [w n v Ho Hv|t v Ht Hv|t w Ht Hw|t w Ht Hw|t w Ht Hw|t w1 a w2 Ht H1 Hy Ha H2 Hr|t w Ht Hw|
    wa ats ws s t wr r a wp p b wt ty ar w Hat Hs Ht Hr Ha Hp Hb Hty Har Hw].
  - assert (Hh : headed (operand_heads ++ include_kinds ++ [TYield; TYieldFrom; TFn]) w).
    { eapply headed_more; [eapply operand_head; exact Ho|]. intros x Hx. apply in_or_app. now left. }
    apply with_tail; [exact Hh|exact Hv|destruct Hh as (x & y & -> & _); len|]. intros t r Ht Hy.
    rewrite <- (app_nil_r w) at 1. eapply (v_operand k HE HB); [exact Ho|len| |].
    + intros n' Hn'. apply init_done; [now apply tail_halts|now constructor].
    + cbn [app]. pose proof (tail_halts v t r Hv Ht) as L. unfold halting in L.
      do 6 (apply look_cons in L as [_ L]). exact L.
  - change (t :: v) with ([t] ++ v). apply with_tail; [hd|exact Hv|len|]. intros u r Hu Hy. unfold call.
    eapply (t_all _ _ _ _ _ (Expr [t])).
    + unfold primary. walk. tk. eapply t_nil; [apply t_ignore_no|].
      { pose proof (tail_halts v u r Hv Hu) as L. unfold halting in L. now apply look_cons in L as [L _]. }
      cbn beta iota. done_. now apply E_exit.
    + cbn beta. intros e He. apply t_init, init_done; [now apply tail_halts|exact He].
  - intros bp. destruct (prefix_some t Ht) as [p Hp].
    destruct (HF w ltac:(len) Hw p) as (u1 & u2 & -> & Hu2 & Hs2 & Gu).
    destruct (v_tail _ u2 (le_n _) ltac:(len) Hu2 bp) as (v1 & v2 & -> & Hv2 & Hs & G).
    exists (t :: u1 ++ v1), v2. splits; [cbn [app]; now rewrite app_assoc|exact Hv2|exact Hs|]. intros u r Hu Hy. apply t_expr. unfold expression_body.
    eapply t_nil; [apply t_peek|]. cbn beta. cbn [app]. rewrite Hp. change (t :: u1 ++ v1) with ((t :: u1) ++ v1).
    eapply (t_bind _ _ _ _ _ _ (Expr (t :: u1))).
    + tk. eapply t_all; [rewrite app_assoc; apply Gu; [exact Hu|]|].
      { yields. }
      cbn beta. intros e He. done_. now apply E_prefix.
    + cbn beta. intros e He. apply t_operators. eapply G; [exact He|exact Hu|]. yields.
  - unfold include_kinds in Ht. apply greedy; [|len|].
    { apply headed_cons. unfold one_of_kinds in Ht. cbn [In] in Ht. cbn. tauto. }
    intros u r Hu Hy. unfold primary. walk. tk.
    eapply t_all; [apply HX; [len|exact Hw|exact Hu|yields]|]. cbn beta. intros e He. done_. now apply E_include.
  - apply greedy; [hd|len|]. intros u r Hu Hy. unfold primary. walk. tk.
    assert (Hn : ~ is TDoubleArrow u) by (intros X; specialize (Hy X); inversion Hy; contradiction).
    eapply t_nil; [apply t_one_of_no; eapply look_headed; [eapply flat_head; exact Hw|reflexivity]|]. cbn beta iota. unfold array_pair.
    eapply (t_all _ _ _ _ _ (fun x => exists e, x = NArrayElement None None e /\ Expr w e)).
    + eapply t_all; [apply HX; [len|exact Hw|exact Hu|intros X; contradiction]|]. cbn beta. intros e He.
      eapply t_nil; [apply t_ignore_no|]. { unfold look, one_of. cbn [existsb app]. destruct (tt_eqb TDoubleArrow (t_type u)) eqn:E; [|reflexivity].
        apply tt_eqb_eq in E. exfalso. apply Hn. now symmetry. }
      cbn beta iota. done_. eauto.
    + cbn beta. intros ? (e & -> & He). done_. now apply E_yield.
  - apply greedy; [hd|len|]. intros u r Hu Hy'. unfold primary. walk. tk.
    assert (Hn : ~ is TDoubleArrow u) by (intros X; specialize (Hy' X); inversion Hy'; contradiction).
    eapply t_nil; [apply t_one_of_no; rewrite <- app_assoc; eapply look_headed; [eapply flat_head; exact H1|reflexivity]|]. cbn beta iota. unfold array_pair.
    eapply (t_all _ _ _ _ _ (fun x => exists e1 e2, x = NArrayElement (Some e1) (Some a) e2 /\ Expr w1 e1 /\ Expr w2 e2)).
    + eapply t_bind; [apply HX; [len|exact H1|ends|intros _; exact Hy]|]. cbn beta. intros e1 He1. tk.
      eapply t_nil; [apply t_one_of_no|]. { destruct (flat_head _ H2) as (x & y & -> & _). specialize (Hr x y eq_refl).
        unfold look, one_of. cbn [existsb app]. destruct (tt_eqb TBinaryAnd (t_type x)) eqn:E; [|reflexivity].
        apply tt_eqb_eq in E. exfalso. apply Hr. now symmetry. }
      cbn beta iota. eapply t_all; [apply HX; [len|exact H2|exact Hu|intros X; contradiction]|]. cbn beta. intros e2 He2. done_. eauto.
    + cbn beta. intros ? (e1 & e2 & -> & He1 & He2). done_. now apply E_yield_pair.
  - apply greedy; [hd|len|]. intros u r Hu Hy. unfold primary. walk. tk.
    eapply t_all; [apply HX; [len|exact Hw|exact Hu|yields]|]. cbn beta. intros e He. done_. now apply E_yield_from.
  - assert (h : headed [TAttributeStart; TStatic; TFn] (wa ++ ws ++ t :: wr ++ a :: wp ++ b :: wt ++ ar :: w)).
    { destruct (attributes_head _ _ Hat) as [->|h]; [|apply headed_app; eapply headed_more; [exact h|intros x [<-|[]]; cbn; tauto]].
      cbn [app]. destruct (maybe_head _ _ _ Hs) as [->|h]; [|apply headed_app; eapply headed_more; [exact h|intros x [<-|[]]; cbn; tauto]].
      cbn [app]. hd. }
    apply greedy; [eapply headed_more; [exact h|]|len|].
    { intros x Hx. cbn [In] in Hx. destruct Hx as [<-|[<-|[<-|[]]]]; cbn; tauto. }
    intros u rr Hu Hy.
    assert (HA : forall s ats', takes (fun n => arrow_function (run n) n s ats') (t :: wr ++ a :: wp ++ b :: wt ++ ar :: w)
      (fun x => exists p' e', x = NArrowFunction s r t a p' b ar ty e' ats' /\ Params wp p' /\ Expr w e') (u :: rr)).
    { intros s' ats'. unfold arrow_function. tk. eapply t_bind; [apply t_maybe; [exact Hr|lk]|]. cbn beta. intros ? <-. tk.
      eapply t_bind; [eapply (v_params k HE); [exact Hp|len|exact Hb]|]. cbn beta. intros p' Hp'. tk.
      eapply t_bind; [eapply r_returns; [exact Hty|lk]|]. cbn beta. intros ? <-. tk.
      eapply t_all; [apply HX; [len|exact Hw|exact Hu|yields]|]. cbn beta. intros e He. done_. eauto 6. }
    unfold primary. nos h. eapply t_bind; [eapply (v_attributes k HE); [exact Hat|len|]|].
    { destruct Hs as [[-> ->]|(x & -> & -> & Hx)]; lk. }
    cbn beta. intros ats' Hats. destruct Hs as [[-> ->]|(x & -> & -> & Hx)]; cbn [app].
    + yes. eapply t_conseq; [apply HA|]. cbn beta. intros ? (p' & e' & -> & ? & ?).
      apply (E_arrow wa ats' [] None); try assumption. now left.
    + no. no. tk. no. no. yes. eapply t_conseq; [apply HA|]. cbn beta. intros ? (p' & e' & -> & ? & ?).
      apply (E_arrow wa ats' [x] (Some x)); try assumption. right. eauto.
Qed.
End Pratt.
