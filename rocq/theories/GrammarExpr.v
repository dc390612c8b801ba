(** The lists and pieces an operand is made of: arguments, arrays, arms of a
    [match], attributes, parameters and signatures, read by the functions of
    Parser.v.  Expressions and blocks shorter than [k] tokens are assumed to
    be read; GrammarPratt.v and GrammarStmt.v discharge this by induction. *)

From Verif Require Import Base Token Node DocBlock Parser TokenFacts ParserBase SpecCalm SpecExpr SpecGrammar PrattFacts GrammarBase GrammarNames.

(** * First tokens *)

Definition operand_heads : list TokenType :=
  [TFalse; TTrue; TNull; TLongNumber; TDecimalNumber; TExponentialNumber; THexNumber; TBinaryNumber;
   TConstantEncapsedString; TEncapsedAndWhitespaceString; TShellEscape; TConstDir; TConstFile; TConstFunction;
   TConstLine; TConstMethod; TConstTrait; TConstClass; TConstNan; TConstInf;
   TVariable; TIdentifier; TNamespaceSeparator; TTypeSelf; TParent; TStatic; THereDocStart; TOpenParenthesis;
   TOpenBrackets; TTypeArray; TList; TIsset; TEmpty; TExit; TMatch; TAttributeStart; TFunction; TClass].
Definition expr_heads : list TokenType :=
  operand_heads ++
  [TPlus; TMinus; TNegation; TBitwiseNegation; TSilencer; TBinaryAnd; TIncrement; TDecrement; TNew;
   TClone; TElipsis; TBoolCast; TIntCast; TStringCast; TArrayCast; TObjectCast; TDoubleCast; TUnsetCast; TBadCast;
   TFn; TRequire; TRequireOnce; TInclude; TIncludeOnce; TYield; TYieldFrom].

Definition headed (heads : list TokenType) (w : list Token) : Prop := exists t v, w = t :: v /\ In (t_type t) heads.

Lemma headed_app : forall h w v, headed h w -> headed h (w ++ v).
Proof. intros h w v (t & x & -> & H). exists t, (x ++ v). auto. Qed.
Lemma headed_cons : forall h t w, In (t_type t) h -> headed h (t :: w).
Proof. intros h t w H. exists t, w. auto. Qed.
Lemma headed_more : forall h h' w, headed h w -> (forall x, In x h -> In x h') -> headed h' w.
Proof. intros h h' w (t & v & -> & H) I. exists t, v. auto. Qed.
Lemma look_headed : forall h l w r, headed h w -> existsb (fun k => existsb (tt_eqb k) h) l = false -> look l (w ++ r) = false.
Proof.
  intros h l w r (t & v & -> & H) Hl. cbn [app look]. destruct (one_of l t) eqn:E; [|reflexivity]. exfalso.
  apply not_true_iff_false in Hl. apply Hl. unfold one_of in E. apply existsb_exists in E as (x & Hx & E).
  apply existsb_exists. exists x. split; [exact Hx|]. apply existsb_exists. exists (t_type t). auto.
Qed.
Ltac hd := apply headed_cons; match goal with H : is _ ?t |- In (t_type ?t) _ => unfold is in H; rewrite H; cbn; tauto end.

Lemma attributes_head : forall w l, Attributes w l -> w = [] \/ headed [TAttributeStart] w.
Proof. intros w l [|]; [now left|right]. hd. Qed.
Lemma maybe_head : forall k w o, maybe k w o -> w = [] \/ headed [k] w.
Proof. intros k w o [[-> _]|(t & -> & _ & H)]; [now left|right]. hd. Qed.

Lemma operand_head : forall w n, Operand w n -> headed operand_heads w.
Proof.
  intros w n H. induction H; try (hd); try (apply headed_app; assumption).
  - apply headed_cons. unfold literal in H. destruct (t_type t); try discriminate H; cbn; tauto.
  - destruct (variable_first _ _ H) as (t & x & -> & Ht). hd.
  - apply headed_cons. unfold one_of_kinds in H. cbn [In] in H. destruct H as [<-|[<-|[]]]; cbn; tauto.
  - apply headed_cons. unfold one_of_kinds in H. cbn [In] in H. destruct H as [<-|[<-|[<-|[]]]]; cbn; tauto.
  - destruct (attributes_head _ _ H) as [->|h]; [|apply headed_app; eapply headed_more; [exact h|intros x [<-|[]]; cbn; tauto]].
    cbn [app]. destruct (maybe_head _ _ _ H0) as [->|h]; [|apply headed_app; eapply headed_more; [exact h|intros x [<-|[]]; cbn; tauto]].
    cbn [app]. hd.
  - destruct (attributes_head _ _ H) as [->|h]; [|apply headed_app; eapply headed_more; [exact h|intros x [<-|[]]; cbn; tauto]].
    cbn [app]. hd.
Qed.
Lemma expr_head : forall w e, Expr w e -> headed expr_heads w.
Proof.
  intros w e H. induction H; try (hd); try (apply headed_app; assumption).
  - eapply headed_more; [eapply operand_head; eassumption|]. intros x Hx. apply in_or_app. now left.
  - apply headed_cons. unfold prefix_operator, one_of_kinds in H. apply in_or_app. right.
    cbn [In] in *. tauto.
  - apply headed_cons. unfold one_of_kinds in H. cbn [In] in H. apply in_or_app. right.
    destruct H as [<-|[<-|[<-|[<-|[]]]]]; cbn; tauto.
  - destruct (attributes_head _ _ H) as [->|h]; [|apply headed_app; eapply headed_more; [exact h|intros x [<-|[]]; cbn; tauto]].
    cbn [app]. destruct (maybe_head _ _ _ H0) as [->|h]; [|apply headed_app; eapply headed_more; [exact h|intros x [<-|[]]; cbn; tauto]].
    cbn [app]. hd.
Qed.
Lemma look_expr : forall l w e r, Expr w e -> existsb (fun k => existsb (tt_eqb k) expr_heads) l = false -> look l (w ++ r) = false.
Proof. intros l w e r H Hl. eapply look_headed; [eapply expr_head; exact H|exact Hl]. Qed.
Lemma expr_nonempty : forall w e, Expr w e -> exists t v, w = t :: v.
Proof. intros w e H. destruct (expr_head w e H) as (t & v & -> & _). eauto. Qed.
Lemma pair_head : forall w n, Pair w n -> headed expr_heads w.
Proof. intros w n H. destruct H; try apply headed_app; eapply expr_head; eassumption. Qed.
Lemma conditions_head : forall w n, Conditions w n -> headed expr_heads w.
Proof. intros w n H. destruct H; try apply headed_app; eapply expr_head; eassumption. Qed.
Lemma arg_head : forall w n, Arg w n -> headed (expr_heads ++ words) w.
Proof.
  intros w n H. destruct H as [w e H P|i c w e Hi Hc H].
  - eapply headed_more; [eapply expr_head; exact H|]. intros x Hx. apply in_or_app. now left.
  - apply headed_cons. apply in_or_app. now right.
Qed.
Lemma arm_head : forall w n, Arm w n -> headed (TDefault :: expr_heads) w.
Proof.
  intros w n H. destruct H; [hd|]. apply headed_app. eapply headed_more; [eapply conditions_head; eassumption|]. intros x Hx. now right.
Qed.
Lemma block_head : forall w n, Block w n -> exists a v, w = a :: v /\ is TOpenCurly a.
Proof. intros w n H. destruct H. eauto. Qed.
Lemma initial_head : forall w q e, Initial w q e -> w = [] \/ headed [TAssignment] w.
Proof. intros w q e H. destruct H; [now left|right; hd]. Qed.

(** * Tactics *)

Ltac len := cbn [List.length] in *; rewrite ?app_length in *; cbn [List.length] in *; rewrite ?app_length in *; cbn [List.length] in *; lia.

Ltac look_ :=
  repeat rewrite <- app_assoc; cbn [app];
  first
  [ assumption
  | lk
  | match goal with
    | H : Expr ?w _ |- look _ (?w ++ _) = false => eapply look_expr; [exact H|reflexivity]
    | H : Pair ?w _ |- look _ (?w ++ _) = false => eapply look_headed; [eapply pair_head; exact H|reflexivity]
    | H : Arm ?w _ |- look _ (?w ++ _) = false => eapply look_headed; [eapply arm_head; exact H|reflexivity]
    | H : Arg ?w _ |- look _ (?w ++ _) = false => eapply look_headed; [eapply arg_head; exact H|reflexivity]
    | H : Conditions ?w _ |- look _ (?w ++ _) = false => eapply look_headed; [eapply conditions_head; exact H|reflexivity]
    | H : Qualified ?w |- look _ (?w ++ _) = false => apply look_qualified; [exact H|reflexivity]
    | H : Lexical ?w _ |- look _ (?w ++ _) = false => eapply look_lexical; [exact H|reflexivity]
    | H : word ?t |- look _ (?t :: _) = false => apply look_word; [exact H|reflexivity]
    | H : maybe _ ?w _ |- look _ (?w ++ _) = false => eapply look_maybe; [exact H|reflexivity|look_]
    | H : Block ?w _ |- look _ (?w ++ _) = _ =>
        let a := fresh "a" in let v := fresh "v" in let Ha := fresh "Ha" in
        destruct (block_head _ _ H) as (a & v & -> & Ha); lk
    | H : one_of_kinds _ ?t |- look _ (?t :: _) = false =>
        cbn [look]; unfold one_of, one_of_kinds in *; cbn [In existsb] in *;
        repeat (destruct H as [H|H]; [rewrite <- H; reflexivity|]); solve [destruct H]
    end ].

(** one token / no token / an answer without reading *)
Ltac tk :=
  eapply t_tok;
  [first [ apply t_consume; assumption | apply t_ignore_yes; assumption | apply t_after; assumption | apply t_before; assumption
         | apply t_end_of_statement; assumption | apply t_identifier; assumption | apply t_choose_yes; assumption
         | apply t_consume_one_of; assumption | apply t_member; assumption | apply t_next | apply t_next_unwrap ]
  |]; cbn beta iota.
Ltac no :=
  eapply t_nil; [first [apply t_one_of_no; look_ | apply t_ignore_no; look_ | apply t_choose_no; look_]|]; cbn beta iota.
Ltac yes := eapply t_nil; [apply t_one_of_yes; look_|]; cbn beta iota.

Ltac ends :=
  match goal with
  | H : ends_expression ?t |- ends_expression ?t => exact H
  | |- ends_expression ?t => unfold ends_expression; match goal with H : is _ t |- _ => unfold is in H; rewrite H; cbn; tauto end
  end.
Ltac arrow :=
  let X := fresh in intros X; first [assumption
    | exfalso; repeat match goal with H : is _ _ \/ is _ _ |- _ => destruct H end; unfold is in *; congruence].

Ltac done_ := first [apply t_ret | apply t_continue | apply t_break].

Section Inner.
Context `{RT : Runtime}.
Variable k : nat.
Hypothesis HE : forall w e t r, (List.length w < k)%nat -> Expr w e -> ends_expression t -> (is TDoubleArrow t -> no_yield w) ->
  takes (fun n => r_expr (run n) 0) w (Expr w) (t :: r).
Hypothesis HB : forall w b r, (List.length w < k)%nat -> Block w b -> takes (fun n => r_block (run n)) w (Block w) r.

Ltac ex := first [eapply t_bind; [eapply HE; [len|eassumption|ends|arrow]|] | eapply t_all; [eapply HE; [len|eassumption|ends|arrow]|]];
  cbn beta; let e := fresh "e'" in let H := fresh "He'" in intros e H.

(** * Arguments *)

Lemma v_values_loop : forall w l, Values w l -> (List.length w < k)%nat -> forall acc b r, is TCloseParenthesis b ->
  takes (fun n => parameters_loop (run n) n acc) w (fun x => exists l', x = acc ++ l' /\ Values w l') (b :: r).
Proof.
  intros w l H Hk acc b r Hb. unfold parameters_loop. apply t_loop. revert acc.
  induction H as [|w e He|w e c v l He Hc H IH]; intros acc.
  - apply l_break. yes. done_. eexists. split; [reflexivity|]. exists []. rewrite app_nil_r. split; [reflexivity|constructor].
  - apply l_break. no. ex. yes. done_. eexists. split; [reflexivity|]. eexists. split; [reflexivity|]. now constructor.
  - replace (w ++ c :: v) with ((w ++ [c]) ++ v) by now rewrite <- app_assoc.
    eapply (l_more _ _ _ _ _ _ (fun a => exists e', a = acc ++ [e'] /\ Expr w e')).
    + no. ex. no. tk. done_. eauto.
    + intros ? (e' & -> & He'). eapply l_conseq; [apply IH; len|]. cbn beta. intros ? (l' & -> & Hl').
      exists (e' :: l'). rewrite <- !app_assoc. split; [reflexivity|]. cbn [app]. now apply Vs_more.
Qed.
Lemma v_values : forall w l, Values w l -> (List.length w < k)%nat -> forall b r, is TCloseParenthesis b ->
  takes (fun n => parameter_list (run n) n) w (Values w) (b :: r).
Proof.
  intros w l H Hk b r Hb. unfold parameter_list. eapply t_conseq; [eapply v_values_loop; eassumption|]. cbn beta.
  now intros ? (l' & -> & H').
Qed.
Lemma v_values_some : forall w l, Values w l -> l <> [] -> (List.length w < k)%nat -> forall b r, is TCloseParenthesis b ->
  takes (fun n => non_empty_parameter_list (run n) n) w (fun x => Values w x /\ x <> []) (b :: r).
Proof.
  intros w l H Hl Hk b r Hb. unfold non_empty_parameter_list. destruct H as [|w e He|w e c v l He Hc H]; [contradiction| |].
  - ex. no. eapply t_conseq; [eapply v_values_loop; [constructor|cbn; lia|eassumption]|]. cbn beta.
    intros ? (l' & -> & H'). inversion H' as [| |]; subst.
    + split; [now constructor|discriminate].
    + exfalso. destruct (expr_nonempty _ _ H) as (? & ? & E). discriminate E.
    + exfalso. match goal with E : ?x ++ _ = [] |- _ => now destruct x end.
  - ex. tk. eapply t_conseq; [eapply v_values_loop; [eassumption|len|eassumption]|]. cbn beta.
    intros ? (l' & -> & H'). split; [now apply Vs_more|discriminate].
Qed.

Lemma t_identifier_is : forall t r, is_identifier t = true -> takes (fun _ => consume_identifier) [t] (fun x => x = t /\ visible t) r.
Proof.
  intros t r H. unfold consume_identifier. eapply t_nil; [apply t_peek|]. cbn beta. cbn [app]. rewrite H. apply t_next_unwrap_visible.
Qed.

Lemma v_arg : forall t x n, Arg (t :: x) n -> (List.length (t :: x) < k)%nat -> forall u r,
  is TComma u \/ is TCloseParenthesis u ->
  takes (fun n => if is_identifier t then
              name <- consume_identifier ;;
              c <- next_token_one_of [TColon] ;;
              if c then
                colon <- consume TColon ;;
                expr <- r_expr (run n) 0 ;;
                ret (NNamedParameter name colon expr)
              else
                push_tok name ;;;
                r_expr (run n) 0
            else r_expr (run n) 0) (t :: x) (Arg (t :: x)) (u :: r).
Proof.
  intros t x n H Hk u r Hu.
  assert (Hends : ends_expression u) by (destruct Hu; ends).
  assert (Hno : is TDoubleArrow u -> no_yield (t :: x)) by (destruct Hu; arrow).
  inversion H as [w e He Hp|i c w e Hi Hc He]; subst.
  - assert (X : takes (fun n => r_expr (run n) 0) (t :: x) (Arg (t :: x)) (u :: r)).
    { eapply t_conseq; [eapply HE; eassumption|]. intros e' He'. now constructor. }
    destruct (is_identifier t) eqn:Et; [|exact X].
    apply (t_bind _ _ _ _ [t] x (fun y => y = t /\ visible t)); [apply t_identifier_is; exact Et|]. cbn beta. intros ? [-> V].
    eapply t_nil.
    + apply t_one_of_no. destruct x as [|y x].
      * cbn [app]. destruct Hu; lk.
      * cbn [app look positional] in *. unfold one_of. cbn [existsb]. rewrite orb_false_r. apply not_true_iff_false. intros E.
        apply tt_eqb_eq in E. apply Hp. now symmetry.
    + cbn beta iota. apply t_push; [exact V|exact X].
  - rewrite (word_identifier _ Hi). tk. yes. tk. ex. done_. now constructor.
Qed.

Lemma v_args : forall w l, Args w l -> (List.length w < k)%nat -> forall f a b r, is TOpenParenthesis a -> is TCloseParenthesis b ->
  takes (fun n => finish_call (run n) n f) (a :: w ++ [b]) (fun x => exists l', x = NCall f a l' b /\ Args w l') r.
Proof.
  intros w l H Hk f a b r Ha Hb. unfold finish_call. cbv zeta. tk. eapply (t_bind _ _ _ _ _ _ (Args w)).
  - apply t_loop. accumulate. revert Hk. induction H as [|w e He|w e c v l He Hc H IH]; intros Hk acc.
    + apply l_break. yes. done_. eexists. split; [reflexivity|]. exists []. rewrite app_nil_r. split; [reflexivity|constructor].
    + apply l_break. no. destruct (arg_head _ _ He) as (t & x & -> & _). cbn [app].
      eapply t_nil; [apply t_next_is_identifier|]. cbn beta.
      eapply t_all; [eapply v_arg; eauto|]. cbn beta. intros e' He'. yes. done_. eexists. split; [reflexivity|].
      eexists. split; [reflexivity|]. now constructor.
    + replace (w ++ c :: v) with ((w ++ [c]) ++ v) by now rewrite <- app_assoc.
      eapply (l_more _ _ _ _ _ _ (fun a => exists e', a = acc ++ [e'] /\ Arg w e')).
      * no. destruct (arg_head _ _ He) as (t & x & -> & _). cbn [app].
        eapply t_nil; [apply t_next_is_identifier|]. cbn beta. change (t :: x ++ [c]) with ((t :: x) ++ [c]).
        eapply t_bind; [eapply v_arg; [exact He|len|now left]|]. cbn beta. intros e' He'. no. tk. done_. eauto.
      * intros ? (e' & -> & He'). eapply l_conseq; [apply IH; len|]. cbn beta. intros ? (l' & -> & Hl').
        exists (e' :: l'). rewrite <- !app_assoc. split; [reflexivity|]. cbn [app]. now apply Ars_more.
  - cbn beta. intros l' Hl'. tk. done_. eauto.
Qed.

(** * Arrays *)

Lemma v_pair : forall w p, Pair w p -> (List.length w < k)%nat -> forall u r,
  one_of_kinds [TComma; TCloseParenthesis; TCloseBrackets] u ->
  takes (fun n => array_pair (run n)) w (Pair w) (u :: r).
Proof.
  intros w p H Hk u r Hu.
  assert (Hends : ends_expression u).
  { unfold one_of_kinds in Hu. unfold ends_expression. cbn [In] in *. tauto. }
  assert (Hno : is TDoubleArrow u -> no_yield w).
  { intros X. exfalso. unfold one_of_kinds in Hu. cbn [In] in Hu. unfold is in X. rewrite X in Hu. intuition discriminate. }
  unfold array_pair. cbv zeta. destruct H as [w e He|w1 e1 a w2 e2 He1 Hy Ha He2 Hr|w1 e1 a x v He1 Hy Ha Hx Hv].
  - eapply t_all; [eapply HE; eassumption|]. cbn beta. intros e' He'. no. done_. now constructor.
  - ex. tk. eapply t_nil.
    + apply t_one_of_no. destruct (expr_nonempty _ _ He2) as (t & v & ->). cbn [app look]. unfold one_of. cbn [existsb].
      rewrite orb_false_r. apply not_true_iff_false. intros E. apply tt_eqb_eq in E. apply (Hr t v eq_refl). now symmetry.
    + cbn beta iota. eapply t_all; [eapply HE; [len|eassumption|exact Hends|]|].
      * intros X. specialize (Hno X). unfold no_yield in *. apply Forall_app in Hno as [_ Hno]. exact (Forall_inv_tail Hno).
      * cbn beta. intros e'' He''. done_. now constructor.
  - ex. tk. yes. eapply t_all; [apply r_lexical; apply (Lx [x] (Some x) v); [right; eauto|exact Hv]|]. cbn beta. intros ? <-. done_.
    now apply Pr_reference.
Qed.

Definition closer (kc : TokenType) : Prop := kc = TCloseBrackets \/ kc = TCloseParenthesis.
Lemma closer_kind : forall kc b, closer kc -> is kc b -> one_of_kinds [TComma; TCloseParenthesis; TCloseBrackets] b.
Proof. intros kc b [->| ->] H; unfold is in H; unfold one_of_kinds; rewrite H; cbn; tauto. Qed.
Ltac closed Hkc := destruct Hkc as [->| ->]; look_.

Lemma v_items : forall w l, Items w l -> (List.length w < k)%nat -> forall b r, is TCloseParenthesis b ->
  takes (fun n => ploop n (fun elements =>
    b <- next_token_one_of [TCloseParenthesis] ;;
    if b then break elements
    else
      e <- array_pair (run n) ;;
      consume_or_ignore TComma ;;;
      continue (elements ++ [e])) []) w (Items w) (b :: r).
Proof.
  intros w l H Hk b r Hb. apply t_loop. accumulate. revert Hk.
  induction H as [|w p Hp|w p c v l Hp Hc H IH]; intros Hk acc.
  - apply l_break. yes. done_. eexists. split; [reflexivity|]. exists []. rewrite app_nil_r. split; [reflexivity|constructor].
  - rewrite <- (app_nil_r w) at 1. eapply (l_more _ _ _ _ _ _ (fun a => exists e', a = acc ++ [e'] /\ Pair w e')).
    + no. eapply t_all; [eapply v_pair; [eassumption|len|]|].
      { unfold one_of_kinds. unfold is in Hb. rewrite Hb. cbn; tauto. }
      cbn beta. intros e' He'. no. done_. eauto.
    + intros ? (e' & -> & He'). apply l_break. yes. done_. eexists. split; [reflexivity|]. exists [e']. split; [reflexivity|now constructor].
  - replace (w ++ c :: v) with ((w ++ [c]) ++ v) by now rewrite <- app_assoc.
    eapply (l_more _ _ _ _ _ _ (fun a => exists e', a = acc ++ [e'] /\ Pair w e')).
    + no. eapply t_bind; [eapply v_pair; [eassumption|len|]|].
      { unfold one_of_kinds. unfold is in Hc. rewrite Hc. cbn; tauto. }
      cbn beta. intros e' He'. tk. done_. eauto.
    + intros ? (e' & -> & He'). eapply l_conseq; [apply IH; len|]. cbn beta. intros ? (l' & -> & Hl').
      exists (e' :: l'). rewrite <- !app_assoc. split; [reflexivity|]. cbn [app]. now apply It_more.
Qed.

Lemma v_elements : forall kc w l, closer kc -> Elements w l -> (List.length w < k)%nat -> forall b r, is kc b ->
  takes (fun n => ploop n (fun elements =>
    b <- next_token_one_of [kc] ;;
    if b then break elements
    else
      c <- consume_or_ignore TComma ;;
      match c with
      | Some _ => continue elements
      | None =>
          e <- array_pair (run n) ;;
          consume_or_ignore TComma ;;;
          continue (elements ++ [e])
      end) []) w (Elements w) (b :: r).
Proof.
  intros kc w l Hkc H Hk b r Hb. pose proof (closer_kind _ _ Hkc Hb) as Hb'. apply t_loop. accumulate. revert Hk.
  assert (Hyes : look [kc] (b :: r) = true) by (destruct Hkc as [->| ->]; lk).
  assert (Hcomma : forall c x, is TComma c -> look [kc] (c :: x) = false) by (intros c x Hc; destruct Hkc as [->| ->]; lk).
  assert (Hpair : forall w p x, Pair w p -> look [kc] (w ++ x) = false).
  { intros w0 p x Hp. destruct Hkc as [->| ->]; look_. }
  assert (Hbc : look [TComma] (b :: r) = false) by (destruct Hkc as [->| ->]; lk).
  induction H as [|c v l Hc H IH|w p Hp|w p c v l Hp Hc H IH]; intros Hk acc.
  - apply l_break. eapply t_nil; [apply t_one_of_yes; exact Hyes|]. cbn beta iota. done_. eexists. split; [reflexivity|].
    exists []. rewrite app_nil_r. split; [reflexivity|constructor].
  - change (c :: v) with ([c] ++ v). eapply (l_more _ _ _ _ _ _ (eq acc)).
    + eapply t_nil; [apply t_one_of_no; now apply Hcomma|]. cbn beta iota. tk. done_. eauto.
    + intros ? <-. eapply l_conseq; [apply IH; len|]. cbn beta. intros ? (l' & -> & Hl'). exists l'. split; [reflexivity|].
      now apply El_skip.
  - rewrite <- (app_nil_r w) at 1. eapply (l_more _ _ _ _ _ _ (fun a => exists e', a = acc ++ [e'] /\ Pair w e')).
    + eapply t_nil; [apply t_one_of_no; eapply Hpair; exact Hp|]. cbn beta iota. no.
      eapply t_all; [eapply v_pair; [eassumption|len|exact Hb']|]. cbn beta. intros e' He'.
      eapply t_nil; [apply t_ignore_no; exact Hbc|]. cbn beta iota. done_. eauto.
    + intros ? (e' & -> & He'). apply l_break. eapply t_nil; [apply t_one_of_yes; exact Hyes|]. cbn beta iota. done_.
      eexists. split; [reflexivity|]. exists [e']. split; [reflexivity|now constructor].
  - replace (w ++ c :: v) with ((w ++ [c]) ++ v) by now rewrite <- app_assoc.
    eapply (l_more _ _ _ _ _ _ (fun a => exists e', a = acc ++ [e'] /\ Pair w e')).
    + eapply t_nil; [apply t_one_of_no; rewrite <- ?app_assoc; eapply Hpair; exact Hp|]. cbn beta iota. no.
      eapply t_bind; [eapply v_pair; [eassumption|len|]|].
      { unfold one_of_kinds. unfold is in Hc. rewrite Hc. cbn; tauto. }
      cbn beta. intros e' He'. tk. done_. eauto.
    + intros ? (e' & -> & He'). eapply l_conseq; [apply IH; len|]. cbn beta. intros ? (l' & -> & Hl').
      exists (e' :: l'). rewrite <- !app_assoc. split; [reflexivity|]. cbn [app]. now apply El_more.
Qed.

(** * Lists of expressions *)

Lemma v_conditions_loop : forall v l, Conditions v l -> (List.length v < k)%nat -> forall acc c t r, is TComma c ->
  ends_expression t -> ~ is TComma t -> (is TDoubleArrow t -> no_yield v) ->
  ltakes (fun n expressions =>
    c <- consume_or_ignore TComma ;;
    match c with
    | Some _ => e <- r_expr (run n) 0 ;; continue (expressions ++ [e])
    | None => break expressions
    end) acc (c :: v) (fun x => exists l', x = acc ++ l' /\ Conditions v l') (t :: r).
Proof.
  intros v l H. induction H as [w e He|w e c' v l He Hc' H IH]; intros Hk acc c t r Hc Ht Hn Hy.
  - rewrite <- (app_nil_r (c :: w)). eapply (l_more _ _ _ _ _ _ (fun a => exists e', a = acc ++ [e'] /\ Expr w e')).
    + tk. eapply t_all; [eapply HE; eassumption|]. cbn beta. intros e' He'. done_. eauto.
    + intros ? (e' & -> & He'). apply l_break. eapply t_nil.
      * apply t_ignore_no. cbn [app look]. unfold one_of. cbn [existsb]. rewrite orb_false_r. apply not_true_iff_false. intros E.
        apply tt_eqb_eq in E. apply Hn. now symmetry.
      * cbn beta iota. done_. eexists. split; [reflexivity|]. exists [e']. split; [reflexivity|now constructor].
  - change (c :: w ++ c' :: v) with ((c :: w) ++ c' :: v). eapply (l_more _ _ _ _ _ _ (fun a => exists e', a = acc ++ [e'] /\ Expr w e')).
    + tk. ex. done_. eauto.
    + intros ? (e' & -> & He'). eapply l_conseq; [apply IH; [len|exact Hc'|exact Ht|exact Hn|]|].
      * intros X. specialize (Hy X). unfold no_yield in *. apply Forall_app in Hy as [_ Hy]. exact (Forall_inv_tail Hy).
      * cbn beta. intros ? (l' & -> & Hl'). exists (e' :: l'). rewrite <- app_assoc. split; [reflexivity|]. now apply Co_more.
Qed.
Lemma v_conditions_from : forall w l, Conditions w l -> (List.length w < k)%nat -> forall t r,
  ends_expression t -> ~ is TComma t -> (is TDoubleArrow t -> no_yield w) ->
  takes (fun n => first <- r_expr (run n) 0 ;;
  ploop n (fun expressions =>
    c <- consume_or_ignore TComma ;;
    match c with
    | Some _ => e <- r_expr (run n) 0 ;; continue (expressions ++ [e])
    | None => break expressions
    end) [first]) w (Conditions w) (t :: r).
Proof.
  intros w l H Hk t r Ht Hn Hy. destruct H as [w e He|w e c v l He Hc H].
  - eapply t_all; [eapply HE; eassumption|]. cbn beta. intros e' He'. apply t_loop, l_break. eapply t_nil.
    + apply t_ignore_no. cbn [app look]. unfold one_of. cbn [existsb]. rewrite orb_false_r. apply not_true_iff_false. intros E.
      apply tt_eqb_eq in E. apply Hn. now symmetry.
    + cbn beta iota. done_. eexists. split; [reflexivity|]. now constructor.
  - ex. apply t_loop. eapply l_conseq; [eapply v_conditions_loop; [eassumption|len|assumption|assumption|assumption|]|].
    + intros X. specialize (Hy X). unfold no_yield in *. apply Forall_app in Hy as [_ Hy]. exact (Forall_inv_tail Hy).
    + cbn beta. intros ? (l' & -> & Hl'). now apply Co_more.
Qed.
Lemma v_conditions : forall w l, Conditions w l -> (List.length w < k)%nat -> forall t r,
  ends_expression t -> ~ is TComma t -> (is TDoubleArrow t -> no_yield w) ->
  takes (fun n => comma_expressions (run n) n) w (Conditions w) (t :: r).
Proof. intros w l H Hk t r Ht Hn Hy. unfold comma_expressions. cbv zeta. eapply v_conditions_from; eassumption. Qed.

(** * Arms *)

Lemma v_cases : forall v l, Conditions v l -> no_yield v -> forall ar w e, is TDoubleArrow ar -> Expr w e ->
  (List.length (v ++ ar :: w) < k)%nat -> forall options pats u r, is TComma u \/ is TCloseCurly u ->
  takes (fun n => ploop n (fun patterns =>
              e <- r_expr (run n) 0 ;;
              let patterns := patterns ++ [e] in
              c <- consume_or_ignore TComma ;;
              match c with
              | Some _ => continue patterns
              | None =>
                  arrow <- consume TDoubleArrow ;;
                  expression <- r_expr (run n) 0 ;;
                  break (options ++ [(NMatchArm (Some patterns) arrow expression)])
              end) pats) (v ++ ar :: w)
    (fun x => exists l' e', x = options ++ [NMatchArm (Some (pats ++ l')) ar e'] /\ Conditions v l' /\ Expr w e') (u :: r).
Proof.
  intros v l H Hy ar w e Har He Hk options pats u r Hu. apply t_loop. cbv zeta. revert pats.
  assert (Hends : ends_expression u) by (destruct Hu; ends).
  assert (Hno : is TDoubleArrow u -> no_yield w) by (destruct Hu; arrow).
  induction H as [w0 e0 He0|w0 e0 c v l He0 Hc H IH]; intros pats.
  - apply l_break. ex. no. tk. eapply t_all; [eapply HE; [len|eassumption|exact Hends|exact Hno]|].
    cbn beta. intros e'' He''. done_. eexists. split; [reflexivity|]. exists [e'], e''. splits; auto. now constructor.
  - replace ((w0 ++ c :: v) ++ ar :: w) with ((w0 ++ [c]) ++ v ++ ar :: w) by now rewrite <- !app_assoc.
    eapply (l_more _ _ _ _ _ _ (fun a => exists e', a = pats ++ [e'] /\ Expr w0 e')).
    + ex. tk. done_. eauto.
    + intros ? (e' & -> & He'). eapply l_conseq; [apply IH|].
      * unfold no_yield in *. apply Forall_app in Hy as [_ Hy]. exact (Forall_inv_tail Hy).
      * len.
      * cbn beta. intros ? (l' & e'' & -> & Hl' & He''). exists (e' :: l'), e''. rewrite <- app_assoc. splits; auto. now apply Co_more.
Qed.

Lemma v_arms : forall w l, Arms w l -> (List.length w < k)%nat -> forall b r, is TCloseCurly b ->
  takes (fun n => match_body (run n) n) w (Arms w) (b :: r).
Proof.
  intros w l H Hk b r Hb. unfold match_body. cbv zeta. apply t_loop. accumulate.
  assert (HA : forall w a, Arm w a -> (List.length w < k)%nat -> forall acc u r, is TComma u \/ is TCloseCurly u ->
    forall B (K : nat -> list Node -> P B) v T x, v ++ x = u :: r ->
    (forall a', Arm w a' -> takes (fun n => K n (acc ++ [a'])) v T x) ->
    takes (fun n => d <- consume_or_ignore TDefault ;;
      bind match d with
        | Some _ =>
            arrow <- consume TDoubleArrow ;;
            expression <- r_expr (run n) 0 ;;
            ret (acc ++ [(NMatchArm None arrow expression)])
        | None =>
            ploop n (fun patterns =>
              e <- r_expr (run n) 0 ;;
              c <- consume_or_ignore TComma ;;
              match c with
              | Some _ => continue (patterns ++ [e])
              | None =>
                  arrow <- consume TDoubleArrow ;;
                  expression <- r_expr (run n) 0 ;;
                  break (acc ++ [(NMatchArm (Some (patterns ++ [e])) arrow expression)])
              end) []
        end (K n)) (w ++ v) T x).
  { clear w l H Hk. intros w0 a0 Ha Hk acc u r0 Hu B K v T x Ev HK.
    assert (Hends : ends_expression u) by (destruct Hu; ends).
    destruct Ha as [t ar w e Ht Har He|cs l0 ar w e Hcs Hy Har He].
    - cbn [app]. tk. change (ar :: w ++ v) with ((ar :: w) ++ v).
      eapply (t_bind _ _ _ K (ar :: w) v (fun y => exists a', y = acc ++ [a'] /\ Arm (t :: ar :: w) a')).
      + tk. rewrite Ev. eapply t_all; [eapply HE; [len|eassumption|exact Hends|destruct Hu; arrow]|].
        cbn beta. intros e' He'. done_. eexists. split; [reflexivity|]. now constructor.
      + cbn beta. intros ? (a' & -> & Ha'). now apply HK.
    - eapply t_nil; [apply t_ignore_no; rewrite <- !app_assoc; look_|]. cbn beta iota.
      eapply (t_bind _ _ _ K _ v (fun y => exists a', y = acc ++ [a'] /\ Arm (cs ++ ar :: w) a')).
      + rewrite Ev. eapply t_conseq; [eapply v_cases; eassumption|]. cbn beta. intros ? (l' & e' & -> & Hl' & He').
        eexists. split; [reflexivity|]. now constructor.
      + cbn beta. intros ? (a' & -> & Ha'). now apply HK. }
  revert Hk. induction H as [|w a Ha|w a c v l Ha Hc H IH]; intros Hk acc.
  - apply l_break. yes. done_. eexists. split; [reflexivity|]. exists []. rewrite app_nil_r. split; [reflexivity|constructor].
  - rewrite <- (app_nil_r w) at 1. eapply (l_more _ _ _ _ _ _ (fun x => exists e', x = acc ++ [e'] /\ Arm w e')).
    + no. rewrite <- (app_nil_r w). eapply HA; [exact Ha|len|right; exact Hb|reflexivity|]. intros a' Ha'. cbn beta.
      no. eapply t_nil; [apply t_peek|]. cbn beta iota. cbn [app]. done_. eexists. split; [reflexivity|]. rewrite app_nil_r. eauto.
    + intros ? (e' & -> & He'). apply l_break. yes. done_. eexists. split; [reflexivity|]. exists [e']. split; [reflexivity|now constructor].
  - replace (w ++ c :: v) with ((w ++ [c]) ++ v) by now rewrite <- app_assoc.
    eapply (l_more _ _ _ _ _ _ (fun x => exists e', x = acc ++ [e'] /\ Arm w e')).
    + no. eapply HA; [exact Ha|len|left; exact Hc|reflexivity|]. intros a' Ha'. cbn beta.
      tk. eapply t_nil; [apply t_peek|]. cbn beta iota. destruct (v ++ b :: r) as [|y z] eqn:E; [now destruct v|].
      done_. eauto.
    + intros ? (e' & -> & He'). eapply l_conseq; [apply IH; len|]. cbn beta. intros ? (l' & -> & Hl').
      exists (e' :: l'). rewrite <- !app_assoc. split; [reflexivity|]. cbn [app]. now apply Ams_more.
Qed.

(** * Attributes *)

Lemma v_attributes : forall w l, Attributes w l -> (List.length w < k)%nat -> forall r, look [TAttributeStart] r = false ->
  takes (fun n => attributes_block (run n) n) w (Attributes w) r.
Proof.
  intros w l H Hk r Hr. unfold attributes_block. apply t_loop. accumulate. revert Hk.
  induction H as [|a w l b v l' Ha Hl Hb H IH]; intros Hk acc.
  - apply l_break. no. done_. eexists. split; [reflexivity|]. exists []. rewrite app_nil_r. split; [reflexivity|constructor].
  - replace (a :: w ++ b :: v) with ((a :: w ++ [b]) ++ v) by (cbn; now rewrite <- app_assoc).
    eapply (l_more _ _ _ _ _ _ (fun x => exists l'', x = acc ++ [NAttribute a l'' b] /\ Conditions w l'')).
    + yes. eapply (t_all _ _ _ _ _ (fun x => exists l'', x = NAttribute a l'' b /\ Conditions w l'')).
      * unfold attribute. cbv zeta. tk.
        eapply (t_eq _ _ (w ++ [b])); [|reflexivity].
        assert (X : takes (fun n => bind (bind (r_expr (run n) 0) (fun first => ploop n (fun expressions =>
            c <- consume_or_ignore TComma ;;
            match c with
            | Some _ => e <- r_expr (run n) 0 ;; continue (expressions ++ [e])
            | None => break expressions
            end) [first])) (fun expressions => cb <- consume TCloseBrackets ;; ret (NAttribute a expressions cb)))
            (w ++ [b]) (fun x => exists l'', x = NAttribute a l'' b /\ Conditions w l'') (v ++ r)).
        { eapply t_bind; [eapply v_conditions_from; [eassumption|len|ends| |arrow]|].
          - intros X. unfold is in *. congruence.
          - cbn beta. intros l'' Hl''. tk. done_. eauto. }
        intros s Hs. destruct (X s Hs) as (y & s' & [n0 G] & R). exists y, s'. split; [|exact R]. exists n0. intros n Hn.
        rewrite <- (G n Hn). unfold bind. destruct (r_expr (run n) 0 s); reflexivity.
      * cbn beta. intros ? (l'' & -> & Hl''). done_. eauto.
    + intros ? (l'' & -> & Hl''). eapply l_conseq; [apply IH; len|]. cbn beta. intros ? (x & -> & Hx).
      exists (NAttribute a l'' b :: x). rewrite <- !app_assoc. split; [reflexivity|]. cbn [app]. rewrite <- app_assoc. now constructor.
Qed.
Lemma v_no_attributes : forall r, look [TAttributeStart] r = false -> takes (fun n => attributes_block (run n) n) [] (eq []) r.
Proof. intros r Hr. unfold attributes_block. apply t_loop, l_break. no. done_. eauto. Qed.

(** * Parameters *)

Lemma opt_type_head : forall w o, OptType w o -> w = [] \/ headed (TQuestionMark :: TNamespaceSeparator :: words) w.
Proof.
  intros w o [|w' n H]; [now left|right]. destruct H as [wq q wu l Hq Hu].
  destruct Hq as [[-> ->]|(x & -> & -> & Hx)].
  - cbn [app]. destruct (union_first _ _ Hu) as (t & v & -> & [Ht|Ht]); apply headed_cons; [unfold is in Ht; rewrite Ht; cbn; tauto|].
    right; right. exact Ht.
  - cbn [app]. apply headed_cons. unfold is in Hx. rewrite Hx. now left.
Qed.

Lemma v_param : forall w p, Param w p -> (List.length w < k)%nat -> forall doc acc u r, is TComma u \/ is TCloseParenthesis u ->
  forall B (K : nat -> list Node -> P B) v T x, v ++ x = u :: r ->
  (forall p', Param w p' -> takes (fun n => K n (acc ++ [p'])) v T x) ->
  takes (fun n =>
      attributes <- attributes_block (run n) n ;;
      argument_type <- argument_type n ;;
      reference <- consume_or_ignore TBinaryAnd ;;
      spread <- consume_or_ignore TElipsis ;;
      name <- consume TVariable ;;
      has_default <- consume_or_ignore TAssignment ;;
      default_value <- match has_default with
                       | Some _ => e <- r_expr (run n) 0 ;; ret (Some e)
                       | None => ret None
                       end ;;
      K n (acc ++
        [(NFunctionArgument argument_type name has_default default_value spread reference (param_comment_for doc name) attributes)]))
    (w ++ v) T x.
Proof.
  intros w p H Hk doc acc u r Hu B K v T x Ev HK.
  assert (Hends : ends_expression u) by (destruct Hu; ends).
  destruct H as [wa ats wt ty wr rf wd d vn wi q e doc0 Ha Hty Hr Hd Hv Hi].
  rewrite <- !app_assoc. cbn [app].
  assert (T0 : exists t0 y0, wr ++ wd ++ vn :: wi ++ v ++ x = t0 :: y0 /\ one_of_kinds [TBinaryAnd; TElipsis; TVariable] t0).
  { unfold one_of_kinds. destruct Hr as [[-> ->]|(t0 & -> & -> & H0)]; [|eexists _, _; split; [reflexivity|unfold is in H0; rewrite H0; cbn; tauto]].
    destruct Hd as [[-> ->]|(t0 & -> & -> & H0)]; eexists _, _; (split; [reflexivity|]); [unfold is in Hv; rewrite Hv; cbn; tauto|].
    unfold is in H0; rewrite H0; cbn; tauto. }
  destruct T0 as (t0 & y0 & E0 & Ht0).
  eapply t_bind; [eapply v_attributes; [exact Ha|len|]|].
  { destruct (opt_type_head _ _ Hty) as [->|Hh].
    - cbn [app]. rewrite <- !app_assoc. cbn [app]. rewrite <- ?app_assoc. rewrite E0. look_.
    - rewrite <- !app_assoc. eapply look_headed; [exact Hh|reflexivity]. }
  cbn beta. intros ats' Hats'.
  eapply t_bind; [eapply t_rest; [eapply r_opt_type; [exact Hty|exact Ht0]|]|].
  { rewrite <- E0, <- !app_assoc. cbn [app]. now rewrite <- ?app_assoc. }
  cbn beta. intros ? <-.
  eapply t_bind; [apply t_maybe; [exact Hr|look_]|]. cbn beta. intros ? <-.
  eapply t_bind; [apply t_maybe; [exact Hd|look_]|]. cbn beta. intros ? <-.
  tk.
  destruct Hi as [|t w e Ht He].
  - cbn [app]. eapply t_nil; [apply t_ignore_no; rewrite Ev; destruct Hu; lk|]. cbn beta iota.
    eapply t_nil; [apply t_ret; reflexivity|]. cbn beta. apply HK. now constructor; try assumption; constructor.
  - cbn [app]. tk. eapply (t_bind _ _ _ _ w v (fun x => exists e', x = Some e' /\ Expr w e')).
    + eapply t_all; [rewrite Ev; eapply HE; [len|eassumption|exact Hends|destruct Hu; arrow]|]. cbn beta. intros e' He'. done_. eauto.
    + cbn beta. intros ? (e' & -> & He'). apply HK. constructor; try assumption. now constructor.
Qed.

Lemma v_params : forall w o, Params w o -> (List.length w < k)%nat -> forall doc b r, is TCloseParenthesis b ->
  takes (fun n => argument_list (run n) n doc) w (Params w) (b :: r).
Proof.
  intros w o H Hk doc b r Hb. unfold argument_list. cbv zeta. destruct H as [|w l H].
  - yes. done_. constructor.
  - assert (Hh : headed (TAttributeStart :: TBinaryAnd :: TElipsis :: TVariable :: TQuestionMark :: TNamespaceSeparator :: words) w).
    { assert (Hp : forall w p, Param w p -> headed (TAttributeStart :: TBinaryAnd :: TElipsis :: TVariable :: TQuestionMark :: TNamespaceSeparator :: words) w).
      { intros w0 p [wa ats wt ty wr rf wd d vn wi q e doc0 Ha Hty Hr Hd Hv Hi].
        destruct (attributes_head _ _ Ha) as [->|h]; [|apply headed_app; eapply headed_more; [exact h|intros y [<-|[]]; cbn [In]; tauto]].
        cbn [app]. destruct (opt_type_head _ _ Hty) as [->|h]; [|apply headed_app; eapply headed_more; [exact h|intros y; cbn [In]; tauto]].
        cbn [app]. destruct (maybe_head _ _ _ Hr) as [->|h]; [|apply headed_app; eapply headed_more; [exact h|intros y [<-|[]]; cbn [In]; tauto]].
        cbn [app]. destruct (maybe_head _ _ _ Hd) as [->|h]; [|apply headed_app; eapply headed_more; [exact h|intros y [<-|[]]; cbn [In]; tauto]].
        cbn [app]. apply headed_cons. unfold is in Hv. rewrite Hv. cbn [In]. tauto. }
      destruct H; [|apply headed_app]; eapply Hp; eassumption. }
    eapply t_nil; [apply t_one_of_no; eapply look_headed; [exact Hh|reflexivity]|]. cbn beta iota.
    eapply (t_all _ _ _ _ _ (ParamList w)).
    + apply t_loop. accumulate. clear Hh. revert Hk. induction H as [w p Hp|w p c v l Hp Hc H IH]; intros Hk acc.
      * apply l_break. rewrite <- (app_nil_r w). eapply (v_param w p Hp Hk doc acc b r (or_intror Hb) _
          (fun n args => b <- next_token_one_of [TComma] ;; if b then next ;;; continue args else break args)); [reflexivity|].
        intros p' Hp'. no. done_. eexists. split; [reflexivity|]. eexists. split; [reflexivity|]. rewrite app_nil_r. now constructor.
      * replace (w ++ c :: v) with ((w ++ [c]) ++ v) by now rewrite <- app_assoc.
        eapply (l_more _ _ _ _ _ _ (fun x => exists e', x = acc ++ [e'] /\ Param w e')).
        -- eapply (v_param w p Hp ltac:(len) doc acc c (v ++ b :: r) (or_introl Hc) _
             (fun n args => b <- next_token_one_of [TComma] ;; if b then next ;;; continue args else break args)); [reflexivity|].
           intros p' Hp'. yes. tk. done_. eauto.
        -- intros ? (e' & -> & He'). eapply l_conseq; [apply IH; len|]. cbn beta. intros ? (l' & -> & Hl').
           exists (e' :: l'). rewrite <- !app_assoc. split; [reflexivity|]. cbn [app]. now apply Pl_more.
    + cbn beta. intros l' Hl'. done_. now constructor.
Qed.

Lemma returns_head : forall w o, Returns w o -> w = [] \/ headed [TColon] w.
Proof. intros w o [|]; [now left|right; hd]. Qed.

Lemma v_signature : forall w s, Signature w s -> (List.length w < k)%nat -> forall doc r,
  takes (fun n => anonymous_function_statement (run n) n doc) w (Signature w) r.
Proof.
  intros w s H Hk doc r. unfold anonymous_function_statement.
  destruct H as [a wp p b wt ty wb body d Ha Hp Hb Ht Hbl|a wp p b wt ty s d Ha Hp Hb Ht Hs].
  - tk. eapply t_bind; [eapply v_params; [exact Hp|len|exact Hb]|]. cbn beta. intros p' Hp'. tk.
    eapply t_bind; [eapply r_returns; [exact Ht|look_]|]. cbn beta. intros ? <-. no.
    eapply t_all; [eapply HB; [len|exact Hbl]|]. cbn beta. intros b' Hb'. done_. now constructor.
  - tk. eapply t_bind; [eapply v_params; [exact Hp|len|exact Hb]|]. cbn beta. intros p' Hp'. tk.
    eapply t_bind; [eapply r_returns; [exact Ht|look_]|]. cbn beta. intros ? <-. tk. done_. now constructor.
Qed.

(** * Variables of a closure *)

Lemma v_uses : forall w o, Uses w o -> forall r, look [TUse] r = false ->
  takes (fun n => b <- next_token_one_of [TUse] ;;
    if b then next ;;; l <- non_empty_lexical_variables_list n ;; ret (Some l) else ret None) w (Uses w) r.
Proof.
  intros w o H r Hr. destruct H as [|t a w l b Ht Ha H Hb].
  - no. done_. constructor.
  - yes. tk. unfold non_empty_lexical_variables_list. cbv zeta.
    eapply (t_all _ _ _ _ _ (eq l)); [|cbn beta; intros ? <-; done_; now constructor].
    tk.
    assert (HL : forall w l, Lexicals w l -> forall acc, ltakes (fun (_ : nat) arguments =>
      b <- next_token_one_of [TCloseParenthesis] ;;
      if b then break arguments
      else
        v <- lexical_variable ;;
        b <- next_token_one_of [TCloseParenthesis] ;;
        if b then break (arguments ++ [v])
        else (consume_or_ff_after TComma [TSemicolon] ;;; continue (arguments ++ [v]))) acc w (eq (acc ++ l)) ([b] ++ r)).
    { clear H w l. intros w l H. induction H as [w n Hn|w n c Hn Hc|w n c v l Hn Hc H IH]; intros acc.
      - apply l_break. no. eapply t_all; [apply r_lexical; exact Hn|]. cbn beta. intros ? <-. yes. done_. eauto.
      - rewrite <- (app_nil_r (w ++ [c])). eapply (l_more _ _ _ _ _ _ (eq (acc ++ [n]))).
        + no. eapply t_bind; [apply r_lexical; exact Hn|]. cbn beta. intros ? <-. no. tk. done_. eauto.
        + intros ? <-. apply l_break. yes. done_. eauto.
      - replace (w ++ c :: v) with ((w ++ [c]) ++ v) by now rewrite <- app_assoc.
        eapply (l_more _ _ _ _ _ _ (eq (acc ++ [n]))).
        + no. eapply t_bind; [apply r_lexical; exact Hn|]. cbn beta. intros ? <-. no. tk. done_. eauto.
        + intros ? <-. eapply l_conseq; [apply IH|]. intros ? <-. now rewrite <- app_assoc. }
    destruct H as [w n Hn|w n c Hn Hc|w n c v l Hn Hc H].
    + eapply t_bind; [apply r_lexical; exact Hn|]. cbn beta. intros ? <-. no. eapply t_nil.
      * apply t_loop, l_break. yes. done_. eauto.
      * cbn beta. tk. done_. reflexivity.
    + rewrite <- app_assoc. eapply t_bind; [apply r_lexical; exact Hn|]. cbn beta. intros ? <-. cbn [app]. tk. eapply t_nil.
      * apply t_loop, l_break. yes. done_. eauto.
      * cbn beta. tk. done_. reflexivity.
    + rewrite <- app_assoc. eapply t_bind; [apply r_lexical; exact Hn|]. cbn beta. intros ? <-. cbn [app]. tk.
      eapply t_bind; [apply t_loop; apply HL; exact H|]. cbn beta. intros ? <-. tk. done_. reflexivity.
Qed.
End Inner.
