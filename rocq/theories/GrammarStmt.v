(** Statements of SpecGrammar.v, read by [statement_in_script] and
    [block_body] of Parser.v, and all parts of the grammar together. *)

From Verif Require Import Base Token Node DocBlock Parser TokenFacts ParserBase SpecCalm SpecExpr SpecGrammar PrattFacts GrammarBase GrammarNames GrammarExpr GrammarClass GrammarPratt GrammarUse.

(** * First tokens *)

(** tokens no statement starts with *)
Definition bad : list TokenType :=
  [TElse; TElseIf; TCatch; TFinally; TCase; TDefault; TEndIf; TEndFor; TEndForeach; TEndWhile; TEndSwitch;
   TComma; TAssignment; TColon; TCloseCurly; TScriptStart Regular; TScriptStart Short; TScriptStart EchoTag].

Lemma one_of_no : forall l t, ~ one_of_kinds l t -> one_of l t = false.
Proof.
  intros l t H. apply not_true_iff_false. intros E. apply H. unfold one_of in E. apply existsb_exists in E as (x & Hx & E).
  apply tt_eqb_eq in E. unfold one_of_kinds. now rewrite <- E.
Qed.
Lemma one_of_yes : forall l t, one_of_kinds l t -> one_of l t = true.
Proof. intros l t H. unfold one_of. apply existsb_exists. exists (t_type t). split; [exact H|]. now apply tt_eqb_eq. Qed.
Lemma one_of_kinds_yes : forall l t, one_of l t = true -> one_of_kinds l t.
Proof.
  intros l t E. unfold one_of in E. apply existsb_exists in E as (x & Hx & E). apply tt_eqb_eq in E. unfold one_of_kinds. now rewrite <- E.
Qed.
Lemma one_of_sub : forall l l' t, one_of l t = false -> forallb (fun k => existsb (tt_eqb k) l) l' = true -> one_of l' t = false.
Proof.
  intros l l' t H S. apply not_true_iff_false. intros E. unfold one_of in *. apply existsb_exists in E as (x & Hx & E).
  rewrite forallb_forall in S. specialize (S x Hx). apply existsb_exists in S as (y & Hy & S). apply tt_eqb_eq in S, E. subst y.
  apply not_true_iff_false in H. apply H. apply existsb_exists. exists x. split; [exact Hy|]. now apply tt_eqb_eq.
Qed.

Lemma statement_head : forall x w n, Statement x w n -> exists t v, w = t :: v /\ one_of bad t = false.
Proof.
  intros x w n H. destruct H;
    try (eexists _, _; split; [reflexivity|];
         first [ match goal with H : is _ ?t |- one_of bad ?t = false => unfold is in H; unfold one_of, bad; cbn [existsb]; rewrite H; reflexivity end
               | match goal with H : one_of_kinds _ ?t |- one_of bad ?t = false =>
                   unfold one_of_kinds in H; unfold one_of, bad; cbn [existsb In] in *;
                   repeat (destruct H as [H|H]; [rewrite <- H; reflexivity|]); solve [destruct H] end ]).
  - destruct (w ++ [s]) as [|t [|u v]] eqn:E; try contradiction. exists t, (u :: v). split; [reflexivity|].
    destruct H1 as (Hn & _). apply (one_of_sub statement_kinds); [now apply one_of_no|reflexivity].
  - destruct (block_head _ _ H) as (a & v & -> & Ha). eexists _, _. split; [reflexivity|]. unfold is in Ha. unfold one_of, bad. cbn [existsb]. now rewrite Ha.
  - destruct (attributes_head _ _ H) as [->|(y & v & -> & Hy)]; eexists _, _; (split; [reflexivity|]).
    + unfold is in H0. unfold one_of, bad. cbn [existsb]. now rewrite H0.
    + destruct Hy as [Hy|[]]. unfold one_of, bad. cbn [existsb]. now rewrite <- Hy.
  - destruct (attributes_head _ _ H) as [->|(y & v & -> & Hy)].
    + assert (X : wm = [] \/ headed [TAbstract; TFinal] wm).
      { destruct H0 as [[H0 _]|[H0 _]]; (destruct (maybe_head _ _ _ H0) as [->|h]; [now left|right]; eapply headed_more; [exact h|];
          intros y [<-|[]]; cbn; tauto). }
      destruct X as [->|(y & v & -> & Hy)]; eexists _, _; (split; [reflexivity|]); unfold one_of, bad; cbn [existsb].
      * unfold is in H1. now rewrite H1.
      * destruct Hy as [Hy|[Hy|[]]]; now rewrite <- Hy.
    + eexists _, _. split; [reflexivity|]. destruct Hy as [Hy|[]]. unfold one_of, bad. cbn [existsb]. now rewrite <- Hy.
Qed.
Lemma look_statement : forall l x w n r, Statement x w n -> forallb (fun k => existsb (tt_eqb k) bad) l = true -> look l (w ++ r) = false.
Proof. intros l x w n r H Hl. destruct (statement_head _ _ _ H) as (t & v & -> & Ht). cbn [app look]. now apply (one_of_sub bad). Qed.
Lemma statements_head : forall c w l, Statements c w l -> w = [] \/ exists t v, w = t :: v /\ one_of bad t = false.
Proof.
  intros c w l H. induction H; [now left| |assumption]. right. destruct (statement_head _ _ _ H) as (t & u & -> & Ht). cbn [app]. eauto.
Qed.

(** * What may follow a statement *)

Definition okay (x : ending) (r : list Token) : Prop :=
  match x with
  | Closed => True
  | Open => look [TElse; TElseIf; TCatch; TFinally] r = false
  | Needs => look [TSemicolon] r = true
  end.
Lemma look_one : forall k r, look [k] r = true -> exists s v, r = s :: v /\ is k s.
Proof.
  intros k [|s v] H; [discriminate H|]. exists s, v. split; [reflexivity|]. cbn [look] in H. unfold one_of in H. cbn [existsb] in H.
  rewrite orb_false_r in H. apply tt_eqb_eq in H. now symmetry.
Qed.
Lemma semicolon_look : forall v r, semicolon_first v -> look [TSemicolon] (v ++ r) = true.
Proof. intros v r (s & u & -> & Hs). lk. Qed.
Lemma needs_open : forall r, look [TSemicolon] r = true -> look [TElse; TElseIf; TCatch; TFinally] r = false.
Proof. intros r H. destruct (look_one _ _ H) as (s & v & -> & Hs). lk. Qed.
Lemma okay_open : forall x r, look [TElse; TElseIf; TCatch; TFinally] r = false -> x <> Needs -> okay x r.
Proof. intros [| |] r H Hx; cbn; auto. Qed.

Lemma statements_okay : forall c x w n v l r, Statement x w n -> (x = Needs -> semicolon_first v) ->
  (c = true -> v = [] -> x = Closed) -> Statements c v l -> (c = false -> look [TElse; TElseIf; TCatch; TFinally] r = false) ->
  okay x (v ++ r).
Proof.
  intros c x w n v l r H Hn Hc Hv Hr. destruct x; cbn; [exact I| |now apply semicolon_look, Hn].
  destruct (statements_head _ _ _ Hv) as [->|(t & u & -> & Ht)].
  - cbn [app]. destruct c; [specialize (Hc eq_refl eq_refl); discriminate Hc|now apply Hr].
  - cbn [app look]. now apply (one_of_sub bad).
Qed.

Lemma if_okay : forall x y w l o r, IfTail x y w l o -> okay y r -> okay x (w ++ r).
Proof. intros x y w l o r H Hy. destruct H; try exact I. destruct x; cbn in *; auto. Qed.

(** [switch]: no branch without statements in front of another one *)
Inductive NBranches : list Token -> list Node -> Prop :=
| NBr_none : NBranches [] []
| NBr_more : forall w l ws ls v l', Labels w l -> l <> [] -> PlainStatements ws ls -> (ws = [] -> v = []) -> NBranches v l' ->
    NBranches (w ++ ws ++ v) (NSwitchBranch l ls :: l').
Lemma labels_app : forall w l v l', Labels w l -> Labels v l' -> Labels (w ++ v) (l ++ l').
Proof.
  intros w l v l' H Hv. induction H; [exact Hv| |].
  - cbn [app]. rewrite <- app_assoc. cbn [app]. now constructor.
  - cbn [app]. now constructor.
Qed.
Lemma branches_normal : forall w l, Branches w l -> exists l', NBranches w l'.
Proof.
  intros w l H. induction H as [|w l ws ls v l' Hw Hl Hs H [l2 IH]]; [eexists; constructor|].
  destruct ws as [|y ws]; [|eexists; eapply NBr_more; try eassumption; intros E; discriminate E]. cbn [app].
  destruct IH as [|w2 l2 ws2 ls2 v l3 H2 Hl2 Hs2 Hn2 IH].
  - eexists. apply (NBr_more w l [] ls [] []); try assumption; [reflexivity|constructor].
  - exists (NSwitchBranch (l ++ l2) ls2 :: l3). rewrite app_assoc. constructor; try assumption; [now apply labels_app|].
    destruct l; [contradiction|discriminate].
Qed.
Lemma normal_branches : forall w l, NBranches w l -> Branches w l.
Proof. intros w l H. induction H; now constructor. Qed.

Lemma t_unassoc : forall A B C (m : nat -> P A) (f : nat -> A -> P B) (g : nat -> B -> P C) w T r,
  takes (fun n => bind (m n) (fun x => bind (f n x) (g n))) w T r -> takes (fun n => bind (bind (m n) (f n)) (g n)) w T r.
Proof.
  intros A B C m f g w T r H s Hs. destruct (H s Hs) as (c & s' & [k G] & R). exists c, s'. split; [|exact R].
  exists k. intros n Hn. rewrite <- (G n Hn). unfold bind. destruct (m n s); reflexivity.
Qed.

Section Statements.
Context `{RT : Runtime}.
Variable k : nat.
Hypothesis HE : forall w e t r, (List.length w < k)%nat -> Expr w e -> ends_expression t -> (is TDoubleArrow t -> no_yield w) ->
  takes (fun n => r_expr (run n) 0) w (Expr w) (t :: r).
Hypothesis HB : forall w b r, (List.length w < k)%nat -> Block w b -> takes (fun n => r_block (run n)) w (Block w) r.
Hypothesis HS : forall x w n r, (List.length w < k)%nat -> Statement x w n -> okay x r ->
  takes (fun n => r_stmt (run n)) w (Statement x w) r.

Ltac ex := first [eapply t_bind; [eapply HE; [len|eassumption|ends|arrow]|] | eapply t_all; [eapply HE; [len|eassumption|ends|arrow]|]];
  cbn beta; let e := fresh "e'" in let H := fresh "He'" in intros e H.

(** * Lists of statements *)

Lemma v_statements : forall c w l, Statements c w l -> (List.length w < k)%nat -> forall stop r,
  (forall t u, one_of bad t = false -> takes (fun _ => stop) [] (eq false) (t :: u)) ->
  (c = false -> look [TElse; TElseIf; TCatch; TFinally] r = false) ->
  (forall T : list Node -> Prop, forall acc, T acc -> takes (fun n => b <- stop ;;
    if b then break acc
    else
      p <- peek ;;
      match p with
      | None => break acc
      | Some _ =>
          r <- pcatch (r_stmt (run n)) ;;
          match r with
          | inr error => push_err error ;;; error_fast_forward ;;; continue acc
          | inl new_statement => docs <- flush_docs ;; continue (acc ++ docs ++ [new_statement])
          end
      end) [] (fun x => exists b, x = inr b /\ T b) r) ->
  takes (fun n => statements_loop (run n) n stop) w (Statements c w) r.
Proof.
  intros c w l H Hk stop r Hstop Hr Hend. unfold statements_loop. apply t_loop. accumulate. revert Hk.
  induction H as [c|c x w n v l H Hn Hc Hv IH|c w l a b d H IH]; intros Hk acc.
  - apply l_break. apply Hend. exists []. rewrite app_nil_r. split; [reflexivity|constructor].
  - destruct (statement_head _ _ _ H) as (t & u & Ew & Ht).
    eapply (l_more _ _ _ _ _ _ (fun a => exists docs n', a = acc ++ docs ++ [n'] /\ Forall var_part docs /\ Statement x w n')).
    + eapply t_nil; [rewrite Ew; apply Hstop; exact Ht|]. cbn beta iota. eapply t_nil; [apply t_peek|]. cbn beta. rewrite Ew. cbn [app]. rewrite <- Ew.
      eapply t_all; [apply t_catch; eapply HS; [len|exact H|eapply statements_okay; eassumption]|]. cbn beta. intros ? (n' & -> & Hn'). cbn beta iota.
      eapply t_nil_any; [apply t_flush|]. cbn beta. intros docs Hd. done_. eexists; split; [reflexivity|]; eauto 6.
    + intros ? (docs & n' & -> & Hd & Hn'). eapply l_conseq; [apply IH; [exact Hr|len]|]. cbn beta. intros ? (l' & -> & Hl').
      exists (docs ++ n' :: l'). split; [now rewrite <- !app_assoc|]. clear - Hd Hn' Hl' Hn Hc.
      induction Hd as [|d docs (a & b & e & ->) Hd IHd]; cbn [app]; [now apply (Ss_more c x)|now apply Ss_comment].
  - apply IH; assumption.
Qed.

Lemma v_block : forall w b, Block w b -> (List.length w <= k)%nat -> forall r, takes (fun n => r_block (run n)) w (Block w) r.
Proof.
  intros w b H Hk r. destruct H as [a w l b Ha H Hb]. apply t_block. unfold block_body. tk.
  eapply t_bind; [eapply v_statements; [exact H|len| |intros _; lk|]|].
  - intros t u Ht. apply t_one_of_no. cbn [look]. now apply (one_of_sub bad).
  - intros T acc HT. yes. done_. eauto.
  - cbn beta. intros l' Hl'. tk. done_. now constructor.
Qed.

(** [:] ... [endwhile;] *)
Lemma v_alternative : forall kd c ws l x s r, In kd [TEndFor; TEndForeach; TEndWhile; TEndIf] -> is TColon c -> Statements false ws l ->
  is kd x -> is TSemicolon s -> (List.length ws < k)%nat ->
  takes (fun n => alternative_block (run n) n kd) (c :: ws ++ [x; s])
    (fun z => exists l', z = NAlternativeBlock c l' x /\ Statements false ws l') r.
Proof.
  intros kd c ws l x s r Hkd Hc H Hx Hs Hk. unfold alternative_block. tk.
  assert (Hl : look [TEndFor; TEndForeach; TEndWhile; TEndIf] (x :: s :: r) = true).
  { cbn [look]. apply one_of_yes. unfold is in Hx. unfold one_of_kinds. now rewrite Hx. }
  eapply t_bind; [eapply v_statements; [exact H|len| | |]|].
  - intros t u Ht. apply t_one_of_no. cbn [look]. now apply (one_of_sub bad).
  - intros _. cbn [app look]. unfold is in Hx. unfold one_of. cbn [existsb]. rewrite Hx.
    cbn [In] in Hkd. destruct Hkd as [<-|[<-|[<-|[<-|[]]]]]; reflexivity.
  - intros T acc HT. eapply t_nil; [apply t_one_of_yes; exact Hl|]. cbn beta iota. done_. eauto.
  - cbn beta. intros l' Hl'. tk. tk. done_. eauto.
Qed.

Lemma v_body : forall kd x w n r, In kd [TEndFor; TEndForeach; TEndWhile; TEndIf] -> Body kd x w n -> (List.length w < k)%nat -> okay x r ->
  takes (fun n => alternative_block_or_statement (run n) n kd) w (Body kd x w) r.
Proof.
  intros kd x w n r Hkd H Hk Hr. unfold alternative_block_or_statement. destruct H as [kd x w n H|kd c ws l x s Hc H Hx Hs].
  - eapply t_nil; [apply t_one_of_no; eapply look_statement; [exact H|reflexivity]|]. cbn beta iota.
    eapply t_conseq; [eapply HS; eassumption|]. intros n' Hn'. now constructor.
  - yes. eapply t_conseq; [eapply v_alternative; try eassumption; len|]. cbn beta. intros ? (l' & -> & Hl'). now constructor.
Qed.

(** the branches of [if (e): ... elseif (e): ...] *)
Lemma v_if_statements : forall w l, Statements true w l -> (List.length w < k)%nat -> forall x r, one_of_kinds if_ends x ->
  takes (fun n => if_statements (run n) n) w (Statements true w) (x :: r).
Proof.
  intros w l H Hk x r Hx. unfold if_statements. apply t_loop. accumulate. revert Hk. remember true as c eqn:Ec.
  induction H as [c|c y w n v l H Hn Hc Hv IH|c w l a b d H IH]; intros Hk acc; subst c.
  - apply l_break. eapply t_nil; [apply t_one_of_yes; now apply one_of_yes|]. cbn beta iota. done_. eexists. split; [reflexivity|].
    exists []. rewrite app_nil_r. split; [reflexivity|constructor].
  - eapply (l_more _ _ _ _ _ _ (fun a => exists n', a = acc ++ [n'] /\ Statement y w n')).
    + eapply t_nil; [apply t_one_of_no; eapply look_statement; [exact H|reflexivity]|]. cbn beta iota.
      eapply t_all; [eapply HS; [len|exact H|eapply statements_okay; try eassumption; intros E; discriminate E]|].
      cbn beta. intros n' Hn'. done_. eexists; split; [reflexivity|]; eauto.
    + intros ? (n' & -> & Hn'). eapply l_conseq; [apply IH; [reflexivity|len]|]. cbn beta. intros ? (l' & -> & Hl').
      exists (n' :: l'). split; [now rewrite <- app_assoc|]. now apply (Ss_more true y).
  - now apply IH.
Qed.

(** the statements of a [case] *)
Lemma v_case_statements : forall kd w l, In kd [TCloseCurly; TEndSwitch] -> PlainStatements w l -> (List.length w < k)%nat -> forall x r,
  one_of_kinds [kd; TCase; TDefault] x ->
  takes (fun n => ploop n (fun statements =>
        b <- next_token_one_of [kd; TCase; TDefault] ;;
        if b then break statements
        else (s <- r_stmt (run n) ;; continue (statements ++ [s]))) []) w (PlainStatements w) (x :: r).
Proof.
  intros kd w l Hkd H Hk x r Hx. apply t_loop. accumulate. revert Hk.
  assert (Hl : forall x w n r, Statement x w n -> look [kd; TCase; TDefault] (w ++ r) = false).
  { clear - Hkd. intros x w n r H. eapply look_statement; [exact H|]. cbn [In] in Hkd. destruct Hkd as [<-|[<-|[]]]; reflexivity. }
  assert (Hr : look [TElse; TElseIf; TCatch; TFinally] (x :: r) = false).
  { unfold one_of_kinds in Hx. cbn [look]. unfold one_of. cbn [In existsb] in *.
    destruct Hkd as [<-|[<-|[]]]; destruct Hx as [<-|[<-|[<-|[]]]]; reflexivity. }
  induction H as [|y w n v l H Hn Hv IH]; intros Hk acc.
  - apply l_break. eapply t_nil; [apply t_one_of_yes; now apply one_of_yes|]. cbn beta iota. done_. eexists. split; [reflexivity|].
    exists []. rewrite app_nil_r. split; [reflexivity|constructor].
  - eapply (l_more _ _ _ _ _ _ (fun a => exists n', a = acc ++ [n'] /\ Statement y w n')).
    + eapply t_nil; [apply t_one_of_no; rewrite <- ?app_assoc; eapply Hl; exact H|]. cbn beta iota.
      eapply t_all; [eapply HS; [len|exact H|]|].
      { destruct y; cbn; [exact I| |now apply semicolon_look, Hn].
        destruct Hv as [|y2 w2 n2 v l H2 Hn2 Hv]; [exact Hr|]. rewrite <- app_assoc. eapply look_statement; [exact H2|reflexivity]. }
      cbn beta. intros n' Hn'. done_. eexists; split; [reflexivity|]; eauto.
    + intros ? (n' & -> & Hn'). eapply l_conseq; [apply IH; len|]. cbn beta. intros ? (l' & -> & Hl').
      exists (n' :: l'). split; [now rewrite <- app_assoc|]. now apply (Pls_more y).
Qed.

(** * [if] *)

Definition elseif_round (n : nat) (elseif_branches : list Node) : P (list Node + list Node) :=
        t <- consume_or_ignore TElseIf ;;
        match t with
        | Some token =>
            op <- consume TOpenParenthesis ;;
            condition <- r_expr (run n) 0 ;;
            cp <- consume TCloseParenthesis ;;
            body <- r_stmt (run n) ;;
            continue (elseif_branches ++ [(NIfBranch token op condition cp body)])
        | None => break elseif_branches
        end.
Definition else_part (y : ending) (w : list Token) (o : option Node) : Prop :=
  (w = [] /\ o = None) \/ exists t v n, w = t :: v /\ o = Some (NElseBranch t n) /\ is TElse t /\ Statement y v n.

Lemma v_if_tail : forall x y w l o, IfTail x y w l o -> (List.length w < k)%nat -> forall r, okay y r ->
  exists w1 w2, w = w1 ++ w2 /\
    (forall acc, ltakes elseif_round acc w1 (fun z => exists l', z = acc ++ l' /\ forall o', else_part y w2 o' -> IfTail x y w l' o') (w2 ++ r)) /\
    takes (fun n => e <- consume_or_ignore TElse ;;
      match e with
      | Some token => body <- r_stmt (run n) ;; ret (Some (NElseBranch token body))
      | None => ret None
      end) w2 (else_part y w2) r.
Proof.
  intros x y w l o H. induction H as [x|y t w n Ht H|y t a w e b x wb body wt l o Ht Ha He Hb Hs H IH]; intros Hk r Hr.
  - exists [], []. split; [reflexivity|].
    assert (Ho : look [TElse; TElseIf; TCatch; TFinally] r = false).
    { destruct x; cbn in Hr; [exact Hr|exact Hr|now apply needs_open]. }
    split.
    + intros acc. apply l_break. unfold elseif_round. eapply t_nil; [apply t_ignore_no; cbn [app]|].
      { destruct r as [|u r]; [reflexivity|]. cbn [look] in *. eapply one_of_sub; [exact Ho|reflexivity]. }
      cbn beta iota. done_. eexists. split; [reflexivity|]. exists []. rewrite app_nil_r. split; [reflexivity|].
      intros o' [[_ ->]|(t & v & n & E & _)]; [constructor|discriminate E].
    + eapply t_nil; [apply t_ignore_no; cbn [app]|].
      { destruct r as [|u r]; [reflexivity|]. cbn [look] in *. eapply one_of_sub; [exact Ho|reflexivity]. }
      cbn beta iota. done_. now left.
  - exists [], (t :: w). split; [reflexivity|]. split.
    + intros acc. apply l_break. unfold elseif_round. no. done_. eexists. split; [reflexivity|]. exists []. rewrite app_nil_r.
      split; [reflexivity|]. intros o' [[E _]|(t' & v & n' & E & -> & Ht' & Hn')]; [discriminate E|]. injection E as <- <-. now constructor.
    + tk. eapply t_all; [eapply HS; [len|exact H|exact Hr]|]. cbn beta. intros n' Hn'. done_. right. eauto 8.
  - destruct (IH ltac:(len) r Hr) as (w1 & w2 & -> & HL & HT). exists (t :: a :: w ++ b :: wb ++ w1), w2.
    split; [cbn [app]; repeat (rewrite <- app_assoc; cbn [app]); reflexivity|]. split; [|exact HT]. intros acc.
    replace (t :: a :: w ++ b :: wb ++ w1) with ((t :: a :: w ++ b :: wb) ++ w1) by (cbn [app]; repeat (rewrite <- app_assoc; cbn [app]); reflexivity).
    eapply (l_more _ _ _ _ _ _ (fun z => exists e' n', z = acc ++ [NIfBranch t a e' b n'] /\ Expr w e' /\ Statement x wb n')).
    + unfold elseif_round. tk. tk. ex. tk. eapply t_all; [eapply HS; [len|exact Hs|]|].
      { rewrite app_assoc. eapply if_okay; [exact H|exact Hr]. }
      cbn beta. intros n' Hn'. done_. eexists; split; [reflexivity|]; eauto 7.
    + intros ? (e' & n' & -> & He' & Hn'). eapply l_conseq; [apply HL|]. cbn beta. intros ? (l' & -> & Hl').
      exists (NIfBranch t a e' b n' :: l'). split; [now rewrite <- app_assoc|]. intros o' Ho'. apply (If_elseif y t a w e' b x); auto.
Qed.

Definition alt_round (n : nat) (x : list Node * Token) : P (list Node * Token + list Node * Token) :=
        if tt_eqb (t_type (snd x)) TElseIf then
          op <- consume TOpenParenthesis ;;
          condition <- r_expr (run n) 0 ;;
          cp <- consume TCloseParenthesis ;;
          colon <- consume TColon ;;
          statements <- if_statements (run n) n ;;
          terminator <- consume_one_of if_ends ;;
          continue (fst x ++ [NIfBranch (snd x) op condition cp (NAlternativeBlock colon statements terminator)], terminator)
        else break x.
Definition alt_part (x : Token) (y : ending) (w : list Token) (o : option Node) : Prop :=
  (is TEndIf x /\ w = [] /\ o = None /\ y = Needs) \/
  exists c ws l e s, w = c :: ws ++ [e; s] /\ o = Some (NElseBranch x (NAlternativeBlock c l e)) /\ y = Closed /\
    is TElse x /\ is TColon c /\ Statements false ws l /\ is TEndIf e /\ is TSemicolon s.

Lemma alt_ends : forall x y w l o, AltTail x y w l o -> one_of_kinds if_ends x.
Proof.
  intros x y w l o H. unfold one_of_kinds, if_ends. destruct H as [x Hx|x c ws l y s Hx|x a w e b c ws l y z wt l' o Hx];
  unfold is in Hx; rewrite Hx; cbn; tauto.
Qed.
Lemma v_alt_tail : forall x y w l o, AltTail x y w l o -> (List.length w < k)%nat -> forall r,
  exists w1 w2 x2, w = w1 ++ w2 /\
    (forall acc, ltakes alt_round (acc, x) w1 (fun z => exists l', z = (acc ++ l', x2) /\ forall o', alt_part x2 y w2 o' -> AltTail x y w l' o') (w2 ++ r)) /\
    takes (fun n => if tt_eqb (t_type x2) TElse then
                        body <- alternative_block (run n) n TEndIf ;;
                        ret (Some (NElseBranch x2 body))
                      else ret None) w2 (alt_part x2 y w2) r.
Proof.
  intros x y w l o H. induction H as [x Hx|x c ws l y s Hx Hc H Hy Hs|x a w e b c ws l y z wt l' o Hx Ha He Hb Hc Hs H IH]; intros Hk r.
  - exists [], [], x. split; [reflexivity|]. split.
    + intros acc. apply l_break. unfold alt_round. cbn [snd fst]. pose proof Hx as E. unfold is in E. rewrite E. cbn [tt_eqb].
      done_. eexists. split; [reflexivity|]. exists []. rewrite app_nil_r. split; [reflexivity|].
      intros o' [(_ & _ & -> & _)|(c & ws & l & e & s & E' & _)]; [now constructor|discriminate E'].
    + pose proof Hx as E. unfold is in E. rewrite E. cbn [tt_eqb]. done_. left. auto.
  - exists [], (c :: ws ++ [y; s]), x. split; [reflexivity|]. split.
    + intros acc. apply l_break. unfold alt_round. cbn [snd fst]. pose proof Hx as E. unfold is in E. rewrite E. cbn [tt_eqb].
      done_. eexists. split; [reflexivity|]. exists []. rewrite app_nil_r. split; [reflexivity|].
      intros o' [(E' & _)|(c' & ws' & l' & e & s' & E' & -> & _ & _ & Hc' & Hl' & He' & Hs')].
      { unfold is in E'. rewrite E in E'. discriminate E'. }
      injection E' as <- E'. assert (ws' = ws /\ e = y /\ s' = s) as (-> & -> & ->).
      { apply (app_inj_tail (ws ++ [y]) (ws' ++ [e])) in E' as [E' <-] || (change [y; s] with ([y] ++ [s]) in E'; change [e; s'] with ([e] ++ [s']) in E';
          rewrite !app_assoc in E'; apply app_inj_tail in E' as [E' <-]; apply app_inj_tail in E' as [E' <-]; auto). }
      now constructor.
    + pose proof Hx as E. unfold is in E. rewrite E. cbn [tt_eqb].
      eapply t_all; [eapply v_alternative; [cbn; tauto|eassumption..|len]|]. cbn beta. intros ? (l' & -> & Hl'). done_.
      right. exists c, ws, l', y, s. auto 10.
  - destruct (IH ltac:(len) r) as (w1 & w2 & x2 & -> & HL & HT). exists (a :: w ++ b :: c :: ws ++ y :: w1), w2, x2.
    split; [cbn [app]; repeat (rewrite <- app_assoc; cbn [app]); reflexivity|]. split; [|exact HT]. intros acc.
    replace (a :: w ++ b :: c :: ws ++ y :: w1) with ((a :: w ++ b :: c :: ws ++ [y]) ++ w1) by (cbn [app]; repeat (rewrite <- app_assoc; cbn [app]); reflexivity).
    eapply (l_more _ _ _ _ _ _ (fun z => exists e' ls, z = (acc ++ [NIfBranch x a e' b (NAlternativeBlock c ls y)], y) /\ Expr w e' /\ Statements true ws ls)).
    + unfold alt_round. cbn [snd fst]. pose proof Hx as E. unfold is in E. rewrite E. cbn [tt_eqb]. tk. ex. tk. tk.
      pose proof (alt_ends _ _ _ _ _ H) as Hy.
      eapply t_bind; [eapply v_if_statements; [exact Hs|len|exact Hy]|]. cbn beta. intros ls Hls.
      tk. done_. eexists; split; [reflexivity|]; eauto 7.
    + intros ? (e' & ls & -> & He' & Hls). eapply l_conseq; [apply HL|]. cbn beta. intros ? (l2 & -> & Hl2).
      exists (NIfBranch x a e' b (NAlternativeBlock c ls y) :: l2). split; [now rewrite <- app_assoc|]. intros o' Ho'. apply Al_elseif; auto.
Qed.

Lemma v_if : forall t a w e b x wb body y wt l o r, is TIf t -> is TOpenParenthesis a -> Expr w e -> is TCloseParenthesis b ->
  Statement x wb body -> IfTail x y wt l o -> (List.length (t :: a :: w ++ b :: wb ++ wt) <= k)%nat -> okay y r ->
  takes (fun n => if_statement (run n) n) (t :: a :: w ++ b :: wb ++ wt) (Statement y (t :: a :: w ++ b :: wb ++ wt)) r.
Proof.
  intros t a w e b x wb body y wt l o r Ht Ha He Hb Hs Hi Hk Hr. unfold if_statement. cbv zeta. tk. tk. ex. tk.
  eapply t_nil; [apply t_ignore_no; rewrite <- app_assoc; eapply look_statement; [exact Hs|reflexivity]|]. cbn beta iota.
  destruct (v_if_tail _ _ _ _ _ Hi ltac:(len) r Hr) as (w1 & w2 & -> & HL & HT).
  eapply t_bind; [eapply HS; [len|exact Hs|eapply if_okay; [exact Hi|exact Hr]]|]. cbn beta. intros body' Hbody.
  eapply t_bind; [apply t_loop; apply HL|]. cbn beta. intros ? (l' & -> & Hl').
  apply t_assoc. eapply t_all; [exact HT|]. cbn beta. intros o' Ho'. done_. cbn [app]. now apply (S_if t a w e' b x wb body' y (w1 ++ w2) l' o'); auto.
Qed.

Lemma v_if_alternative : forall t a w e b c x ws l y wt l' o r, is TIf t -> is TOpenParenthesis a -> Expr w e -> is TCloseParenthesis b ->
  is TColon c -> Statements true ws l -> AltTail x y wt l' o -> (List.length (t :: a :: w ++ b :: c :: ws ++ x :: wt) <= k)%nat ->
  takes (fun n => if_statement (run n) n) (t :: a :: w ++ b :: c :: ws ++ x :: wt) (Statement y (t :: a :: w ++ b :: c :: ws ++ x :: wt)) r.
Proof.
  intros t a w e b c x ws l y wt l' o r Ht Ha He Hb Hc Hs Hi Hk. unfold if_statement. cbv zeta. tk. tk. ex. tk. tk.
  pose proof (alt_ends _ _ _ _ _ Hi) as Hx.
  destruct (v_alt_tail _ _ _ _ _ Hi ltac:(len) r) as (w1 & w2 & x2 & -> & HL & HT).
  eapply t_bind; [eapply v_if_statements; [exact Hs|len|exact Hx]|]. cbn beta. intros ls Hls. tk.
  eapply t_bind; [apply t_loop; apply HL|]. cbn beta. intros ? (l2 & -> & Hl2). cbn [fst snd app].
  eapply t_all; [exact HT|]. cbn beta. intros o' Ho'. done_. now apply S_if_alternative; auto.
Qed.

(** * [switch] *)

Lemma labels_ends : forall w l, Labels w l -> w = [] \/ headed [TCase; TDefault] w.
Proof. intros w l [|t w' e c v l' Ht|t c v l' Ht]; [now left| |]; right; hd. Qed.
Lemma v_labels : forall w l, Labels w l -> (List.length w < k)%nat -> forall r, look [TCase; TDefault] r = false ->
  takes (fun n => case_list (run n) n) w (Labels w) r.
Proof.
  intros w l H Hk r Hr. unfold case_list. apply t_loop. accumulate. revert Hk.
  induction H as [|t w e c v l Ht He Hc H IH|t c v l Ht Hc H IH]; intros Hk acc.
  - apply l_break. eapply t_nil; [apply t_peek|]. cbn beta. cbn [app].
    assert (X : exists b : list (option Node), inr b = inr acc :> list (option Node) + list (option Node) /\ (exists l', b = acc ++ l' /\ Labels [] l')).
    { exists acc. split; [reflexivity|]. exists []. rewrite app_nil_r. split; [reflexivity|constructor]. }
    destruct X as (b & Eb & X). injection Eb as ->.
    destruct r as [|u r]; [done_; eauto|]. cbn [look] in Hr. unfold one_of in Hr. cbn [existsb] in Hr.
    apply orb_false_iff in Hr as [E1 Hr]. apply orb_false_iff in Hr as [E2 _].
    rewrite tt_sym in E1. rewrite tt_sym in E2. rewrite E2, E1. done_. eauto.
  - change (t :: w ++ c :: v) with ((t :: w) ++ [c] ++ v). rewrite app_assoc.
    eapply (l_more _ _ _ _ _ _ (fun a => exists e', a = acc ++ [Some e'] /\ Expr w e')).
    + eapply t_nil; [apply t_peek|]. cbn beta. cbn [app]. unfold is in Ht. rewrite Ht. cbn [tt_eqb]. cbn beta iota.
      rewrite <- ?app_assoc. cbn [app]. tk. eapply t_bind; [eapply HE; [len|exact He| |]|].
      * unfold ends_expression. unfold one_of_kinds in Hc. cbn [In] in Hc. destruct Hc as [<-|[<-|[]]]; cbn; tauto.
      * intros X. unfold is in X. unfold one_of_kinds in Hc. rewrite X in Hc. cbn in Hc. destruct Hc as [Hc|[Hc|[]]]; discriminate Hc.
      * cbn beta. intros e' He'. tk. done_. eexists. split; [reflexivity|]. eauto.
    + intros ? (e' & -> & He'). eapply l_conseq; [apply IH; len|]. cbn beta. intros ? (l' & -> & Hl').
      exists (Some e' :: l'). split; [now rewrite <- app_assoc|]. rewrite <- app_assoc. cbn [app]. now constructor.
  - change (t :: c :: v) with ([t; c] ++ v).
    eapply (l_more _ _ _ _ _ _ (fun a => a = acc ++ [None])).
    + eapply t_nil; [apply t_peek|]. cbn beta. cbn [app]. unfold is in Ht. rewrite Ht. cbn [tt_eqb]. cbn beta iota. tk. tk. done_.
      eexists. split; [reflexivity|]. reflexivity.
    + intros ? ->. eapply l_conseq; [apply IH; len|]. cbn beta. intros ? (l' & -> & Hl').
      exists (None :: l'). split; [now rewrite <- app_assoc|]. cbn [app]. now constructor.
Qed.
Lemma plain_head : forall w l, PlainStatements w l -> w = [] \/ exists t v, w = t :: v /\ one_of bad t = false.
Proof. intros w l [|x w' n v l' H]; [now left|right]. destruct (statement_head _ _ _ H) as (t & u & -> & Ht). cbn [app]. eauto. Qed.
Lemma normal_head : forall w l, NBranches w l -> w = [] \/ headed [TCase; TDefault] w.
Proof.
  intros w l [|w' l' ws ls v l2 H Hl _ _ _]; [now left|right]. destruct (labels_ends _ _ H) as [->|h]; [|now apply headed_app].
  inversion H; subst. contradiction.
Qed.
Lemma v_switch_body : forall c wb l d y, ((is TOpenCurly c /\ is TCloseCurly d /\ y = Closed) \/ (is TColon c /\ is TEndSwitch d /\ y = Needs)) ->
  Branches wb l -> (List.length wb < k)%nat -> forall r,
  takes (fun n => switch_body (run n) n) (c :: wb ++ [d]) (fun z => exists l', z = NSwitchBody c l' d /\ Branches wb l') r.
Proof.
  intros c wb l d y Hc H Hk r. apply branches_normal in H as [l0 H].
  assert (HL : forall kd, In kd [TCloseCurly; TEndSwitch] -> is kd d ->
    takes (fun n =>
  branches <- ploop n (fun branches =>
    b <- next_token_one_of [kd] ;;
    if b then break branches
    else
      cases <- case_list (run n) n ;;
      body <- ploop n (fun statements =>
        b <- next_token_one_of [kd; TCase; TDefault] ;;
        if b then break statements
        else (s <- r_stmt (run n) ;; continue (statements ++ [s]))) [] ;;
      continue (branches ++ [(NSwitchBranch cases body)])) [] ;;
  end_ <- consume kd ;;
  ret (NSwitchBody c branches end_)) (wb ++ [d]) (fun z => exists l', z = NSwitchBody c l' d /\ Branches wb l') r).
  { intros kd Hkd Hd. eapply (t_bind _ _ _ _ wb [d] (Branches wb)); [|cbn beta; intros l' Hl'; tk; done_; eauto].
    apply t_loop. accumulate. clear l Hc. revert Hk. induction H as [|w l ws ls v l' Hw Hl Hs Hn H IH]; intros Hk acc.
    - apply l_break. eapply t_nil; [apply t_one_of_yes; cbn [app look]; apply one_of_yes; unfold one_of_kinds; left; symmetry; exact Hd|].
      cbn beta iota. done_. eexists. split; [reflexivity|]. exists []. rewrite app_nil_r. split; [reflexivity|constructor].
    - assert (hw : headed [TCase; TDefault] w).
      { destruct (labels_ends _ _ Hw) as [->|h]; [|exact h]. inversion Hw; subst. contradiction. }
      assert (Hx : exists x u, v ++ [d] ++ r = x :: u /\ one_of_kinds [kd; TCase; TDefault] x).
      { destruct (normal_head _ _ H) as [->|(x & u & -> & Hx)].
        - exists d, r. split; [reflexivity|]. left. symmetry. exact Hd.
        - eexists _, _. split; [reflexivity|]. right. exact Hx. }
      destruct Hx as (x & u & Ex & Hx).
      rewrite app_assoc.
      eapply (l_more _ _ _ _ _ _ (fun z => exists l1 l2, z = acc ++ [NSwitchBranch l1 l2] /\ Labels w l1 /\ PlainStatements ws l2)).
      + eapply t_nil; [apply t_one_of_no; rewrite <- !app_assoc; eapply look_headed; [exact hw|];
          cbn [In] in Hkd; destruct Hkd as [<-|[<-|[]]]; reflexivity|]. cbn beta iota.
        eapply t_bind; [eapply v_labels; [exact Hw|len|]|].
        { destruct (plain_head _ _ Hs) as [E|(t & v' & -> & Ht)].
          - rewrite E, (Hn E). cbn [app look]. unfold is in Hd. unfold one_of. cbn [existsb]. rewrite Hd.
            cbn [In] in Hkd. destruct Hkd as [<-|[<-|[]]]; reflexivity.
          - cbn [app look]. now apply (one_of_sub bad). }
        cbn beta. intros l1 Hl1. eapply t_all; [eapply t_rest; [eapply v_case_statements; [exact Hkd|exact Hs|len|exact Hx]|symmetry; exact Ex]|].
        cbn beta. intros l2 Hl2. done_. eexists. split; [reflexivity|]. eauto 6.
      + intros ? (l1 & l2 & -> & Hl1 & Hl2). eapply l_conseq; [apply IH; len|]. cbn beta. intros ? (l3 & -> & Hl3).
        exists (NSwitchBranch l1 l2 :: l3). split; [now rewrite <- app_assoc|]. rewrite <- app_assoc. constructor; try assumption.
        intros ->. inversion Hl1; subst. destruct hw as (? & ? & E & _). discriminate E. }
  unfold switch_body. cbv zeta. destruct Hc as [(Hc & Hd & _)|(Hc & Hd & _)].
  - no. eapply (t_bind _ _ _ _ [c] (wb ++ [d]) (eq (c, TCloseCurly))); [tk; now done_|]. cbn beta. intros ? <-. cbn [fst snd].
    apply HL; [cbn; tauto|exact Hd].
  - yes. eapply (t_bind _ _ _ _ [c] (wb ++ [d]) (eq (c, TEndSwitch))); [tk; now done_|]. cbn beta. intros ? <-. cbn [fst snd].
    apply HL; [cbn; tauto|exact Hd].
Qed.

(** * [for] and [try] *)

Lemma v_series : forall w l, Series w l -> (List.length w < k)%nat -> forall kd s r, In kd [TSemicolon; TCloseParenthesis] -> is kd s ->
  takes (fun n => for_part (run n) n kd) w (Series w) (s :: r).
Proof.
  intros w l H Hk kd s r Hkd Hs. unfold for_part. cbv zeta. apply t_loop.
  assert (Hy : look [kd] (s :: r) = true) by (cbn [look]; apply one_of_yes; left; symmetry; exact Hs).
  assert (Hn : look [TComma] (s :: r) = false).
  { cbn [look]. unfold one_of, is in *. cbn [existsb]. rewrite Hs. cbn [In] in Hkd. destruct Hkd as [<-|[<-|[]]]; reflexivity. }
  assert (He : ends_expression s).
  { unfold ends_expression, is in *. rewrite Hs. cbn [In] in Hkd. destruct Hkd as [<-|[<-|[]]]; cbn; tauto. }
  assert (Hno : forall w n r, Expr w n -> look [kd] (w ++ r) = false).
  { intros w0 n0 r0 H0. cbn [In] in Hkd. destruct Hkd as [<-|[<-|[]]]; look_. }
  assert (Ha : is TDoubleArrow s -> no_yield w).
  { intros X. unfold is in *. rewrite Hs in X. cbn [In] in Hkd. destruct Hkd as [<-|[<-|[]]]; discriminate X. }
  destruct H as [|w l H].
  { apply l_break. eapply t_nil; [apply t_one_of_yes; exact Hy|]. cbn beta iota. done_. eexists. split; [reflexivity|constructor]. }
  eapply l_conseq; [|intros x Hx; apply Sr_some; exact Hx]. accumulate. revert Hk Ha.
  induction H as [w e Hw|w e c v l Hw Hc H IH]; intros Hk Ha acc.
  - apply l_break. eapply t_nil; [apply t_one_of_no; eapply Hno; exact Hw|]. cbn beta iota.
    eapply t_all; [eapply HE; [len|exact Hw|exact He|exact Ha]|]. cbn beta. intros e' He'.
    eapply t_nil; [apply t_one_of_no; exact Hn|]. cbn beta iota. done_. eexists. split; [reflexivity|]. exists [e']. split; [reflexivity|now constructor].
  - replace (w ++ c :: v) with ((w ++ [c]) ++ v) by now rewrite <- app_assoc.
    eapply (l_more _ _ _ _ _ _ (fun z => exists e', z = acc ++ [e'] /\ Expr w e')).
    + eapply t_nil; [apply t_one_of_no; rewrite <- app_assoc; eapply Hno; exact Hw|]. cbn beta iota. ex. yes. tk. done_.
      eexists. split; [reflexivity|]. eauto.
    + intros ? (e' & -> & He'). eapply l_conseq; [apply IH|].
      * len.
      * intros X. unfold is in *. rewrite Hs in X. cbn [In] in Hkd. destruct Hkd as [<-|[<-|[]]]; discriminate X.
      * cbn beta. intros ? (l' & -> & Hl'). exists (e' :: l'). split; [now rewrite <- app_assoc|]. rewrite <- app_assoc. cbn [app]. now constructor.
Qed.

Lemma v_catches : forall w l, Catches w l -> (List.length w < k)%nat -> forall r, look [TCatch] r = false ->
  takes (fun n => ploop n (fun catch_blocks =>
    b <- next_token_one_of [TCatch] ;;
    if b then (c <- catch_block (run n) n ;; continue (catch_blocks ++ [c])) else break catch_blocks) []) w (Catches w) r.
Proof.
  intros w l H Hk r Hr. apply t_loop. accumulate. revert Hk. induction H as [|t a w l v b wb body u l' Ht Ha Hw Hv Hb Hbody H IH]; intros Hk acc.
  - apply l_break. eapply t_nil; [apply t_one_of_no; exact Hr|]. cbn beta iota. done_. eexists. split; [reflexivity|].
    exists []. rewrite app_nil_r. split; [reflexivity|constructor].
  - replace (t :: a :: w ++ v :: b :: wb ++ u) with ((t :: a :: w ++ v :: b :: wb) ++ u) by (cbn [app]; repeat (rewrite <- app_assoc; cbn [app]); reflexivity).
    eapply (l_more _ _ _ _ _ _ (fun z => exists body', z = acc ++ [NCatchBlock t a l v b body'] /\ Block wb body')).
    + yes. eapply (t_all _ _ _ _ _ (fun z => exists body', z = NCatchBlock t a l v b body' /\ Block wb body')).
      * unfold catch_block. tk. tk. eapply t_bind; [eapply r_union; [exact Hw|cbn [app]; lk]|]. cbn beta. intros ? <-. tk. tk.
        eapply t_all; [eapply HB; [len|exact Hbody]|]. cbn beta. intros body' Hb'. done_. eauto.
      * cbn beta. intros ? (body' & -> & Hb'). done_. eexists. split; [reflexivity|]. eauto.
    + intros ? (body' & -> & Hb'). eapply l_conseq; [apply IH; len|]. cbn beta. intros ? (l2 & -> & Hl2).
      exists (NCatchBlock t a l v b body' :: l2). split; [now rewrite <- app_assoc|].
      cbn [app]; repeat (rewrite <- app_assoc; cbn [app]). now constructor.
Qed.

(** * Expressions and labels *)

Lemma v_expression_statement : forall w e s r, Expr w e -> is TSemicolon s -> (List.length w < k)%nat ->
  takes (fun n =>
      expr <- expression_statement (run n) ;;
      b <- next_token_one_of [TScriptEnd] ;;
      (if b then (consume TScriptEnd ;;; set_ctx CtxOut)
       else consume_or_ff_after TSemicolon [TSemicolon]) ;;;
      ret expr) (w ++ [s]) (fun x => exists e', x = NExpressionStatement e' /\ Expr w e') r.
Proof.
  intros w e s r He Hs Hk. eapply (t_bind _ _ _ _ w [s] (fun x => exists e', x = NExpressionStatement e' /\ Expr w e')).
  - unfold expression_statement. eapply t_all; [eapply HE; [exact Hk|exact He|ends|arrow]|]. cbn beta. intros e' He'. done_. eauto.
  - cbn beta. intros ? (e' & -> & He'). no. tk. done_. eauto.
Qed.
Lemma not_is_look : forall kd t r, ~ is kd t -> look [kd] (t :: r) = false.
Proof.
  intros kd t r H. cbn [look]. apply one_of_no. intros [E|[]]. apply H. unfold is. now symmetry.
Qed.
Lemma v_expression_or_label : forall w e s r, Expr w e -> is TSemicolon s -> expression_start (w ++ [s]) -> (List.length w < k)%nat ->
  takes (fun n => expression_or_label (run n) n) (w ++ [s]) (fun x => exists e', x = NExpressionStatement e' /\ Expr w e') r.
Proof.
  intros w e s r He Hs Hst Hk. pose proof (v_expression_statement w e s r He Hs Hk) as X. unfold expression_or_label.
  remember (w ++ [s]) as ws eqn:Ews. destruct ws as [|t [|u v]]; try contradiction. destruct Hst as (Hn & Hi & Hst). clear Ews.
  destruct (tt_eqb (t_type t) TStatic) eqn:Es.
  - assert (Ht : is TStatic t) by now apply tt_eqb_eq.
    eapply (t_bind _ _ _ _ [t] (u :: v) (fun x => x = Some t /\ visible t)); [now apply t_ignore_yes_visible|]. cbn beta. intros ? [-> V]. cbn beta iota.
    apply t_unassoc. eapply t_nil; [apply t_one_of_no; cbn [app]; apply not_is_look; now apply Hst|]. cbn beta iota.
    apply t_unassoc. apply t_push; [exact V|]. eapply t_nil; [apply t_ret; reflexivity|]. cbn beta iota. exact X.
  - eapply t_nil; [apply t_ignore_no; cbn [app]; apply not_is_look; intros E; unfold is in E; rewrite E in Es; discriminate Es|]. cbn beta iota.
    destruct (tt_eqb (t_type t) TIdentifier) eqn:Ei.
    + assert (Ht : is TIdentifier t) by now apply tt_eqb_eq.
      apply t_unassoc.
      eapply (t_bind _ _ _ _ [t] (u :: v) (fun x => x = Some t /\ visible t)); [now apply t_ignore_yes_visible|]. cbn beta. intros ? [-> V]. cbn beta iota.
      apply t_unassoc. eapply t_nil; [apply t_ignore_no; cbn [app]; apply not_is_look; now apply Hi|]. cbn beta iota.
      apply t_unassoc. apply t_push; [exact V|]. eapply t_nil; [apply t_ret; reflexivity|]. cbn beta iota. exact X.
    + apply t_unassoc. eapply t_nil; [apply t_ignore_no; cbn [app]; apply not_is_look; intros E; unfold is in E; rewrite E in Ei; discriminate Ei|]. cbn beta iota.
      eapply t_nil; [apply t_ret; reflexivity|]. cbn beta iota. exact X.
Qed.

(** the first two steps of [statement_in_script] *)
Ltac kind t := match goal with Ht : is _ t |- _ => let E := fresh in pose proof Ht as E; unfold is in E; rewrite E; clear E; cbn beta iota end.
Ltac st :=
  apply t_stmt; unfold statement_in_script; cbn [app];
  eapply t_nil; [apply v_no_attributes; cbn [app]; look_|]; cbn beta;
  eapply t_nil; [apply t_peek|]; cbn [app]; cbn beta iota;
  match goal with |- context [match t_type ?t with TScriptEnd => _ | _ => _ end] => kind t end.

Lemma v_statement : forall x w n r, (List.length w <= k)%nat -> Statement x w n -> okay x r ->
  takes (fun n => r_stmt (run n)) w (Statement x w) r.
Proof.
  intros x w n rr Hk H Hr.
  destruct H as [w e s He Hs Hst|i c Hi Hc|t w l s Ht Hl Hs|t w e s Ht He Hs|t s Ht Hs|t w e s Ht He Hs|t w e s Ht He Hs|t i s Ht Hi Hs|
    s Hs|t s Ht Hs|t w e s Ht He Hs|t w l s Ht Hl Hs|t w l s Ht Hl Hs|t w l Ht Hl|t a w l b Ht Ha Hl Hne Hb|t a b Ht Ha Hb|
    t a w e b Ht Ha He Hb|t a w1 e1 c w2 e2 b Ht Ha H1 Hc H2 Hb|t a d q v b Ht Ha Hd Hq Hv Hb|w n H|
    t a w e b x wb body y wt l o Ht Ha He Hb Hbody Hi|t a w e b c x ws l y wt l' o Ht Ha He Hb Hc Hl Hi|
    x t a w e b wb body Ht Ha He Hb Hbody|t x wb body u a w e b s Ht Hbody Hx Hu Ha He Hb Hs|
    x t a w1 l1 s1 w2 l2 s2 w3 l3 b wb body Ht Ha H1 Hs1 H2 Hs2 H3 Hb Hbody|
    x t a w e u wk kv b wb body Ht Ha He Hu Hkv Hb Hbody|t a w e b c wb l d y Ht Ha He Hb Hc Hl|
    t wb body wc l Ht Hb Hc|t wb body wc l f wf fin Ht Hb Hc Hf Hfin|
    wa ats t wr rf i w n Ha Ht Hr' Hi Hw|wa ats wm ab fi t i we ex wi im wb body doc Ha Hm Ht Hi Hex Him Hb|
    t i we ex wb body doc Ht Hi Hex Hb|t i wb body doc Ht Hi Hb|t w s Ht Hw Hs|t w wb body Ht Hw Hb|t wb body Ht Hb|
    t w l s Ht Hl Hs|t f w l s Ht Hf Hl Hs|t f w l s Ht Hf Hl Hs|a b Ha Hb].
  - (* expression *)
    assert (X : takes (fun n => expression_or_label (run n) n) (w ++ [s]) (Statement Closed (w ++ [s])) rr).
    { eapply t_conseq; [eapply v_expression_or_label; [exact He|exact Hs|exact Hst|len]|]. cbn beta. intros ? (e' & -> & He'). now constructor. }
    remember (w ++ [s]) as ws eqn:Ews. destruct ws as [|t [|u v]]; try contradiction. destruct Hst as (Hn & _).
    apply t_stmt. unfold statement_in_script.
    eapply t_nil; [apply v_no_attributes; cbn [app look]; apply (one_of_sub statement_kinds); [now apply one_of_no|reflexivity]|]. cbn beta.
    eapply t_nil; [apply t_peek|]. cbn [app]. cbn beta iota. clear - X Hn.
    destruct (t_type t) eqn:Et; try exact X; exfalso; apply Hn; unfold one_of_kinds; rewrite Et; cbn; tauto.
  - (* label *)
    st. unfold expression_or_label. no. eapply (t_all _ _ _ _ _ (eq (Some (NLabelStatement i c)))).
    + tk. tk. now done_.
    + cbn beta. intros ? <-. done_. now constructor.
  - st. unfold echo_statement. tk. eapply t_bind; [eapply (v_conditions k HE); [exact Hl|len|ends| |arrow]|].
    { intros X. unfold is in *. rewrite Hs in X. discriminate X. }
    cbn beta. intros l' Hl'. tk. done_. now constructor.
  - st. unfold print_statement. tk. ex. tk. done_. now constructor.
  - st. unfold return_statement. tk. yes. tk. done_. now constructor.
  - st. unfold return_statement. tk. no. ex. tk. done_. now constructor.
  - st. unfold throw_statement. tk. ex. tk. done_. now constructor.
  - st. unfold goto_statement. tk. tk. tk. done_. now constructor.
  - st. tk. done_. now constructor.
  - (* break *)
    assert (X : takes (fun n =>
          token <- next_unwrap ;;
          b <- next_token_one_of [TSemicolon] ;;
          expr <- (if b then ret None else (e <- r_expr (run n) 0 ;; ret (Some e))) ;;
          consume_or_ff_after TSemicolon [TSemicolon] ;;;
          ret (NTokenStatement token expr)) [t; s] (Statement Closed [t; s]) rr).
    { tk. yes. eapply t_nil; [apply t_ret; reflexivity|]. cbn beta. tk. done_. now constructor. }
    apply t_stmt. unfold statement_in_script. eapply t_nil; [apply v_no_attributes; cbn [app]; look_|]. cbn beta.
    eapply t_nil; [apply t_peek|]. cbn [app]. cbn beta iota. unfold one_of_kinds in Ht. cbn [In] in Ht. destruct Ht as [<-|[<-|[]]]; exact X.
  - assert (X : takes (fun n =>
          token <- next_unwrap ;;
          b <- next_token_one_of [TSemicolon] ;;
          expr <- (if b then ret None else (e <- r_expr (run n) 0 ;; ret (Some e))) ;;
          consume_or_ff_after TSemicolon [TSemicolon] ;;;
          ret (NTokenStatement token expr)) (t :: w ++ [s]) (Statement Closed (t :: w ++ [s])) rr).
    { tk. no. eapply (t_bind _ _ _ _ w [s] (fun x => exists e', x = Some e' /\ Expr w e')).
      - ex. done_. eauto.
      - cbn beta. intros ? (e' & -> & He'). tk. done_. now constructor. }
    apply t_stmt. unfold statement_in_script. eapply t_nil; [apply v_no_attributes; cbn [app]; look_|]. cbn beta.
    eapply t_nil; [apply t_peek|]. cbn [app]. cbn beta iota. unfold one_of_kinds in Ht. cbn [In] in Ht. destruct Ht as [<-|[<-|[]]]; exact X.
  - st. eapply t_conseq; [eapply (v_constants k HE); [exact Hl|len|exact Ht|exact Hs]|]. cbn beta. intros ? (l' & -> & Hl'). now constructor.
  - st. eapply t_conseq; [eapply r_globals; [exact Hl|exact Ht|exact Hs]|]. cbn beta. intros ? <-. now constructor.
  - (* static *)
    st. unfold expression_or_label. tk. destruct (look_one _ _ Hr) as (s & v & -> & Hs).
    eapply (t_all _ _ _ _ _ (fun x => exists l', x = Some (NStaticVariablesStatement t l') /\ Statics w l')).
    + assert (Hv : headed [TVariable] w) by (destruct Hl; hd).
      eapply t_nil; [apply t_one_of_yes; apply look_in; exact Hv|]. cbn beta iota.
      eapply t_all; [eapply (v_statics k HE); [exact Hl|len|exact Hs]|]. cbn beta. intros ? (l' & -> & Hl'). done_. eauto.
    + cbn beta. intros ? (l' & -> & Hl'). done_. now constructor.
  - st. unfold unset_statement. tk. tk. eapply t_bind; [eapply (v_values_some k HE); [exact Hl|exact Hne|len|exact Hb]|].
    cbn beta. intros l' [Hl' Hne']. tk. done_. now constructor.
  - st. unfold die_statement. tk. tk. tk. done_. now constructor.
  - st. unfold die_statement. tk. tk. no. ex. tk. done_. now constructor.
  - st. unfold define_statement. tk. tk. ex. tk. ex. no. eapply t_nil; [apply t_ret; reflexivity|]. cbn beta. tk. done_. now constructor.
  - st. unfold declare_statement. tk. tk. tk. tk. tk. tk. done_. now constructor.
  - (* block *)
    destruct (block_head _ _ H) as (a & v & -> & Ha). st. eapply t_conseq; [eapply v_block; [exact H|exact Hk]|]. intros b Hb. now constructor.
  - st. eapply v_if; eassumption.
  - st. eapply v_if_alternative; eassumption.
  - st. unfold while_statement. tk. tk. ex. tk. eapply t_all; [eapply v_body; [cbn; tauto|exact Hbody|len|exact Hr]|].
    cbn beta. intros b' Hb'. done_. now constructor.
  - st. unfold do_while_statement. tk. eapply t_bind; [eapply HS; [len|exact Hbody|apply okay_open; [cbn [app]; lk|exact Hx]]|].
    cbn beta. intros b' Hb'. tk. tk. ex. tk. tk. done_. now apply (S_do t x).
  - st. unfold for_statement. tk. tk. eapply t_bind; [eapply v_series; [exact H1|len| |exact Hs1]; cbn; tauto|]. cbn beta. intros l1' Hl1. tk.
    eapply t_bind; [eapply v_series; [exact H2|len| |exact Hs2]; cbn; tauto|]. cbn beta. intros l2' Hl2. tk.
    eapply t_bind; [eapply v_series; [exact H3|len| |exact Hb]; cbn; tauto|]. cbn beta. intros l3' Hl3. tk.
    eapply t_all; [eapply v_body; [cbn; tauto|exact Hbody|len|exact Hr]|]. cbn beta. intros b' Hb'. done_. now constructor.
  - st. unfold foreach_statement. tk. tk. ex. tk. eapply t_bind; [eapply (v_pair k HE); [exact Hkv|len|]|].
    { unfold one_of_kinds. unfold is in Hb. rewrite Hb. cbn. tauto. }
    cbn beta. intros kv' Hkv'. tk. eapply t_all; [eapply v_body; [cbn; tauto|exact Hbody|len|exact Hr]|]. cbn beta. intros b' Hb'. done_. now constructor.
  - st. unfold switch_statement. tk. tk. ex. tk. eapply t_all; [eapply v_switch_body; [exact Hc|exact Hl|len]|].
    cbn beta. intros ? (l' & -> & Hl'). done_. now constructor.
  - st. unfold try_catch_statement. tk. eapply t_bind; [eapply HB; [len|exact Hb]|]. cbn beta. intros b' Hb'.
    assert (Ho : look [TCatch] rr = false /\ look [TFinally] rr = false).
    { cbn in Hr. destruct rr as [|u rr]; [split; reflexivity|]. cbn [look] in *. split; (eapply one_of_sub; [exact Hr|reflexivity]). }
    eapply t_all; [eapply v_catches; [exact Hc|len|apply Ho]|]. cbn beta. intros l' Hl'.
    eapply t_nil; [apply t_ignore_no; apply Ho|]. cbn beta iota. eapply t_nil; [apply t_ret; reflexivity|]. cbn beta. done_. now constructor.
  - st. unfold try_catch_statement. tk. eapply t_bind; [eapply HB; [len|exact Hb]|]. cbn beta. intros b' Hb'.
    eapply t_bind; [eapply v_catches; [exact Hc|len|cbn [app]; lk]|]. cbn beta. intros l' Hl'. tk.
    eapply (t_all _ _ _ _ _ (fun x => exists fin', x = Some (NFinallyBlock f fin') /\ Block wf fin')).
    + eapply t_all; [eapply HB; [len|exact Hfin]|]. cbn beta. intros fin' Hfin'. done_. eauto.
    + cbn beta. intros ? (fin' & -> & Hfin'). done_. now constructor.
  - (* function *)
    apply t_stmt. unfold statement_in_script. eapply t_bind; [eapply (v_attributes k HE); [exact Ha|len|cbn [app]; look_]|]. cbn beta. intros ats' Hats'.
    eapply t_nil; [apply t_peek|]. cbn [app]. cbn beta iota. kind t. eapply t_nil_any; [apply t_doc|]. cbn beta. intros doc _.
    unfold named_function. tk. eapply t_bind; [apply t_maybe; [exact Hr'|cbn [app]; look_]|]. cbn beta. intros ? <-. tk.
    eapply t_all; [eapply (v_signature k HE HB); [exact Hw|len]|]. cbn beta. intros n' Hn'. done_. now constructor.
  - (* class *)
    assert (X : forall ats', Attributes wa ats' -> takes (fun n => class_statement (run n) n ab fi ats') (t :: i :: we ++ wi ++ wb)
      (Statement Closed (wa ++ wm ++ t :: i :: we ++ wi ++ wb)) rr).
    { intros ats' Hats'. unfold class_statement. eapply t_nil_any; [apply t_doc|]. cbn beta. intros doc' _. tk. tk.
      eapply (v_class_rest k HE HB); [exact Hex|exact Him|exact Hb|len|]. intros body' Hb'. done_. now constructor. }
    apply t_stmt. unfold statement_in_script. eapply t_bind; [eapply (v_attributes k HE); [exact Ha|len|]|].
    { rewrite <- app_assoc. destruct Hm as [[Hm _]|[Hm _]]; cbn [app]; look_. }
    cbn beta. intros ats' Hats'. specialize (X ats' Hats').
    eapply t_nil; [apply t_peek|]. destruct Hm as [[[[-> ->]|(m & -> & -> & Hm)] ->]|[[[-> ->]|(m & -> & -> & Hm)] ->]]; cbn [app] in *; cbn beta iota.
    + kind t. exact X.
    + kind m. unfold abstract_class_statement. tk. exact X.
    + kind t. exact X.
    + kind m. unfold final_class_statement. tk. exact X.
  - (* interface *)
    st. unfold interface. eapply t_nil_any; [apply t_doc|]. cbn beta. intros doc' _. tk. tk.
    assert (L : look [TExtends; TNamespaceSeparator; TComma] (wb ++ rr) = false).
    { destruct (class_body_head _ _ Hb) as (a & v & -> & Ha). look_. }
    apply t_assoc. eapply t_bind; [eapply r_name_clause; [exact Hex|exact L]|]. cbn beta. intros ? <-.
    eapply t_all; [eapply (v_class_body k HE HB); [exact Hb|len]|]. cbn beta. intros body' Hb'. done_. now constructor.
  - st. unfold trait_statement. eapply t_nil_any; [apply t_doc|]. cbn beta. intros doc' _. tk. tk.
    eapply t_all; [eapply (v_class_body k HE HB); [exact Hb|len]|]. cbn beta. intros body' Hb'. done_. now constructor.
  - (* namespace *)
    st. unfold namespace_statement. tk. eapply t_bind; [eapply r_type_ref_option; [apply Q_relative; exact Hw|cbn [app]; lk]|]. cbn beta. intros ? <-.
    no. tk. done_. now constructor.
  - st. unfold namespace_statement. tk. destruct (block_head _ _ Hb) as (a & v & E & Ha).
    eapply t_bind; [eapply r_type_ref_option; [apply Q_relative; exact Hw|rewrite E; cbn [app]; lk]|]. cbn beta. intros ? <-.
    eapply t_nil; [apply t_one_of_yes; rewrite E; cbn [app]; lk|]. cbn beta iota.
    eapply t_all; [eapply HB; [len|exact Hb]|]. cbn beta. intros b' Hb'. done_. now constructor.
  - st. unfold namespace_statement. tk. destruct (block_head _ _ Hb) as (a & v & E & Ha).
    eapply t_nil; [rewrite E; cbn [app]; apply r_type_ref_none|].
    { unfold is_identifier. unfold is in Ha. rewrite Ha. reflexivity. }
    { unfold is in *. rewrite Ha. discriminate. }
    cbn beta. eapply t_nil; [apply t_one_of_yes; rewrite E; cbn [app]; lk|]. cbn beta iota.
    eapply t_all; [eapply HB; [len|exact Hb]|]. cbn beta. intros b' Hb'. done_. now constructor.
  - (* use *)
    st. tk.
    assert (Hh : exists i v, w = i :: v /\ ~ one_of_kinds [TFunction; TConst] i).
    { assert (X : forall w n, UseItem t w n -> exists i v, w = i :: v /\ ~ one_of_kinds [TFunction; TConst] i) by (intros ? ? []; eauto).
      destruct Hl as [? ? ? H|? ? ? ? ? ? H]; destruct (X _ _ H) as (i0 & v0 & -> & Hi0); cbn [app]; eauto. }
    destruct Hh as (i & v & E & Hi).
    eapply t_nil; [apply t_ignore_no; rewrite E; cbn [app look]; eapply one_of_sub; [apply one_of_no; exact Hi|reflexivity]|]. cbn beta iota.
    eapply t_nil; [apply t_ignore_no; rewrite E; cbn [app look]; eapply one_of_sub; [apply one_of_no; exact Hi|reflexivity]|]. cbn beta iota.
    eapply t_conseq; [eapply r_use; [exact Hl|exact Hs]|]. cbn beta. intros ? <-. now constructor.
  - st. tk. tk. unfold use_function_statement. eapply t_bind; [eapply r_aliases; [exact Hl|exact Hs]|]. cbn beta. intros ? <-. tk. done_. now constructor.
  - st. tk. no. tk. unfold use_const_statement. eapply t_bind; [eapply r_aliases; [exact Hl|exact Hs]|]. cbn beta. intros ? <-. tk. done_. now constructor.
  - (* html *)
    st. unfold inline_html. tk. no. tk. eapply t_nil; [apply t_script|]. cbn beta. done_. now constructor.
Qed.
End Statements.

(** * All together *)

Section All.
Context `{RT : Runtime}.

Lemma all_read : forall k,
  (forall w, (List.length w < k)%nat -> Flat w -> reads_flat w) /\
  (forall w b r, (List.length w < k)%nat -> Block w b -> takes (fun n => r_block (run n)) w (Block w) r) /\
  (forall x w n r, (List.length w < k)%nat -> Statement x w n -> okay x r -> takes (fun n => r_stmt (run n)) w (Statement x w) r).
Proof.
  induction k as [|k (HF & HB & HS)]; [splits; intros; lia|].
  pose proof (GrammarPratt.HE k HF) as HE.
  splits.
  - intros w Hw H. eapply v_flat; [exact HF|exact HB|lia|exact H].
  - intros w b r Hw H. eapply v_block; [exact HS|exact H|lia].
  - intros x w n r Hw H Hr. eapply v_statement; try eassumption. lia.
Qed.

(** Statements are read, and what is read is the whole statement. *)
Lemma statement_read : forall x w n r, Statement x w n -> okay x r -> takes (fun n => r_stmt (run n)) w (Statement x w) r.
Proof. intros x w n r H Hr. destruct (all_read (S (List.length w))) as (_ & _ & HS). eapply HS; [lia|exact H|exact Hr]. Qed.
Lemma block_read : forall w b r, Block w b -> takes (fun n => r_block (run n)) w (Block w) r.
Proof. intros w b r H. destruct (all_read (S (List.length w))) as (_ & HB & _). eapply HB; [lia|exact H]. Qed.
Lemma expression_read : forall w e t r, Expr w e -> ends_expression t -> (is TDoubleArrow t -> no_yield w) ->
  takes (fun n => r_expr (run n) 0) w (Expr w) (t :: r).
Proof. intros w e t r H. destruct (all_read (S (List.length w))) as (HF & _ & _). eapply (GrammarPratt.HE _ HF); [lia|exact H]. Qed.

Lemma statements_read : forall c w l, Statements c w l -> forall stop r,
  (forall t u, one_of bad t = false -> takes (fun _ => stop) [] (eq false) (t :: u)) ->
  (c = false -> look [TElse; TElseIf; TCatch; TFinally] r = false) ->
  (forall T : list Node -> Prop, forall acc, T acc -> takes (fun n => b <- stop ;;
    if b then break acc
    else
      p <- peek ;;
      match p with
      | None => break acc
      | Some _ =>
          r <- pcatch (r_stmt (run n)) ;;
          match r with
          | inr error => push_err error ;;; error_fast_forward ;;; continue acc
          | inl new_statement => docs <- flush_docs ;; continue (acc ++ docs ++ [new_statement])
          end
      end) [] (fun x => exists b, x = inr b /\ T b) r) ->
  takes (fun n => statements_loop (run n) n stop) w (Statements c w) r.
Proof.
  intros c w l H. destruct (all_read (S (List.length w))) as (HF & HB & HS).
  eapply v_statements; [exact HS|exact H|lia].
Qed.
End All.
