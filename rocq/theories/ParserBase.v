(** A program logic for the parser of Parser.v and the specifications of its
    primitives. *)

From Verif Require Import Base Token Node DocBlock Parser TokenFacts DocFacts ParserSpec.

(** * Values and when they are well made *)

Class Val (A : Type) := {
  vok : (Token -> Prop) -> N * N -> Prop -> A -> Prop;
  vok_mono : forall T eof (E E' : Prop) a, (E -> E') -> vok T eof E a -> vok T eof E' a
}.

Lemma tok_ok_mono : forall T eof (E E' : Prop) t, (E -> E') -> tok_ok T eof E t -> tok_ok T eof E' t.
Proof. unfold tok_ok. intuition. Qed.
Lemma Good_mono `{RT : Runtime} : forall T eof (E E' : Prop) n, (E -> E') -> Good T eof E n -> Good T eof E' n.
Proof.
  intros T eof E E' n HE HG. induction HG as [n (H1 & H2 & H3) Hs IH]. constructor; auto.
  split; [|split; eauto]. eapply Forall_impl; [|exact H1]. intros. eapply tok_ok_mono; eauto.
Qed.

#[export] Instance Val_tok : Val Token := {| vok := tok_ok; vok_mono := tok_ok_mono |}.
#[export] Instance Val_node `{RT : Runtime} : Val Node := {| vok := Good; vok_mono := Good_mono |}.
#[export, refine] Instance Val_unit : Val unit := {| vok := fun _ _ _ _ => True |}.
Proof. auto. Defined.
#[export, refine] Instance Val_bool : Val bool := {| vok := fun _ _ _ _ => True |}.
Proof. auto. Defined.
#[export, refine] Instance Val_tt : Val TokenType := {| vok := fun _ _ _ _ => True |}.
Proof. auto. Defined.
#[export, refine] Instance Val_ctx : Val pctx := {| vok := fun _ _ _ _ => True |}.
Proof. auto. Defined.
#[export, refine] Instance Val_err : Val perr := {| vok := fun T eof _ e => err_ok T eof e |}.
Proof. auto. Defined.
#[export, refine] Instance Val_option {A} `{Val A} : Val (option A) :=
  {| vok := fun T eof E o => match o with Some a => vok T eof E a | None => True end |}.
Proof. intros T eof E E' [a|] HE; auto. apply vok_mono; auto. Defined.
#[export, refine] Instance Val_list {A} `{Val A} : Val (list A) :=
  {| vok := fun T eof E l => Forall (vok T eof E) l |}.
Proof. intros T eof E E' l HE Hl. eapply Forall_impl; [|exact Hl]. intros. eapply vok_mono; eauto. Defined.
#[export, refine] Instance Val_prod {A B} `{Val A} `{Val B} : Val (A * B) :=
  {| vok := fun T eof E p => vok T eof E (fst p) /\ vok T eof E (snd p) |}.
Proof. intros T eof E E' [a b] HE [Ha Hb]. split; eapply vok_mono; eauto. Defined.
#[export, refine] Instance Val_sum {A B} `{Val A} `{Val B} : Val (A + B) :=
  {| vok := fun T eof E p => match p with inl a => vok T eof E a | inr b => vok T eof E b end |}.
Proof. intros T eof E E' [a|b] HE; apply vok_mono; auto. Defined.

Definition comment_or_break (t : Token) : bool :=
  match t_type t with TMultilineComment | TLineComment | TLinebreak => true | _ => false end.
(** a token that [peek] shows *)
Definition plain (t : Token) : bool :=
  match t_type t with TMultilineComment | TLineComment | TLinebreak | TEof => false | _ => true end.

(** Behind the start of a heredoc there is at least one more token that is
    not a comment or a line break. *)
Fixpoint heredoc_ok (W : Prop) (l : list Token) : Prop :=
  match l with
  | [] => True
  | t :: r =>
      (t_type t = THereDocStart -> W \/ existsb (fun u => negb (comment_or_break u)) r = true)
      /\ heredoc_ok W r
  end.

Section Logic.
Context `{RT : Runtime}.
Variable T : Token -> Prop.
Variable eof : N * N.
(** [W] says that there is a token in the document that makes the parser
    panic: one that cannot be measured, a comment without text or the start of
    a heredoc at the end. *)
Variable W : Prop.
Hypothesis T_end : forall t, T t -> W \/ exists e, token_end t = Some e.
Hypothesis T_doc : forall t, T t -> t_type t = TMultilineComment -> W \/ t_label t <> None.

Local Notation VOK := (vok T eof).
Local Notation tokok := (tok_ok T eof).
Local Notation errok := (err_ok T eof).

Definition er (s : pst) : Prop := p_errs s <> [].

Definition doc_ok (t : Token) : Prop := T t /\ t_type t = TMultilineComment.
Definition prev_ok (r : NodeRange) : Prop := r = range_empty \/ exists t, T t /\ token_range t = Some r.

Record Inv (s : pst) : Prop := {
  i_toks : Forall T (p_toks s);
  i_here : heredoc_ok W (p_toks s);
  i_docs : Forall doc_ok (p_docs s);
  i_errs : Forall errok (p_errs s);
  i_eof : p_eof s = eof;
  i_prev : prev_ok (p_eprev s)
}.

(** [m], started in a state that satisfies [Pre] (with errors reported if
    [E]), does not panic (unless [W]), keeps the invariant and the errors, and answers
    with a value that satisfies [Q] and leads to a state with [R]. *)
Definition TT {A} (E : Prop) (Pre : pst -> Prop) (m : P A)
    (Q : Prop -> A -> Prop) (R : A -> pst -> Prop) : Prop :=
  forall s, Inv s -> (E -> er s) -> Pre s ->
  match m s with
  | POk a s' => Inv s' /\ (er s -> er s') /\ Q (er s') a /\ R a s'
  | PFail e s' => Inv s' /\ (er s -> er s') /\ errok e
  | PPanic => W
  | PFuel => True
  end.

Definition any : pst -> Prop := fun _ => True.
Definition anyR {A} : A -> pst -> Prop := fun _ _ => True.

Lemma TT_bind : forall A B (E : Prop) (Pre : pst -> Prop) (m : P A) (f : A -> P B) Qm Rm Q R,
  TT E Pre m Qm Rm ->
  (forall (E' : Prop) a, (E -> E') -> Qm E' a -> TT E' (Rm a) (f a) Q R) ->
  TT E Pre (bind m f) Q R.
Proof.
  intros A B E Pre m f Qm Rm Q R Hm Hf s HI HE HP. unfold bind.
  specialize (Hm s HI HE HP). destruct (m s) as [a s1|e s1| |]; auto.
  destruct Hm as (I1 & E1 & Q1 & R1).
  specialize (Hf (er s1) a (fun e => E1 (HE e)) Q1 s1 I1 (fun e => e) R1).
  destruct (f a s1) as [b s2|e s2| |]; auto; intuition.
Qed.

Lemma TT_conseq : forall A E (Pre Pre' : pst -> Prop) (m : P A) (Q Q' : Prop -> A -> Prop) (R R' : A -> pst -> Prop),
  TT E Pre m Q R -> (forall s, Pre' s -> Pre s) ->
  (forall (E1 : Prop) a, (E -> E1) -> Q E1 a -> Q' E1 a) -> (forall a s, R a s -> R' a s) ->
  TT E Pre' m Q' R'.
Proof.
  intros A E Pre Pre' m Q Q' R R' Hm HP HQ HR s HI HE HP'.
  specialize (Hm s HI HE (HP s HP')). destruct (m s); auto.
  destruct Hm as (H1 & H2 & H3 & H4). splits; auto.
Qed.

Lemma TT_weak : forall A (E : Prop) (Pre : pst -> Prop) (m : P A) (Q Q' : Prop -> A -> Prop) (R R' : A -> pst -> Prop),
  TT E Pre m Q R ->
  (forall (E1 : Prop) a, (E -> E1) -> Q E1 a -> Q' E1 a) -> (forall a s, R a s -> R' a s) ->
  TT E Pre m Q' R'.
Proof. intros. eapply TT_conseq; eauto. Qed.

Lemma TT_any : forall A (E : Prop) (Pre : pst -> Prop) (m : P A) Q (R : A -> pst -> Prop), TT E any m Q R -> TT E Pre m Q R.
Proof. intros. eapply TT_conseq; eauto. unfold any; auto. Qed.

Lemma TT_anyR : forall A (E : Prop) (Pre : pst -> Prop) (m : P A) (Q : Prop -> A -> Prop) R, TT E Pre m Q R -> TT E Pre m Q anyR.
Proof. intros. eapply TT_conseq; eauto. unfold anyR; auto. Qed.

Lemma TT_ret : forall A (E : Prop) (Pre : pst -> Prop) (a : A) (Q : Prop -> A -> Prop) (R : A -> pst -> Prop),
  (forall E' : Prop, (E -> E') -> Q E' a) -> (forall s, Pre s -> R a s) -> TT E Pre (ret a) Q R.
Proof. intros A E Pre a Q R HQ HR s HI HE HP. cbn. splits; auto. Qed.

Lemma TT_retv : forall A `{Val A} (E : Prop) (Pre : pst -> Prop) (a : A), VOK E a -> TT E Pre (ret a) VOK anyR.
Proof. intros. apply TT_ret; unfold anyR; auto. intros. eapply vok_mono; eauto. Qed.

Lemma TT_fail : forall A (E : Prop) (Pre : pst -> Prop) e (Q : Prop -> A -> Prop) R, errok e -> TT E Pre (fail e) Q R.
Proof. intros A E Pre e Q R He s HI HE HP. cbn. auto. Qed.

Lemma TT_pcatch : forall A (E : Prop) (Pre : pst -> Prop) (m : P A) Q R, TT E Pre m Q R ->
  TT E Pre (pcatch m) (fun E' x => match x with inl a => Q E' a | inr e => errok e end) anyR.
Proof.
  intros A E Pre m Q R Hm s HI HE HP. unfold pcatch. specialize (Hm s HI HE HP).
  destruct (m s); unfold anyR; intuition.
Qed.
Lemma TT_pcatchv : forall A `{Val A} (E : Prop) (Pre : pst -> Prop) (m : P A) R, TT E Pre m VOK R -> TT E Pre (pcatch m) VOK anyR.
Proof. intros. eapply TT_conseq; [eapply TT_pcatch; eauto|auto| |auto]. intros E1 [a|e]; auto. Qed.

Definition mono {A} (Q : Prop -> A -> Prop) : Prop :=
  forall (E E' : Prop) a, (E -> E') -> Q E a -> Q E' a.

Lemma TT_ploop : forall A B (J : Prop -> A -> Prop) (Q : Prop -> B -> Prop) n body (E : Prop) (Pre : pst -> Prop) a,
  mono Q -> J E a ->
  (forall (E' : Prop) a, (E -> E') -> J E' a ->
     TT E' any (body a) (fun E1 x => match x with inl a => J E1 a | inr b => Q E1 b end) anyR) ->
  TT E Pre (ploop n body a) Q anyR.
Proof.
  intros A B J Q n body E Pre a HM HJ Hb.
  assert (G : forall n (E' : Prop) a, (E -> E') -> J E' a -> TT E' any (ploop n body a) Q anyR).
  { clear n a HJ. induction n as [|n IH]; intros E' a HE HJ.
    - intros s _ _ _. exact I.
    - cbn [ploop]. eapply TT_bind; [apply Hb; auto|].
      intros E1 x HE1 Hx. destruct x as [a'|b].
      + eapply TT_any, IH; auto.
      + apply TT_ret; unfold anyR; auto. intros. eapply HM; eauto. }
  eapply TT_any, G; eauto.
Qed.

Lemma mono_vok : forall A `{Val A}, mono (vok (A:=A) T eof).
Proof. intros A HV E E' a. apply vok_mono. Qed.

(** * Primitives *)

Definition Head (t : Token) (s : pst) : Prop :=
  plain t = true /\ exists r, p_toks s = t :: r.
Lemma heredoc_ok_tail : forall t l, heredoc_ok W (t :: l) -> heredoc_ok W l.
Proof. cbn. tauto. Qed.

Lemma T_range : forall t, T t -> (token_range t = None /\ W) \/ exists r, token_range t = Some r.
Proof.
  intros t Ht. unfold token_range. destruct (token_end t) as [[c l]|] eqn:E; [eauto|].
  destruct (T_end t Ht) as [w|[e He]]; [auto|congruence].
Qed.


Lemma plain_cases : forall t,
  (plain t = true /\ comment_or_break t = false /\ t_type t <> TEof)
  \/ (plain t = false /\ t_type t = TEof)
  \/ (plain t = false /\ t_type t = TMultilineComment)
  \/ (plain t = false /\ (t_type t = TLineComment \/ t_type t = TLinebreak)).
Proof.
  intros t. unfold plain, comment_or_break.
  destruct (t_type t); auto 6; left; splits; auto; discriminate.
Qed.

Lemma peek_go_plain : forall t r docs, plain t = true -> peek_go (t :: r) docs = (Some t, t :: r, docs).
Proof. intros t r docs. unfold plain. cbn. destruct (t_type t); auto; discriminate. Qed.
Lemma peek_go_eof : forall t r docs, t_type t = TEof -> peek_go (t :: r) docs = (None, r, docs).
Proof. intros t r docs Ht. cbn. rewrite Ht. auto. Qed.
Lemma peek_go_doc : forall t r docs, t_type t = TMultilineComment -> peek_go (t :: r) docs = peek_go r (t :: docs).
Proof. intros t r docs Ht. cbn. rewrite Ht. auto. Qed.
Lemma peek_go_skip : forall t r docs, t_type t = TLineComment \/ t_type t = TLinebreak ->
  peek_go (t :: r) docs = peek_go r docs.
Proof. intros t r docs [Ht|Ht]; cbn; rewrite Ht; auto. Qed.

Lemma peek_go_spec : forall toks docs o toks' docs',
  Forall T toks -> heredoc_ok W toks -> Forall doc_ok docs ->
  peek_go toks docs = (o, toks', docs') ->
  Forall T toks' /\ heredoc_ok W toks' /\ Forall doc_ok docs'
  /\ match o with
     | Some t => plain t = true /\ T t /\ exists r, toks' = t :: r
     | None => True
     end.
Proof.
  induction toks as [|t r IH]; intros docs o toks' docs' HT HH HD.
  { cbn. intros E. injection E as <- <- <-. auto. }
  apply Forall_cons_iff in HT as [Ht HT']. pose proof (heredoc_ok_tail _ _ HH) as HH'.
  destruct (plain_cases t) as [(Hp & _)|[(Hp & He)|[(Hp & He)|(Hp & He)]]].
  - rewrite peek_go_plain by auto. intros E. injection E as <- <- <-. splits; eauto.
  - rewrite peek_go_eof by auto. intros E. injection E as <- <- <-. splits; eauto.
  - rewrite peek_go_doc by auto. apply IH; auto. constructor; auto. split; auto.
  - rewrite peek_go_skip by auto. apply IH; auto.
Qed.

Lemma next_go_plain : forall t r docs ep rg, comment_or_break t = false -> token_range t = Some rg ->
  next_go (t :: r) docs ep = Some (Some t, r, docs, rg).
Proof. intros t r docs ep rg. unfold comment_or_break. cbn. intros Hc ->. destruct (t_type t); auto; discriminate. Qed.
Lemma next_go_doc : forall t r docs ep rg, t_type t = TMultilineComment -> token_range t = Some rg ->
  next_go (t :: r) docs ep = next_go r (t :: docs) rg.
Proof. intros t r docs ep rg Ht Hr. cbn. rewrite Hr, Ht. auto. Qed.
Lemma next_go_skip : forall t r docs ep rg, t_type t = TLineComment \/ t_type t = TLinebreak ->
  token_range t = Some rg -> next_go (t :: r) docs ep = next_go r docs rg.
Proof. intros t r docs ep rg [Ht|Ht] Hr; cbn; rewrite Hr, Ht; auto. Qed.

Lemma next_go_spec : forall toks docs ep,
  Forall T toks -> heredoc_ok W toks -> Forall doc_ok docs -> prev_ok ep ->
  (next_go toks docs ep = None /\ W) \/
  exists o toks' docs' ep', next_go toks docs ep = Some (o, toks', docs', ep')
  /\ Forall T toks' /\ heredoc_ok W toks' /\ Forall doc_ok docs' /\ prev_ok ep'
  /\ match o with Some t => T t | None => True end
  /\ (forall t r, toks = t :: r -> comment_or_break t = false -> o = Some t /\ toks' = r)
  /\ (existsb (fun u => negb (comment_or_break u)) toks = true -> o <> None).
Proof.
  induction toks as [|t r IH]; intros docs ep HT HH HD HP.
  { right. cbn. eexists _, _, _, _. splits; eauto; discriminate. }
  apply Forall_cons_iff in HT as [Ht HT']. pose proof (heredoc_ok_tail _ _ HH) as HH'.
  destruct (T_range t Ht) as [[Hn w]|[rg Hrg]]; [left; cbn; rewrite Hn; auto|]. assert (HP' : prev_ok rg) by (right; eauto).
  assert (Hc : comment_or_break t = false \/ (comment_or_break t = true /\ (t_type t = TMultilineComment
      \/ (t_type t = TLineComment \/ t_type t = TLinebreak)))).
  { unfold comment_or_break. destruct (t_type t); auto. }
  destruct Hc as [Hc|[Hc Hc']].
  - erewrite next_go_plain by eauto. right. eexists _, _, _, _. splits; eauto.
    + intros t' r' E _. injection E as <- <-. auto.
    + discriminate.
  - assert (Hl : forall t' r', t :: r = t' :: r' -> comment_or_break t' = false -> forall Q : Prop, Q).
    { intros t' r' E. injection E as <- <-. rewrite Hc. discriminate. }
    destruct Hc' as [Hc'|Hc'].
    + erewrite next_go_doc by eauto.
      destruct (IH (t :: docs) rg) as [H0|(o & toks' & docs' & ep' & -> & H1 & H2 & H3 & H4 & H5 & _ & H6)]; auto.
      { constructor; auto. split; auto. }
      right. eexists _, _, _, _. splits; eauto; [intros; eapply Hl; eauto|]. cbn. now rewrite Hc.
    + erewrite next_go_skip by eauto.
      destruct (IH docs rg) as [H0|(o & toks' & docs' & ep' & -> & H1 & H2 & H3 & H4 & H5 & _ & H6)]; auto.
      right. eexists _, _, _, _. splits; eauto; [intros; eapply Hl; eauto|]. cbn. now rewrite Hc.
Qed.

(** The answer of [peek] is a token of the document and stays at the head. *)
Definition peekR (o : option Token) : pst -> Prop :=
  match o with Some t => Head t | None => any end.
Definition optT (E : Prop) (o : option Token) : Prop :=
  match o with Some t => T t | None => True end.

Lemma TT_peek : forall (E : Prop) (Pre : pst -> Prop), TT E Pre peek optT peekR.
Proof.
  intros E Pre s [H1 H2 H3 H4 H5 H6] HE _. unfold peek.
  destruct (peek_go (p_toks s) (p_docs s)) as [[o toks'] docs'] eqn:Ep.
  apply peek_go_spec in Ep as (K1 & K2 & K3 & K4); auto. splits; auto.
  - constructor; auto.
  - destruct o; cbn; auto. tauto.
  - destruct o as [t|]; cbn; unfold any; auto. destruct K4 as (K4 & _ & K5). split; auto.
Qed.

(** with the head known *)
Lemma peek_head : forall t s, Head t s -> peek s = POk (Some t) s.
Proof.
  intros t s [Hp [r Hr]]. unfold peek. rewrite Hr, peek_go_plain by auto. rewrite <- Hr.
  destruct s; reflexivity.
Qed.

Lemma TT_peek_head : forall (E : Prop) t, T t ->
  TT E (Head t) peek (fun _ o => o = Some t) (fun _ => Head t).
Proof. intros E t Ht s HI HE HP. rewrite peek_head with (t := t) by auto. auto. Qed.

Lemma TT_next : forall (E : Prop) (Pre : pst -> Prop), TT E Pre next optT anyR.
Proof.
  intros E Pre s [H1 H2 H3 H4 H5 H6] HE _. unfold next.
  destruct (next_go_spec (p_toks s) (p_docs s) (p_eprev s)) as [[-> w]|(o & toks' & docs' & ep' & -> & K1 & K2 & K3 & K4 & K5 & _)]; auto.
  splits; auto; [constructor; auto|exact I].
Qed.

Lemma plain_not_comment : forall t, plain t = true -> comment_or_break t = false.
Proof. intros t. unfold plain, comment_or_break. destruct (t_type t); auto. Qed.

Lemma TT_next_head : forall (E : Prop) t, T t ->
  TT E (Head t) next_unwrap (fun _ u => u = t) anyR.
Proof.
  intros E t Ht s [H1 H2 H3 H4 H5 H6] HE [Hp [r Hr]]. unfold next_unwrap, next, bind.
  destruct (next_go_spec (p_toks s) (p_docs s) (p_eprev s)) as [[-> w]|(o & toks' & docs' & ep' & -> & K1 & K2 & K3 & K4 & K5 & K6 & _)]; auto.
  destruct (K6 t r Hr (plain_not_comment t Hp)) as [-> ->]. cbn.
  splits; auto; [constructor; auto|exact I].
Qed.

Lemma TT_push_err : forall (E : Prop) (Pre : pst -> Prop) e, errok e ->
  TT E Pre (push_err e) (fun E' _ => E') anyR.
Proof.
  intros E Pre e He s [H1 H2 H3 H4 H5 H6] HE _. cbn. unfold er. cbn. splits; try exact I; try discriminate.
  constructor; cbn; auto.
Qed.
Lemma TT_set_ctx : forall (E : Prop) (Pre : pst -> Prop) c, TT E Pre (set_ctx c) VOK anyR.
Proof. intros E Pre c s [H1 H2 H3 H4 H5 H6] HE _. cbn. splits; auto; try exact I. constructor; auto. Qed.
Lemma TT_get_ctx : forall (E : Prop) (Pre : pst -> Prop), TT E Pre get_ctx VOK anyR.
Proof. intros E Pre s HI HE _. cbn. splits; auto; exact I. Qed.
Lemma TT_push_tok : forall (E : Prop) (Pre : pst -> Prop) t, T t -> t_type t <> THereDocStart ->
  TT E Pre (push_tok t) VOK anyR.
Proof.
  intros E Pre t Ht Hn s [H1 H2 H3 H4 H5 H6] HE _. cbn. splits; auto; try exact I.
  constructor; auto; cbn; auto.
Qed.

Lemma one_of_in : forall l t, one_of l t = true <-> In (t_type t) l.
Proof.
  intros l t. unfold one_of. rewrite existsb_exists. split.
  - intros (x & Hx & Ht). apply tt_eqb_eq in Ht. subst. auto.
  - intros Hx. exists (t_type t). split; auto. apply tt_eqb_refl.
Qed.

Definition isR (types : list TokenType) (b : bool) (s : pst) : Prop :=
  b = true -> exists t, T t /\ In (t_type t) types /\ Head t s.

Lemma TT_next_one_of : forall (E : Prop) (Pre : pst -> Prop) types,
  TT E Pre (next_token_one_of types) VOK (isR types).
Proof.
  intros E Pre types. unfold next_token_one_of. eapply TT_bind; [apply TT_peek|].
  intros E' [t|] HE Ht.
  - apply TT_ret; [intros; exact I|]. intros s Hs. unfold isR. cbn in *. intros Hb.
    apply one_of_in in Hb. eauto.
  - apply TT_ret; [intros; exact I|]. intros s Hs. unfold isR. discriminate.
Qed.

Lemma TT_next_is_operator : forall (E : Prop) (Pre : pst -> Prop),
  TT E Pre next_is_operator VOK (fun b s => b = true -> exists t, T t /\ Head t s).
Proof.
  intros E Pre. unfold next_is_operator. eapply TT_bind; [apply TT_peek|].
  intros E' [t|] HE Ht; (apply TT_ret; [intros; exact I|]); intros s Hs; cbn in *; eauto; discriminate.
Qed.

(** a case on a pure fact hidden in the precondition *)
Lemma TT_pre_ex : forall A X (E : Prop) (Pre : pst -> Prop) (Pre' : X -> pst -> Prop) (m : P A) Q R,
  (forall s, Pre s -> exists x, Pre' x s) -> (forall x, TT E (Pre' x) m Q R) -> TT E Pre m Q R.
Proof. intros A X E Pre Pre' m Q R H1 H2 s HI HE HP. destruct (H1 s HP) as [x Hx]. apply (H2 x s HI HE Hx). Qed.
Lemma TT_pre_pure : forall A (F E : Prop) (Pre Pre' : pst -> Prop) (m : P A) Q R,
  (forall s, Pre s -> F /\ Pre' s) -> (F -> TT E Pre' m Q R) -> TT E Pre m Q R.
Proof. intros A F E Pre Pre' m Q R H1 H2 s HI HE HP. destruct (H1 s HP) as [x Hx]. apply (H2 x s HI HE Hx). Qed.

Lemma TT_is_head : forall A (E : Prop) types (m : P A) Q R,
  (forall t, T t -> In (t_type t) types -> TT E (Head t) m Q R) -> TT E (isR types true) m Q R.
Proof.
  intros A E types m Q R Hm. eapply TT_pre_ex with (Pre' := fun t s => (T t /\ In (t_type t) types) /\ Head t s).
  - intros s Hs. destruct (Hs eq_refl) as (t & H1 & H2 & H3). exists t. auto.
  - intros t. eapply TT_pre_pure; [intros s Hs; exact Hs|]. intros [H1 H2]. auto.
Qed.

Lemma TT_while : forall (E : Prop) (Pre : pst -> Prop) body,
  (forall (E' : Prop), (E -> E') -> TT E' any body (fun _ _ => True) anyR) ->
  TT E Pre (while_tokens body) VOK anyR.
Proof.
  intros E Pre body Hb s HI HE HP. unfold while_tokens.
  eapply (TT_ploop _ _ (fun _ _ => True)); eauto.
  - apply mono_vok.
  - intros E' a HE' _. eapply TT_weak; [apply Hb; auto| |auto].
    intros E1 [a'|b] _ _; exact I.
Qed.

Lemma TT_ff : forall (E : Prop) (Pre : pst -> Prop), TT E Pre error_fast_forward VOK anyR.
Proof.
  intros E Pre. unfold error_fast_forward. apply TT_while. intros E' HE.
  eapply TT_bind; [apply TT_peek|]. intros E1 [t|] HE1 Ht.
  - eapply TT_bind; [apply TT_next_one_of|]. intros E2 b HE2 _. destruct b.
    + apply TT_ret; unfold anyR; auto.
    + eapply TT_bind; [apply TT_next|]. intros. apply TT_ret; unfold anyR; auto.
  - apply TT_ret; unfold anyR; auto.
Qed.

Lemma T_ok : forall (E : Prop) t, T t -> tokok E t.
Proof. unfold tok_ok. auto. Qed.

Lemma TT_or_ff_after : forall (E : Prop) (Pre : pst -> Prop) t l, TT E Pre (consume_or_ff_after t l) VOK anyR.
Proof.
  intros E Pre t l. unfold consume_or_ff_after. eapply TT_bind; [apply TT_peek|].
  intros E1 [u|] HE1 Hu.
  - destruct (tt_eqb (t_type u) t).
    + eapply TT_bind; [apply TT_next|]. intros. apply TT_ret; unfold anyR; auto. intros; exact I.
    + eapply TT_bind; [apply TT_push_err; left; auto|]. intros E2 [] HE2 H2. apply TT_while.
      intros E3 HE3. eapply TT_bind; [apply TT_next|]. intros E4 [v|] HE4 _.
      * destruct (one_of l v); apply TT_ret; unfold anyR; auto.
      * apply TT_ret; unfold anyR; auto.
  - eapply TT_weak; [apply TT_push_err; exact I| |auto]. intros; exact I.
Qed.

Lemma TT_end_of_statement : forall (E : Prop) (Pre : pst -> Prop), TT E Pre consume_end_of_statement VOK anyR.
Proof.
  intros E Pre. unfold consume_end_of_statement. eapply TT_bind; [apply TT_peek|].
  intros E1 [u|] HE1 Hu.
  - destruct (tt_eqb (t_type u) TSemicolon).
    + eapply TT_bind; [apply TT_next|]. intros. apply TT_ret; unfold anyR; auto. intros; exact I.
    + destruct (tt_eqb (t_type u) TScriptEnd); [apply TT_ret; unfold anyR; auto; intros; exact I|].
      eapply TT_bind; [apply TT_ff|]. intros E2 [] HE2 _.
      eapply TT_weak; [apply TT_push_err; left; auto| |auto]. intros; exact I.
  - eapply TT_weak; [apply TT_push_err; exact I| |auto]. intros; exact I.
Qed.

Lemma TT_or_ff_before : forall (E : Prop) (Pre : pst -> Prop) t l, TT E Pre (consume_or_ff_before t l) (fun _ => T) anyR.
Proof.
  intros E Pre t l. unfold consume_or_ff_before. eapply TT_bind; [apply TT_peek|].
  intros E1 [u|] HE1 Hu.
  - destruct (tt_eqb (t_type u) t).
    + eapply TT_weak; [apply TT_next_head; exact Hu| |auto]. cbn. intros; subst; auto.
    + eapply TT_bind; [apply TT_push_err; left; auto|]. intros E2 [] HE2 H2.
      eapply TT_bind; [apply TT_while|].
      * intros E3 HE3. eapply TT_bind; [apply TT_peek|]. intros E4 [v|] HE4 _.
        -- destruct (one_of l v); [apply TT_ret; unfold anyR; auto|].
           eapply TT_bind; [apply TT_next|]. intros. apply TT_ret; unfold anyR; auto.
        -- apply TT_ret; unfold anyR; auto.
      * intros. apply TT_ret; unfold anyR; auto.
  - eapply TT_bind; [apply TT_push_err; exact I|]. intros. apply TT_fail. exact I.
Qed.

Lemma TT_or_ignore : forall (E : Prop) (Pre : pst -> Prop) t,
  TT E Pre (consume_or_ignore t) (fun _ o => match o with Some u => T u /\ t_type u = t | None => True end) anyR.
Proof.
  intros E Pre t. unfold consume_or_ignore. eapply TT_bind; [apply TT_peek|].
  intros E1 [u|] HE1 Hu; [|apply TT_ret; unfold anyR; auto].
  destruct (tt_eqb_spec (t_type u) t); [|apply TT_ret; unfold anyR; auto].
  eapply TT_bind; [apply TT_next_head; exact Hu|]. intros E2 v HE2 ->. apply TT_ret; unfold anyR; auto.
Qed.

Lemma TT_one_of_or_ignore : forall (E : Prop) (Pre : pst -> Prop) l,
  TT E Pre (consume_one_of_or_ignore l) (fun _ o => match o with Some u => T u /\ In (t_type u) l | None => True end) anyR.
Proof.
  intros E Pre t. unfold consume_one_of_or_ignore. eapply TT_bind; [apply TT_peek|].
  intros E1 [u|] HE1 Hu; [|apply TT_ret; unfold anyR; auto].
  destruct (one_of t u) eqn:Eo; [|apply TT_ret; unfold anyR; auto]. apply one_of_in in Eo.
  eapply TT_bind; [apply TT_next_head; exact Hu|]. intros E2 v HE2 ->. apply TT_ret; unfold anyR; auto.
Qed.

(** the end of the previous token *)
Lemma TT_eprev : forall (E : Prop) (Pre : pst -> Prop),
  TT E Pre get_eprev (fun _ r => placeholder T eof (token_missing (range_end r))) (fun _ => Pre).
Proof.
  intros E Pre s HI HE HP. cbn. splits; auto. split; [reflexivity|split; [reflexivity|]].
  destruct (i_prev _ HI) as [->|(t & Ht & Hr)]; cbn; auto.
  left. exists t. split; auto. unfold token_range in Hr. destruct (token_end t) as [[c l]|]; [|discriminate].
  injection Hr as <-. reflexivity.
Qed.
Lemma TT_eof : forall (E : Prop) (Pre : pst -> Prop),
  TT E Pre get_eof (fun _ r => placeholder T eof (token_missing r)) (fun _ => Pre).
Proof.
  intros E Pre s HI HE HP. cbn. splits; auto. rewrite (i_eof _ HI). split; [reflexivity|split; [reflexivity|]].
  right. right. destruct eof; reflexivity.
Qed.

(** [consume] answers with the wanted token or, having reported an error,
    with a placeholder. *)
Definition wanted (t : TokenType) (E : Prop) (u : Token) : Prop :=
  (T u /\ t_type u = t) \/ (E /\ placeholder T eof u).
Lemma wanted_ok : forall t (E : Prop) u, wanted t E u -> tokok E u.
Proof. unfold wanted, tok_ok. tauto. Qed.

Lemma TT_consume : forall (E : Prop) (Pre : pst -> Prop) t, TT E Pre (consume t) (wanted t) anyR.
Proof.
  intros E Pre t. unfold consume. eapply TT_bind; [apply TT_peek|].
  assert (Hm : forall (E1 : Prop) (Pre : pst -> Prop) u, placeholder T eof u ->
     TT E1 Pre (error_fast_forward ;;; push_err (EWrongToken [t] u) ;;; ret u) (wanted t) anyR).
  { intros E1 Pre' u Hu. eapply TT_bind; [apply TT_ff|]. intros E2 [] HE2 _.
    eapply TT_bind; [apply TT_push_err; right; exact Hu|]. intros E3 [] HE3 H3.
    apply TT_ret; unfold anyR; auto. intros. right. auto. }
  intros E1 [u|] HE1 Hu.
  - destruct (tt_eqb_spec (t_type u) t).
    + eapply TT_weak; [apply TT_next_head; exact Hu| |auto]. intros E2 v _ ->. left. auto.
    + eapply TT_bind; [apply TT_eprev|]. intros E2 r HE2 Hr. apply Hm; auto.
  - eapply TT_bind; [apply TT_eof|]. intros E2 r HE2 Hr. apply Hm; auto.
Qed.

Lemma TT_consume_head : forall (E : Prop) t ty, T t -> t_type t = ty ->
  TT E (Head t) (consume ty) (fun _ u => u = t) anyR.
Proof.
  intros E t ty Ht Hty. unfold consume. eapply TT_bind; [apply TT_peek_head; exact Ht|].
  intros E1 o HE1 ->. rewrite Hty, tt_eqb_refl. apply TT_next_head. exact Ht.
Qed.

Lemma TT_identifier : forall (E : Prop) (Pre : pst -> Prop), TT E Pre consume_identifier VOK anyR.
Proof.
  intros E Pre. unfold consume_identifier. eapply TT_bind; [apply TT_peek|].
  assert (Hm : forall (E1 : Prop) (Pre : pst -> Prop) u, placeholder T eof u ->
     TT E1 Pre (push_err (EMissingIdentifier u) ;;; ret u) VOK anyR).
  { intros E1 Pre' u Hu.
    eapply TT_bind; [apply TT_push_err; right; exact Hu|]. intros E3 [] HE3 H3.
    apply TT_ret; unfold anyR; auto. intros. right. auto. }
  intros E1 [u|] HE1 Hu.
  - destruct (is_identifier u).
    + eapply TT_weak; [apply TT_next_head; exact Hu| |auto]. intros E2 v _ ->. left. auto.
    + eapply TT_bind; [apply TT_eprev|]. intros E2 r HE2 Hr. apply Hm; auto.
  - eapply TT_bind; [apply TT_eof|]. intros E2 r HE2 Hr. apply Hm; auto.
Qed.

Lemma TT_identifier_head : forall (E : Prop) t, T t -> is_identifier t = true ->
  TT E (Head t) consume_identifier (fun _ u => u = t) anyR.
Proof.
  intros E t Ht Hi. unfold consume_identifier. eapply TT_bind; [apply TT_peek_head; exact Ht|].
  intros E1 o HE1 ->. rewrite Hi. apply TT_next_head. exact Ht.
Qed.

Lemma TT_next_is_identifier : forall (E : Prop) (Pre : pst -> Prop),
  TT E Pre next_is_identifier VOK (fun b s => b = true -> exists t, T t /\ is_identifier t = true /\ Head t s).
Proof.
  intros E Pre. unfold next_is_identifier. eapply TT_bind; [apply TT_peek|].
  intros E' [t|] HE Ht; (apply TT_ret; [intros; exact I|]); intros s Hs; cbn in *; eauto; discriminate.
Qed.
Lemma TT_next_is_member : forall (E : Prop) (Pre : pst -> Prop), TT E Pre next_is_member VOK anyR.
Proof.
  intros E Pre. unfold next_is_member. eapply TT_bind; [apply TT_peek|].
  intros E' [t|] HE Ht; apply TT_ret; intros; exact I.
Qed.
Lemma TT_member : forall (E : Prop) (Pre : pst -> Prop), TT E Pre consume_member VOK anyR.
Proof.
  intros E Pre. unfold consume_member. eapply TT_bind; [apply TT_next|].
  intros E1 [u|] HE1 Hu; [|apply TT_fail; exact I].
  destruct (is_member_token u); [apply TT_ret; unfold anyR; auto; intros; left; auto|].
  apply TT_fail. left. auto.
Qed.
Lemma TT_one_of : forall (E : Prop) (Pre : pst -> Prop) l, TT E Pre (consume_one_of l) (fun _ => T) anyR.
Proof.
  intros E Pre l. unfold consume_one_of. eapply TT_bind; [apply TT_next|].
  intros E1 [u|] HE1 Hu; [|apply TT_fail; exact I].
  destruct (one_of l u); [apply TT_ret; unfold anyR; auto|].
  apply TT_fail. left. auto.
Qed.

(** ** Trees *)

Lemma mkGood : forall (E : Prop) n, Forall (tokok E) (own_toks n) -> shape T n -> (forall t, n = NMissing t -> E) ->
  Forall (VOK E) (subnodes n) -> Good T eof E n.
Proof. intros E n H1 H2 H3 H4. constructor; [repeat split; auto|]. rewrite Forall_forall in H4. exact H4. Qed.

Lemma doc_shape_good : forall (E : Prop) n, doc_shape n -> doc_part T n -> Good T eof E n.
Proof.
  intros E n Hn Hp. apply mkGood.
  - destruct n; cbn in Hn; try contradiction; constructor.
  - destruct n; try contradiction; split; assumption.
  - intros t ->. contradiction.
  - destruct n; cbn in Hn; try contradiction; constructor.
Qed.

Lemma docblock_cases : forall (E : Prop) c, doc_ok c ->
  (docblock_scan c = None /\ W) \/ exists rt de dep ps vs prs,
    docblock_scan c = Some (NDocComment c rt de dep ps vs prs) /\ Forall doc_shape (rt ++ ps ++ vs ++ prs).
Proof.
  intros E c [Hc Hd]. destruct (t_label c) as [l|] eqn:El.
  - right. apply docblock_scan_some. congruence.
  - left. split; [unfold docblock_scan; now rewrite El|]. destruct (T_doc c Hc Hd); auto. contradiction.
Qed.

Lemma docblock_good : forall (E : Prop) c n, doc_ok c -> docblock_scan c = Some n -> Good T eof E n.
Proof.
  intros E c n Hc Hs. destruct (docblock_cases E c Hc) as [[E1 _]|(rt & de & dep & ps & vs & prs & E1 & F)]; [congruence|].
  rewrite E1 in Hs. injection Hs as <-. apply mkGood; cbn; auto.
  - constructor; auto. left. apply Hc.
  - discriminate.
  - rewrite Forall_forall in *. intros m Hm. apply doc_shape_good; auto.
    eexists c, _. splits; try apply Hc; [exact E1|exact Hm].
Qed.

Lemma TT_opt_doc : forall (E : Prop) (Pre : pst -> Prop), TT E Pre consume_optional_doc_comment VOK anyR.
Proof.
  intros E Pre s HI HE _. unfold consume_optional_doc_comment. destruct (p_docs s) as [|c docs] eqn:Ed.
  - splits; auto; exact I.
  - pose proof (i_docs _ HI) as F. rewrite Ed in F. apply Forall_cons_iff in F as [Hc F].
    destruct (docblock_cases E c Hc) as [[-> w]|(rt & de & dep & ps & vs & prs & E1 & F1)]; auto.
    rewrite E1. destruct HI. splits; auto; [constructor; auto| |exact I].
    cbn. eapply docblock_good; eauto.
Qed.

Lemma flush_go_ok : forall (E : Prop) docs, Forall doc_ok docs ->
  (flush_go docs = None /\ W) \/ exists l, flush_go docs = Some l /\ Forall (Good T eof E) l.
Proof.
  intros E. induction docs as [|c docs IH]; intros F; cbn; [eauto|].
  apply Forall_cons_iff in F as [Hc F].
  destruct (docblock_cases E c Hc) as [[-> w]|(rt & de & dep & ps & vs & prs & E1 & F1)]; auto.
  rewrite E1. destruct (IH F) as [[-> w]|(l & -> & Hl)]; auto.
  right. eexists. split; [reflexivity|]. apply Forall_app. split; auto.
  apply Forall_forall. intros m Hm.
  assert (Hi : In m (rt ++ ps ++ vs ++ prs)) by (rewrite !in_app_iff in *; tauto).
  rewrite Forall_forall in F1. apply doc_shape_good; auto.
  eexists c, _. splits; try apply Hc; [exact E1|exact Hi].
Qed.
Lemma TT_flush : forall (E : Prop) (Pre : pst -> Prop), TT E Pre flush_docs VOK anyR.
Proof.
  intros E Pre s HI HE _. unfold flush_docs.
  destruct (flush_go_ok (er s) (p_docs s) (i_docs _ HI)) as [[-> w]|(l & -> & Hl)]; auto.
  destruct HI. splits; auto; [constructor; cbn; auto|exact I].
Qed.

Lemma param_comment_ok : forall (E : Prop) d t, VOK E d -> VOK E (param_comment_for d t).
Proof.
  intros E d t Hd. unfold param_comment_for. destruct d as [n|]; [|exact I]. destruct n; try exact I.
  destruct (find _ params) as [p|] eqn:Ef; [|exact I]. apply find_some in Ef as [Hin _].
  cbn in *. inversion Hd as [n Hn Hs E1]. subst. apply Hs. cbn. rewrite !in_app_iff. auto.
Qed.

Lemma Forall_optlist : forall A `{Val A} (E : Prop) (o : option A), VOK E o -> Forall (VOK E) (opt_list o).
Proof. intros A HV E [a|] Ho; cbn; auto. Qed.
Lemma Forall_optnodes : forall (E : Prop) o, VOK E o -> Forall (VOK E) (opt_nodes o).
Proof. intros E [l|] Ho; cbn; auto. Qed.

End Logic.
