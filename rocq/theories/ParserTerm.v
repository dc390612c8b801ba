(** The parser finishes on calm token lists: total correctness, by the number
    of tokens that are left. *)

From Verif Require Import Base Token Node DocBlock Parser TokenFacts SpecCalm DocFacts ParserFuel.

(** * States *)

Definition sig (s : pst) : list Token := filter significant (p_toks s).
Definition len (s : pst) : nat := List.length (p_toks s).
(** the kind of the token that [peek] shows *)
Definition hdl (l : list Token) : option TokenType :=
  match l with
  | [] => None
  | t :: _ => match t_type t with TEof => None | k => Some k end
  end.
Definition hd (s : pst) : option TokenType := hdl (sig s).

(** in the script, or at the end of the file *)
Definition inside (s : pst) : Prop := p_ctx s = CtxScript \/ hd s = None.

Record Inv (b : bool) (s : pst) : Prop := mkInv { inv_calm : calm b (sig s); inv_in : inside s }.

(** behind a statement: possibly outside of the script, in front of an opening tag *)
Definition at_tag (s : pst) : Prop :=
  p_ctx s = CtxOut /\ (hd s = Some (TScriptStart Regular) \/ hd s = Some (TScriptStart Short)).
Record Inv' (b : bool) (s : pst) : Prop := mkInv' { inv'_calm : calm b (sig s); inv'_in : inside s \/ at_tag s }.

Lemma Inv_Inv' : forall b s, Inv b s -> Inv' b s.
Proof. intros b s [H1 H2]. split; auto. Qed.

(** * Total correctness *)

Definition wp {A} (m : P A) (Q : A -> pst -> Prop) (F : pst -> Prop) (s : pst) : Prop :=
  match m s with
  | POk a s' => Q a s'
  | PFail _ s' => F s'
  | PPanic => True
  | PFuel => False
  end.

Lemma wp_conseq : forall A (m : P A) (Q Q' : A -> pst -> Prop) (F F' : pst -> Prop) s,
  wp m Q F s -> (forall a s', Q a s' -> Q' a s') -> (forall s', F s' -> F' s') -> wp m Q' F' s.
Proof. intros A m Q Q' F F' s. unfold wp. destruct (m s); auto. Qed.
Lemma wp_bind : forall A B (m : P A) (f : A -> P B) Q F s,
  wp m (fun a s' => wp (f a) Q F s') F s -> wp (bind m f) Q F s.
Proof. intros A B m f Q F s. unfold wp, bind. destruct (m s); auto. Qed.
Lemma wp_ret : forall A (a : A) (Q : A -> pst -> Prop) F s, Q a s -> wp (ret a) Q F s.
Proof. intros. exact H. Qed.
Lemma wp_fail : forall A e (Q : A -> pst -> Prop) (F : pst -> Prop) s, F s -> wp (fail e) Q F s.
Proof. intros. exact H. Qed.
Lemma wp_panic : forall A (Q : A -> pst -> Prop) F s, wp panic Q F s.
Proof. intros. exact I. Qed.
Lemma wp_pcatch : forall A (m : P A) (Q : (A + perr) -> pst -> Prop) F s,
  wp m (fun a => Q (inl a)) (fun s' => forall e, Q (inr e) s') s -> wp (pcatch m) Q F s.
Proof. intros A m Q F s. unfold wp, pcatch. destruct (m s); auto. Qed.

(** A loop that consumes a token in every round. *)
Lemma wp_ploop : forall A B (I : A -> pst -> Prop) n (body : A -> P (A + B)) Q F a s,
  I a s -> (len s < n)%nat ->
  (forall a s, I a s ->
     wp (body a) (fun r s' => match r with inl a' => I a' s' /\ (len s' < len s)%nat | inr v => Q v s' end) F s) ->
  wp (ploop n body a) Q F s.
Proof.
  intros A B I. induction n as [|n IH]; intros body Q F a s HI Hn Hb; [lia|].
  cbn [ploop]. apply wp_bind. eapply wp_conseq; [apply (Hb a s HI)| |auto].
  intros [a'|v] s' H; [|exact H]. destruct H as [H1 H2]. apply IH; auto. lia.
Qed.

(** * Primitives *)

Lemma filter_app_cons : forall l t r, filter significant l = t :: r -> significant t = true.
Proof.
  intros l t r H. assert (In t (filter significant l)) by (rewrite H; left; auto).
  apply filter_In in H0. tauto.
Qed.

Lemma calm_weaken : forall r b c, (c = true -> b = true) -> calm b r -> calm c r.
Proof.
  induction r as [|t r IH]; intros b c Hbc Hb; [exact Hb|]. cbn [calm] in *. destruct Hb as [H1 H2].
  split; [|apply IH with (b := (b || class_keyword t)%bool); [|exact H2]].
  - destruct (t_type t); auto.
  - rewrite !Bool.orb_true_iff. tauto.
Qed.
Lemma Inv_weaken : forall b s, Inv true s -> Inv b s.
Proof. intros b s [H1 H2]. split; auto. eapply calm_weaken; [|exact H1]. auto. Qed.
Lemma Inv_class : forall b s t s', Inv b s -> sig s = t :: sig s' -> class_keyword t = true -> Inv b s' -> Inv true s'.
Proof.
  intros b s t s' [H1 _] E Ht [_ H2]. split; auto. rewrite E in H1. destruct H1 as [_ H1].
  rewrite Ht, Bool.orb_true_r in H1. exact H1.
Qed.

Lemma calm_tail : forall b t r, calm b (t :: r) -> calm b r.
Proof.
  intros b t r [_ Hr]. eapply calm_weaken; [|exact Hr]. intros ->. reflexivity.
Qed.

Lemma hdl_none : forall b l, calm b l -> hdl l = None -> l = [] \/ exists t, l = [t] /\ t_type t = TEof.
Proof.
  intros b [|t l] Hc Hn; auto. right. exists t. cbn [hdl calm] in *. destruct Hc as [Hc _].
  destruct (t_type t) eqn:E; try discriminate. subst. auto.
Qed.

Lemma hdl_some : forall l ty, hdl l = Some ty -> exists t r, l = t :: r /\ t_type t = ty.
Proof. intros [|t l] ty; [discriminate|]. cbn. intros H. exists t, l. split; auto. destruct (t_type t); congruence. Qed.

(** what [peek] does *)
Lemma peek_go_sig : forall toks docs o toks' docs', peek_go toks docs = (o, toks', docs') ->
  (List.length toks' <= List.length toks)%nat /\
  match o with
  | Some t => exists r, toks' = t :: r /\ filter significant toks = t :: filter significant r
      /\ t_type t <> TEof /\ significant t = true
  | None => (filter significant toks = [] /\ toks' = [])
      \/ exists t, t_type t = TEof /\ filter significant toks = t :: filter significant toks'
  end.
Proof.
  induction toks as [|t r IH]; intros docs o toks' docs' E; cbn [peek_go] in E.
  - injection E as <- <- <-. split; auto.
  - destruct (t_type t) eqn:Ety;
      try (injection E as <- <- <-; split; [cbn; lia|];
           exists r; cbn [filter]; unfold significant; rewrite Ety; cbn iota;
           repeat split; congruence);
      try (apply IH in E as [E1 E2]; split; [cbn; lia|];
           destruct o as [u|]; [|]; cbn [filter];
           (replace (significant t) with false by (unfold significant; rewrite Ety; reflexivity)); exact E2).
    injection E as <- <- <-. split; [cbn; lia|]. right. exists t. split; auto.
    cbn [filter]. unfold significant at 1. rewrite Ety. reflexivity.
Qed.

Definition peeked (s s' : pst) (o : option Token) : Prop :=
  (len s' <= len s)%nat /\ p_ctx s' = p_ctx s /\
  match o with
  | Some t => exists r, p_toks s' = t :: r /\ sig s' = sig s /\ hd s = Some (t_type t) /\ hd s' = hd s
      /\ sig s = t :: filter significant r
  | None => hd s = None /\ exists pre, sig s = pre ++ sig s'
  end.

Lemma hdl_cons : forall t r, t_type t <> TEof -> hdl (t :: r) = Some (t_type t).
Proof. intros t r H. cbn. destruct (t_type t); congruence. Qed.

Lemma peek_peeked : forall s, exists o s', peek s = POk o s' /\ peeked s s' o.
Proof.
  intros s. unfold peek. destruct (peek_go (p_toks s) (p_docs s)) as [[o toks'] docs'] eqn:E.
  do 2 eexists. split; [reflexivity|]. apply peek_go_sig in E as [E1 E2]. unfold peeked, len, hd, sig.
  cbn [p_toks p_ctx]. splits; auto. destruct o as [t|].
  - destruct E2 as (r & -> & E2 & E3 & E4). exists r. rewrite E2. cbn [filter]. rewrite E4.
    repeat split; auto; apply hdl_cons; auto.
  - destruct E2 as [[E2 ->]|(t & E2 & E3)].
    + rewrite E2. split; auto. exists []. auto.
    + rewrite E3. cbn [hdl]. rewrite E2. split; auto. exists [t]. auto.
Qed.

Lemma calm_suffix : forall b pre l, calm b (pre ++ l) -> calm b l.
Proof. intros b pre l. induction pre as [|t pre IH]; [auto|]. intros H. apply IH. eapply calm_tail, H. Qed.

Lemma hdl_none_suffix : forall b pre l, calm b (pre ++ l) -> hdl (pre ++ l) = None -> hdl l = None.
Proof.
  intros b pre l Hc Hn. destruct (hdl_none b _ Hc Hn) as [E|(t & E & Ht)].
  - apply app_eq_nil in E as [_ ->]. reflexivity.
  - destruct pre as [|u pre]; [exact Hn|]. cbn in E. injection E as -> E. apply app_eq_nil in E as [_ ->].
    reflexivity.
Qed.

Lemma peeked_hd : forall b s s' o, calm b (sig s) -> peeked s s' o -> hd s' = hd s.
Proof.
  intros b s s' [t|] Hc (_ & _ & Hp); [destruct Hp as (r & _ & _ & _ & H & _); exact H|].
  destruct Hp as (Hn & pre & Hp). rewrite Hn. unfold hd in *. rewrite Hp in *.
  eapply hdl_none_suffix; eauto.
Qed.
Lemma peeked_suffix : forall s s' o, peeked s s' o -> exists pre, sig s = pre ++ sig s'.
Proof.
  intros s s' [t|] (_ & _ & Hp); [destruct Hp as (r & _ & H & _); exists []; rewrite H; reflexivity|].
  destruct Hp as (_ & pre & Hp). eauto.
Qed.
Lemma Inv_peeked : forall b s s' o, Inv b s -> peeked s s' o -> Inv b s'.
Proof.
  intros b s s' o [H1 H2] Hp. pose proof (peeked_hd _ _ _ _ H1 Hp) as Hh.
  destruct (peeked_suffix _ _ _ Hp) as [pre E]. destruct Hp as (_ & Hc & _). split.
  - rewrite E in H1. eapply calm_suffix, H1.
  - unfold inside. rewrite Hc, Hh. exact H2.
Qed.
Lemma Inv'_peeked : forall b s s' o, Inv' b s -> peeked s s' o -> Inv' b s'.
Proof.
  intros b s s' o [H1 H2] Hp. pose proof (peeked_hd _ _ _ _ H1 Hp) as Hh.
  destruct (peeked_suffix _ _ _ Hp) as [pre E]. destruct Hp as (_ & Hc & _). split.
  - rewrite E in H1. eapply calm_suffix, H1.
  - unfold inside, at_tag. rewrite Hc, Hh. exact H2.
Qed.

Lemma W_peek : forall b s (Q : option Token -> pst -> Prop) F, Inv b s ->
  (forall t r s', Inv b s' -> (len s' <= len s)%nat -> p_toks s' = t :: r -> sig s' = sig s -> hd s = Some (t_type t) ->
     hd s' = Some (t_type t) -> Q (Some t) s') ->
  (forall s', Inv b s' -> (len s' <= len s)%nat -> hd s = None -> hd s' = None -> Q None s') ->
  wp peek Q F s.
Proof.
  intros b s Q F HI HS HN. unfold wp. destruct (peek_peeked s) as (o & s' & -> & Hp).
  pose proof (Inv_peeked _ _ _ _ HI Hp) as HI'. pose proof (peeked_hd _ _ _ _ (inv_calm _ _ HI) Hp) as Hh.
  destruct Hp as (Hl & Hc & Hp). destruct o as [t|].
  - destruct Hp as (r & H1 & H2 & H3 & H4 & H5). eapply HS; eauto. congruence.
  - destruct Hp as (H1 & _). apply HN; auto. congruence.
Qed.
Lemma W_peek' : forall b s (Q : option Token -> pst -> Prop) F, Inv' b s ->
  (forall t r s', Inv' b s' -> (len s' <= len s)%nat -> p_ctx s' = p_ctx s -> p_toks s' = t :: r -> sig s' = sig s -> hd s = Some (t_type t) ->
     hd s' = Some (t_type t) -> Q (Some t) s') ->
  (forall s', Inv b s' -> (len s' <= len s)%nat -> hd s = None -> hd s' = None -> Q None s') ->
  wp peek Q F s.
Proof.
  intros b s Q F HI HS HN. unfold wp. destruct (peek_peeked s) as (o & s' & -> & Hp).
  pose proof (Inv'_peeked _ _ _ _ HI Hp) as HI'. pose proof (peeked_hd _ _ _ _ (inv'_calm _ _ HI) Hp) as Hh.
  destruct Hp as (Hl & Hc & Hp). destruct o as [t|].
  - destruct Hp as (r & H1 & H2 & H3 & H4 & H5). eapply HS; eauto. congruence.
  - destruct Hp as (H1 & _). apply HN; auto; try congruence. split; [apply HI'|]. right. congruence.
Qed.

Lemma next_go_sig : forall toks docs ep o toks' docs' ep', next_go toks docs ep = Some (o, toks', docs', ep') ->
  match o with
  | Some t => (List.length toks' < List.length toks)%nat /\ filter significant toks = t :: filter significant toks'
  | None => filter significant toks = [] /\ toks' = []
  end.
Proof.
  induction toks as [|t r IH]; intros docs ep o toks' docs' ep' E; cbn [next_go] in E.
  - injection E as <- <- <- <-. auto.
  - destruct (token_range t) as [rg|]; [|discriminate].
    destruct (t_type t) eqn:Ety;
      try (injection E as <- <- <- <-; split; [cbn; lia|];
           cbn [filter]; unfold significant at 1; rewrite Ety; reflexivity);
      try (apply IH in E; cbn [filter];
           (replace (significant t) with false by (unfold significant; rewrite Ety; reflexivity));
           destruct o; [destruct E; split; [cbn; lia|]|]; auto).
Qed.

Lemma W_next : forall b s (Q : option Token -> pst -> Prop) F, Inv b s ->
  (forall t s', Inv b s' -> (len s' < len s)%nat -> sig s = t :: sig s' -> Q (Some t) s') ->
  (forall s', Inv b s' -> (len s' <= len s)%nat -> hd s = None -> hd s' = None -> Q None s') ->
  wp next Q F s.
Proof.
  intros b s Q F [H1 H2] HS HN. unfold wp, next.
  destruct (next_go (p_toks s) (p_docs s) (p_eprev s)) as [[[[o toks'] docs'] ep']|] eqn:E; auto.
  apply next_go_sig in E. destruct o as [t|].
  - destruct E as [E1 E2]. apply HS; auto. assert (Es : sig s = [t] ++ filter significant toks') by exact E2.
    unfold inside, hd in *. rewrite Es in *. split; unfold inside, hd.
    + eapply calm_suffix, H1.
    + destruct H2 as [H2|H2]; [left; exact H2|right].
      eapply hdl_none_suffix; [exact H1|exact H2].
  - destruct E as [E1 ->]. apply HN; auto.
    + split; unfold inside, sig, hd; cbn; auto.
    + unfold len. cbn. lia.
    + unfold hd, sig. rewrite E1. reflexivity.
Qed.

Lemma W_next_unwrap : forall b s (Q : Token -> pst -> Prop) F, Inv b s ->
  (forall t s', Inv b s' -> (len s' < len s)%nat -> sig s = t :: sig s' -> Q t s') ->
  wp next_unwrap Q F s.
Proof.
  intros b s Q F HI HS. unfold next_unwrap. apply wp_bind. eapply W_next; eauto.
  intros. exact I.
Qed.

Definition oneof (o : option TokenType) (l : list TokenType) : Prop :=
  match o with Some t => In t l | None => False end.

Lemma one_of_iff : forall l t, one_of l t = true <-> In (t_type t) l.
Proof.
  intros l t. unfold one_of. rewrite existsb_exists. split.
  - intros (x & Hx & Ht). apply tt_eqb_eq in Ht. subst. auto.
  - intros Hx. exists (t_type t). split; auto. apply tt_eqb_refl.
Qed.

Lemma W_one_of : forall b s l (Q : bool -> pst -> Prop) F, Inv b s ->
  (forall s', Inv b s' -> (len s' <= len s)%nat -> sig s' = sig s -> hd s' = hd s -> oneof (hd s) l -> Q true s') ->
  (forall s', Inv b s' -> (len s' <= len s)%nat -> hd s' = hd s -> ~ oneof (hd s) l -> Q false s') ->
  wp (next_token_one_of l) Q F s.
Proof.
  intros b s l Q F HI HT HF. unfold next_token_one_of. apply wp_bind. eapply W_peek; eauto.
  - intros t r s' HI' Hl Htk Hs Hh Hh'. apply wp_ret. destruct (one_of l t) eqn:E.
    + apply HT; auto; try congruence. rewrite Hh. apply one_of_iff, E.
    + apply HF; auto; try congruence. rewrite Hh. intros Hi. apply one_of_iff in Hi. congruence.
  - intros s' HI' Hl Hh Hh'. apply wp_ret. apply HF; auto; try congruence. rewrite Hh. auto.
Qed.
Lemma W_one_of' : forall b s l (Q : bool -> pst -> Prop) F, Inv' b s ->
  ~ In (TScriptStart Regular) l -> ~ In (TScriptStart Short) l ->
  (forall s', Inv b s' -> (len s' <= len s)%nat -> sig s' = sig s -> hd s' = hd s -> oneof (hd s) l -> Q true s') ->
  (forall s', Inv' b s' -> (len s' <= len s)%nat -> hd s' = hd s -> ~ oneof (hd s) l -> Q false s') ->
  wp (next_token_one_of l) Q F s.
Proof.
  intros b s l Q F HI Hr Hsh HT HF. unfold next_token_one_of. apply wp_bind. eapply W_peek'; eauto.
  - intros t r s' HI' Hl Hctx Htk Hs Hh Hh'. apply wp_ret. destruct (one_of l t) eqn:E.
    + apply one_of_iff in E. apply HT; auto; try congruence; [|rewrite Hh; auto].
      destruct HI' as [Hc [Hi|[_ Ha]]]; [split; auto|].
      rewrite Hh' in Ha. destruct Ha as [Ha|Ha]; injection Ha as Ha; rewrite Ha in E; tauto.
    + apply HF; auto; try congruence. rewrite Hh. intros Hi. apply one_of_iff in Hi. congruence.
  - intros s' HI' Hl Hh Hh'. apply wp_ret. apply HF; auto using Inv_Inv'; try congruence. rewrite Hh. auto.
Qed.

Lemma W_is_operator : forall b s (Q : bool -> pst -> Prop) F, Inv b s ->
  (forall x s', Inv b s' -> (len s' <= len s)%nat -> hd s' = hd s -> Q x s') ->
  wp next_is_operator Q F s.
Proof.
  intros b s Q F HI HQ. unfold next_is_operator. apply wp_bind. eapply W_peek; eauto; intros; apply wp_ret; apply HQ; auto; congruence.
Qed.

Lemma W_push_err : forall b s e (Q : unit -> pst -> Prop) F, Inv b s ->
  (forall s', Inv b s' -> len s' = len s -> sig s' = sig s -> hd s' = hd s -> Q tt s') -> wp (push_err e) Q F s.
Proof. intros b s e Q F [H1 H2] HQ. unfold wp, push_err. apply HQ; auto. split; auto. Qed.

Definition halts : list TokenType :=
  [TSemicolon; TScriptStart Regular; TScriptStart EchoTag; TScriptStart Short; TCloseCurly].
Definition halted (s : pst) : Prop := hd s = None \/ oneof (hd s) halts.

Lemma W_ff : forall b s (Q : unit -> pst -> Prop) F, Inv b s ->
  (forall s', Inv b s' -> (len s' <= len s)%nat -> halted s' -> (hd s = None -> hd s' = None) -> Q tt s') ->
  wp error_fast_forward Q F s.
Proof.
  intros b s Q F HI HQ. unfold error_fast_forward, while_tokens, wp.
  assert (H : forall f, wp (ploop (S (len s)) (fun _ => f) tt) Q F s ->
      match ploop (S (len s)) (fun _ : unit => f) tt s with
      | POk a s' => Q a s' | PFail _ s' => F s' | PPanic => True | PFuel => False end) by auto.
  apply H. clear H.
  apply wp_ploop with (I := fun _ s' => Inv b s' /\ (len s' <= len s)%nat /\ (hd s = None -> hd s' = None)); [auto|lia|].
  intros _ s1 (HI1 & Hl1 & Hn1). apply wp_bind. eapply W_peek; eauto.
  - intros t r s2 HI2 Hl2 _ _ Hh Hh2. apply wp_bind. eapply W_one_of; eauto.
    + intros s3 HI3 Hl3 _ Hh3 Ho. apply wp_ret. apply HQ; auto; [lia| |].
      * right. rewrite Hh3. exact Ho.
      * intros Hz. specialize (Hn1 Hz). congruence.
    + intros s3 HI3 Hl3 Hh3 Ho. apply wp_bind. eapply W_next; eauto.
      * intros u s4 HI4 Hl4 _. apply wp_ret. splits; auto; try lia. intros Hz. specialize (Hn1 Hz). congruence.
      * intros s4 HI4 Hl4 Hn _. congruence.
  - intros s2 HI2 Hl2 Hh Hh2. apply wp_ret. apply HQ; auto; [lia|]. left. auto.
Qed.

Lemma hd_sig : forall s t l, sig s = t :: l -> t_type t <> TEof -> hd s = Some (t_type t).
Proof. intros s t l E H. unfold hd. rewrite E. apply hdl_cons, H. Qed.
Lemma sig_hd : forall s t l ty, sig s = t :: l -> hd s = Some ty -> t_type t = ty.
Proof. intros s t l ty E H. unfold hd in H. rewrite E in H. cbn in H. destruct (t_type t); congruence. Qed.

Lemma W_end_of_statement : forall b s (Q : unit -> pst -> Prop) F, Inv b s ->
  (forall s', Inv b s' -> (len s' <= len s)%nat -> Q tt s') -> wp consume_end_of_statement Q F s.
Proof.
  intros b s Q F HI HQ. unfold consume_end_of_statement. apply wp_bind. eapply W_peek; eauto.
  - intros t r s1 HI1 Hl1 _ _ Hh Hh1. destruct (tt_eqb _ _).
    + apply wp_bind. eapply W_next; eauto; intros; apply wp_ret; apply HQ; auto; lia.
    + destruct (tt_eqb _ _); [apply wp_ret; apply HQ; auto; lia|].
      apply wp_bind. eapply W_ff; eauto. intros s2 HI2 Hl2 _ _. eapply W_push_err; eauto.
      intros. apply HQ; auto; lia.
  - intros s1 HI1 Hl1 _ _. eapply W_push_err; eauto. intros. apply HQ; auto; lia.
Qed.

Lemma W_or_ff_after : forall b s ty l (Q : unit -> pst -> Prop) F, Inv b s ->
  (forall s', Inv b s' -> (len s' <= len s)%nat -> (hd s <> None -> (len s' < len s)%nat) ->
     (hd s = Some ty -> exists t, t_type t = ty /\ sig s = t :: sig s') ->
     (hd s = None -> hd s' = None) -> Q tt s') ->
  wp (consume_or_ff_after ty l) Q F s.
Proof.
  intros b s ty l Q F HI HQ. unfold consume_or_ff_after. apply wp_bind. eapply W_peek; eauto.
  - intros t r s1 HI1 Hl1 _ Hs Hh Hh1. destruct (tt_eqb_spec (t_type t) ty) as [E|E].
    + apply wp_bind. eapply W_next; eauto.
      * intros u s2 HI2 Hl2 Hu. apply wp_ret. apply HQ; auto; try lia; [|congruence].
        intros _. exists u. split; [|congruence]. rewrite <- E. symmetry. symmetry. eapply sig_hd; eauto.
      * intros s2 HI2 Hl2 Hn _. congruence.
    + apply wp_bind. eapply W_push_err; eauto. intros s2 HI2 Hl2 _ Hh2. unfold while_tokens, wp.
      match goal with |- match ploop (S (List.length (p_toks s2))) ?f tt s2 with _ => _ end =>
        enough (H : wp (ploop (S (len s2)) f tt) Q F s2) by exact H end.
      apply wp_ploop with (I := fun _ s' => Inv b s' /\ ((len s' < len s2)%nat \/ s' = s2)); [auto|lia|].
      assert (Hx : forall s', Inv b s' -> (len s' < len s2)%nat -> Q tt s').
      { intros s' HI' Hl'. apply HQ; auto; try lia; congruence. }
      intros _ s3 [HI3 Hl3]. apply wp_bind. eapply W_next; eauto.
      * intros u s4 HI4 Hl4 Hu. assert (len s4 < len s2)%nat by (destruct Hl3; subst; lia).
        destruct (one_of l u); apply wp_ret; [apply Hx; auto|repeat split; auto; try apply HI4; lia].
      * intros s4 HI4 Hl4 Hn Hn'. apply wp_ret. destruct Hl3 as [Hl3| ->]; [apply Hx; auto; lia|congruence].
  - intros s1 HI1 Hl1 Hh Hh1. eapply W_push_err; eauto. intros s2 HI2 Hl2 _ Hh2. apply HQ; auto; try lia; congruence.
Qed.

Lemma W_or_ff_before : forall b s ty l (Q : Token -> pst -> Prop) (F : pst -> Prop), Inv b s ->
  (forall t s', Inv b s' -> (len s' <= len s)%nat -> (hd s = Some ty -> (len s' < len s)%nat) -> Q t s') ->
  (forall s', Inv b s' -> (len s' <= len s)%nat -> hd s = None -> F s') ->
  wp (consume_or_ff_before ty l) Q F s.
Proof.
  intros b s ty l Q F HI HQ HF. unfold consume_or_ff_before. apply wp_bind. eapply W_peek; eauto.
  - intros t r s1 HI1 Hl1 _ Hs Hh Hh1. destruct (tt_eqb_spec (t_type t) ty) as [E|E].
    + eapply W_next_unwrap; eauto. intros u s2 HI2 Hl2 Hu. apply HQ; auto; lia.
    + apply wp_bind. eapply W_push_err; eauto. intros s2 HI2 Hl2 _ Hh2. apply wp_bind. unfold while_tokens, wp at 1.
      match goal with |- match ploop (S (List.length (p_toks s2))) ?f tt s2 with POk a s' => @?Q1 a s' | _ => _ end =>
        enough (H : wp (ploop (S (len s2)) f tt) Q1 F s2) by exact H end.
      apply wp_ploop with (I := fun _ s' => Inv b s' /\ (len s' <= len s2)%nat); [auto|lia|].
      assert (Hx : forall t s', Inv b s' -> (len s' <= len s2)%nat -> Q t s').
      { intros t' s' HI' Hl'. apply HQ; auto; try lia. congruence. }
      intros _ s3 [HI3 Hl3]. apply wp_bind. eapply W_peek; eauto.
      * intros u r4 s4 HI4 Hl4 _ _ _ Hu. destruct (one_of l u); [apply wp_ret; apply wp_ret; apply Hx; auto; lia|].
        apply wp_bind. eapply W_next; eauto.
        -- intros v s5 HI5 Hl5 _. apply wp_ret. repeat split; auto; try apply HI5; lia.
        -- intros s5 HI5 Hl5 Hn _. congruence.
      * intros s4 HI4 Hl4 _ _. apply wp_ret. apply wp_ret. apply Hx; auto; lia.
  - intros s1 HI1 Hl1 Hh Hh1. apply wp_bind. eapply W_push_err; eauto. intros s2 HI2 Hl2 _ _. apply wp_fail.
    apply HF; auto; lia.
Qed.

Lemma W_or_ignore : forall b s ty (Q : option Token -> pst -> Prop) F, Inv b s ->
  (forall t s', Inv b s' -> (len s' < len s)%nat -> hd s = Some ty -> sig s = t :: sig s' -> t_type t = ty -> Q (Some t) s') ->
  (forall s', Inv b s' -> (len s' <= len s)%nat -> hd s' = hd s -> hd s <> Some ty ->
     (hd s <> None -> sig s' = sig s) -> Q None s') ->
  wp (consume_or_ignore ty) Q F s.
Proof.
  intros b s ty Q F HI HS HN. unfold consume_or_ignore. apply wp_bind. eapply W_peek; eauto.
  - intros t r s1 HI1 Hl1 _ Hs Hh Hh1. destruct (tt_eqb_spec (t_type t) ty) as [E|E].
    + apply wp_bind. eapply W_next_unwrap; eauto. intros u s2 HI2 Hl2 Hu. apply wp_ret. apply HS; auto; try lia; try congruence.
      rewrite <- E. eapply sig_hd; eauto.
    + apply wp_ret. apply HN; auto; congruence.
  - intros s1 HI1 Hl1 Hh Hh1. apply wp_ret. apply HN; auto; congruence.
Qed.
Lemma W_or_ignore' : forall b s ty (Q : option Token -> pst -> Prop) F, Inv' b s ->
  ty <> TScriptStart Regular -> ty <> TScriptStart Short ->
  (forall t s', Inv b s' -> (len s' < len s)%nat -> hd s = Some ty -> sig s = t :: sig s' -> t_type t = ty -> Q (Some t) s') ->
  (forall s', Inv' b s' -> (len s' <= len s)%nat -> hd s' = hd s -> hd s <> Some ty -> Q None s') ->
  wp (consume_or_ignore ty) Q F s.
Proof.
  intros b s ty Q F HI Hr Hsh HS HN. unfold consume_or_ignore. apply wp_bind. eapply W_peek'; eauto.
  - intros t r s1 HI1 Hl1 _ _ Hs Hh Hh1. destruct (tt_eqb_spec (t_type t) ty) as [E|E].
    + assert (HI1' : Inv b s1).
      { destruct HI1 as [Hc [Hi|[_ Ha]]]; [split; auto|]. exfalso.
        rewrite Hh1 in Ha. destruct Ha as [Ha|Ha]; congruence. }
      apply wp_bind. eapply W_next_unwrap; eauto.
      intros u s2 HI2 Hl2 Hu. apply wp_ret. apply HS; auto; try lia; try congruence.
      rewrite <- E. eapply sig_hd; eauto.
    + apply wp_ret. apply HN; auto; congruence.
  - intros s1 HI1 Hl1 Hh Hh1. apply wp_ret. apply HN; auto using Inv_Inv'; congruence.
Qed.

Lemma W_one_of_or_ignore : forall b s l (Q : option Token -> pst -> Prop) F, Inv b s ->
  (forall t s', Inv b s' -> (len s' < len s)%nat -> sig s = t :: sig s' -> In (t_type t) l -> Q (Some t) s') ->
  (forall s', Inv b s' -> (len s' <= len s)%nat -> hd s' = hd s -> ~ oneof (hd s) l -> Q None s') ->
  wp (consume_one_of_or_ignore l) Q F s.
Proof.
  intros b s l Q F HI HS HN. unfold consume_one_of_or_ignore. apply wp_bind. eapply W_peek; eauto.
  - intros t r s1 HI1 Hl1 _ Hs Hh Hh1. destruct (one_of l t) eqn:E.
    + apply wp_bind. eapply W_next_unwrap; eauto. intros u s2 HI2 Hl2 Hu. apply wp_ret. apply HS; auto; try lia; try congruence.
      apply one_of_iff in E. erewrite (sig_hd s1 u); eauto.
    + apply wp_ret. apply HN; auto; try congruence. rewrite Hh. intros Hi. apply one_of_iff in Hi. congruence.
  - intros s1 HI1 Hl1 Hh Hh1. apply wp_ret. apply HN; auto; try congruence. rewrite Hh. auto.
Qed.

Lemma W_consume : forall b s ty (Q : Token -> pst -> Prop) F, Inv b s ->
  (forall t s', Inv b s' -> (len s' <= len s)%nat -> (hd s = Some ty -> (len s' < len s)%nat) ->
     (hd s = Some ty /\ t_type t = ty /\ sig s = t :: sig s') \/ (hd s <> Some ty /\ t_type t = TMissing /\ t_label t = None /\ halted s') ->
     (hd s = None -> hd s' = None) -> Q t s') ->
  wp (consume ty) Q F s.
Proof.
  intros b s ty Q F HI HQ. unfold consume. apply wp_bind. eapply W_peek; eauto.
  - intros t r s1 HI1 Hl1 _ Hs Hh Hh1. destruct (tt_eqb_spec (t_type t) ty) as [E|E].
    + eapply W_next_unwrap; eauto. intros u s2 HI2 Hl2 Hu. apply HQ; auto; try lia; [|congruence].
      left. splits; try congruence. rewrite <- E. eapply sig_hd; eauto.
    + apply wp_bind. change (wp (fun s => POk (p_eprev s) s)) with (@wp NodeRange get_eprev). unfold wp at 1, get_eprev.
      apply wp_bind. eapply W_ff; eauto. intros s2 HI2 Hl2 Hh2 Hz2. apply wp_bind.
      eapply W_push_err; eauto. intros s3 HI3 Hl3 _ Hh3. apply wp_ret. apply HQ; auto; try lia; [congruence| |congruence].
      right. splits; auto; [congruence|]. unfold halted in *. rewrite Hh3. exact Hh2.
  - intros s1 HI1 Hl1 Hh Hh1. apply wp_bind. unfold wp at 1, get_eof.
    apply wp_bind. eapply W_ff; eauto. intros s2 HI2 Hl2 Hh2 Hz2. apply wp_bind.
    eapply W_push_err; eauto. intros s3 HI3 Hl3 _ Hh3. apply wp_ret. apply HQ; auto; try lia; [congruence| |intros _; rewrite Hh3; apply Hz2; exact Hh1].
    right. splits; auto; [congruence|]. unfold halted in *. rewrite Hh3. exact Hh2.
Qed.

Lemma W_identifier : forall b s (Q : Token -> pst -> Prop) F, Inv b s ->
  (forall t s', Inv b s' -> (len s' <= len s)%nat ->
     (sig s = t :: sig s' /\ is_identifier t = true /\ (len s' < len s)%nat)
     \/ (hd s' = hd s /\ (hd s <> None -> sig s' = sig s) /\ t_type t = TMissing
         /\ forall ty, hd s = Some ty -> tt_is_identifier ty = false) -> Q t s') ->
  wp consume_identifier Q F s.
Proof.
  intros b s Q F HI HQ. unfold consume_identifier. apply wp_bind. eapply W_peek; eauto.
  - intros t r s1 HI1 Hl1 _ Hs Hh Hh1. destruct (is_identifier t) eqn:E.
    + eapply W_next_unwrap; eauto. intros u s2 HI2 Hl2 Hu. apply HQ; auto; try lia.
      left. splits; try congruence; try lia. unfold is_identifier in *. erewrite (sig_hd s1 u); eauto.
    + apply wp_bind. unfold wp at 1, get_eprev. apply wp_bind. eapply W_push_err; eauto.
      intros s3 HI3 Hl3 Hs3 Hh3. apply wp_ret. apply HQ; auto; try lia.
      right. splits; auto; try congruence. intros ty Hty. unfold is_identifier in E. congruence.
  - intros s1 HI1 Hl1 Hh Hh1. apply wp_bind. unfold wp at 1, get_eof. apply wp_bind. eapply W_push_err; eauto.
    intros s3 HI3 Hl3 Hs3 Hh3. apply wp_ret. apply HQ; auto; try lia.
    right. splits; auto; try congruence.
Qed.

Lemma W_member : forall b s (Q : Token -> pst -> Prop) (F : pst -> Prop), Inv b s ->
  (forall t s', Inv b s' -> (len s' < len s)%nat -> Q t s') ->
  (forall s', Inv b s' -> (len s' <= len s)%nat -> (hd s <> None -> (len s' < len s)%nat) -> F s') ->
  wp consume_member Q F s.
Proof.
  intros b s Q F HI HQ HF. unfold consume_member. apply wp_bind. eapply W_next; eauto.
  - intros t s1 HI1 Hl1 _. destruct (is_member_token t); [apply wp_ret|apply wp_fail]; auto. apply HF; auto; lia.
  - intros s1 HI1 Hl1 Hn _. apply wp_fail. apply HF; auto; congruence.
Qed.
Lemma W_consume_one_of : forall b s l (Q : Token -> pst -> Prop) (F : pst -> Prop), Inv b s ->
  (forall t s', Inv b s' -> (len s' < len s)%nat -> In (t_type t) l -> Q t s') ->
  (forall s', Inv b s' -> (len s' <= len s)%nat -> (hd s <> None -> (len s' < len s)%nat) -> F s') ->
  wp (consume_one_of l) Q F s.
Proof.
  intros b s l Q F HI HQ HF. unfold consume_one_of. apply wp_bind. eapply W_next; eauto.
  - intros t s1 HI1 Hl1 _. destruct (one_of l t) eqn:E; [apply wp_ret|apply wp_fail]; [|apply HF; auto; lia].
    apply HQ; auto. apply one_of_iff, E.
  - intros s1 HI1 Hl1 Hn _. apply wp_fail. apply HF; auto; congruence.
Qed.
Lemma W_is_member : forall b s (Q : bool -> pst -> Prop) F, Inv b s ->
  (forall x s', Inv b s' -> (len s' <= len s)%nat -> hd s' = hd s -> Q x s') -> wp next_is_member Q F s.
Proof. intros b s Q F HI HQ. unfold next_is_member. apply wp_bind. eapply W_peek; eauto; intros; apply wp_ret; apply HQ; auto; congruence. Qed.
Lemma W_is_identifier : forall b s (Q : bool -> pst -> Prop) F, Inv b s ->
  (forall x s', Inv b s' -> (len s' <= len s)%nat -> hd s' = hd s -> sig s' = sig s \/ hd s = None ->
     (x = true -> exists ty, hd s = Some ty /\ tt_is_identifier ty = true) -> Q x s') -> wp next_is_identifier Q F s.
Proof.
  intros b s Q F HI HQ. unfold next_is_identifier. apply wp_bind. eapply W_peek; eauto; intros; apply wp_ret; apply HQ; auto; try congruence; eauto.
Qed.

Lemma W_opt_doc `{RT : Runtime} : forall b s (Q : option Node -> pst -> Prop) F, Inv b s ->
  (forall x s', Inv b s' -> len s' = len s -> hd s' = hd s -> sig s' = sig s -> Q x s') -> wp consume_optional_doc_comment Q F s.
Proof.
  intros b s Q F [H1 H2] HQ. unfold consume_optional_doc_comment, wp.
  destruct (p_docs s) as [|c docs]; [apply HQ; auto; split; auto|].
  destruct (docblock_scan c); [|exact I]. apply HQ; auto. split; auto.
Qed.
Lemma W_flush `{RT : Runtime} : forall b s (Q : list Node -> pst -> Prop) F, Inv' b s ->
  (forall x s', Inv' b s' -> len s' = len s -> Q x s') -> wp flush_docs Q F s.
Proof.
  intros b s Q F [H1 H2] HQ. unfold flush_docs, wp. destruct (flush_go (p_docs s)); [|exact I].
  apply HQ; auto. split; auto.
Qed.

(** * Pushing a token back *)

Definition keeps_ctx {A} (m : P A) : Prop :=
  forall s, match m s with POk _ s' => p_ctx s' = p_ctx s | _ => True end.
Lemma wp_ctx : forall A (m : P A) (Q : A -> pst -> Prop) F s, keeps_ctx m ->
  wp m (fun a s' => p_ctx s' = p_ctx s -> Q a s') F s -> wp m Q F s.
Proof. intros A m Q F s Hm. specialize (Hm s). unfold wp. destruct (m s); auto. Qed.
Lemma keeps_bind : forall A B (m : P A) (f : A -> P B), keeps_ctx m -> (forall a, keeps_ctx (f a)) -> keeps_ctx (bind m f).
Proof.
  intros A B m f Hm Hf s. unfold bind. specialize (Hm s). destruct (m s) as [a s'| | |]; auto.
  specialize (Hf a s'). destruct (f a s'); auto. congruence.
Qed.
Lemma keeps_ret : forall A (a : A), keeps_ctx (ret a).
Proof. intros A a s. reflexivity. Qed.
Lemma keeps_peek : keeps_ctx peek.
Proof. intros s. unfold peek. destruct (peek_go _ _) as [[o t] d]. reflexivity. Qed.
Lemma keeps_next : keeps_ctx next.
Proof. intros s. unfold next. destruct (next_go _ _ _) as [[[[o t] d] e]|]; auto. Qed.
Lemma keeps_next_unwrap : keeps_ctx next_unwrap.
Proof. apply keeps_bind; [apply keeps_next|]. intros [t|]; [apply keeps_ret|]. intros s. exact I. Qed.
Lemma keeps_or_ignore : forall ty, keeps_ctx (consume_or_ignore ty).
Proof.
  intros ty. apply keeps_bind; [apply keeps_peek|]. intros [t|]; [|apply keeps_ret].
  destruct (tt_eqb _ _); [|apply keeps_ret]. apply keeps_bind; [apply keeps_next_unwrap|]. intros; apply keeps_ret.
Qed.
Lemma keeps_identifier : keeps_ctx consume_identifier.
Proof.
  apply keeps_bind; [apply keeps_peek|]. intros [t|].
  - destruct (is_identifier t); [apply keeps_next_unwrap|]. intros s. reflexivity.
  - intros s. reflexivity.
Qed.
Lemma keeps_one_of : forall l, keeps_ctx (next_token_one_of l).
Proof. intros l. apply keeps_bind; [apply keeps_peek|]. intros [t|]; apply keeps_ret. Qed.

Lemma W_one_of_sig : forall b s l (Q : bool -> pst -> Prop) F, Inv b s ->
  (forall s', Inv b s' -> (len s' <= len s)%nat -> sig s' = sig s -> hd s' = hd s -> oneof (hd s) l -> Q true s') ->
  (forall s', Inv b s' -> (len s' <= len s)%nat -> hd s' = hd s -> ~ oneof (hd s) l ->
     (exists pre, sig s = pre ++ sig s') -> (hd s <> None -> sig s' = sig s) -> Q false s') ->
  wp (next_token_one_of l) Q F s.
Proof.
  intros b s l Q F HI HT HF. unfold wp, next_token_one_of, bind.
  destruct (peek_peeked s) as (o & s' & -> & Hp).
  pose proof (Inv_peeked _ _ _ _ HI Hp) as HI'. pose proof (peeked_hd _ _ _ _ (inv_calm _ _ HI) Hp) as Hh.
  pose proof (peeked_suffix _ _ _ Hp) as Hx.
  destruct Hp as (Hl & Hc & Hp). destruct o as [t|]; cbn [ret].
  - destruct Hp as (r & H1 & H2 & H3 & H4 & H5). unfold ret. destruct (one_of l t) eqn:E.
    + apply HT; auto. rewrite H3. apply one_of_iff, E.
    + apply HF; auto. rewrite H3. intros Hi. apply one_of_iff in Hi. congruence.
  - destruct Hp as (H1 & H2). apply HF; auto; [|congruence]. rewrite H1. auto.
Qed.

Lemma W_or_ignore_sig : forall b s ty (Q : option Token -> pst -> Prop) F, Inv b s ->
  (forall t s', Inv b s' -> (len s' < len s)%nat -> hd s = Some ty -> sig s = t :: sig s' -> t_type t = ty -> Q (Some t) s') ->
  (forall s', Inv b s' -> (len s' <= len s)%nat -> hd s' = hd s -> hd s <> Some ty ->
     (exists pre, sig s = pre ++ sig s') -> (hd s <> None -> sig s' = sig s) -> Q None s') ->
  wp (consume_or_ignore ty) Q F s.
Proof.
  intros b s ty Q F HI HS HN. unfold consume_or_ignore. apply wp_bind. unfold wp.
  destruct (peek_peeked s) as (o & s' & -> & Hp).
  pose proof (Inv_peeked _ _ _ _ HI Hp) as HI'. pose proof (peeked_hd _ _ _ _ (inv_calm _ _ HI) Hp) as Hh.
  pose proof (peeked_suffix _ _ _ Hp) as Hx.
  destruct Hp as (Hl & Hc & Hp). destruct o as [t|].
  - destruct Hp as (r & H1 & H2 & H3 & H4 & H5). destruct (tt_eqb_spec (t_type t) ty) as [E|E].
    + apply wp_bind. eapply W_next_unwrap; [exact HI'|]. intros u s2 HI2 Hl2 Hu. apply wp_ret. apply HS; auto; try lia; congruence.
    + unfold ret. apply HN; auto; congruence.
  - destruct Hp as (H1 & H2). unfold ret. apply HN; auto; congruence.
Qed.

Lemma calm_head : forall b t l l', calm b (t :: l) -> hdl l = None -> (exists pre, l = pre ++ l') ->
  t_type t <> TEof -> calm b (t :: l').
Proof.
  intros b t l l' Hc Hn [pre ->] Ht.
  assert (Hcl : calm b (pre ++ l')) by (eapply calm_tail, Hc).
  assert (Hc2 := proj2 Hc). assert (Hl' : calm (b || class_keyword t) l') by (eapply calm_suffix, Hc2).
  destruct (hdl_none _ _ Hcl Hn) as [E|(u & E & Hu)].
  { apply app_eq_nil in E as [-> ->]. exact Hc. }
  assert (E' : l' = [u] \/ l' = []).
  { destruct pre as [|p pre]; [left; exact E|]. cbn in E. injection E as _ E. apply app_eq_nil in E. right. tauto. }
  rewrite E in Hc. destruct E' as [->| ->]; [exact Hc|]. cbn [calm] in *. split; [|exact I].
  destruct Hc as [Hc _]. destruct (t_type t); auto; try (destruct k; auto).
  - destruct Hc as [Hc|[]]. congruence.
  - inversion Hc.
Qed.

(** [push_tok t] right behind reading [t] and one look ahead *)
Lemma W_push_back : forall b s0 s1 s2 t (Q : unit -> pst -> Prop) F,
  Inv b s0 -> Inv b s2 -> sig s0 = t :: sig s1 -> t_type t <> TEof ->
  p_ctx s2 = p_ctx s0 -> hd s2 = hd s1 -> (exists pre, sig s1 = pre ++ sig s2) -> (hd s1 <> None -> sig s2 = sig s1) ->
  (forall s', Inv b s' -> len s' = S (len s2) -> hd s' = Some (t_type t) -> sig s' = t :: sig s2 -> Q tt s') ->
  wp (push_tok t) Q F s2.
Proof.
  intros b s0 s1 s2 t Q F H0 H2 Hs Ht Hctx Hh Hpre Hsig HQ. unfold wp, push_tok.
  assert (Hsg : significant t = true) by (eapply filter_app_cons, Hs).
  assert (Hcx : p_ctx s2 = CtxScript).
  { rewrite Hctx. destruct (inv_in _ _ H0) as [E|E]; [exact E|]. unfold hd in E. rewrite Hs, hdl_cons in E by auto. discriminate. }
  assert (Es : filter significant (t :: p_toks s2) = t :: sig s2) by (cbn [filter]; rewrite Hsg; reflexivity).
  apply HQ; auto.
  - split; [|left; exact Hcx]. unfold sig at 1. cbn [p_toks]. rewrite Es.
    pose proof (inv_calm _ _ H0) as Hc. rewrite Hs in Hc.
    destruct (hdl (sig s1)) eqn:E.
    + rewrite Hsig; [exact Hc|]. unfold hd. congruence.
    + eapply calm_head; eauto.
  - unfold hd, sig. cbn [p_toks]. rewrite Es. apply hdl_cons, Ht.
Qed.
