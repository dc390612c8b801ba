(** Every function of the grammar finishes on calm token lists and consumes
    what its callers rely on. *)

From Verif Require Import Base Token Node DocBlock Parser TokenFacts SpecCalm DocFacts ParserFuel ParserTerm.

Definition nd (b : bool) (s s' : pst) : Prop := Inv b s' /\ (len s' <= len s)%nat.
Definition pr (b : bool) (s s' : pst) : Prop := Inv b s' /\ (len s' < len s)%nat.
Definition st (b : bool) (s s' : pst) : Prop :=
  Inv b s' /\ (len s' <= len s)%nat /\ (hd s <> None -> (len s' < len s)%nat).

Lemma wp_loop : forall b A B n (body : A -> P (A + B)) a s (Q : B -> pst -> Prop) (F : pst -> Prop),
  Inv b s -> (len s < n)%nat ->
  (forall a s1, Inv b s1 -> (len s1 <= len s)%nat ->
     wp (body a) (fun r s' => match r with inl _ => pr b s1 s' | inr _ => nd b s1 s' end) (nd b s1) s1) ->
  (forall v s', Inv b s' -> (len s' <= len s)%nat -> Q v s') ->
  (forall s', Inv b s' -> (len s' <= len s)%nat -> F s') ->
  wp (ploop n body a) Q F s.
Proof.
  intros b A B n body a s Q F HI Hn Hb HQ HF.
  apply wp_ploop with (I := fun _ s' => Inv b s' /\ (len s' <= len s)%nat); auto.
  intros a1 s1 [H1 H2]. eapply wp_conseq; [apply Hb; auto| |].
  - intros [a2|v] s2 [H3 H4]; [repeat split; try apply H3; lia|]. apply HQ; auto. lia.
  - intros s2 [H3 H4]. apply HF; auto. lia.
Qed.

Ltac uses :=
  repeat match goal with
  | H : hd ?s <> None -> _, H2 : hd ?s = Some _ |- _ => specialize (H ltac:(congruence))
  | H : hd ?s = Some ?t -> _, H2 : hd ?s = Some ?t |- _ => specialize (H H2)
  | H : oneof ?x [_] |- _ => let E := fresh "Eh" in
      assert (E : x = Some _) by (destruct x; [destruct H as [<-|[]]; reflexivity|destruct H]); clear H
  | H : hd ?s' = hd ?s, H2 : hd ?s = Some _ |- _ => rewrite H2 in H
  | H : hd ?s' = hd ?s, H2 : hd ?s = None |- _ => rewrite H2 in H
  end.

Ltac leaf :=
  unfold nd, pr, st in *; cbv beta iota; repeat match goal with H : _ /\ _ |- _ => destruct H end; uses;
  splits; auto; try lia; try (apply Inv_weaken; assumption); try (apply Inv_Inv'; assumption); try (intros; uses; lia); try (intros; exfalso; congruence); try congruence; try (left; lia); try (right; congruence).

Create HintDb term discriminated.
#[export] Hint Extern 1 (Inv _ _) => eassumption : term.
#[export] Hint Extern 1 (Inv' _ _) => first [eassumption | apply Inv_Inv'; eassumption] : term.
#[export] Hint Extern 1 (_ <= _)%nat => lia : term.
#[export] Hint Extern 1 (_ < _)%nat => lia : term.
#[export] Hint Extern 1 (hd _ = Some _) => uses; congruence : term.

Ltac w1 :=
  let HI := fresh "HI" in let Hl := fresh "Hl" in let s' := fresh "s" in
  lazymatch goal with
  | |- wp (ret _) _ _ _ => apply wp_ret; w
  | |- wp (continue _) _ _ _ => apply wp_ret; w
  | |- wp (break _) _ _ _ => apply wp_ret; w
  | |- wp (fail _) _ _ _ => apply wp_fail; w
  | |- wp panic _ _ _ => exact I
  | |- wp (bind _ _) _ _ _ => apply wp_bind; w1
  | |- wp (pcatch _) _ _ _ => apply wp_pcatch; w1
  | HI' : Inv' _ ?s |- wp (consume_or_ignore _) _ _ ?s =>
      eapply W_or_ignore'; [exact HI'|discriminate|discriminate
        | let t := fresh "t" in intros t s' HI Hl ? ? ?; w
        | intros s' HI Hl ? ?; w]
  | HI' : Inv' _ ?s |- wp (next_token_one_of _) _ _ ?s =>
      eapply W_one_of'; [exact HI'|cbn; intuition discriminate|cbn; intuition discriminate
        | intros s' HI Hl ? ? ?; w
        | intros s' HI Hl ? ?; w]
  | |- wp (consume_or_ignore _) _ _ _ =>
      eapply W_or_ignore; [eassumption
        | let t := fresh "t" in intros t s' HI Hl ? ? ?; w
        | intros s' HI Hl ? ? ?; w]
  | |- wp (consume_one_of_or_ignore _) _ _ _ =>
      eapply W_one_of_or_ignore; [eassumption
        | let t := fresh "t" in intros t s' HI Hl ? ?; w
        | intros s' HI Hl ? ?; w]
  | |- wp (next_token_one_of _) _ _ _ =>
      eapply W_one_of; [eassumption | intros s' HI Hl ? ? ?; w | intros s' HI Hl ? ?; w]
  | |- wp next_is_operator _ _ _ => eapply W_is_operator; [eassumption | intros ? s' HI Hl ?; w]
  | |- wp next_is_member _ _ _ => eapply W_is_member; [eassumption | intros ? s' HI Hl ?; w]
  | |- wp next_is_identifier _ _ _ => eapply W_is_identifier; [eassumption | intros ? s' HI Hl ? ? ?; w]
  | |- wp peek _ _ _ =>
      eapply W_peek; [eassumption | let t := fresh "t" in intros t ? s' HI Hl ? ? ? ?; w | intros s' HI Hl ? ?; w]
  | |- wp next _ _ _ =>
      eapply W_next; [eassumption | let t := fresh "t" in intros t s' HI Hl ?; w
        | intros s' HI Hl ? ?; first [exfalso; uses; congruence | w]]
  | |- wp next_unwrap _ _ _ =>
      eapply W_next_unwrap; [eassumption | let t := fresh "t" in intros t s' HI Hl ?; w]
  | |- wp (push_err _) _ _ _ => eapply W_push_err; [eassumption | intros s' HI Hl ? ?; w]
  | |- wp error_fast_forward _ _ _ => eapply W_ff; [eassumption | intros s' HI Hl ? ?; w]
  | |- wp consume_end_of_statement _ _ _ => eapply W_end_of_statement; [eassumption | intros s' HI Hl; w]
  | |- wp (consume_or_ff_after _ _) _ _ _ => eapply W_or_ff_after; [eassumption | intros s' HI Hl ? ? ?; w]
  | |- wp (consume_or_ff_before _ _) _ _ _ =>
      eapply W_or_ff_before; [eassumption | let t := fresh "t" in intros t s' HI Hl ?; w | intros s' HI Hl ?; w]
  | |- wp (consume _) _ _ _ => eapply W_consume; [eassumption | let t := fresh "t" in intros t s' HI Hl ? ? ?; w]
  | |- wp consume_identifier _ _ _ => eapply W_identifier; [eassumption | let t := fresh "t" in intros t s' HI Hl ?; w]
  | |- wp consume_member _ _ _ =>
      eapply W_member; [eassumption | let t := fresh "t" in intros t s' HI Hl; w | intros s' HI Hl ?; w]
  | |- wp (consume_one_of _) _ _ _ =>
      eapply W_consume_one_of; [eassumption | let t := fresh "t" in intros t s' HI Hl ?; w | intros s' HI Hl ?; w]
  | |- wp consume_optional_doc_comment _ _ _ => eapply W_opt_doc; [eassumption | intros ? s' HI Hl ? ?; w]
  | |- wp (ploop _ _ _) _ _ _ =>
      eapply wp_loop; [eassumption | uses; lia | intros ? s' HI Hl; w | intros ? s' HI Hl; w | intros s' HI Hl; w]
  | |- wp (if ?x then _ else _) _ _ _ => destruct x eqn:?; w
  | |- wp (match ?x with _ => _ end) _ _ _ => destruct x eqn:?; w
  | |- wp (let _ := _ in _) _ _ _ => cbv zeta; w
  | |- wp _ _ _ _ => uses;
      eapply wp_conseq; [solve [eauto 3 with term nocore]
        | let H := fresh "Hq" in intros ? s' H; unfold nd, pr, st in H; decompose [and] H; clear H;
          repeat match goal with H : (_ < _)%nat \/ _ |- _ => destruct H end; w
        | let H := fresh "Hf" in intros s' H; first [destruct H; fail | unfold nd, pr, st in H; decompose [and] H; clear H; w]]
  end
with w :=
  cbv beta iota zeta; cbn [negb];
  lazymatch goal with
  | |- wp _ _ _ _ => w1
  | |- forall _, _ => intros; unfold nd, pr, st in *; repeat match goal with H : _ /\ _ |- _ => destruct H end; w
  | |- _ => try solve [leaf]
  end.

Section Grammar.
Context `{RT : Runtime}.
Variable rec : Rec.
Variable n : nat.

Definition fu (k : nat) (s : pst) : Prop := (6 * len s + k <= n)%nat.
Hint Extern 1 (fu _ _) => unfold fu in *; lia : term.

Hypothesis Hexpr : forall bp b s, Inv b s -> fu 3 s -> wp (r_expr rec bp) (fun _ => pr b s) (st b s) s.
Hypothesis Hcall : forall b s, Inv b s -> fu 2 s -> wp (r_call rec) (fun _ => pr b s) (st b s) s.
Hypothesis Hstmt : forall b s, Inv' b s -> fu 4 s ->
  wp (r_stmt rec) (fun _ s' => Inv' b s' /\ (len s' < len s)%nat) (st b s) s.
Hypothesis Hblock : forall b s, Inv b s -> fu 5 s -> wp (r_block rec) (fun _ => nd b s) (nd b s) s.
Hypothesis Hblock' : forall b s, Inv b s -> hd s = Some TOpenCurly -> fu 2 s -> wp (r_block rec) (fun _ => pr b s) (pr b s) s.

Hint Resolve Hexpr Hcall Hblock Hblock' Hstmt : term.

Ltac start := intros; unfold fu in *.

Lemma Z_non_empty_type_ref : forall b s, Inv b s -> fu 1 s ->
  wp (non_empty_type_ref n) (fun _ s' => nd b s s' /\ (hd s = Some TNamespaceSeparator -> (len s' < len s)%nat)
      /\ (forall ty, hd s = Some ty -> tt_is_identifier ty = true -> (len s' < len s)%nat)) (fun _ => False) s.
Proof.
  start. unfold non_empty_type_ref. apply wp_bind. eapply W_or_ignore; [eassumption| |].
  - intros t s1 HI1 Hl1 _ _ _. apply wp_bind. eapply W_identifier; [eassumption|]. intros i s2 HI2 Hl2 _.
    apply wp_bind. apply wp_ploop with (I := fun _ s' => Inv b s' /\ (len s' <= len s2)%nat); [auto|lia|].
    intros l s3 [HI3 Hl3]. w.
  - intros s1 HI1 Hl1 Hh1 Hn1 _. apply wp_bind. eapply W_identifier; [eassumption|]. intros i s2 HI2 Hl2 K.
    apply wp_bind. apply wp_ploop with (I := fun _ s' => Inv b s' /\ (len s' <= len s2)%nat); [auto|lia|].
    assert (Hk : forall ty, hd s = Some ty -> tt_is_identifier ty = true -> (len s2 < len s)%nat).
    { intros ty Hty Hid. destruct K as [(_ & _ & K)|(_ & _ & _ & K)]; [lia|].
      specialize (K ty ltac:(congruence)). congruence. }
    clear K. intros l s3 [HI3 Hl3]. w. unfold nd. splits; auto; try lia; [congruence|]. intros ty Hty Hid. specialize (Hk ty Hty Hid). lia.
Qed.
Hint Resolve Z_non_empty_type_ref : term.
Lemma Z_type_ref_list : forall b s, Inv b s -> fu 1 s ->
  wp (type_ref_list n) (fun _ => nd b s) (nd b s) s.
Proof. start. unfold type_ref_list. w. Qed.
Hint Resolve Z_type_ref_list : term.
Lemma Z_type_ref : forall b s, Inv b s -> fu 1 s ->
  wp (type_ref n) (fun _ => nd b s) (nd b s) s.
Proof. start. unfold type_ref. w. Qed.
Hint Resolve Z_type_ref : term.
Lemma Z_non_empty_namespace_ref : forall b s, Inv b s -> fu 1 s ->
  wp (non_empty_namespace_ref n) (fun _ => nd b s) (nd b s) s.
Proof. start. unfold non_empty_namespace_ref. w. Qed.
Hint Resolve Z_non_empty_namespace_ref : term.
Lemma Z_non_empty_type_ref_union : forall b s, Inv b s -> fu 1 s ->
  wp (non_empty_type_ref_union n) (fun _ => nd b s) (fun _ => False) s.
Proof.
  start. unfold non_empty_type_ref_union. apply wp_bind. eapply wp_conseq; [eapply Z_non_empty_type_ref; [eassumption|auto]| |intros ? []].
  intros v s1 ([HI1 Hl1] & _). apply wp_ploop with (I := fun _ s' => Inv b s' /\ (len s' <= len s1)%nat); [auto|lia|].
  intros l s2 [HI2 Hl2]. w.
Qed.
Hint Resolve Z_non_empty_type_ref_union : term.
Lemma Z_type_ref_union : forall b s, Inv b s -> fu 1 s ->
  wp (type_ref_union n) (fun _ => nd b s) (nd b s) s.
Proof. start. unfold type_ref_union. w. Qed.
Hint Resolve Z_type_ref_union : term.
Lemma Z_data_type : forall b s, Inv b s -> fu 1 s ->
  wp (data_type n) (fun _ => nd b s) (fun _ => False) s.
Proof. start. unfold data_type. w. Qed.
Hint Resolve Z_data_type : term.

(** [variable] consumes a variable that is there. *)
Lemma Z_variable : forall b s, Inv b s -> fu 1 s ->
  wp (variable rec n) (fun _ s' => nd b s s' /\ (hd s = Some TVariable -> (len s' < len s)%nat))
    (fun s' => nd b s s' /\ (hd s = Some TVariable -> (len s' < len s)%nat)) s.
Proof. start. unfold variable. w. Qed.
Hint Resolve Z_variable : term.
Lemma Z_static_variables : forall tk b s, Inv b s -> fu 1 s ->
  wp (static_variables rec n tk) (fun _ => nd b s) (nd b s) s.
Proof. start. unfold static_variables. w. Qed.
Hint Resolve Z_static_variables : term.
Lemma Z_const_item : forall b s, Inv b s -> fu 3 s ->
  wp (const_item rec) (fun _ => pr b s) (nd b s) s.
Proof. start. unfold const_item. w. Qed.
Hint Resolve Z_const_item : term.
Lemma Z_const_statement : forall b s, Inv b s -> hd s = Some TConst -> fu 1 s ->
  wp (const_statement rec n) (fun _ => pr b s) (pr b s) s.
Proof. start. unfold const_statement. w. Qed.
Hint Resolve Z_const_statement : term.
Lemma Z_lexical_variable : forall b s, Inv b s ->
  wp lexical_variable (fun _ => nd b s) (nd b s) s.
Proof. start. unfold lexical_variable. w. Qed.
Hint Resolve Z_lexical_variable : term.
Lemma Z_attribute : forall b s, Inv b s -> hd s = Some TAttributeStart -> fu 1 s ->
  wp (attribute rec n) (fun _ => pr b s) (pr b s) s.
Proof. start. unfold attribute. w. Qed.
Hint Resolve Z_attribute : term.

Lemma Z_attributes_block : forall b s, Inv b s -> fu 1 s ->
  wp (attributes_block rec n) (fun _ s' => nd b s s' /\ ((len s' < len s)%nat \/ hd s' = hd s) /\ (hd s = None -> hd s' = None))
    (fun s' => pr b s s' /\ hd s <> None) s.
Proof.
  start. unfold attributes_block.
  apply wp_ploop with (I := fun _ s' => Inv b s' /\ (len s' <= len s)%nat /\ ((len s' < len s)%nat \/ hd s' = hd s)
    /\ (hd s = None -> hd s' = None)); [splits; auto|lia|].
  intros l s1 (HI1 & Hl1 & Hx & Hn). apply wp_bind. eapply W_one_of; [eassumption| |].
  - intros s2 HI2 Hl2 _ Hh2 Ho. uses. apply wp_bind.
    eapply wp_conseq; [apply (Z_attribute b s2); auto; unfold fu; lia| |].
    + intros a s3 [HI3 Hl3]. apply wp_ret. splits; auto; try lia. intros Hz. specialize (Hn Hz). congruence.
    + intros s3 [HI3 Hl3]. splits; auto; [split; auto; lia|]. intros Hz. specialize (Hn Hz). congruence.
  - intros s2 HI2 Hl2 Hh2 _. apply wp_ret. unfold nd. splits; auto; try lia.
    + destruct Hx; [left; lia|right; congruence].
    + intros Hz. rewrite Hh2. auto.
Qed.
Hint Resolve Z_attributes_block : term.
Lemma Z_array_pair : forall b s, Inv b s -> fu 3 s ->
  wp (array_pair rec) (fun _ => pr b s) (st b s) s.
Proof. start. unfold array_pair. w. Qed.
Hint Resolve Z_array_pair : term.
Lemma Z_array : forall b s, Inv b s -> hd s = Some TOpenBrackets -> fu 1 s ->
  wp (array rec n) (fun _ => pr b s) (pr b s) s.
Proof. start. unfold array. w. Qed.
Hint Resolve Z_array : term.
Lemma Z_old_array : forall b s, Inv b s -> hd s = Some TTypeArray -> fu 1 s ->
  wp (old_array rec n) (fun _ => pr b s) (pr b s) s.
Proof. start. unfold old_array. w. Qed.
Hint Resolve Z_old_array : term.
Lemma Z_argument_type : forall b s, Inv b s -> fu 1 s ->
  wp (argument_type n) (fun _ => nd b s) (nd b s) s.
Proof. start. unfold argument_type. w. Qed.
Hint Resolve Z_argument_type : term.
Lemma Z_argument_list : forall d b s, Inv b s -> fu 1 s ->
  wp (argument_list rec n d) (fun _ => nd b s) (nd b s) s.
Proof. start. unfold argument_list. w. Qed.
Hint Resolve Z_argument_list : term.
Lemma Z_return_type : forall b s, Inv b s -> fu 1 s ->
  wp (return_type n) (fun _ => nd b s) (nd b s) s.
Proof. start. unfold return_type. w. Qed.
Hint Resolve Z_return_type : term.
Lemma Z_anonymous_function_statement : forall d b s, Inv b s -> fu 5 s ->
  wp (anonymous_function_statement rec n d) (fun _ => nd b s) (nd b s) s.
Proof. start. unfold anonymous_function_statement. w. Qed.
Hint Resolve Z_anonymous_function_statement : term.
Lemma Z_named_function : forall d a b s, Inv b s -> hd s = Some TFunction -> fu 1 s ->
  wp (named_function rec n d a) (fun _ => pr b s) (pr b s) s.
Proof. start. unfold named_function. w. Qed.
Hint Resolve Z_named_function : term.
Lemma Z_arrow_function : forall d a b s, Inv b s -> hd s = Some TFn -> fu 1 s ->
  wp (arrow_function rec n d a) (fun _ => pr b s) (pr b s) s.
Proof. start. unfold arrow_function. w. Qed.
Hint Resolve Z_arrow_function : term.

(** ** The list of a closure's [use] *)

Lemma Z_lexical_complete : forall b s, Inv b s -> closure_list (sig s) ->
  wp lexical_variable (fun _ s' => pr b s s' /\ closure_rest (sig s')) (fun _ => False) s.
Proof.
  intros b s HI Hc. unfold lexical_variable. apply wp_bind. eapply W_or_ignore; [eassumption| |].
  - intros t s1 HI1 Hl1 Hh Hs Ht. rewrite Hs in Hc. inversion Hc; subst; [|congruence].
    match goal with H : ?v :: ?r = sig s1 |- _ => rename H into E1; rename v into v1 end.
    assert (Hv : hd s1 = Some TVariable) by (unfold hd; rewrite <- E1, hdl_cons by congruence; congruence).
    apply wp_bind. eapply W_consume; [eassumption|]. intros u s2 HI2 Hl2 Hlt [(K1 & K2 & K3)|(K1 & _)] _; [|congruence].
    apply wp_ret. specialize (Hlt Hv). rewrite <- E1 in K3. injection K3 as <- <-. leaf.
  - intros s1 HI1 Hl1 Hh1 Hh Hs1.
    assert (Hv : hd s = Some TVariable).
    { inversion Hc as [a v r Ha|v r Hvv Hr Ev].
      - exfalso. apply Hh. unfold hd. match goal with H : _ :: _ = sig s |- _ => rewrite <- H end. rewrite hdl_cons by congruence. congruence.
      - unfold hd. rewrite <- Ev, hdl_cons by congruence. congruence. }
    specialize (Hs1 ltac:(congruence)).
    apply wp_bind. eapply W_consume; [eassumption|]. intros u s2 HI2 Hl2 Hlt [(K1 & K2 & K3)|(K1 & _)] _; [|congruence].
    apply wp_ret. specialize (Hlt K1). rewrite Hs1 in K3. rewrite K3 in Hc. inversion Hc; subst; [congruence|]. leaf.
Qed.

Lemma rest_close : forall s, closure_rest (sig s) -> hd s <> Some TComma -> hd s = Some TCloseParenthesis.
Proof.
  intros s H Hn. unfold hd in *. inversion H as [c r Hc E|cm c r Hcm Hc E|cm r Hcm Hr E]; rewrite <- E in *;
    rewrite hdl_cons in * by congruence; congruence.
Qed.
Lemma rest_open : forall s s' t, closure_rest (sig s) -> sig s = t :: sig s' -> t_type t = TComma ->
  hd s' = Some TCloseParenthesis \/ closure_list (sig s').
Proof.
  intros s s' t H E Ht. rewrite E in H. inversion H as [c r Hc E1|cm c r Hcm Hc E1|cm r Hcm Hr E1]; subst; [congruence| |].
  - left. unfold hd. match goal with H : _ :: _ = sig s' |- _ => rewrite <- H end. rewrite hdl_cons by congruence. congruence.
  - right. auto.
Qed.

Lemma list_some : forall s, closure_list (sig s) -> hd s <> None.
Proof.
  intros s H. unfold hd. inversion H as [a v r Ha Hv Hr E|v r Hv Hr E]; rewrite hdl_cons by congruence; discriminate.
Qed.

Lemma Z_non_empty_lexical_variables_list : forall b s op r, Inv b s -> fu 1 s ->
  sig s = op :: r -> t_type op = TOpenParenthesis -> closure_list r ->
  wp (non_empty_lexical_variables_list n) (fun _ => nd b s) (nd b s) s.
Proof.
  start. assert (Ho : hd s = Some TOpenParenthesis) by (unfold hd; rewrite H1, hdl_cons by congruence; congruence).
  unfold non_empty_lexical_variables_list. apply wp_bind. eapply W_or_ff_after; [eassumption|].
  intros s1 HI1 Hl1 _ Hs1 _. destruct (Hs1 Ho) as (t & _ & Es). rewrite H1 in Es. injection Es as <- ->.
  apply wp_bind. eapply wp_conseq; [apply (Z_lexical_complete b s1); auto| |intros ? []].
  intros a0 s2 [[HI2 Hl2] Hr2]. apply wp_bind.
  eapply W_or_ignore; [eassumption| |];
    [intros t s3 HI3 Hl3 Hh3 Hs3 Ht; pose proof (rest_open _ _ _ Hr2 Hs3 Ht) as Hj; assert (Hl3' : (len s3 <= len s2)%nat) by lia
    |intros s3 HI3 Hl3' Hh3 Hn3 Hs3;
     assert (Hj : hd s3 = Some TCloseParenthesis \/ closure_list (sig s3)) by (left; rewrite Hh3; apply rest_close; auto)].
  all: apply wp_bind; apply wp_ploop with (I := fun _ s' => Inv b s' /\ (len s' <= len s3)%nat /\
         (hd s' = Some TCloseParenthesis \/ closure_list (sig s'))); [auto|lia|];
    intros l s4 (HI4 & Hl4 & Hj4); apply wp_bind; eapply W_one_of_sig; [eassumption| |];
    [intros s5 HI5 Hl5 _ _ _; apply wp_ret; w; fail|];
    intros s5 HI5 Hl5 Hh5 Hn5 _ Hs5;
    (destruct Hj4 as [Hj4|Hj4]; [exfalso; apply Hn5; rewrite Hj4; left; reflexivity|]);
    (rewrite <- (Hs5 (list_some _ Hj4)) in Hj4);
    apply wp_bind; (eapply wp_conseq; [apply (Z_lexical_complete b s5); auto| |intros ? []]);
    intros v s6 [[HI6 Hl6] Hr6]; cbv zeta; apply wp_bind; eapply W_one_of_sig; [eassumption| |];
    [intros s7 HI7 Hl7 _ _ _; apply wp_ret; w; fail|];
    intros s7 HI7 Hl7 Hh7 Hn7 _ Hs7;
    (assert (Hc7 : hd s7 = Some TComma);
      [rewrite Hh7; destruct (hd s6) as [ty|] eqn:E6;
       [destruct (tt_eqb_spec ty TComma) as [->|Hne]; [reflexivity|];
        assert (Hcl : hd s6 = Some TCloseParenthesis) by (apply rest_close; congruence);
        exfalso; apply Hn7; rewrite E6 in Hcl; injection Hcl as ->; left; reflexivity
       |assert (Hcl : hd s6 = Some TCloseParenthesis) by (apply rest_close; congruence); congruence]|]);
    (rewrite <- Hs7 in Hr6 by congruence);
    apply wp_bind; eapply W_or_ff_after; [eassumption|];
    intros s8 HI8 Hl8 Hlt8 Hs8 _; apply wp_ret; specialize (Hlt8 ltac:(congruence));
    destruct (Hs8 Hc7) as (u & Hu & Eu);
    splits; auto; try lia; eapply rest_open; eauto.
Qed.

Lemma use_list : forall b s t u, calm b (t :: sig s) -> t_type t = TCloseParenthesis -> hd s = Some TUse ->
  sig s = u :: tl (sig s) -> exists op r, sig s = u :: op :: r /\ t_type op = TOpenParenthesis /\ closure_list r.
Proof.
  intros b s t u Hc Ht Hh Hu. destruct Hc as [Hc _]. rewrite Ht in Hc. rewrite Hu in *.
  assert (Huse : t_type u = TUse).
  { unfold hd in Hh. rewrite Hu in Hh. unfold hdl in Hh. destruct (t_type u); congruence. }
  destruct (tl (sig s)) as [|op r]; [congruence|]. exists op, r. destruct (Hc Huse). auto.
Qed.

Lemma hd_is : forall s ty, hd s = Some ty -> exists t r, sig s = t :: r /\ t_type t = ty.
Proof.
  intros s ty. unfold hd, hdl. destruct (sig s) as [|t r]; [discriminate|].
  intros H. exists t, r. split; auto. destruct (t_type t); congruence.
Qed.

Lemma Z_anonymous_function : forall i a b s, Inv b s -> hd s = Some TFunction -> fu 1 s ->
  wp (anonymous_function rec n i a) (fun _ => pr b s) (pr b s) s.
Proof.
  start. unfold anonymous_function.
  apply wp_bind. eapply W_consume; [eassumption|]. intros tk s1 HI1 Hl1 Hlt1 _ _. uses.
  apply wp_bind. eapply W_or_ignore; [eassumption| |].
  1: intros t s2 HI2 Hl2 _ _ _. 2: intros s2 HI2 Hl2 _ _ _.
  all: apply wp_bind; eapply W_consume; [eassumption|]; intros op s3 HI3 Hl3 _ _ _.
  all: apply wp_bind; (eapply wp_conseq; [eapply Z_argument_list; [eassumption|unfold fu; lia]| |w]).
  all: intros args s4 [HI4 Hl4]; apply wp_bind; eapply W_consume; [eassumption|].
  all: intros cp s5 HI5 Hl5 _ K5 _; apply wp_bind; eapply W_one_of; [eassumption| |].
  2,4: w.
  all: intros s6 HI6 Hl6 Hs6 Hh6 Ho; uses.
  all: destruct K5 as [(K1 & K2 & K3)|(_ & _ & _ & K4)];
    [|exfalso; destruct K4 as [K4|K4]; [congruence|]; rewrite Eh in K4; cbn in K4; intuition discriminate].
  all: destruct (hd_is _ _ Eh) as (u & r & Hu & Hut).
  all: assert (Hc : calm b (cp :: sig s5)) by (rewrite <- K3; apply HI4).
  all: destruct (use_list b s5 cp u Hc K2 Eh ltac:(rewrite Hu; reflexivity)) as (o & r' & Hr & Hot & Hcl).
  all: apply wp_bind; apply wp_bind; eapply W_next; [eassumption| |intros; exfalso; congruence].
  all: intros u' s7 HI7 Hl7 Hs7; rewrite Hs6, Hr in Hs7; injection Hs7 as <- Hs7.
  all: apply wp_bind; (eapply wp_conseq; [eapply (Z_non_empty_lexical_variables_list b s7 o r'); auto; unfold fu; lia| |w]).
  all: intros l s8 [HI8 Hl8]; w.
Qed.
Hint Resolve Z_anonymous_function : term.

Lemma Z_parameters_loop : forall l b s, Inv b s -> fu 3 s ->
  wp (parameters_loop rec n l) (fun _ => nd b s) (nd b s) s.
Proof. start. unfold parameters_loop. w. Qed.
Hint Resolve Z_parameters_loop : term.
Lemma Z_non_empty_parameter_list : forall b s, Inv b s -> fu 3 s ->
  wp (non_empty_parameter_list rec n) (fun _ => nd b s) (nd b s) s.
Proof. start. unfold non_empty_parameter_list. w. Qed.
Hint Resolve Z_non_empty_parameter_list : term.
Lemma Z_parameter_list : forall b s, Inv b s -> fu 3 s ->
  wp (parameter_list rec n) (fun _ => nd b s) (nd b s) s.
Proof. start. unfold parameter_list. w. Qed.
Hint Resolve Z_parameter_list : term.
Lemma Z_return_statement : forall b s, Inv b s -> hd s = Some TReturn -> fu 1 s ->
  wp (return_statement rec) (fun _ => pr b s) (pr b s) s.
Proof. start. unfold return_statement. w. Qed.
Hint Resolve Z_return_statement : term.

Lemma Z_finish_call : forall e b s, Inv b s -> hd s = Some TOpenParenthesis -> fu 1 s ->
  wp (finish_call rec n e) (fun _ => pr b s) (pr b s) s.
Proof.
  start. unfold finish_call. apply wp_bind. eapply W_consume; [eassumption|]. intros tk s1 HI1 Hl1 Hlt1 _ _. uses.
  apply wp_bind. eapply wp_loop; [eassumption|lia| |w|w]. intros ps s2 HI2 Hl2.
  apply wp_bind. eapply W_one_of; [eassumption|w|]. intros s3 HI3 Hl3 Hh3 Ho3. cbv iota.
  apply wp_bind. eapply W_is_identifier; [eassumption|]. intros i s4 HI4 Hl4 Hh4 Hs4 Hi. apply wp_bind.
  destruct i; [|w]. destruct (Hi eq_refl) as (ty & Hty & Hid). apply wp_bind.
  apply wp_ctx; [apply keeps_identifier|]. eapply W_identifier; [eassumption|].
  intros nm s5 HI5 Hl5 K5 Hc5.
  destruct K5 as [(K1 & K2 & K3)|(K1 & K2 & K3 & K4)].
  - apply wp_bind. apply wp_ctx; [apply keeps_one_of|]. eapply W_one_of_sig; [eassumption| |].
    + w.
    + intros s6 HI6 Hl6 Hh6 Ho6 Hp6 Hs6 Hc6. cbv iota. apply wp_bind.
      eapply (W_push_back b s4 s5 s6); eauto; try congruence.
      { intros Hx. unfold is_identifier in K2. rewrite Hx in K2. discriminate. }
      w.
  - exfalso. assert (hd s4 = Some ty) by congruence. specialize (K4 _ H2). congruence.
Qed.
Hint Resolve Z_finish_call : term.

Lemma Z_init_call : forall e b s, Inv b s -> fu 1 s ->
  wp (init_call rec n e) (fun _ => nd b s) (nd b s) s.
Proof. start. unfold init_call. w. Qed.
Hint Resolve Z_init_call : term.
Lemma Z_list_ : forall b s, Inv b s -> hd s = Some TList -> fu 1 s ->
  wp (list_ rec n) (fun _ => pr b s) (pr b s) s.
Proof. start. unfold list_. w. Qed.
Hint Resolve Z_list_ : term.
Lemma Z_declare_statement : forall b s, Inv b s -> hd s = Some TDeclare -> fu 1 s ->
  wp declare_statement (fun _ => pr b s) (pr b s) s.
Proof. start. unfold declare_statement. w. Qed.
Hint Resolve Z_declare_statement : term.
Lemma Z_unset_statement : forall b s, Inv b s -> hd s = Some TUnset -> fu 1 s ->
  wp (unset_statement rec n) (fun _ => pr b s) (pr b s) s.
Proof. start. unfold unset_statement. w. Qed.
Hint Resolve Z_unset_statement : term.
Lemma Z_die_statement : forall b s, Inv b s -> hd s = Some TDie -> fu 1 s ->
  wp (die_statement rec) (fun _ => pr b s) (pr b s) s.
Proof. start. unfold die_statement. w. Qed.
Hint Resolve Z_die_statement : term.
Lemma Z_define_statement : forall b s, Inv b s -> hd s = Some TDefine -> fu 1 s ->
  wp (define_statement rec) (fun _ => pr b s) (pr b s) s.
Proof. start. unfold define_statement. w. Qed.
Hint Resolve Z_define_statement : term.
Lemma Z_comma_expressions : forall b s, Inv b s -> fu 3 s ->
  wp (comma_expressions rec n) (fun _ => pr b s) (nd b s) s.
Proof. start. unfold comma_expressions. w. Qed.
Hint Resolve Z_comma_expressions : term.
Lemma Z_echo_statement : forall b s, Inv b s -> hd s = Some TEcho -> fu 1 s ->
  wp (echo_statement rec n) (fun _ => pr b s) (pr b s) s.
Proof. start. unfold echo_statement. w. Qed.
Hint Resolve Z_echo_statement : term.
Lemma Z_print_statement : forall b s, Inv b s -> hd s = Some TPrint -> fu 1 s ->
  wp (print_statement rec) (fun _ => pr b s) (pr b s) s.
Proof. start. unfold print_statement. w. Qed.
Hint Resolve Z_print_statement : term.
Lemma Z_goto_statement : forall b s, Inv b s -> hd s = Some TGoto -> fu 1 s ->
  wp goto_statement (fun _ => pr b s) (pr b s) s.
Proof. start. unfold goto_statement. w. Qed.
Hint Resolve Z_goto_statement : term.
Lemma Z_identifier_list : forall b s, Inv b s -> fu 1 s ->
  wp (identifier_list n) (fun _ => nd b s) (nd b s) s.
Proof. start. unfold identifier_list. w. Qed.
Hint Resolve Z_identifier_list : term.

(** ** Classes *)

(** no block in braces behind the names of a trait use *)
Definition plain_use (s : pst) : Prop := ~ starts_with [TOpenCurly] (drop_names (sig s)).

Lemma plain_none : forall s, hd s = None -> plain_use s.
Proof.
  intros s H. unfold plain_use, hd, hdl in *. destruct (sig s) as [|t r]; [intros []|].
  destruct (t_type t) eqn:E; try discriminate. cbn [drop_names]. rewrite E. cbn. intros [X|[]]. congruence.
Qed.
Lemma plain_same : forall s s', plain_use s -> hd s' = hd s -> (hd s <> None -> sig s' = sig s) -> plain_use s'.
Proof.
  intros s s' H Hh Hs. destruct (hd s) eqn:E; [|apply plain_none; congruence].
  unfold plain_use in *. rewrite (Hs ltac:(congruence)). exact H.
Qed.
Lemma plain_step : forall s s' t, plain_use s -> sig s = t :: sig s' ->
  tt_is_identifier (t_type t) = true \/ t_type t = TNamespaceSeparator \/ t_type t = TComma -> plain_use s'.
Proof.
  intros s s' t H E Ht. unfold plain_use in *. rewrite E in H. cbn [drop_names] in H.
  assert (X : (tt_is_identifier (t_type t) || tt_eqb (t_type t) TNamespaceSeparator || tt_eqb (t_type t) TComma)%bool = true).
  { destruct Ht as [-> |[-> | ->]]; reflexivity. }
  rewrite X in H. exact H.
Qed.
Lemma plain_hd : forall s, plain_use s -> hd s <> Some TOpenCurly.
Proof.
  intros s H Hh. apply hdl_some in Hh. destruct Hh as (t & r & E & Ht). apply H. rewrite E. cbn [drop_names].
  rewrite Ht. cbn. rewrite Ht. auto.
Qed.

Lemma plain_identifier : forall b s (Q : Token -> pst -> Prop) F, Inv b s -> plain_use s ->
  (forall t s', Inv b s' -> (len s' <= len s)%nat -> plain_use s' -> Q t s') -> wp consume_identifier Q F s.
Proof.
  intros b s Q F HI Hp HQ. eapply W_identifier; [eassumption|]. intros t s' HI' Hl' [(K1 & K2 & _)|(K1 & K2 & _)]; apply HQ; auto.
  - eapply plain_step; eauto.
  - eapply plain_same; eauto.
Qed.
Lemma plain_or_ignore : forall b s ty (Q : option Token -> pst -> Prop) F, Inv b s -> plain_use s ->
  ty = TNamespaceSeparator \/ ty = TComma ->
  (forall o s', Inv b s' -> (len s' <= len s)%nat -> (o <> None -> (len s' < len s)%nat) -> plain_use s' -> Q o s') ->
  wp (consume_or_ignore ty) Q F s.
Proof.
  intros b s ty Q F HI Hp Hty HQ. eapply W_or_ignore; [eassumption| |].
  - intros t s' HI' Hl' Hh Hs Ht. apply HQ; auto; try lia. eapply plain_step; eauto. rewrite Ht. auto.
  - intros s' HI' Hl' Hh Hn Hs. apply HQ; auto; try congruence. eapply plain_same; eauto.
Qed.

Lemma plain_type_ref : forall b s, Inv b s -> plain_use s -> fu 1 s ->
  wp (non_empty_type_ref n) (fun _ s' => nd b s s' /\ plain_use s') (fun _ => False) s.
Proof.
  start. unfold non_empty_type_ref. apply wp_bind. eapply plain_or_ignore; [eassumption|assumption|auto|].
  intros o s1 HI1 Hl1 _ Hp1. apply wp_bind. eapply plain_identifier; [eassumption|assumption|].
  intros t s2 HI2 Hl2 Hp2. apply wp_bind.
  apply wp_ploop with (I := fun _ s' => Inv b s' /\ (len s' <= len s2)%nat /\ plain_use s'); [auto|lia|].
  intros l s3 (HI3 & Hl3 & Hp3). apply wp_bind. eapply plain_or_ignore; [eassumption|assumption|auto|].
  intros [x|] s4 HI4 Hl4 Hlt4 Hp4.
  - apply wp_bind. eapply plain_identifier; [eassumption|assumption|].
    intros t5 s5 HI5 Hl5 Hp5. apply wp_ret. specialize (Hlt4 ltac:(congruence)). splits; auto; lia.
  - apply wp_ret. apply wp_ret. unfold nd. splits; auto; lia.
Qed.

Lemma Z_trait_usages : forall b s, Inv b s -> plain_use s -> fu 1 s ->
  wp (trait_usages n) (fun _ => nd b s) (nd b s) s.
Proof.
  start. unfold trait_usages. apply wp_bind.
  apply wp_ploop with (I := fun _ s' => Inv b s' /\ (len s' <= len s)%nat /\ plain_use s'); [auto|lia|].
  intros l s1 (HI1 & Hl1 & Hp1). apply wp_bind. eapply W_one_of_sig; [eassumption|w|].
  intros s2 HI2 Hl2 Hh2 Ho2 _ Hs2. cbv iota.
  apply wp_bind. eapply wp_conseq; [eapply (plain_type_ref b s2); [assumption|eapply plain_same; eauto|unfold fu; lia]| |intros ? []].
  intros t s3 ([HI3 Hl3] & Hp3). cbv zeta. apply wp_bind. eapply W_one_of_sig; [eassumption| |].
  - intros s4 HI4 Hl4 Hs4 Hh4 Ho4. exfalso. uses. apply (plain_hd s3); auto.
  - intros s4 HI4 Hl4 Hh4 Ho4 _ Hs4. cbv iota. apply wp_bind. eapply plain_or_ignore; [eassumption| |auto|].
    + eapply plain_same; eauto.
    + intros [c|] s5 HI5 Hl5 Hlt5 Hp5; [apply wp_ret; specialize (Hlt5 ltac:(congruence)); splits; auto; lia|w].
Qed.

Lemma Z_use_trait_statement : forall s, Inv true s -> hd s = Some TUse -> fu 1 s ->
  wp (use_trait_statement n) (fun _ => pr true s) (pr true s) s.
Proof.
  start. unfold use_trait_statement. apply wp_bind. eapply W_consume; [eassumption|].
  intros t s1 HI1 Hl1 Hlt1 [(K1 & K2 & K3)|(K1 & _)] _; [|congruence]. uses.
  assert (Hp : plain_use s1).
  { destruct H as [Hc _]. rewrite K3 in Hc. destruct Hc as [Hc _]. rewrite K2 in Hc. apply Hc. reflexivity. }
  apply wp_bind. eapply wp_conseq; [apply (Z_trait_usages true s1); auto; unfold fu; lia|w|w].
Qed.
Hint Resolve Z_use_trait_statement : term.

Lemma Z_modifiers : forall b s, Inv b s -> fu 1 s ->
  wp (modifiers n) (fun _ s' => nd b s s' /\ ((len s' < len s)%nat \/ hd s' = hd s)) (fun _ => False) s.
Proof.
  start. unfold modifiers.
  apply wp_ploop with (I := fun _ s' => Inv b s' /\ (len s' <= len s)%nat /\ ((len s' < len s)%nat \/ hd s' = hd s));
    [auto|lia|].
  intros m s1 (HI1 & Hl1 & Hx). apply wp_bind. eapply W_one_of; [eassumption| |].
  - intros s2 HI2 Hl2 _ Hh2 Ho. rewrite <- Hh2 in Ho.
    assert (Ho' : In (match hd s2 with Some t => t | None => TEof end) [TAbstract; TFinal; TPublic; TVar; TPrivate; TProtected; TStatic]
                  /\ hd s2 <> None) by (destruct (hd s2); [split; [exact Ho|discriminate]|destruct Ho]).
    clear Ho. w;
    try (leaf; left; lia).
    destruct Ho' as [Ho' Hn]. exfalso. destruct (hd s2) as [ty|] eqn:E2; [|congruence].
    cbn [In] in Ho'. 
    repeat match goal with H : ~ oneof ?x _ |- _ => revert H | H : hd _ = hd _ |- _ => revert H | H : hd _ <> _ |- _ => revert H end.
    intros. unfold oneof in *.
    repeat match goal with H : _ \/ _ |- _ => destruct H as [H|H]; try subst ty end; try contradiction; try congruence;
    repeat match goal with H : context [hd ?x], E : hd ?x = _ |- _ => rewrite E in H end; cbn in *; tauto.
  - w. leaf. destruct Hx; [left; lia|right; congruence].
Qed.
Hint Resolve Z_modifiers : term.

Lemma Z_properties : forall b s l, Inv b s -> fu 1 s ->
  wp (ploop n (fun props =>
        name <- consume TVariable ;;
        b <- next_token_one_of [TAssignment] ;;
        value <- (if b then (next ;;; e <- r_expr rec 0 ;; ret (Some e)) else ret None) ;;
        let props := props ++ [NProperty name value] in
        b <- next_token_one_of [TComma] ;;
        if negb b then break props else (next ;;; continue props)) l) (fun _ => nd b s) (pr b s) s.
Proof.
  start. apply wp_ploop with (I := fun _ s' => Inv b s' /\ (len s' <= len s)%nat); [auto|lia|].
  intros m s1 [HI1 Hl1]. w.
Qed.
Hint Resolve Z_properties : term.

Lemma Z_class_block_statement : forall s, Inv true s -> fu 1 s -> hd s <> None ->
  wp (class_block_statement rec n) (fun _ s' => nd true s s' /\ ((len s' < len s)%nat \/ hd s' = None)) (pr true s) s.
Proof.
  start. unfold class_block_statement. apply wp_bind. eapply W_one_of; [eassumption|w|].
  intros s1 HI1 Hl1 Hh1 _. cbv iota. apply wp_bind. eapply W_opt_doc; [eassumption|]. intros dc s2 HI2 Hl2 Hh2 _.
  apply wp_bind. eapply wp_conseq; [apply (Z_attributes_block true s2); auto; unfold fu; lia| |w].
  intros at_ s3 ([HI3 Hl3] & Hx3 & _). apply wp_bind.
  assert (Hd : wp match dc with Some _ => ret dc | None => consume_optional_doc_comment end
      (fun _ s' => Inv true s' /\ len s' = len s3 /\ hd s' = hd s3) (fun _ => False) s3).
  { destruct dc; w. }
  eapply wp_conseq; [apply Hd| |intros ? []]. intros dc' s4 (HI4 & Hl4 & Hh4).
  apply wp_bind. eapply wp_conseq; [apply (Z_modifiers true s4); auto; unfold fu; lia| |intros ? []].
  intros [[[? ?] ?] ?] s5 ([HI5 Hl5] & Hx5).
  assert (Hx : (len s5 < len s)%nat \/ hd s5 = hd s).
  { destruct Hx3; [left; lia|]. destruct Hx5; [left; lia|right; congruence]. }
  apply wp_bind. eapply W_or_ignore; [eassumption|w|]. intros s6 HI6 Hl6 Hh6 _ _. cbv iota.
  apply wp_bind. eapply W_or_ignore; [eassumption|w|]. intros s7 HI7 Hl7 Hh7 _ _. cbv iota.
  apply wp_bind. eapply W_one_of; [eassumption| |].
  - intros s8 HI8 Hl8 _ _ _. cbn [negb]. apply wp_bind. apply wp_ret. apply wp_bind.
    eapply wp_conseq; [apply (Z_properties true s8); auto; unfold fu; lia| |w].
    intros ps s9 [HI9 Hl9]. apply wp_bind. eapply W_or_ff_after; [eassumption|]. intros s10 HI10 Hl10 Hlt10 _ Hn10.
    apply wp_ret. unfold nd. splits; auto; try lia. destruct (hd s9) eqn:E9; [left|right; auto].
    specialize (Hlt10 ltac:(congruence)). lia.
  - intros s8 HI8 Hl8 _ _. cbn [negb]. apply wp_bind. apply wp_bind.
    eapply wp_conseq; [apply (Z_data_type true s8); auto; unfold fu; lia| |intros ? []].
    intros d s8' [HI8' Hl8']. apply wp_ret. apply wp_bind.
    eapply wp_conseq; [apply (Z_properties true s8'); auto; unfold fu; lia| |w].
    intros ps s9 [HI9 Hl9]. apply wp_bind. eapply W_or_ff_after; [eassumption|]. intros s10 HI10 Hl10 Hlt10 _ Hn10.
    apply wp_ret. unfold nd. splits; auto; try lia. destruct (hd s9) eqn:E9; [left|right; auto].
    specialize (Hlt10 ltac:(congruence)). lia.
Qed.
Hint Resolve Z_class_block_statement : term.

Lemma Z_modifiers_end : forall b s, Inv b s -> hd s = None -> fu 1 s ->
  wp (modifiers n) (fun _ s' => nd b s s' /\ hd s' = None) (fun _ => False) s.
Proof.
  start. unfold modifiers.
  apply wp_ploop with (I := fun _ s' => Inv b s' /\ (len s' <= len s)%nat /\ hd s' = None); [auto|lia|].
  intros m s1 (HI1 & Hl1 & Hx). apply wp_bind. eapply W_one_of; [eassumption| |].
  - intros s2 HI2 Hl2 _ Hh2 Ho. rewrite Hx in Ho. destruct Ho.
  - w.
Qed.

Lemma Z_type_ref_end : forall b s, Inv b s -> hd s = None -> fu 1 s ->
  wp (non_empty_type_ref n) (fun _ s' => nd b s s' /\ hd s' = None) (fun _ => False) s.
Proof.
  start. unfold non_empty_type_ref. apply wp_bind. eapply W_or_ignore; [eassumption|intros; congruence|].
  intros s1 HI1 Hl1 Hh1 _ _. apply wp_bind. eapply W_identifier; [eassumption|].
  intros i s2 HI2 Hl2 [(K1 & K2 & _)|(K1 & _)].
  { exfalso. assert (X : hd s1 = None) by congruence. unfold hd in X. rewrite K1 in X. unfold hdl in X. unfold is_identifier in K2.
    destruct (t_type i); discriminate. }
  apply wp_bind. apply wp_ploop with (I := fun _ s' => Inv b s' /\ (len s' <= len s2)%nat /\ hd s' = None); [splits; auto; congruence|lia|].
  intros l s3 (HI3 & Hl3 & Hn3). apply wp_bind. eapply W_or_ignore; [eassumption|intros; congruence|]. w.
Qed.

Lemma Z_class_block_end : forall s, Inv true s -> fu 1 s -> hd s = None ->
  wp (class_block_statement rec n) (fun _ s' => nd true s s' /\ hd s' = None) (fun s' => nd true s s' /\ hd s' = None) s.
Proof.
  start. unfold class_block_statement. apply wp_bind. eapply W_one_of; [eassumption|intros; exfalso; rewrite H1 in *; assumption|].
  intros s1 HI1 Hl1 Hh1 _. cbv iota. apply wp_bind. eapply W_opt_doc; [eassumption|]. intros dc s2 HI2 Hl2 Hh2 _.
  apply wp_bind. eapply wp_conseq; [apply (Z_attributes_block true s2); auto; unfold fu; lia| |].
  2: { intros s3 (_ & X). congruence. }
  intros at_ s3 ([HI3 Hl3] & _ & Hx3). specialize (Hx3 ltac:(congruence)). apply wp_bind.
  assert (Hd : wp match dc with Some _ => ret dc | None => consume_optional_doc_comment end
      (fun _ s' => Inv true s' /\ len s' = len s3 /\ hd s' = hd s3) (fun _ => False) s3).
  { destruct dc; w. }
  eapply wp_conseq; [apply Hd| |intros ? []]. intros dc' s4 (HI4 & Hl4 & Hh4).
  apply wp_bind. eapply wp_conseq; [apply (Z_modifiers_end true s4); auto; [congruence|unfold fu; lia]| |intros ? []].
  intros [[[? ?] ?] ?] s5 ([HI5 Hl5] & Hx5).
  apply wp_bind. eapply W_or_ignore; [eassumption|intros; congruence|]. intros s6 HI6 Hl6 Hh6 _ _. cbv iota.
  apply wp_bind. eapply W_or_ignore; [eassumption|intros; congruence|]. intros s7 HI7 Hl7 Hh7 _ _. cbv iota.
  apply wp_bind. eapply W_one_of; [eassumption|intros; exfalso; replace (hd s7) with (@None TokenType) in * by congruence; assumption|].
  intros s8 HI8 Hl8 Hh8 _. cbn [negb]. apply wp_bind. apply wp_bind. unfold data_type. apply wp_bind.
  eapply W_or_ignore; [eassumption|intros; congruence|]. intros s9 HI9 Hl9 Hh9 _ _. apply wp_bind. unfold non_empty_type_ref_union.
  apply wp_bind. eapply wp_conseq; [apply (Z_type_ref_end true s9); auto; [congruence|unfold fu; lia]| |intros ? []].
  intros a s10 ([HI10 Hl10] & Hn10).
  apply wp_ploop with (I := fun _ s' => Inv true s' /\ (len s' <= len s10)%nat /\ hd s' = None); [splits; auto|lia|].
  intros l s11 (HI11 & Hl11 & Hn11). apply wp_bind. eapply W_or_ignore; [eassumption|intros; congruence|].
  intros s12 HI12 Hl12 Hh12 _ _. apply wp_ret. apply wp_ret. apply wp_ret. apply wp_bind.
  apply wp_ploop with (I := fun _ s' => Inv true s' /\ (len s' <= len s12)%nat /\ hd s' = None); [splits; auto; congruence|lia|].
  intros l' s13 (HI13 & Hl13 & Hn13). apply wp_bind. eapply W_consume; [eassumption|]. intros v s14 HI14 Hl14 _ _ Hn14.
  specialize (Hn14 Hn13). apply wp_bind. eapply W_one_of; [eassumption|intros; exfalso; rewrite Hn14 in *; assumption|].
  intros s15 HI15 Hl15 Hh15 _. apply wp_bind. apply wp_ret. cbv zeta. apply wp_bind.
  eapply W_one_of; [eassumption|intros; exfalso; replace (hd s15) with (@None TokenType) in * by congruence; assumption|].
  intros s16 HI16 Hl16 Hh16 _. cbn [negb]. apply wp_ret. apply wp_bind. eapply W_or_ff_after; [eassumption|].
  intros s17 HI17 Hl17 _ _ Hn17. apply wp_ret. unfold nd. splits; auto; try lia. apply Hn17. congruence.
Qed.

Lemma Z_class_block : forall s, Inv true s -> fu 1 s ->
  wp (class_block rec n) (fun _ => nd true s) (nd true s) s.
Proof.
  start. unfold class_block. apply wp_bind. eapply W_consume; [eassumption|]. intros oc s1 HI1 Hl1 _ _ _.
  apply wp_bind. eapply wp_loop; [eassumption|lia| |w|w].
  intros l s2 HI2 Hl2. apply wp_bind. eapply W_one_of; [eassumption|w|]. intros s3 HI3 Hl3 Hh3 _. cbv iota.
  apply wp_bind. apply wp_pcatch. destruct (hd s3) as [ty|] eqn:E3.
  - eapply wp_conseq; [apply (Z_class_block_statement s3); auto; [unfold fu; lia|congruence]| |].
    + intros a s4 ([HI4 Hl4] & [Hx|Hx]); cbv zeta; w.
    + intros s4 [HI4 Hl4] e. cbv zeta; w.
  - (* the end of the file *)
    eapply wp_conseq; [apply (Z_class_block_end s3); auto; unfold fu; lia| |].
    + intros a s4 ([HI4 Hl4] & Hx). cbv zeta. w.
    + intros s4 ([HI4 Hl4] & Hx) e. cbv zeta. w.
Qed.
Hint Resolve Z_class_block : term.

Lemma Z_class_statement : forall i f a b s, Inv b s -> b = true \/ hd s = Some TClass -> fu 1 s ->
  wp (class_statement rec n i f a) (fun _ s' => nd b s s' /\ (hd s = Some TClass -> (len s' < len s)%nat))
     (fun s' => nd b s s' /\ (hd s = Some TClass -> (len s' < len s)%nat)) s.
Proof.
  start. unfold class_statement. apply wp_bind. eapply W_opt_doc; [eassumption|]. intros dc s1 HI1 Hl1 Hh1 Hs1.
  apply wp_bind. eapply W_consume; [eassumption|]. intros t s2 HI2 Hl2 Hlt2 K _.
  assert (HI2' : Inv true s2).
  { destruct H0 as [->|Hc]; auto. destruct K as [(K1 & K2 & K3)|(K1 & _)]; [|congruence].
    eapply (Inv_class b s1); eauto. unfold class_keyword. rewrite K2. reflexivity. }
  clear HI2 K. rewrite Hh1 in Hlt2. w.
Qed.

Lemma Z_class_statement_hd : forall i f a b s, Inv b s -> hd s = Some TClass -> fu 1 s ->
  wp (class_statement rec n i f a) (fun _ => pr b s) (pr b s) s.
Proof.
  intros. eapply wp_conseq; [apply (Z_class_statement i f a b s); auto|w|w].
Qed.
Hint Resolve Z_class_statement_hd : term.

Ltac class_start :=
  apply wp_bind; eapply W_consume; [eassumption|];
  let t := fresh "t" in let s1 := fresh "s" in let HI1 := fresh "HI" in let Hl := fresh "Hl" in
  let K1 := fresh "K1" in let K2 := fresh "K2" in let K3 := fresh "K3" in
  intros t s1 HI1 Hl ? [(K1 & K2 & K3)|(K1 & _)] _; [|exfalso; uses; congruence];
  let X := fresh "X" in
  assert (X : Inv true s1) by (eapply Inv_class; [|exact K3|unfold class_keyword; rewrite K2; reflexivity|exact HI1]; eassumption);
  clear K3 HI1; uses.

Lemma Z_abstract_class_statement : forall a b s, Inv b s -> hd s = Some TAbstract -> fu 1 s ->
  wp (abstract_class_statement rec n a) (fun _ => pr b s) (pr b s) s.
Proof.
  start. unfold abstract_class_statement. class_start.
  eapply wp_conseq; [apply (Z_class_statement _ _ _ true); auto; unfold fu; lia|w|w].
Qed.
Lemma Z_final_class_statement : forall a b s, Inv b s -> hd s = Some TFinal -> fu 1 s ->
  wp (final_class_statement rec n a) (fun _ => pr b s) (pr b s) s.
Proof.
  start. unfold final_class_statement. class_start.
  eapply wp_conseq; [apply (Z_class_statement _ _ _ true); auto; unfold fu; lia|w|w].
Qed.
Hint Resolve Z_abstract_class_statement Z_final_class_statement : term.

Lemma Z_anonymous_class : forall a b s, Inv b s -> hd s = Some TClass -> fu 1 s ->
  wp (anonymous_class rec n a) (fun _ => pr b s) (pr b s) s.
Proof. start. unfold anonymous_class. class_start. w. Qed.
Lemma Z_interface : forall b s, Inv b s -> hd s = Some TInterface -> fu 1 s ->
  wp (interface rec n) (fun _ => pr b s) (pr b s) s.
Proof.
  start. unfold interface. apply wp_bind. eapply W_opt_doc; [eassumption|]. intros dc s1 HI1 Hl1 Hh1 Hs1. class_start. w.
Qed.
Lemma Z_trait_statement : forall b s, Inv b s -> hd s = Some TTrait -> fu 1 s ->
  wp (trait_statement rec n) (fun _ => pr b s) (pr b s) s.
Proof.
  start. unfold trait_statement. apply wp_bind. eapply W_opt_doc; [eassumption|]. intros dc s1 HI1 Hl1 Hh1 Hs1. class_start. w.
Qed.
Hint Resolve Z_anonymous_class Z_interface Z_trait_statement : term.

(** ** Expressions *)

Lemma Z_match_body : forall b s, Inv b s -> fu 3 s -> wp (match_body rec n) (fun _ => nd b s) (nd b s) s.
Proof.
  start. unfold match_body. eapply wp_loop; [eassumption|lia| |w|w].
  intros l s1 HI1 Hl1. apply wp_bind. eapply W_one_of; [eassumption|w|]. intros s2 HI2 Hl2 Hh2 _. cbv iota.
  apply wp_bind. eapply W_or_ignore; [eassumption|w|]. intros s3 HI3 Hl3 Hh3 _ _. cbv iota. apply wp_bind.
  apply wp_ploop with (I := fun _ s' => Inv b s' /\ (len s' <= len s3)%nat); [auto|lia|].
  intros p s4 [HI4 Hl4]. w.
Qed.
Hint Resolve Z_match_body : term.

Lemma Z_primary : forall b s, Inv b s -> fu 1 s -> wp (primary rec n) (fun _ => pr b s) (st b s) s.
Proof.
  start. unfold primary.
  apply wp_bind. eapply W_one_of; [eassumption|w|]. intros s1 HI1 Hl1 Hh1 _. cbv iota.
  apply wp_bind. eapply W_one_of; [eassumption|w|]. intros s2 HI2 Hl2 Hh2 _. cbv iota.
  apply wp_bind. eapply W_one_of; [eassumption| |].
  { intros s3 HI3 Hl3 _ Hh3 Ho. cbv iota.
    eapply wp_conseq; [apply (Z_non_empty_type_ref b s3); auto; unfold fu; lia| |intros ? []].
    intros a s4 ([HI4 Hl4] & K1 & K2). split; auto.
    destruct (hd s2) as [ty|] eqn:E; [|destruct Ho]. destruct Ho as [<-|[<-|[]]]; [specialize (K1 Hh3); lia|].
    specialize (K2 _ Hh3 eq_refl). lia. }
  w.
Qed.
Hint Resolve Z_primary : term.

Lemma Z_call : forall b s, Inv b s -> fu 1 s -> wp (call rec n) (fun _ => pr b s) (st b s) s.
Proof. start. unfold call. w. Qed.
Hint Resolve Z_call : term.

Lemma Z_operator_loop : forall bp e b s, Inv b s -> fu 1 s ->
  wp (operator_loop rec n bp e) (fun _ => nd b s) (nd b s) s.
Proof. start. unfold operator_loop. w. Qed.
Hint Resolve Z_operator_loop : term.

Lemma Z_expression_body : forall bp b s, Inv b s -> fu 2 s ->
  wp (expression_body rec n bp) (fun _ => pr b s) (st b s) s.
Proof. start. unfold expression_body. w. Qed.

Lemma Z_expression_statement : forall b s, Inv b s -> fu 3 s ->
  wp (expression_statement rec) (fun _ => pr b s) (st b s) s.
Proof. start. unfold expression_statement. w. Qed.
Hint Resolve Z_expression_statement : term.

(** ** Global variables *)

Lemma Z_variable_plain : forall b s v r, Inv b s -> sig s = v :: r -> t_type v = TVariable -> t_label v <> None ->
  wp (variable rec n) (fun _ s' => pr b s s' /\ sig s' = r) (fun _ => False) s.
Proof.
  start. assert (Hh : hd s = Some TVariable) by (unfold hd; rewrite H0, hdl_cons by congruence; congruence).
  unfold variable. apply wp_bind. eapply W_consume; [eassumption|].
  intros t s1 HI1 Hl1 Hlt1 [(K1 & K2 & K3)|(K1 & _)] _; [|congruence]. uses.
  rewrite H0 in K3. injection K3 as <- ->. destruct (t_label v); [|congruence]. apply wp_ret. leaf.
Qed.

Lemma gl_hd : forall s, global_list (sig s) -> hd s = Some TVariable.
Proof. intros s H. unfold hd. inversion H; rewrite hdl_cons by congruence; congruence. Qed.

(** what is left behind a variable *)
Inductive global_rest : list Token -> Prop :=
| gr_end : forall t r, t_type t = TSemicolon -> global_rest (t :: r)
| gr_more : forall t r, t_type t = TComma -> global_list r -> global_rest (t :: r).

Lemma Z_global_variable : forall b s, Inv b s -> global_list (sig s) ->
  wp (variable rec n) (fun _ s' => pr b s s' /\ global_rest (sig s')) (fun _ => False) s.
Proof.
  intros b s HI Hg. inversion Hg as [v semi r Hv Hl Hs E|v comma r Hv Hl Hs Hr E]; subst;
    (eapply wp_conseq; [eapply Z_variable_plain; eauto| |auto]); intros a s' [Hp ->]; split; auto.
  - apply gr_end; auto.
  - apply gr_more; auto.
Qed.

Lemma gr_hd : forall s, global_rest (sig s) -> hd s = Some TSemicolon \/ hd s = Some TComma.
Proof. intros s H. unfold hd. inversion H; rewrite hdl_cons by congruence; [left|right]; congruence. Qed.

Lemma Z_global_variables : forall b s, Inv b s -> hd s = Some TGlobal -> fu 1 s ->
  wp (global_variables rec n) (fun _ => pr b s) (pr b s) s.
Proof.
  start. unfold global_variables. apply wp_bind. eapply W_consume; [eassumption|].
  intros t s1 HI1 Hl1 Hlt1 [(K1 & K2 & K3)|(K1 & _)] _; [|congruence]. uses.
  assert (Hg : global_list (sig s1)).
  { destruct H as [Hc _]. rewrite K3 in Hc. destruct Hc as [Hc _]. rewrite K2 in Hc. exact Hc. }
  apply wp_bind. eapply wp_conseq; [apply (Z_global_variable b s1); auto| |intros ? []].
  intros v s2 [[HI2 Hl2] Hr2]. apply wp_bind.
  assert (Hcont : forall s3, Inv b s3 -> (len s3 <= len s2)%nat -> hd s3 = Some TSemicolon \/ global_list (sig s3) ->
    wp (vars <- ploop n (fun vars =>
            b <- next_token_one_of [TSemicolon] ;;
            if b then break vars
            else
              v <- variable rec n ;;
              let vars := vars ++ [v] in
              b <- next_token_one_of [TSemicolon] ;;
              if b then break vars
              else (consume_or_ff_after TComma [TSemicolon] ;;; continue vars)) [v] ;;
        consume_or_ff_after TSemicolon [TSemicolon] ;;;
        ret (NGlobalVariablesStatement t vars)) (fun _ => pr b s) (pr b s) s3).
  { intros s3 HI3 Hl3 Hj3. apply wp_bind.
    apply wp_ploop with (I := fun _ s' => Inv b s' /\ (len s' <= len s3)%nat /\
      (hd s' = Some TSemicolon \/ global_list (sig s'))); [auto|lia|].
    intros l s4 (HI4 & Hl4 & Hj4). apply wp_bind. eapply W_one_of_sig; [eassumption|w|].
    intros s5 HI5 Hl5 Hh5 Hn5 _ Hs5. cbv iota.
    destruct Hj4 as [Hj4|Hj4]; [exfalso; apply Hn5; rewrite Hj4; left; reflexivity|].
    rewrite <- Hs5 in Hj4 by (rewrite (gl_hd _ Hj4); discriminate).
    apply wp_bind. eapply wp_conseq; [apply (Z_global_variable b s5); auto| |intros ? []].
    intros u s6 [[HI6 Hl6] Hr6]. cbv zeta. apply wp_bind. eapply W_one_of_sig; [eassumption|w|].
    intros s7 HI7 Hl7 Hh7 Hn7 _ Hs7. cbv iota.
    assert (Hc : hd s6 = Some TComma).
    { destruct (gr_hd _ Hr6) as [X|X]; auto. exfalso. apply Hn7. rewrite X. left. reflexivity. }
    rewrite <- Hs7 in Hr6 by congruence. apply wp_bind. eapply W_or_ff_after; [eassumption|].
    intros s8 HI8 Hl8 Hlt8 Hs8 _. destruct (Hs8 ltac:(congruence)) as (c & Hc8 & E8). apply wp_ret.
    splits; auto; try lia. right. rewrite E8 in Hr6. inversion Hr6; subst; [congruence|auto]. }
  eapply W_or_ignore; [eassumption| |].
  - intros c s3 HI3 Hl3 Hh3 Hs3 Hc. apply Hcont; auto; try lia. right. rewrite Hs3 in Hr2. inversion Hr2; subst; [congruence|auto].
  - intros s3 HI3 Hl3 Hh3 Hn3 Hs3. apply Hcont; auto. left. destruct (gr_hd _ Hr2); congruence.
Qed.
Hint Resolve Z_global_variables : term.

(** ** Statements *)

Lemma Z_statements_loop : forall l b s, Inv' b s -> fu 4 s -> ~ In (TScriptStart Regular) l -> ~ In (TScriptStart Short) l ->
  wp (statements_loop rec n (next_token_one_of l)) (fun _ => nd b s) (nd b s) s.
Proof.
  start. unfold statements_loop.
  apply wp_ploop with (I := fun _ s' => Inv' b s' /\ (len s' <= len s)%nat); [auto|lia|].
  intros sts s1 [HI1 Hl1]. apply wp_bind. eapply W_one_of'; [eassumption|auto|auto|w|].
  intros s2 HI2 Hl2 Hh2 _. cbv iota. apply wp_bind. eapply W_peek'; [eassumption| |w].
  intros t r s3 HI3 Hl3 Hc3 _ Hs3 Hh3 Hh3'. apply wp_bind. apply wp_pcatch.
  eapply wp_conseq; [apply (Hstmt b s3); auto; unfold fu; lia| |].
  - intros a s4 [HI4 Hl4]. apply wp_bind. eapply W_flush; [eassumption|]. intros x s5 HI5 Hl5. apply wp_ret.
    splits; auto; lia.
  - intros s4 (HI4 & Hl4 & Hlt4) e. specialize (Hlt4 ltac:(congruence)). w.
Qed.

Lemma Z_block_body : forall b s, Inv b s -> fu 4 s -> wp (block_body rec n) (fun _ => nd b s) (nd b s) s.
Proof.
  start. unfold block_body. apply wp_bind. eapply W_consume; [eassumption|]. intros oc s1 HI1 Hl1 _ _ _.
  apply wp_bind. eapply wp_conseq; [apply (Z_statements_loop [TCloseCurly] b s1);
    [apply Inv_Inv'; auto|unfold fu; lia|cbn; intuition discriminate|cbn; intuition discriminate]|w|w].
Qed.
Lemma Z_block_body_hd : forall b s, Inv b s -> hd s = Some TOpenCurly -> fu 1 s ->
  wp (block_body rec n) (fun _ => pr b s) (pr b s) s.
Proof.
  start. unfold block_body. apply wp_bind. eapply W_consume; [eassumption|]. intros oc s1 HI1 Hl1 Hlt1 _ _. uses.
  apply wp_bind. eapply wp_conseq; [apply (Z_statements_loop [TCloseCurly] b s1);
    [apply Inv_Inv'; auto|unfold fu; lia|cbn; intuition discriminate|cbn; intuition discriminate]|w|w].
Qed.

Lemma Z_alternative_block : forall ty b s, Inv b s -> fu 4 s ->
  wp (alternative_block rec n ty) (fun _ => nd b s) (nd b s) s.
Proof.
  start. unfold alternative_block. apply wp_bind. eapply W_consume; [eassumption|]. intros oc s1 HI1 Hl1 _ _ _.
  apply wp_bind. eapply wp_conseq; [apply (Z_statements_loop [TEndFor; TEndForeach; TEndWhile; TEndIf] b s1);
    [apply Inv_Inv'; auto|unfold fu; lia|cbn; intuition discriminate|cbn; intuition discriminate]|w|w].
Qed.
Hint Resolve Z_alternative_block : term.

Lemma Z_alternative_block_or_statement : forall ty b s, Inv b s -> fu 4 s ->
  wp (alternative_block_or_statement rec n ty) (fun _ s' => Inv' b s' /\ (len s' <= len s)%nat) (nd b s) s.
Proof. start. unfold alternative_block_or_statement. w. Qed.
Hint Resolve Z_alternative_block_or_statement : term.

Lemma set_script : forall b s (Q : unit -> pst -> Prop) F, Inv b s ->
  (forall s', Inv b s' -> len s' = len s -> hd s' = hd s -> sig s' = sig s -> Q tt s') -> wp (set_ctx CtxScript) Q F s.
Proof.
  intros b s Q F [H1 H2] HQ. unfold wp, set_ctx. apply HQ; auto. split; [exact H1|left; reflexivity].
Qed.

Lemma Z_inline_html : forall b s, Inv b s -> hd s = Some TScriptEnd -> fu 1 s ->
  wp (inline_html rec n) (fun _ => pr b s) (pr b s) s.
Proof.
  start. unfold inline_html. apply wp_bind. eapply W_consume; [eassumption|].
  intros t s1 HI1 Hl1 Hlt1 [(K1 & K2 & K3)|(K1 & _)] _; [|congruence]. uses.
  apply wp_bind. eapply W_one_of; [eassumption| |].
  - intros s2 HI2 Hl2 _ Hh2 Ho. exfalso. uses. apply hdl_some in Eh. destruct Eh as (u & r & E & Hu).
    destruct HI1 as [Hc _]. rewrite E in Hc. destruct Hc as [Hc _]. rewrite Hu in Hc. exact Hc.
  - intros s2 HI2 Hl2 Hh2 _. cbv iota. apply wp_bind. eapply W_one_of_or_ignore; [eassumption| |].
    + intros u s3 HI3 Hl3 _ _. apply wp_bind. eapply set_script; [eassumption|]. intros s4 HI4 Hl4 _ _. w.
    + intros s3 HI3 Hl3 _ _. apply wp_bind. eapply set_script; [eassumption|]. intros s4 HI4 Hl4 _ _. w.
Qed.
Hint Resolve Z_inline_html : term.

Lemma Z_if_statements : forall b s, Inv' b s -> fu 4 s ->
  wp (if_statements rec n) (fun _ => nd b s) (nd b s) s.
Proof.
  start. unfold if_statements.
  apply wp_ploop with (I := fun _ s' => Inv' b s' /\ (len s' <= len s)%nat); [auto|lia|].
  intros sts s1 [HI1 Hl1]. w.
Qed.
Hint Resolve Z_if_statements : term.

Definition OK' {A} (b : bool) (s : pst) : A -> pst -> Prop := fun _ s' => Inv' b s' /\ (len s' < len s)%nat.

Lemma Z_if_statement : forall b s, Inv b s -> hd s = Some TIf -> fu 1 s ->
  wp (if_statement rec n) (OK' b s) (pr b s) s.
Proof.
  start. unfold if_statement. apply wp_bind. eapply W_consume; [eassumption|]. intros t s1 HI1 Hl1 Hlt1 _ _. uses.
  apply wp_bind. eapply W_consume; [eassumption|]. intros op s2 HI2 Hl2 _ _ _.
  apply wp_bind. eapply wp_conseq; [apply (Hexpr 0 b s2); auto; unfold fu; lia| |w].
  intros e s3 [HI3 Hl3]. apply wp_bind. eapply W_consume; [eassumption|]. intros cp s4 HI4 Hl4 _ _ _.
  apply wp_bind. eapply W_or_ignore; [eassumption| |].
  - intros c s5 HI5 Hl5 _ _ _. unfold OK'. w.
  - intros s5 HI5 Hl5 _ _ _. cbv iota. apply wp_bind.
    eapply wp_conseq; [apply (Hstmt b s5); [apply Inv_Inv'; auto|unfold fu; lia]| |w].
    intros a s6 [HI6 Hl6]. cbv zeta. apply wp_bind.
    apply wp_ploop with (I := fun _ s' => Inv' b s' /\ (len s' <= len s6)%nat); [auto|lia|].
    intros l s7 [HI7 Hl7]. unfold OK'. w.
Qed.
Hint Resolve Z_if_statement : term.

Lemma Z_case_list : forall b s, Inv b s -> fu 1 s ->
  wp (case_list rec n) (fun _ s' => nd b s s' /\ ((len s' < len s)%nat \/ hd s' = hd s /\ hd s <> Some TCase /\ hd s <> Some TDefault))
     (nd b s) s.
Proof.
  start. unfold case_list.
  apply wp_ploop with (I := fun _ s' => Inv b s' /\ (len s' <= len s)%nat /\ ((len s' < len s)%nat \/ hd s' = hd s)); [auto|lia|].
  intros l s1 (HI1 & Hl1 & Hx). apply wp_bind. eapply W_peek; [eassumption| |].
  - intros t r s2 HI2 Hl2 _ _ Hh Hh2. destruct (tt_eqb_spec (t_type t) TDefault) as [E|E].
    + w.
    + destruct (tt_eqb_spec (t_type t) TCase) as [E1|E1].
      * w.
      * apply wp_ret. unfold nd. splits; auto; try lia. destruct Hx as [Hx|Hx]; [left; lia|right]. splits; congruence.
  - intros s2 HI2 Hl2 Hn Hn2. apply wp_ret. unfold nd. splits; auto; try lia. destruct Hx as [Hx|Hx]; [left; lia|right]. splits; congruence.
Qed.


Lemma Z_switch_branches : forall ty l0 b s, Inv b s -> fu 4 s ->
  ty = TEndSwitch \/ ty = TCloseCurly ->
  wp (ploop n (fun branches =>
    b <- next_token_one_of [ty] ;;
    if b then break branches
    else
      cases <- case_list rec n ;;
      body <- ploop n (fun statements =>
        b <- next_token_one_of [ty; TCase; TDefault] ;;
        if b then break statements
        else (s <- r_stmt rec ;; continue (statements ++ [s]))) [] ;;
      continue (branches ++ [(NSwitchBranch cases body)])) l0) (fun _ => nd b s) (nd b s) s.
Proof.
  start. eapply wp_loop; [eassumption|lia| |w|w]. intros l s1 HI1 Hl1.
  apply wp_bind. eapply W_one_of; [eassumption|w|]. intros s2 HI2 Hl2 Hh2 Hn2. cbv iota.
  apply wp_bind. eapply wp_conseq; [apply (Z_case_list b s2); auto; unfold fu; lia| |w].
  intros cs s3 ([HI3 Hl3] & Hx3). apply wp_bind.
  apply wp_ploop with (I := fun _ s' => Inv' b s' /\ (len s' <= len s3)%nat /\ ((len s' < len s3)%nat \/ hd s' = hd s3));
    [splits; auto; apply Inv_Inv'; auto|lia|].
  intros sts s4 (HI4 & Hl4 & Hx4). apply wp_bind.
  eapply W_one_of'; [eassumption|destruct H1 as [-> | ->]; cbn; intuition discriminate
    |destruct H1 as [-> | ->]; cbn; intuition discriminate| |].
  - intros s5 HI5 Hl5 _ Hh5 Ho. apply wp_ret. apply wp_ret. split; auto.
    destruct Hx4 as [Hx4|Hx4]; [lia|]. destruct Hx3 as [Hx3|(Hx3 & N1 & N2)]; [lia|]. exfalso.
    rewrite Hx4, Hx3 in Ho. destruct (hd s2) as [k|]; [|exact Ho]. destruct Ho as [<-|[<-|[<-|[]]]]; try congruence.
    apply Hn2. rewrite <- Hh2. left. reflexivity.
  - intros s5 HI5 Hl5 Hh5 _. cbv iota. w.
Qed.

Lemma Z_switch_body : forall b s, Inv b s -> fu 4 s -> wp (switch_body rec n) (fun _ => nd b s) (nd b s) s.
Proof.
  start. unfold switch_body. apply wp_bind.
  eapply W_one_of; [eassumption| |]; [intros s1 HI1 Hl1 _ _ _|intros s1 HI1 Hl1 _ _]; cbv iota; apply wp_bind; apply wp_bind;
    (eapply W_consume; [eassumption|]); intros t s2 HI2 Hl2 _ _ _; apply wp_ret; cbv zeta; apply wp_bind;
    (eapply wp_conseq; [apply Z_switch_branches; [eassumption|unfold fu; lia|cbn; auto]|w|w]).
Qed.
Hint Resolve Z_switch_body : term.

Lemma Z_switch_statement : forall b s, Inv b s -> hd s = Some TSwitch -> fu 1 s ->
  wp (switch_statement rec n) (fun _ => pr b s) (pr b s) s.
Proof. start. unfold switch_statement. w. Qed.
Hint Resolve Z_switch_statement : term.
Lemma Z_for_part : forall ty b s, Inv b s -> fu 3 s ->
  wp (for_part rec n ty) (fun _ => nd b s) (nd b s) s.
Proof. start. unfold for_part. w. Qed.
Hint Resolve Z_for_part : term.
Lemma Z_for_statement : forall b s, Inv b s -> hd s = Some TFor -> fu 1 s ->
  wp (for_statement rec n) (OK' b s) (pr b s) s.
Proof. start. unfold for_statement, OK'. w. Qed.
Hint Resolve Z_for_statement : term.
Lemma Z_while_statement : forall b s, Inv b s -> hd s = Some TWhile -> fu 1 s ->
  wp (while_statement rec n) (OK' b s) (pr b s) s.
Proof. start. unfold while_statement, OK'. w. Qed.
Hint Resolve Z_while_statement : term.
Lemma Z_foreach_statement : forall b s, Inv b s -> hd s = Some TForeach -> fu 1 s ->
  wp (foreach_statement rec n) (OK' b s) (pr b s) s.
Proof. start. unfold foreach_statement, OK'. w. Qed.
Hint Resolve Z_foreach_statement : term.
(** a statement in front of [{] is a block *)
Hypothesis Hstmt_block : forall b s, Inv b s -> hd s = Some TOpenCurly -> p_ctx s = CtxScript -> fu 4 s ->
  wp (r_stmt rec) (fun _ => pr b s) (pr b s) s.

Lemma Z_do_while_statement : forall b s, Inv b s -> hd s = Some TDo -> fu 1 s ->
  wp (do_while_statement rec) (fun _ => pr b s) (pr b s) s.
Proof.
  start. unfold do_while_statement. apply wp_bind. eapply W_consume; [eassumption|].
  intros t s1 HI1 Hl1 Hlt1 [(K1 & K2 & K3)|(K1 & _)] _; [|congruence]. uses.
  assert (Hb : hd s1 = Some TOpenCurly).
  { destruct H as [Hc _]. rewrite K3 in Hc. destruct Hc as [Hc _]. rewrite K2 in Hc. unfold hd.
    destruct (sig s1) as [|u r]; [destruct Hc|]. destruct Hc as [Hc|[]]. rewrite hdl_cons by congruence. congruence. }
  apply wp_bind. eapply wp_conseq; [apply (Hstmt_block b s1); auto| |w].
  - destruct HI1 as [_ [X|X]]; [auto|congruence].
  - unfold fu; lia.
  - w.
Qed.
Hint Resolve Z_do_while_statement : term.

Lemma Z_catch_block : forall b s, Inv b s -> hd s = Some TCatch -> fu 1 s ->
  wp (catch_block rec n) (fun _ => pr b s) (pr b s) s.
Proof. start. unfold catch_block. w. Qed.
Hint Resolve Z_catch_block : term.
Lemma Z_try_catch_statement : forall b s, Inv b s -> hd s = Some TTry -> fu 1 s ->
  wp (try_catch_statement rec n) (fun _ => pr b s) (pr b s) s.
Proof. start. unfold try_catch_statement. w. Qed.
Hint Resolve Z_try_catch_statement : term.
Lemma Z_throw_statement : forall b s, Inv b s -> hd s = Some TThrow -> fu 1 s ->
  wp (throw_statement rec) (fun _ => pr b s) (pr b s) s.
Proof. start. unfold throw_statement. w. Qed.
Hint Resolve Z_throw_statement : term.
Lemma Z_namespace_statement : forall b s, Inv b s -> hd s = Some TNamespace -> fu 1 s ->
  wp (namespace_statement rec n) (fun _ => pr b s) (pr b s) s.
Proof. start. unfold namespace_statement. w. Qed.
Hint Resolve Z_namespace_statement : term.
Lemma Z_symbol_import : forall b s, Inv b s -> fu 1 s ->
  wp (symbol_import n) (fun _ => nd b s) (nd b s) s.
Proof. start. unfold symbol_import. w. Qed.
Hint Resolve Z_symbol_import : term.
Lemma Z_symbol_imports : forall b s, Inv b s -> fu 1 s ->
  wp (symbol_imports n) (fun _ => nd b s) (nd b s) s.
Proof. start. unfold symbol_imports. w. Qed.
Hint Resolve Z_symbol_imports : term.
Lemma Z_use_function_statement : forall t b s, Inv b s -> fu 1 s ->
  wp (use_function_statement n t) (fun _ => nd b s) (nd b s) s.
Proof. start. unfold use_function_statement. w. Qed.
Hint Resolve Z_use_function_statement : term.
Lemma Z_use_const_statement : forall t b s, Inv b s -> fu 1 s ->
  wp (use_const_statement n t) (fun _ => nd b s) (nd b s) s.
Proof. start. unfold use_const_statement. w. Qed.
Hint Resolve Z_use_const_statement : term.
Lemma Z_use_statement : forall t b s, Inv b s -> fu 1 s ->
  wp (use_statement n t) (fun _ => nd b s) (nd b s) s.
Proof. start. unfold use_statement. w. Qed.
Hint Resolve Z_use_statement : term.

(** [?>] behind an expression: outside of the script, in front of a tag or at the end *)
Lemma leave_script : forall b s t s1 (Q : unit -> pst -> Prop) F,
  Inv b s -> sig s = t :: sig s1 -> t_type t = TScriptEnd -> Inv b s1 ->
  (forall s', Inv' b s' -> len s' = len s1 -> Q tt s') -> wp (set_ctx CtxOut) Q F s1.
Proof.
  intros b s t s1 Q F [Hc _] E Ht [Hc1 _] HQ. unfold wp, set_ctx. apply HQ; auto. split; [exact Hc1|].
  rewrite E in Hc. destruct Hc as [Hc _]. rewrite Ht in Hc. unfold inside, at_tag, hd, sig in *. cbn [p_ctx p_toks].
  destruct (filter significant (p_toks s1)) as [|u r] eqn:El; [left; right; reflexivity|].
  destruct Hc as [Hc|Hc]; [discriminate|]. cbn [starts_with] in Hc. cbn [hdl].
  destruct Hc as [Hc|[Hc|[Hc|[]]]]; rewrite <- Hc; auto.
Qed.

Lemma Z_expression_end : forall b s, Inv b s -> fu 3 s ->
  wp (expr <- expression_statement rec ;;
      b <- next_token_one_of [TScriptEnd] ;;
      (if b then (consume TScriptEnd ;;; set_ctx CtxOut)
       else consume_or_ff_after TSemicolon [TSemicolon]) ;;;
      ret expr) (OK' b s) (st b s) s.
Proof.
  start. apply wp_bind. eapply wp_conseq; [apply (Z_expression_statement b s); auto| |w].
  intros e s1 [HI1 Hl1]. apply wp_bind. eapply W_one_of; [eassumption| |unfold OK'; w].
  intros s2 HI2 Hl2 _ Hh2 Ho. uses. apply wp_bind. apply wp_bind. eapply W_consume; [eassumption|].
  intros t s3 HI3 Hl3 Hlt3 [(K1 & K2 & K3)|(K1 & _)] _; [|congruence].
  eapply (leave_script b s2 t s3); auto. intros s4 HI4 Hl4. apply wp_ret. unfold OK'. split; auto. lia.
Qed.

Lemma Z_expression_or_label : forall b s, Inv b s -> hd s <> None -> fu 3 s ->
  wp (expression_or_label rec n) (OK' b s) (pr b s) s.
Proof.
  intros b s HI Hn Hf.
  assert (Hend : forall s1, Inv b s1 -> (len s1 <= len s)%nat -> hd s1 <> None ->
     wp (expr <- expression_statement rec ;;
         b <- next_token_one_of [TScriptEnd] ;;
         (if b then (consume TScriptEnd ;;; set_ctx CtxOut)
          else consume_or_ff_after TSemicolon [TSemicolon]) ;;;
         ret expr) (OK' b s) (pr b s) s1).
  { intros s1 HI1 Hl1 Hn1. eapply wp_conseq; [apply (Z_expression_end b s1); auto; unfold fu in *; lia| |].
    - intros a s2 [H1 H2]. split; auto. lia.
    - intros s2 (H1 & H2 & H3). split; auto. specialize (H3 Hn1). lia. }
  unfold fu in *. unfold expression_or_label. apply wp_bind. apply wp_ctx; [apply keeps_or_ignore|].
  eapply W_or_ignore; [eassumption| |].
  - intros t s1 HI1 Hl1 Hh Hs Ht Hc1. apply wp_bind. apply wp_bind. apply wp_ctx; [apply keeps_one_of|].
    eapply W_one_of_sig; [eassumption| |].
    + intros s2 HI2 Hl2 _ _ _ _. unfold OK'. w.
    + intros s2 HI2 Hl2 Hh2 _ Hp2 Hs2 Hc2. cbv iota. apply wp_bind.
      eapply (W_push_back b s s1 s2); eauto; try congruence.
      intros s3 HI3 Hl3 Hh3 _. apply wp_ret. cbv iota. apply Hend; auto; [lia|congruence].
  - intros s1 HI1 Hl1 Hh1 Hn1 Hs1 Hc1. cbv iota. apply wp_bind. apply wp_bind. apply wp_ctx; [apply keeps_or_ignore|].
    eapply W_or_ignore; [eassumption| |].
    + intros t s2 HI2 Hl2 Hh2 Hs2 Ht Hc2. apply wp_bind. apply wp_ctx; [apply keeps_or_ignore|].
      eapply W_or_ignore_sig; [eassumption| |].
      * intros u s3 HI3 Hl3 _ _ _ _. apply wp_ret. unfold OK'. w.
      * intros s3 HI3 Hl3 Hh3 _ Hp3 Hs3 Hc3. cbv iota. apply wp_bind.
        eapply (W_push_back b s1 s2 s3); eauto; try congruence.
        intros s4 HI4 Hl4 Hh4 _. apply wp_ret. cbv iota. apply Hend; auto; [lia|congruence].
    + intros s2 HI2 Hl2 Hh2 _ _ _. apply wp_ret. cbv iota. apply Hend; auto; [lia|congruence].
Qed.
Hint Resolve Z_expression_or_label : term.

Lemma Z_statement_in_script : forall b s, Inv b s -> fu 3 s ->
  wp (statement_in_script rec n) (OK' b s) (st b s) s.
Proof.
  start. unfold statement_in_script. apply wp_bind.
  eapply wp_conseq; [apply (Z_attributes_block b s); auto; unfold fu; lia| |w].
  intros at_ s1 ([HI1 Hl1] & Hx1 & _). apply wp_bind. eapply W_peek; [eassumption| |].
  2: { intros s2 HI2 Hl2 Hn _. apply wp_fail. unfold st. splits; auto; try lia. intros Hs. destruct Hx1; [lia|congruence]. }
  intros t r s2 HI2 Hl2 _ _ _ Hh2. clear Hx1.
  assert (Hfin : forall m : P Node, wp m (OK' b s2) (pr b s2) s2 -> wp m (OK' b s) (st b s) s2).
  { intros m Hm. eapply wp_conseq; [exact Hm|intros a s' [? ?]; split; auto; lia|].
    intros s' [? ?]. unfold st. splits; auto; lia. }
  assert (Hfin' : forall m : P Node, wp m (fun _ => pr b s2) (pr b s2) s2 -> wp m (OK' b s) (st b s) s2).
  { intros m Hm. apply Hfin. eapply wp_conseq; [exact Hm| |auto]. intros a s' [? ?]. split; auto. apply Inv_Inv'; auto. }
  destruct (t_type t) eqn:Et;
    first [apply Hfin'; solve [eauto 2 with term nocore | eapply Z_inline_html; eauto; unfold fu; lia]
          | apply Hfin; apply Z_expression_or_label; [auto|congruence|unfold fu; lia]
          | apply Hfin; solve [eauto 2 with term nocore]
          | idtac].
  all: try (apply Hfin'; w; fail).
Qed.


Lemma Z_statement_body : forall b s, Inv' b s -> fu 3 s ->
  wp (statement_body rec n) (OK' b s) (st b s) s.
Proof.
  intros b s HI Hf. unfold statement_body, wp, bind at 1, get_ctx.
  destruct (p_ctx s) eqn:Ec.
  - assert (HI0 : calm b (sig s)) by apply HI.
    change (wp (p <- peek ;; match p with
      | None => statement_in_script rec n
      | Some token =>
          match t_type token with
          | TScriptStart Regular | TScriptStart Short =>
              set_ctx CtxScript ;;;
              next ;;;
              p <- peek ;;
              match p with
              | None => ret NEmptyScript
              | Some _ => statement_in_script rec n
              end
          | TScriptStart EchoTag =>
              expr <- pcatch (short_tag_echo_statement rec n) ;;
              b <- next_token_one_of [TScriptStart Regular; TScriptStart Short] ;;
              (if b then (set_ctx CtxScript ;;; next ;;; ret tt) else ret tt) ;;;
              match expr with
              | inl e => ret e
              | inr e => fail e
              end
          | _ => fail (EUnexpectedToken token)
          end
      end) (OK' b s) (st b s) s).
    apply wp_bind. eapply W_peek'; [eassumption| |].
    + intros t r s1 HI1 Hl1 Hc1 Ht1 Hs1 Hh Hh1.
      destruct HI1 as [Hc [[Hin|Hin]|[_ Htag]]]; [congruence|congruence|].
      assert (Hty : t_type t = TScriptStart Regular \/ t_type t = TScriptStart Short) by (destruct Htag; [left|right]; congruence).
      assert (X : wp (set_ctx CtxScript ;;; next ;;; p <- peek ;;
                      match p with None => ret NEmptyScript | Some _ => statement_in_script rec n end)
                  (OK' b s) (st b s) s1).
      { apply wp_bind. unfold wp at 1, set_ctx. set (s2 := mkPst _ _ _ _ _ _).
        assert (HI2 : Inv b s2) by (split; [exact Hc|left; reflexivity]).
        assert (Hh2 : hd s2 = Some (t_type t)) by exact Hh1.
        assert (Hl2 : len s2 = len s1) by reflexivity. clearbody s2. unfold fu in *.
        apply wp_bind. eapply W_next; [eassumption| |intros; exfalso; congruence].
        intros u s3 HI3 Hl3 _. apply wp_bind. eapply W_peek; [eassumption| |].
        - intros v r4 s4 HI4 Hl4 _ _ _ _. eapply wp_conseq; [apply (Z_statement_in_script b s4); auto; unfold fu; lia| |].
          + intros a s5 [? ?]. split; auto. lia.
          + intros s5 (? & ? & ?). unfold st. splits; auto; lia.
        - intros s4 HI4 Hl4 _ _. apply wp_ret. split; [apply Inv_Inv'; auto|lia]. }
      destruct Hty as [Hty|Hty]; rewrite Hty; exact X.
    + intros s1 HI1 Hl1 Hn Hn1. eapply wp_conseq; [apply (Z_statement_in_script b s1); auto; unfold fu in *; lia| |].
      * intros a s2 [? ?]. split; auto. lia.
      * intros s2 (? & ? & ?). unfold st. splits; auto; try lia. congruence.
  - assert (HIs : Inv b s). { destruct HI as [H1 [H2|[H2 _]]]; [split; auto|congruence]. }
    change (wp (statement_in_script rec n) (OK' b s) (st b s) s). apply Z_statement_in_script; auto.
Qed.

Lemma attributes_none : forall b s, Inv b s -> hd s <> Some TAttributeStart -> (0 < n)%nat ->
  wp (attributes_block rec n) (fun _ s' => Inv b s' /\ (len s' <= len s)%nat /\ hd s' = hd s) (fun _ => False) s.
Proof.
  intros b s HI Hn Hf. unfold attributes_block. destruct n as [|m]; [lia|]. unfold wp. cbn [ploop].
  match goal with |- match ?x s with POk a s' => @?Q a s' | PFail _ s2 => @?F s2 | _ => _ end => change (wp x Q F s) end.
  apply wp_bind. apply wp_bind. eapply W_one_of; [eassumption| |].
  - intros s1 _ _ _ _ Ho. uses. congruence.
  - intros s1 HI1 Hl1 Hh1 _. cbv iota. apply wp_ret. apply wp_ret. auto.
Qed.

Lemma Z_statement_block : forall b s, Inv b s -> hd s = Some TOpenCurly -> p_ctx s = CtxScript -> fu 3 s ->
  wp (statement_body rec n) (fun _ => pr b s) (pr b s) s.
Proof.
  intros b s HI Hh Hc Hf. unfold statement_body, wp, bind at 1, get_ctx. rewrite Hc.
  change (wp (statement_in_script rec n) (fun _ => pr b s) (pr b s) s). unfold statement_in_script. unfold fu in *.
  apply wp_bind. eapply wp_conseq; [apply (attributes_none b s); auto; [congruence|lia]| |intros ? []].
  intros at_ s1 (HI1 & Hl1 & Hh1). apply wp_bind. eapply W_peek; [eassumption| |intros; exfalso; congruence].
  intros t r s2 HI2 Hl2 _ _ Hht Hh2. assert (Ht : t_type t = TOpenCurly) by congruence. rewrite Ht.
  eapply wp_conseq; [apply (Hblock' b s2); auto; [congruence|unfold fu; lia]| |].
  - intros a s3 [? ?]. split; auto. lia.
  - intros s3 [? ?]. split; auto. lia.
Qed.

End Grammar.

(** * The whole parser *)

Section Whole.
Context `{RT : Runtime}.

Record Finishes (n : nat) : Prop := {
  f_expr : forall bp b s, Inv b s -> fu n 3 s -> wp (r_expr (run n) bp) (fun _ => pr b s) (st b s) s;
  f_call : forall b s, Inv b s -> fu n 2 s -> wp (r_call (run n)) (fun _ => pr b s) (st b s) s;
  f_stmt : forall b s, Inv' b s -> fu n 4 s -> wp (r_stmt (run n)) (fun _ s' => Inv' b s' /\ (len s' < len s)%nat) (st b s) s;
  f_block : forall b s, Inv b s -> fu n 5 s -> wp (r_block (run n)) (fun _ => nd b s) (nd b s) s;
  f_block' : forall b s, Inv b s -> hd s = Some TOpenCurly -> fu n 2 s -> wp (r_block (run n)) (fun _ => pr b s) (pr b s) s;
  f_stmt' : forall b s, Inv b s -> hd s = Some TOpenCurly -> p_ctx s = CtxScript -> fu n 4 s ->
    wp (r_stmt (run n)) (fun _ => pr b s) (pr b s) s
}.

Lemma finishes : forall n, Finishes n.
Proof.
  induction n as [|n [H1 H2 H3 H4 H5 H6]]; [split; unfold fu; intros; exfalso; lia|].
  split; unfold fu in *; cbn [run r_expr r_call r_stmt r_block]; intros.
  - eapply Z_expression_body; eauto. unfold fu. lia.
  - eapply Z_call; eauto. unfold fu. lia.
  - eapply Z_statement_body; eauto. unfold fu. lia.
  - eapply Z_block_body; eauto. unfold fu. lia.
  - eapply Z_block_body_hd; eauto. unfold fu. lia.
  - eapply Z_statement_block; eauto. unfold fu. lia.
Qed.

Lemma ast_finishes : forall n ts,
  calm false (filter significant ts) ->
  starts_with [TScriptStart Regular; TScriptStart Short] (filter significant ts) ->
  (6 * List.length ts + 4 <= n)%nat -> ast n ts <> PFuel.
Proof.
  intros n ts Hc Hs Hn. unfold ast. destruct ts as [|t0 ts0]; [discriminate|]. set (ts := t0 :: ts0) in *.
  enough (Hw : wp (ast_loop n) (fun _ _ => True) (fun _ => True) (parser_new ts)).
  { unfold wp in Hw. destruct (ast_loop n (parser_new ts)); congruence || contradiction. }
  unfold ast_loop, statements_loop. set (s := parser_new ts).
  assert (HI : Inv' false s).
  { split; [exact Hc|]. right. split; [reflexivity|]. unfold hd. change (sig s) with (filter significant ts).
    destruct (filter significant ts) as [|u r]; [destruct Hs|]. destruct Hs as [Hs|[Hs|[]]]; cbn [hdl]; rewrite <- Hs; auto. }
  assert (Hl : len s = List.length ts) by reflexivity. clearbody s.
  apply wp_ploop with (I := fun _ s' => Inv' false s' /\ (len s' <= len s)%nat); [auto|lia|].
  intros sts s1 [HI1 Hl1]. apply wp_bind. apply wp_ret. cbv iota. apply wp_bind. eapply W_peek'; [eassumption| |].
  2: { intros s2 _ _ _ _. apply wp_ret. exact I. }
  intros t r s3 HI3 Hl3 Hc3 _ Hs3 Hh3 Hh3'. apply wp_bind. apply wp_pcatch.
  eapply wp_conseq; [apply (f_stmt n (finishes n) false s3); auto; unfold fu; lia| |].
  - intros a s4 [HI4 Hl4]. apply wp_bind. eapply W_flush; [eassumption|]. intros x s5 HI5 Hl5. apply wp_ret.
    splits; auto; lia.
  - intros s4 (HI4 & Hl4 & Hlt4) e. specialize (Hlt4 ltac:(congruence)). apply wp_bind.
    eapply W_push_err; [eassumption|]. intros s5 HI5 Hl5 _ _. apply wp_bind. eapply W_ff; [eassumption|].
    intros s6 HI6 Hl6 _ _. apply wp_ret. splits; [apply Inv_Inv'; auto|lia|lia].
Qed.
End Whole.
