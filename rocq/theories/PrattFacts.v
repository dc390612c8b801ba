(** How [expression] of Parser.v (expressions.rs:18-103) groups the chains of
    SpecExpr.v. *)

From Verif Require Import Base Token Node DocBlock Parser TokenFacts ParserBase SpecCalm SpecExpr.

(** * Running the parser forwards *)

(** the tokens without comments and line breaks *)
Definition shown (toks : list Token) : list Token := filter significant toks.

Ltac splits := repeat match goal with |- _ /\ _ => split end.

Definition upd (s : pst) (docs toks : list Token) (ep : NodeRange) : pst :=
  mkPst docs toks (p_errs s) (p_ctx s) (p_eof s) ep.

(** With enough fuel [m] reads exactly the tokens [w] in front of [rest],
    whatever comments and line breaks are in between, answers [a] and reports
    nothing.  Doc comments are only collected where there are comments. *)
Definition uncommented (toks : list Token) : Prop := Forall (fun t => t_type t <> TMultilineComment) toks.
Definition leaves {A} (m : P A) (s : pst) (a : A) (rest : list Token) : Prop :=
  exists docs toks ep, m s = POk a (upd s docs toks ep) /\ shown toks = rest /\ Forall measured toks
    /\ (uncommented (p_toks s) -> docs = p_docs s /\ uncommented toks).
Definition parses {A} (m : nat -> P A) (w : list Token) (a : A) (rest : list Token) : Prop :=
  exists k, forall n s, (k <= n)%nat -> shown (p_toks s) = w ++ rest -> Forall measured (p_toks s) ->
  leaves (m n) s a rest.

Lemma leaves_bind : forall A B (m : P A) (f : A -> P B) s a b mid rest,
  leaves m s a mid ->
  (forall s', shown (p_toks s') = mid -> Forall measured (p_toks s') -> leaves (f a) s' b rest) ->
  leaves (bind m f) s b rest.
Proof.
  intros A B m f s a b mid rest (docs & toks & ep & E & Ht & Hm & Hd) H.
  destruct (H (upd s docs toks ep) Ht Hm) as (docs' & toks' & ep' & E' & Ht' & Hm' & Hd').
  exists docs', toks', ep'. unfold bind. rewrite E, E'. splits; auto.
  intros Hu. destruct (Hd Hu) as [-> Hu']. exact (Hd' Hu').
Qed.

Lemma parses_bind : forall A B (m : nat -> P A) (f : nat -> A -> P B) w1 w2 a b rest,
  parses m w1 a (w2 ++ rest) -> parses (fun n => f n a) w2 b rest ->
  parses (fun n => bind (m n) (f n)) (w1 ++ w2) b rest.
Proof.
  intros A B m f w1 w2 a b rest [k1 H1] [k2 H2]. exists (Nat.max k1 k2). intros n s Hn Ht Hm.
  eapply leaves_bind; [apply (H1 n s); [lia|now rewrite Ht, app_assoc|exact Hm]|].
  intros s' Ht' Hm'. apply H2; [lia|exact Ht'|exact Hm'].
Qed.

(** nothing is read by the first part / by the second part *)
Lemma parses_bind0 : forall A B (m : nat -> P A) (f : nat -> A -> P B) w a b rest,
  parses m [] a (w ++ rest) -> parses (fun n => f n a) w b rest ->
  parses (fun n => bind (m n) (f n)) w b rest.
Proof. intros. apply (parses_bind _ _ m f [] w a b rest); assumption. Qed.
Lemma parses_bind1 : forall A B (m : nat -> P A) (f : nat -> A -> P B) w a b rest,
  parses m w a rest -> parses (fun n => f n a) [] b rest ->
  parses (fun n => bind (m n) (f n)) w b rest.
Proof. intros. rewrite <- (app_nil_r w). apply (parses_bind _ _ m f w [] a b rest); assumption. Qed.
Lemma parses_bindt : forall A B (m : nat -> P A) (f : nat -> A -> P B) t w a b rest,
  parses m [t] a (w ++ rest) -> parses (fun n => f n a) w b rest ->
  parses (fun n => bind (m n) (f n)) (t :: w) b rest.
Proof. intros. apply (parses_bind _ _ m f [t] w a b rest); assumption. Qed.

Lemma upd_id : forall s, upd s (p_docs s) (p_toks s) (p_eprev s) = s.
Proof. intros []. reflexivity. Qed.

Lemma parses_ret : forall A (a : A) rest, parses (fun _ => ret a) [] a rest.
Proof.
  intros A a rest. exists 0%nat. intros n s _ Ht Hm. exists (p_docs s), (p_toks s), (p_eprev s).
  rewrite upd_id. auto.
Qed.

Lemma peek_shown : forall toks docs t r, shown toks = t :: r -> plain t = true -> Forall measured toks ->
  exists docs' toks', peek_go toks docs = (Some t, toks', docs') /\ shown toks' = t :: r /\ Forall measured toks'
    /\ (uncommented toks -> docs' = docs /\ uncommented toks').
Proof.
  induction toks as [|u toks IH]; intros docs t r Ht Hp Hm; [discriminate Ht|].
  unfold shown in Ht, IH |- *. cbn [filter peek_go] in *. unfold significant at 1 in Ht.
  pose proof (Forall_inv_tail Hm) as Hm'. unfold plain in Hp.
  destruct (t_type u) eqn:Eu;
    try (destruct (IH docs t r Ht Hp Hm') as (d' & t' & E1 & E2 & E3 & E4); exists d', t'; splits; auto;
         intros Hu; apply E4; exact (Forall_inv_tail Hu));
    try (exists docs, (u :: toks); splits;
         [congruence|cbn [filter]; unfold significant at 1; rewrite Eu; exact Ht|exact Hm|auto]).
  2: { destruct (IH (u :: docs) t r Ht Hp Hm') as (d' & t' & E1 & E2 & E3 & E4); exists d', t'; splits; auto.
       intros Hu. pose proof (Forall_inv Hu) as Hx. contradiction. }
  injection Ht as -> _. rewrite Eu in Hp. discriminate Hp.
Qed.

Lemma parses_peek : forall t r, plain t = true -> parses (fun _ => peek) [] (Some t) (t :: r).
Proof.
  intros t r Hp. exists 0%nat. intros n s _ Ht Hm.
  destruct (peek_shown _ (p_docs s) t r Ht Hp Hm) as (docs & toks & E & Ht' & Hm' & Hd).
  exists docs, toks, (p_eprev s). unfold peek. rewrite E. auto.
Qed.

Lemma next_shown : forall toks docs ep t r, shown toks = t :: r -> plain t = true -> Forall measured toks ->
  exists docs' toks' ep', next_go toks docs ep = Some (Some t, toks', docs', ep') /\ shown toks' = r /\ Forall measured toks'
    /\ (uncommented toks -> docs' = docs /\ uncommented toks').
Proof.
  induction toks as [|u toks IH]; intros docs ep t r Ht Hp Hm; [discriminate Ht|].
  unfold shown in Ht, IH |- *. cbn [filter next_go] in *. unfold significant at 1 in Ht.
  pose proof (Forall_inv_tail Hm) as Hm'. destruct (Forall_inv Hm) as [[c l] He].
  unfold token_range. rewrite He. unfold plain in Hp.
  destruct (t_type u) eqn:Eu;
    try (destruct (IH docs (mkRange (t_col u) (t_line u) c l) t r Ht Hp Hm') as (d' & t' & e' & E1 & E2 & E3 & E4);
         exists d', t', e'; splits; auto; intros Hu; apply E4; exact (Forall_inv_tail Hu));
    try (eexists docs, toks, _; injection Ht as <- <-; splits; auto; intros Hu; split; [auto|exact (Forall_inv_tail Hu)]).
  destruct (IH (u :: docs) (mkRange (t_col u) (t_line u) c l) t r Ht Hp Hm') as (d' & t' & e' & E1 & E2 & E3 & E4).
  exists d', t', e'. splits; auto. intros Hu. pose proof (Forall_inv Hu) as Hx. contradiction.
Qed.

Lemma parses_next : forall t r, plain t = true -> measured t -> parses (fun _ => next) [t] (Some t) r.
Proof.
  intros t r Hp _. exists 0%nat. intros n s _ Ht Hm.
  destruct (next_shown _ (p_docs s) (p_eprev s) t r Ht Hp Hm) as (docs & toks & ep & E & Ht' & Hm' & Hd).
  exists docs, toks, ep. unfold next. rewrite E. auto.
Qed.
Lemma parses_next_unwrap : forall t r, plain t = true -> measured t -> parses (fun _ => next_unwrap) [t] t r.
Proof.
  intros t r Hp Hm. unfold next_unwrap. eapply parses_bind1; [apply parses_next; assumption|].
  cbn beta iota. apply parses_ret.
Qed.

Lemma parses_one_of : forall types t r, plain t = true ->
  parses (fun _ => next_token_one_of types) [] (one_of types t) (t :: r).
Proof.
  intros types t r Hp. unfold next_token_one_of.
  eapply parses_bind0; [apply parses_peek; assumption|]. apply parses_ret.
Qed.
Lemma parses_ignore : forall ty t r, plain t = true -> tt_eqb (t_type t) ty = false ->
  parses (fun _ => consume_or_ignore ty) [] None (t :: r).
Proof.
  intros ty t r Hp Ht. unfold consume_or_ignore.
  eapply parses_bind0; [apply parses_peek; assumption|]. cbn beta iota. rewrite Ht. apply parses_ret.
Qed.
Lemma parses_one_of_ignore : forall tys t r, plain t = true -> one_of tys t = false ->
  parses (fun _ => consume_one_of_or_ignore tys) [] None (t :: r).
Proof.
  intros tys t r Hp Ht. unfold consume_one_of_or_ignore.
  eapply parses_bind0; [apply parses_peek; assumption|]. cbn beta iota. rewrite Ht. apply parses_ret.
Qed.
Lemma parses_consume : forall ty t r, plain t = true -> measured t -> tt_eqb (t_type t) ty = true ->
  parses (fun _ => consume ty) [t] t r.
Proof.
  intros ty t r Hp Hm Ht. unfold consume.
  eapply parses_bind0; [apply (parses_peek t r); assumption|]. cbn beta iota. rewrite Ht.
  apply parses_next_unwrap; assumption.
Qed.
Lemma parses_ff_after : forall ty l t r, plain t = true -> measured t -> tt_eqb (t_type t) ty = true ->
  parses (fun _ => consume_or_ff_after ty l) [t] tt r.
Proof.
  intros ty l t r Hp Hm Ht. unfold consume_or_ff_after.
  eapply parses_bind0; [apply (parses_peek t r); assumption|]. cbn beta iota. rewrite Ht.
  eapply parses_bind1; [apply parses_next; assumption|]. apply parses_ret.
Qed.

(** a round of a loop that goes on, and one that ends it *)
Definition loop_parses {A B} (body : nat -> A -> P (A + B)) (a : A) (w : list Token) (b : B)
  (rest : list Token) : Prop :=
  exists k, forall n m s, (k <= n)%nat -> (k <= m)%nat ->
  shown (p_toks s) = w ++ rest -> Forall measured (p_toks s) -> leaves (ploop m (body n) a) s b rest.

Lemma loop_done : forall A B (body : nat -> A -> P (A + B)) a b w rest,
  parses (fun n => body n a) w (inr b) rest -> loop_parses body a w b rest.
Proof.
  intros A B body a b w rest [k H]. exists (S k). intros n m s Hn Hm Ht Hf.
  destruct m as [|m]; [lia|]. cbn [ploop]. eapply leaves_bind; [apply (H n s); [lia|exact Ht|exact Hf]|].
  intros s' Ht' Hf'. cbn beta iota. exists (p_docs s'), (p_toks s'), (p_eprev s'). rewrite upd_id. auto.
Qed.
Lemma loop_more : forall A B (body : nat -> A -> P (A + B)) a a' b w w' rest,
  parses (fun n => body n a) w (inl a') (w' ++ rest) -> loop_parses body a' w' b rest ->
  loop_parses body a (w ++ w') b rest.
Proof.
  intros A B body a a' b w w' rest [k H] [k' H']. exists (S (Nat.max k k')). intros n m s Hn Hm Ht Hf.
  destruct m as [|m]; [lia|]. cbn [ploop].
  eapply leaves_bind; [apply (H n s); [lia|now rewrite Ht, app_assoc|exact Hf]|].
  intros s' Ht' Hf'. cbn beta iota. apply H'; [lia|lia|exact Ht'|exact Hf'].
Qed.
Lemma parses_loop : forall A B (body : nat -> A -> P (A + B)) a b w rest,
  loop_parses body a w b rest -> parses (fun n => ploop n (body n) a) w b rest.
Proof. intros A B body a b w rest [k H]. exists k. intros n s Hn Ht Hf. apply (H n n s); auto. Qed.

Section Pratt.
Context `{RT : Runtime}.

(** one level of the parser *)
Lemma parses_expr : forall bp w a rest,
  parses (fun n => expression_body (run n) n bp) w a rest -> parses (fun n => r_expr (run n) bp) w a rest.
Proof.
  intros bp w a rest [k H]. exists (S k). intros n s Hn Ht Hf. destruct n as [|n]; [lia|].
  change (r_expr (run (S n)) bp) with (expression_body (run n) n bp). apply H; [lia|exact Ht|exact Hf].
Qed.
Lemma parses_call : forall w a rest,
  parses (fun n => call (run n) n) w a rest -> parses (fun n => r_call (run n)) w a rest.
Proof.
  intros w a rest [k H]. exists (S k). intros n s Hn Ht Hf. destruct n as [|n]; [lia|].
  change (r_call (run (S n))) with (call (run n) n). apply H; [lia|exact Ht|exact Hf].
Qed.

(** * Operands *)

(** a token that goes on with neither a call nor anything hidden *)
Definition halts (t : Token) : Prop :=
  plain t = true /\
  one_of [TOpenParenthesis; TObjectOperator; TNullsafeObjectOperator; TPaamayimNekudayim;
          TOpenBrackets; TOpenCurly] t = false.
(** a token that ends every expression *)
Definition closes (t : Token) : Prop :=
  halts t /\ infix_binding_power (t_type t) = None /\ prefix_binding_power (t_type t) = None.

Ltac by_type t := destruct (t_type t); try discriminate; try reflexivity.

Lemma closes_end : forall t, ends_expression t -> closes t.
Proof.
  intros t H. unfold closes, halts, plain, one_of. unfold ends_expression in H. cbn [In] in H.
  repeat (destruct H as [H|H]; [rewrite <- H; repeat split; reflexivity|]). destruct H.
Qed.
Lemma halts_op : forall t, infix_operator t -> halts t.
Proof.
  intros t (r & a & H). unfold halts, plain, one_of, php_row in *.
  destruct (t_type t); try discriminate H; split; reflexivity.
Qed.

Lemma parses_init_call : forall e t r, halts t -> parses (fun n => init_call (run n) n e) [] e (t :: r).
Proof.
  intros e t r [Hp Ht]. unfold init_call.
  apply (parses_loop _ _ (fun n expr => _)). apply loop_done.
  unfold one_of in Ht. cbn [existsb] in Ht. repeat rewrite orb_false_iff in Ht.
  destruct Ht as (H1 & H2 & H3 & H4 & H5 & H6 & _).
  assert (sym : forall a b, tt_eqb a b = tt_eqb b a) by (intros; unfold tt_eqb; apply N.eqb_sym).
  eapply parses_bind0; [apply (parses_one_of _ t r Hp)|]. cbn [one_of existsb]. unfold one_of. cbn [existsb].
  rewrite H1. cbn [orb].
  eapply parses_bind0; [apply (parses_one_of_ignore _ t r Hp); unfold one_of; cbn [existsb]; now rewrite H2, H3|].
  cbn beta iota.
  do 3 (eapply parses_bind0; [apply (parses_ignore _ t r Hp); rewrite sym; assumption|]; cbn beta iota).
  apply parses_ret.
Qed.

Lemma parses_variable : forall t r, t_type t = TVariable -> t_label t <> None -> measured t ->
  parses (fun n => variable (run n) n) [t] (NVariable t) r.
Proof.
  intros t r Ht Hl Hm. unfold variable.
  eapply parses_bind1; [apply parses_consume; [unfold plain; now rewrite Ht|exact Hm|rewrite Ht; reflexivity]|].
  cbn beta. destruct (t_label t); [|contradiction]. apply parses_ret.
Qed.

Lemma one_of_type : forall types t ty, t_type t = ty -> one_of types t = existsb (fun x => tt_eqb x ty) types.
Proof. intros types t ty <-. reflexivity. Qed.

(** the operands of a chain with parenthesised chains parsed by [E] *)
Lemma parses_operand : forall o n r t,
  written_operand o -> halts t ->
  (forall a c b, o = Paren a c b -> exists g, n = NGrouping g /\
     parses (fun n => r_expr (run n) 0) (chain_tokens c) g (b :: t :: r)) ->
  (forall u, o = Lit u -> n = NLiteral u) -> (forall u, o = Var u -> n = NVariable u) ->
  parses (fun n => r_call (run n)) (operand_tokens o) n (t :: r).
Proof.
  intros o n r t Hw Ht Hparen Hlit Hvar. apply parses_call. unfold call.
  eapply parses_bind1; [|apply parses_init_call; exact Ht]. unfold primary.
  destruct o as [u|u|a c b]; cbn [operand_tokens written_operand] in *.
  - destruct Hw as [Hl Hm].
    assert (Hp : plain u = true) by (unfold plain, literal in *; by_type u).
    assert (Ho : one_of literal_types u = true) by (unfold one_of, literal in *; by_type u).
    eapply parses_bind0; [apply (parses_one_of literal_types u (t :: r) Hp)|]. rewrite Ho.
    eapply parses_bind1; [apply parses_next_unwrap; assumption|]. cbn beta.
    rewrite (Hlit u eq_refl). apply parses_ret.
  - destruct Hw as (Hu & Hl & Hm).
    assert (Hp : plain u = true) by (unfold plain; now rewrite Hu).
    eapply parses_bind0; [apply (parses_one_of literal_types u (t :: r) Hp)|].
    rewrite (one_of_type _ _ _ Hu). cbn beta iota.
    change (existsb (fun x => tt_eqb x TVariable) literal_types) with false. cbn iota.
    eapply parses_bind0; [apply (parses_one_of [TVariable] u (t :: r) Hp)|].
    rewrite (one_of_type _ _ _ Hu). change (existsb (fun x => tt_eqb x TVariable) [TVariable]) with true. cbn iota.
    rewrite (Hvar u eq_refl). now apply parses_variable.
  - destruct Hw as (Ha & Hb & Hma & Hmb & Hc).
    destruct (Hparen a c b eq_refl) as (g & -> & Hg).
    assert (Hpa : plain a = true) by (unfold plain; now rewrite Ha).
    assert (Hpb : plain b = true) by (unfold plain; now rewrite Hb).
    assert (skip : forall B types (f : nat -> bool -> P B) x,
      existsb (fun x => tt_eqb x TOpenParenthesis) types = false ->
      parses (fun n => f n false) (a :: chain_tokens c ++ [b]) x (t :: r) ->
      parses (fun n => bind (next_token_one_of types) (f n)) (a :: chain_tokens c ++ [b]) x (t :: r)).
    { intros B types f x He Hf. eapply parses_bind0; [apply (parses_one_of types a _ Hpa)|].
      now rewrite (one_of_type _ _ _ Ha), He. }
    assert (skipi : forall B ty (f : nat -> option Token -> P B) x,
      tt_eqb TOpenParenthesis ty = false ->
      parses (fun n => f n None) (a :: chain_tokens c ++ [b]) x (t :: r) ->
      parses (fun n => bind (consume_or_ignore ty) (f n)) (a :: chain_tokens c ++ [b]) x (t :: r)).
    { intros B ty f x He Hf. eapply parses_bind0; [|exact Hf].
      apply (parses_ignore ty a _ Hpa). now rewrite Ha. }
    do 4 (apply (skip _ _ (fun n b => _)); [reflexivity|]; cbn beta iota).
    do 3 (apply (skipi _ _ (fun n b => _)); [reflexivity|]; cbn beta iota).
    do 2 (apply (skip _ _ (fun n b => _)); [reflexivity|]; cbn beta iota).
    eapply parses_bind0; [apply (parses_one_of_ignore _ a _ Hpa); now rewrite (one_of_type _ _ _ Ha)|]. cbn beta iota.
    apply (skip _ _ (fun n b => _)); [reflexivity|]; cbn beta iota.
    eapply parses_bind0; [apply (parses_one_of _ a _ Hpa)|].
    rewrite (one_of_type _ _ _ Ha).
    change (existsb (fun x => tt_eqb x TOpenParenthesis) [TOpenParenthesis]) with true. cbn iota.
    eapply parses_bindt; [apply parses_ff_after; [exact Hpa|exact Hma|rewrite Ha; reflexivity]|]. cbn beta.
    eapply parses_bind; [exact Hg|]. cbn beta.
    eapply parses_bind1; [apply parses_ff_after; [exact Hpb|exact Hmb|rewrite Hb; reflexivity]|]. cbn beta.
    apply parses_ret.
Qed.

(** * Binding powers *)

Definition lb (t : Token) : N := match infix_binding_power (t_type t) with Some (l, _) => l | None => 0 end.
Definition rb (t : Token) : N := match infix_binding_power (t_type t) with Some (_, r) => r | None => 0 end.

(** Which operators the parser takes to its left and to its right. *)
Definition codeL (p op : Token) : Prop := lb op < rb p.
Definition codeR (op p : Token) : Prop := rb op <= lb p.

Lemma infix_power : forall t, infix_operator t -> infix_binding_power (t_type t) = Some (lb t, rb t).
Proof.
  intros t (r & a & H). unfold lb, rb, php_row in *. destruct (t_type t); try discriminate H; reflexivity.
Qed.

(** levels of the parser: twice [k] and its neighbour *)
Definition groups_left (k : N) : bool := existsb (N.eqb k) [95; 60; 55; 42; 35].
Lemma power_shape : forall t, infix_operator t -> exists k,
  (groups_left k = true /\ lb t = 2 * k /\ rb t = 2 * k + 1) \/
  (groups_left k = false /\ lb t = 2 * k + 1 /\ rb t = 2 * k).
Proof.
  intros t (r & a & H). unfold lb, rb, php_row in *.
  destruct (t_type t); try discriminate H; cbn [infix_binding_power];
  match goal with |- exists k, _ \/ (_ /\ ?x = _ /\ _) => 
    let k := eval vm_compute in (x / 2) in exists k end; 
  solve [left; repeat split; reflexivity | right; repeat split; reflexivity].
Qed.

(** an operator that goes into neither the right side of [q] nor ... *)
Lemma code_trans : forall p q op, infix_operator p -> infix_operator q -> infix_operator op ->
  codeR q p -> codeL q op -> codeL p op.
Proof.
  intros p q op Hp Hq Ho. unfold codeR, codeL.
  destruct (power_shape p Hp) as [i [(A & B & C)|(A & B & C)]];
  destruct (power_shape q Hq) as [j [(D & E & F)|(D & E & F)]];
  destruct (power_shape op Ho) as [l [(G & H & I)|(G & H & I)]];
  rewrite ?B, ?C, ?E, ?F, ?H, ?I; intros; try lia;
  destruct (N.eq_dec i j); subst; try congruence; lia.
Qed.
Lemma codeL_trans : forall p q op, infix_operator p -> infix_operator q -> infix_operator op ->
  codeL p q -> codeL q op -> codeL p op.
Proof.
  intros p q op Hp Hq Ho. unfold codeR, codeL.
  destruct (power_shape p Hp) as [i [(A & B & C)|(A & B & C)]];
  destruct (power_shape q Hq) as [j [(D & E & F)|(D & E & F)]];
  destruct (power_shape op Ho) as [l [(G & H & I)|(G & H & I)]];
  rewrite ?B, ?C, ?E, ?F, ?H, ?I; intros; try lia.
Qed.

Lemma lower_than_op : forall t op, infix_operator t -> infix_operator op -> lb t < lb op -> lb t < rb op.
Proof.
  intros t op Ht Ho.
  destruct (power_shape t Ht) as [i [(A & B & C)|(A & B & C)]];
  destruct (power_shape op Ho) as [j [(D & E & F)|(D & E & F)]];
  rewrite ?B, ?C, ?E, ?F; intros; try lia.
  destruct (N.eq_dec i j); subst; try congruence; lia.
Qed.

(** * Splitting a chain where a weaker operator comes *)

Fixpoint split (bp : N) (c : chain) : chain * option (Token * chain) :=
  match c with
  | One o => (One o, None)
  | More o op d =>
      if lb op <? bp then (One o, Some (op, d))
      else let (d1, r) := split bp d in (More o op d1, r)
  end.

Lemma split_spec : forall bp c,
  Forall (fun p => bp <= lb p) (ops (fst (split bp c))) /\
  match snd (split bp c) with
  | None => fst (split bp c) = c
  | Some (op, d) => lb op < bp /\ c = join (fst (split bp c)) op d
  end.
Proof.
  intros bp c. induction c as [o|o op d IH]; cbn [split].
  - split; [constructor|reflexivity].
  - destruct (N.ltb_spec (lb op) bp) as [H|H]; cbn [fst snd ops].
    + split; [constructor|]. split; [exact H|reflexivity].
    + destruct (split bp d) as [d1 r]. cbn [fst snd ops] in *. destruct IH as [IH1 IH2]. split.
      * constructor; assumption.
      * destruct r as [[op' d']|]; cbn [join]; [destruct IH2; split; congruence|congruence].
Qed.

Lemma join_tokens : forall c op d, chain_tokens (join c op d) = chain_tokens c ++ op :: chain_tokens d.
Proof.
  induction c as [o|o p c IH]; intros op d; cbn [join chain_tokens]; [reflexivity|].
  rewrite IH, <- app_assoc. reflexivity.
Qed.
Lemma join_ops : forall c op d, ops (join c op d) = ops c ++ op :: ops d.
Proof.
  induction c as [o|o p c IH]; intros op d; cbn [join ops]; [reflexivity|]. now rewrite IH.
Qed.
Lemma join_assoc : forall a p b q c, join (join a p b) q c = join a p (join b q c).
Proof.
  induction a as [o|o p' a IH]; intros p b q c; cbn [join]; [reflexivity|]. now rewrite IH.
Qed.
Lemma join_written : forall c op d, written (join c op d) <->
  written c /\ infix_operator op /\ measured op /\ written d.
Proof.
  induction c as [o|o p c IH]; intros op d; cbn [join written]; [tauto|]. rewrite IH. tauto.
Qed.
Lemma written_ops : forall c, written c -> Forall infix_operator (ops c).
Proof.
  induction c as [o|o p c IH]; intros H; cbn [ops]; [constructor|]. cbn [written] in H. constructor; tauto.
Qed.
Definition size (c : chain) : nat := List.length (chain_tokens c).

(** * The loop over the operators *)

Definition loop_body (bp : N) (n : nat) (lhs : Node) : P (Node + Node) :=
    b <- next_is_operator ;;
    if negb b then break lhs
    else
      op <- peek ;;
      match op with
      | None => panic
      | Some op =>
          match postfix_binding_power (t_type op) with
          | Some lb =>
              if lb <? bp then break lhs
              else (token <- next_unwrap ;; continue (NPostUnary lhs token))
          | None =>
              match infix_binding_power (t_type op) with
              | Some (lb, rb) =>
                  if lb <? bp then break lhs
                  else
                    op <- next_unwrap ;;
                    if tt_eqb (t_type op) TQuestionMark then
                      colon <- consume_or_ignore TColon ;;
                      match colon with
                      | Some colon =>
                          rhs <- r_expr (run n) rb ;;
                          continue (NTernary lhs op None colon rhs)
                      | None =>
                          mhs <- r_expr (run n) 0 ;;
                          colon <- consume TColon ;;
                          rhs <- r_expr (run n) rb ;;
                          continue (NTernary lhs op (Some mhs) colon rhs)
                      end
                    else
                      rhs <- r_expr (run n) rb ;;
                      continue (NBinary lhs op rhs)
              | None => break lhs
              end
          end
      end.
Lemma operator_loop_eq : forall n bp lhs,
  operator_loop (run n) n bp lhs = ploop n (loop_body bp n) lhs.
Proof. reflexivity. Qed.

Lemma parses_operator_loop : forall bp lhs w n rest,
  loop_parses (loop_body bp) lhs w n rest -> parses (fun n => operator_loop (run n) n bp lhs) w n rest.
Proof. intros bp lhs w n rest H. apply (parses_loop _ _ (loop_body bp)). exact H. Qed.

Lemma parses_is_operator : forall t r, plain t = true ->
  parses (fun _ => next_is_operator) []
    (is_some (infix_binding_power (t_type t)) || is_some (prefix_binding_power (t_type t))) (t :: r).
Proof.
  intros t r Hp. unfold next_is_operator.
  eapply parses_bind0; [apply parses_peek; assumption|]. apply parses_ret.
Qed.

(** where the loop stops *)
Definition stops (bp : N) (t : Token) : Prop := closes t \/ (infix_operator t /\ lb t < bp).

Lemma infix_not_postfix : forall t, infix_operator t -> postfix_binding_power (t_type t) = None.
Proof. intros t (r & a & H). unfold php_row in H. destruct (t_type t); try discriminate H; reflexivity. Qed.
Lemma infix_not_question : forall t, infix_operator t -> tt_eqb (t_type t) TQuestionMark = false.
Proof. intros t (r & a & H). unfold php_row in H. destruct (t_type t); try discriminate H; reflexivity. Qed.

Lemma round_stops : forall bp t r lhs, stops bp t ->
  parses (fun n => loop_body bp n lhs) [] (inr lhs) (t :: r).
Proof.
  intros bp t r lhs [((Hp & _) & Hi & Hx)|[Hi Hl]]; unfold loop_body.
  - eapply parses_bind0; [apply parses_is_operator; exact Hp|]. rewrite Hi, Hx. cbn [is_some orb negb].
    apply parses_ret.
  - assert (Hp : plain t = true) by (apply halts_op in Hi; apply Hi).
    eapply parses_bind0; [apply parses_is_operator; exact Hp|].
    rewrite (infix_power t Hi). cbn [is_some orb negb].
    eapply parses_bind0; [apply parses_peek; exact Hp|]. cbn beta iota.
    rewrite (infix_not_postfix t Hi), (infix_power t Hi).
    destruct (N.ltb_spec (lb t) bp); [|lia]. apply parses_ret.
Qed.

Lemma round_operator : forall bp op w rhs r lhs, infix_operator op -> measured op -> bp <= lb op ->
  parses (fun n => r_expr (run n) (rb op)) w rhs r ->
  parses (fun n => loop_body bp n lhs) (op :: w) (inl (NBinary lhs op rhs)) r.
Proof.
  intros bp op w rhs r lhs Hi Hm Hl H. unfold loop_body.
  assert (Hp : plain op = true) by (apply halts_op in Hi; apply Hi).
  eapply parses_bind0; [apply (parses_is_operator op (w ++ r)); exact Hp|].
  rewrite (infix_power op Hi). cbn [is_some orb negb].
  eapply parses_bind0; [apply (parses_peek op (w ++ r)); exact Hp|]. cbn beta iota.
  rewrite (infix_not_postfix op Hi), (infix_power op Hi).
  destruct (N.ltb_spec (lb op) bp); [lia|].
  eapply parses_bindt; [apply parses_next_unwrap; assumption|]. cbn beta.
  rewrite (infix_not_question op Hi).
  eapply parses_bind1; [exact H|]. apply parses_ret.
Qed.

(** what is said about a chain *)
Definition chain_parses (c : chain) : Prop :=
  written c -> exists n, Groups codeL codeR c n /\
  forall bp t r, stops bp t -> halts t -> Forall (fun p => bp <= lb p) (ops c) ->
  parses (fun n => r_expr (run n) bp) (chain_tokens c) n (t :: r).

Lemma stops_closes_any : forall bp t op, stops bp t -> infix_operator op -> bp <= lb op -> stops (rb op) t.
Proof.
  intros bp t op [H|[Hi Hl]] Ho Hb; [left; exact H|right]. split; [exact Hi|].
  apply lower_than_op; auto. lia.
Qed.

Lemma loop_chain : forall k, (forall c, (size c < k)%nat -> chain_parses c) ->
  forall m d, (size d < k)%nat -> (size d <= m)%nat ->
  forall p op lhs, infix_operator op -> measured op -> written d ->
  Groups codeL codeR p lhs -> Forall infix_operator (ops p) ->
  Forall (fun x => codeL x op) (ops p) ->
  exists n, Groups codeL codeR (join p op d) n /\
  forall bp t r, stops bp t -> halts t -> Forall (fun p => bp <= lb p) (op :: ops d) ->
  loop_parses (loop_body bp) lhs (op :: chain_tokens d) n (t :: r).
Proof.
  intros k Hk. induction m as [|m IH]; intros d Hd Hm p op lhs Ho Hmo Hw Hp Hpo HL.
  { exfalso. unfold size in Hm. destruct d as [[u|u|a c b]|[u|u|a c b] op' d]; cbn in Hm; lia. }
  destruct (split_spec (rb op) d) as [S1 S2].
  destruct (split (rb op) d) as [d1 [[op' d']|]] eqn:Es; cbn [fst snd] in S1, S2.
  - destruct S2 as [Hlt Heq].
    assert (Hw' := Hw). rewrite Heq in Hw'. apply join_written in Hw' as (W1 & W2 & W3 & W4).
    assert (Hsz : size d = (size d1 + S (size d'))%nat)
      by (unfold size; rewrite Heq, join_tokens, app_length; reflexivity).
    destruct (Hk d1) as (r1 & G1 & P1); [lia|exact W1|].
    destruct (IH d') with (p := join p op d1) (op := op') (lhs := NBinary lhs op r1) as (n & Gn & Pn); auto; try lia.
    + apply G_join; auto.
    + rewrite join_ops. apply Forall_app. split; [exact Hpo|]. constructor; [exact Ho|now apply written_ops].
    + rewrite join_ops. apply Forall_app. split.
      * rewrite Forall_forall in HL, Hpo |- *. intros x Hx. eapply codeL_trans; [apply Hpo; exact Hx|exact Ho|exact W2|auto|exact Hlt].
      * constructor; [exact Hlt|]. pose proof (written_ops d1 W1) as F. rewrite Forall_forall in F, S1 |- *.
        intros x Hx. eapply code_trans; [apply F; exact Hx|exact Ho|exact W2|apply S1; exact Hx|exact Hlt].
    + exists n. split; [rewrite Heq, <- join_assoc; exact Gn|].
      intros bp t r Hs Ht HF. inversion HF as [|? ? F1 F2]; subst.
      rewrite join_tokens. rewrite join_ops in F2. apply Forall_app in F2 as [F2 F3].
      change (op :: chain_tokens d1 ++ op' :: chain_tokens d')
        with ((op :: chain_tokens d1) ++ (op' :: chain_tokens d')).
      eapply loop_more; [|apply Pn; auto]. apply round_operator; auto.
      apply P1; [right; split; [exact W2|exact Hlt]|now apply halts_op|exact S1].
  - subst d1. destruct (Hk d) as (r1 & G1 & P1); [lia|exact Hw|].
    exists (NBinary lhs op r1). split; [apply G_join; auto|].
    intros bp t r Hs Ht HF. inversion HF as [|? ? F1 F2]; subst.
    rewrite <- (app_nil_r (op :: chain_tokens d)).
    eapply loop_more; [|apply loop_done; apply round_stops; exact Hs].
    apply round_operator; auto. cbn [app]. apply P1; auto. eapply stops_closes_any; eauto.
Qed.

Lemma operand_first : forall o, written_operand o -> exists u w,
  operand_tokens o = u :: w /\ plain u = true /\ prefix_binding_power (t_type u) = None.
Proof.
  intros [u|u|a c b] H; cbn [written_operand operand_tokens] in *; eexists _, _; (split; [reflexivity|]).
  - destruct H as [H _]. unfold literal, plain in *. destruct (t_type u); try discriminate H; split; reflexivity.
  - destruct H as [H _]. unfold plain. rewrite H. split; reflexivity.
  - destruct H as [H _]. unfold plain. rewrite H. split; reflexivity.
Qed.

Theorem chain_parsed : forall c, chain_parses c.
Proof.
  intros c. remember (size c) as k eqn:Ek. revert c Ek.
  induction k as [k IHk] using (well_founded_induction lt_wf). intros c ->.
  assert (Hk : forall c', (size c' < size c)%nat -> chain_parses c') by (intros c' H; eapply IHk; eauto).
  intros Hw.
  assert (Hop : forall o, (o = match c with One o => o | More o _ _ => o end) -> exists n,
     GroupsO codeL codeR o n /\ forall t r, halts t -> parses (fun n => r_call (run n)) (operand_tokens o) n (t :: r)).
  { intros o Eo. assert (Hwo : written_operand o) by (destruct c; cbn [written] in Hw; subst o; tauto).
    destruct o as [u|u|a c' b].
    - exists (NLiteral u). split; [constructor|]. intros t r Ht. apply parses_operand; auto; intros; congruence.
    - exists (NVariable u). split; [constructor|]. intros t r Ht. apply parses_operand; auto; intros; congruence.
    - destruct (Hk c') as (n & Gn & Pn).
      { unfold size. destruct c; subst o0 || subst o; cbn [chain_tokens operand_tokens];
        rewrite ?app_length; cbn [List.length]; rewrite ?app_length; cbn [List.length]; lia. }
      { apply Hwo. }
      exists (NGrouping n). split; [constructor; exact Gn|]. intros t r Ht. apply parses_operand; auto; try (intros; congruence).
      intros a0 c0 b0 E. injection E as -> -> ->. exists n. split; [reflexivity|].
      destruct Hwo as (_ & Hb & _). apply Pn.
      + left. unfold closes, halts, plain, one_of. rewrite Hb. repeat split; reflexivity.
      + unfold halts, plain, one_of. rewrite Hb. split; reflexivity.
      + apply Forall_forall. intros. lia. }
  destruct c as [o|o op d]; cbn [written] in Hw.
  - destruct (Hop o eq_refl) as (n & Gn & Pn). exists n. split; [constructor; exact Gn|].
    intros bp t r Hs Ht HF. apply parses_expr. unfold expression_body.
    destruct (operand_first o Hw) as (u & w & Eu & Hu & Hx). cbn [chain_tokens].
    eapply parses_bind0; [rewrite Eu; apply parses_peek; exact Hu|]. cbn beta iota. rewrite Hx.
    eapply parses_bind1; [apply Pn; exact Ht|]. cbn beta. 
    apply parses_operator_loop. apply loop_done, round_stops, Hs.
  - destruct Hw as (Hwo & Ho & Hmo & Hwd).
    destruct (Hop o eq_refl) as (n & Gn & Pn).
    destruct (loop_chain (size (More o op d)) Hk (size d) d) with (p := One o) (op := op) (lhs := n)
      as (n' & Gn' & Pn'); auto.
    + unfold size. cbn [chain_tokens]. rewrite app_length. cbn [List.length]. lia.
    + constructor; exact Gn.
    + constructor.
    + constructor.
    + exists n'. split; [exact Gn'|].
      intros bp t r Hs Ht HF. apply parses_expr. unfold expression_body.
      destruct (operand_first o Hwo) as (u & w & Eu & Hu & Hx). cbn [chain_tokens].
      eapply parses_bind0; [rewrite Eu; apply parses_peek; exact Hu|]. cbn beta iota. rewrite Hx.
      eapply parses_bind; [apply Pn; now apply halts_op|]. cbn beta.
      apply parses_operator_loop. apply Pn'; auto.
Qed.

End Pratt.
